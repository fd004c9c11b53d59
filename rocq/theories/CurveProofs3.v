(** Further proofs: nonsingular, unique over the reals, coorientplane,
    segments, constructor, copies. *)
From Coq Require Import ZArith List Bool Arith Lia Sorted Reals Lra.
From Verif Require Import Num Py Numeric Curve Spec ListFacts SliceProofs ArrayProofs CurveProofs CurveProofs2.
Import ListNotations.

Lemma offset_ravel shape idx : length idx = length shape -> offset shape idx = ravel shape idx.
Proof.
  unfold offset. intros H.
  assert (G : forall acc, fold_left (fun acc p => acc * fst p + snd p) (combine shape idx) acc
              = acc * prod shape + ravel shape idx).
  { revert idx H. induction shape as [|n shape IH]; intros [|i idx] H acc; cbn in H; try discriminate.
    - cbn. lia.
    - cbn [combine fold_left fst snd ravel fold_right]. rewrite IH by lia. lia. }
  apply G.
Qed.

Section Gen3.
  Context {T : Type} {NT : Num T} {ST : NumSqrt T}.
  Implicit Types c : curve T.

  Lemma sq_gap_diff (p q : list T) : vsum (map (fun x => nmul x x) (row_diff p q)) = sq_gap p q.
  Proof.
    revert q. induction p as [|a p IH]; intros [|b q]; try reflexivity.
    cbn [row_diff map vsum fold_right sq_gap]. f_equal. apply IH.
  Qed.

  Lemma chordlen_rows_length (rows : list (list T)) : length (chordlen_rows rows) = length rows - 1.
  Proof.
    unfold chordlen_rows. rewrite map_length.
    induction rows as [|a [|b rows] IH]; try reflexivity.
    change (diff_rows (a :: b :: rows)) with (row_diff a b :: diff_rows (b :: rows)).
    cbn [length] in *. rewrite IH. lia.
  Qed.

  Lemma chordlen_rows_nth (rows : list (list T)) k p q :
    nth_error rows k = Some p -> nth_error rows (S k) = Some q ->
    nth_error (chordlen_rows rows) k = Some (chord p q).
  Proof.
    unfold chordlen_rows, chord. revert k. induction rows as [|a [|b rows] IH]; intros k Hp Hq.
    - destruct k; discriminate.
    - destruct k; discriminate.
    - change (diff_rows (a :: b :: rows)) with (row_diff a b :: diff_rows (b :: rows)).
      destruct k as [|k].
      + cbn in Hp, Hq. injection Hp as <-. injection Hq as <-. cbn [map nth_error].
        rewrite sq_gap_diff. reflexivity.
      + apply (IH k); assumption.
  Qed.

  Lemma nth_error_combine {A B} (l1 : list A) (l2 : list B) k a b :
    nth_error l1 k = Some a -> nth_error l2 k = Some b -> nth_error (combine l1 l2) k = Some (a, b).
  Proof.
    revert l2 k. induction l1 as [|x l1 IH]; intros [|y l2] [|k]; cbn; try discriminate.
    - intros H1 H2. congruence.
    - apply IH.
  Qed.

  Lemma is_singular_mask_length (rows : list (list T)) :
    rows <> [] -> length (is_singular_mask rows) = length rows.
  Proof.
    intros H. unfold is_singular_mask. rewrite map_length, combine_length. cbn [length].
    rewrite chordlen_rows_length. destruct rows; [contradiction|]. cbn. lia.
  Qed.

  Lemma not_finite_exists (r : list T) :
    existsb (fun x => nisnan x || nisinf x) r = false <-> finite_point r.
  Proof.
    rewrite <- not_true_iff_false, existsb_exists. unfold finite_point. split.
    - intros H x Hx. destruct (nisnan x) eqn:E1; [exfalso; apply H; exists x; rewrite E1; auto|].
      destruct (nisinf x) eqn:E2; [exfalso; apply H; exists x; rewrite E2, orb_true_r; auto|]. auto.
    - intros H (x & Hx & E). destruct (H x Hx) as [E1 E2]. rewrite E1, E2 in E. discriminate.
  Qed.

  Lemma is_singular_mask_nth (rows : list (list T)) k r :
    isclose n1 n0 = false -> nth_error rows k = Some r ->
    (nth k (is_singular_mask rows) true = false <->
     finite_point r /\ (k = 0 \/ exists p, nth_error rows (k - 1) = Some p /\ isclose (chord p r) n0 = false)).
  Proof.
    intros H10 Hr. unfold is_singular_mask.
    assert (Hk : k < length rows) by (apply nth_error_Some; congruence).
    destruct k as [|k].
    - rewrite (nth_error_nth _ _ _ (x := existsb (fun x => nisnan x || nisinf x) r || isclose n1 n0)).
      + rewrite H10, orb_false_r, not_finite_exists. intuition.
      + rewrite nth_error_map. rewrite (nth_error_combine _ _ _ r n1); [reflexivity|assumption|reflexivity].
    - destruct (nth_error_ex rows k) as [p Hp]; [lia|].
      rewrite (nth_error_nth _ _ _ (x := existsb (fun x => nisnan x || nisinf x) r || isclose (chord p r) n0)).
      + rewrite orb_false_iff, not_finite_exists. replace (S k - 1) with k by lia. split.
        * intros [H1 H2]. split; [assumption|]. right. eauto.
        * intros [H1 [H2|(p' & H2 & H3)]]; [discriminate|]. split; [assumption|]. congruence.
      + rewrite nth_error_map. rewrite (nth_error_combine _ _ _ r (chord p r)); [reflexivity|assumption|].
        cbn [nth_error]. apply chordlen_rows_nth; assumption.
  Qed.

  Lemma c_nonsingular_spec c :
    isclose (T:=T) n1 n0 = false -> wf c -> c_rows c <> [] ->
    exists c' ks, c_nonsingular c = Ok c' /\ selects c ks c' /\ ascending ks /\ wf c' /\
      forall k, In k ks <-> exists r, nth_error (c_rows c) k = Some r /\ finite_point r /\
        (k = 0 \/ exists p, nth_error (c_rows c) (k - 1) = Some p /\ isclose (chord p r) n0 = false).
  Proof.
    intros H10 Hwf Hne. unfold c_nonsingular.
    assert (Hb : c_bool c = true).
    { unfold c_bool, c_size. destruct Hwf as (Hn & _ & _).
      destruct (c_rows c); [contradiction|]. cbn. destruct (c_ndim c); [lia|reflexivity]. }
    rewrite Hb. cbn [negb].
    destruct (c_drop_mask c (fun rows => DropMask (is_singular_mask rows)) (is_singular_mask (c_rows c)) Hwf eq_refl)
      as (c' & H & S & W).
    { apply is_singular_mask_length. assumption. }
    eexists c', _. split; [exact H|]. split; [exact S|]. split; [apply ascending_sorted, filter_sorted, seq_sorted|].
    split; [assumption|]. intros k. unfold positions. rewrite filter_In, in_seq, negb_true_iff. split.
    - intros [Hk E]. destruct (nth_error_ex (c_rows c) k) as [r Hr]; [unfold c_size in Hk; lia|].
      exists r. split; [assumption|]. apply is_singular_mask_nth; assumption.
    - intros (r & Hr & Hf). split.
      + assert (k < length (c_rows c)) by (apply nth_error_Some; congruence). unfold c_size. lia.
      + eapply is_singular_mask_nth; eassumption.
  Qed.

  (** *** Segments *)

  Lemma curve_segment_ok c k p q :
    nth_error (c_rows c) k = Some p -> nth_error (c_rows c) (S k) = Some q ->
    forall i, (i = Z.of_nat k \/ (i < 0 /\ i = Z.of_nat k - (Z.of_nat (c_size c) - 1)))%Z ->
    curve_segment c i = Ok (Z.of_nat k, p, q).
  Proof.
    intros Hp Hq i Hi.
    assert (S k < c_size c) by (apply nth_error_Some; unfold c_size; congruence).
    unfold curve_segment.
    replace (if (i <? 0)%Z then (Z.of_nat (c_size c) - 1 + i)%Z else i) with (Z.of_nat k)
      by (destruct (Z.ltb_spec i 0); lia).
    destruct (Z.leb_spec (Z.of_nat (c_size c) - 1) (Z.of_nat k)); [lia|].
    rewrite (getitem_int_ok c (Z.of_nat k) k p) by (assumption || (split; [lia|auto])).
    cbn [rbind]. replace (Z.of_nat k + 1)%Z with (Z.of_nat (S k)) by lia.
    rewrite (getitem_int_ok c (Z.of_nat (S k)) (S k) q) by (assumption || (split; [lia|auto])).
    reflexivity.
  Qed.

  Lemma curve_segment_raise c i :
    (Z.of_nat (c_size c) - 1 <= i)%Z -> (0 <= i)%Z -> curve_segment c i = Raise ValueError.
  Proof.
    intros H H0. unfold curve_segment. destruct (Z.ltb_spec i 0); [lia|].
    destruct (Z.leb_spec (Z.of_nat (c_size c) - 1) i); [reflexivity|lia].
  Qed.

  Lemma c_segments_ok c :
    exists l, c_segments c = Ok l /\ length l = c_size c - 1 /\
      forall k p q, nth_error (c_rows c) k = Some p -> nth_error (c_rows c) (S k) = Some q ->
        nth_error l k = Some (Z.of_nat k, p, q).
  Proof.
    unfold c_segments.
    set (g := fun k => (Z.of_nat k, nth k (c_rows c) [], nth (S k) (c_rows c) [])).
    exists (map g (seq 0 (c_size c - 1))). split; [|split].
    - apply rseq_ok_iff. rewrite map_map. apply map_ext_in. intros k Hk. apply in_seq in Hk.
      unfold c_size in Hk. apply (curve_segment_ok c k).
      + apply nth_error_nth'. lia.
      + apply nth_error_nth'. lia.
      + left. reflexivity.
    - rewrite map_length, seq_length. reflexivity.
    - intros k p q Hp Hq.
      assert (S k < c_size c) by (apply nth_error_Some; unfold c_size; congruence).
      rewrite nth_error_map, (nth_error_nth' _ 0) by (rewrite seq_length; lia).
      rewrite seq_nth by lia. cbn [plus option_map]. unfold g.
      rewrite (nth_error_nth _ _ _ Hp), (nth_error_nth _ _ _ Hq). reflexivity.
  Qed.

  (** *** Construction from a rectangular array *)

  Lemma curve_init_rows (rows : list (list T)) n td :
    rows <> [] -> 2 <= n -> (forall r, In r rows -> length r = n) ->
    (forall t, td = Some t -> length t = length rows) ->
    curve_init (SArray (mkNd [length rows; n] (concat rows)) DFloat)
      (option_map (fun t => mkNd [length t] t) td) None None None
    = Ok (mkCurve rows n DFloat td).
  Proof.
    intros Hne Hn Hr Ht. unfold curve_init. change (2 <? 2)%Z with false. cbv iota.
    assert (Hz : length rows * n <> 0) by (destruct rows; [contradiction|]; cbn; lia).
    rewrite as2d_id by assumption. cbn [rbind]. rewrite map_cast_float.
    destruct (Nat.eqb_spec (length rows * n) 0); [contradiction|].
    destruct (Nat.eqb_spec (length rows * n) 0); [contradiction|].
    destruct (Nat.ltb_spec n 2); [lia|]. cbn [negb andb].
    destruct td as [t|]; cbn [option_map]; [|reflexivity].
    unfold nd_ndim, nd_size. cbn [nd_shape length Nat.eqb negb fold_right].
    rewrite Nat.mul_1_r, (Ht t eq_refl), Nat.eqb_refl. reflexivity.
  Qed.

  Lemma curve_init_narrow (rows : list (list T)) td ax nm d :
    rows <> [] -> (forall r, In r rows -> length r = 1) -> (ax = None \/ ax = Some 0%Z) ->
    curve_init (SArray (mkNd [length rows; 1] (concat rows)) DFloat) td ax nm d = Raise ValueError.
  Proof.
    intros Hne Hr Hax. unfold curve_init.
    destruct (match nm with None => 2 | Some k => k end <? 2)%Z; [reflexivity|].
    assert (Hz : length rows * 1 <> 0) by (destruct rows; [contradiction|]; cbn; lia).
    replace (match ax with None => 0%Z | Some k => k end) with 0%Z by (destruct Hax; subst; reflexivity).
    rewrite as2d_id by assumption. cbn [rbind]. rewrite map_length.
    destruct (Nat.eqb_spec (length rows * 1) 0); [contradiction|]. rewrite map_length.
    destruct (Nat.eqb_spec (length rows * 1) 0); [contradiction|]. reflexivity.
  Qed.

  Lemma curve_init_bad_t (rows : list (list T)) n t :
    rows <> [] -> 2 <= n -> (forall r, In r rows -> length r = n) -> length t <> length rows ->
    curve_init (SArray (mkNd [length rows; n] (concat rows)) DFloat)
      (Some (mkNd [length t] t)) None None None = Raise ValueError.
  Proof.
    intros Hne Hn Hr Ht. unfold curve_init. change (2 <? 2)%Z with false. cbv iota.
    assert (Hz : length rows * n <> 0) by (destruct rows; [contradiction|]; cbn; lia).
    rewrite as2d_id by assumption. cbn [rbind]. rewrite map_cast_float.
    destruct (Nat.eqb_spec (length rows * n) 0); [contradiction|].
    destruct (Nat.eqb_spec (length rows * n) 0); [contradiction|].
    destruct (Nat.ltb_spec n 2); [lia|]. cbn [negb andb].
    unfold nd_ndim, nd_size. cbn [nd_shape length Nat.eqb negb fold_right].
    rewrite Nat.mul_1_r. destruct (Nat.eqb_spec (length t) (length rows)); [contradiction|reflexivity].
  Qed.

  Lemma search_agree c p pd :
    c_ndim c = length p ->
    (contains_point c p pd = true <-> exists n, c_count c p pd = Ok n /\ 0 < n) /\
    (contains_point c p pd = true <-> exists i, c_index c p pd None None = Ok i) /\
    (contains_point c p pd = false <-> c_index c p pd None None = Raise ValueError).
  Proof.
    intros E. pose proof (c_index_full c p pd E) as HI.
    destruct (c_count_spec c p pd E) as (ks & Hc & _ & Hk).
    assert (A : contains_point c p pd = true <-> exists k, In k ks).
    { rewrite contains_point_spec. split.
      - intros (_ & r & Hr & Hcl). apply In_nth_error in Hr. destruct Hr as [k Hr].
        exists k. apply Hk. eauto.
      - intros [k Hin]. apply Hk in Hin. destruct Hin as (r & Hr & Hcl). split; [assumption|].
        exists r. split; [eapply nth_error_In; eauto|assumption]. }
    assert (B : contains_point c p pd = true <-> exists i, c_index c p pd None None = Ok i).
    { destruct (c_index c p pd None None) as [i|e].
      - split; [eauto|]. intros _. destruct HI as (k & r & _ & Hr & Hcl & _).
        apply contains_point_spec. split; [assumption|]. exists r.
        split; [eapply nth_error_In; eauto|assumption].
      - split; [|intros [i Hi]; discriminate]. intros H. apply contains_point_spec in H.
        destruct H as (_ & r & Hr & Hcl). destruct HI as [_ HI]. exfalso. eapply HI; eauto. }
    split; [|split; [exact B|]].
    - rewrite A. split.
      + intros [k Hin]. exists (length ks). split; [assumption|]. destruct ks; [destruct Hin|cbn; lia].
      + intros (n & Hn & Hpos). rewrite Hc in Hn. injection Hn as <-.
        destruct ks as [|k ks]; [cbn in Hpos; lia|]. exists k. left. reflexivity.
    - rewrite <- not_true_iff_false, B. destruct (c_index c p pd None None) as [i|e].
      + split; [|discriminate]. intros H. exfalso. apply H. eauto.
      + destruct HI as [-> _]. split; [reflexivity|]. intros _ [i Hi]. discriminate.
  Qed.

  Lemma insertdim_general c axis k vals :
    wf c -> k <= c_ndim c ->
    (axis = Z.of_nat k \/ (axis < 0 /\ axis = Z.of_nat k - Z.of_nat (c_ndim c)))%Z ->
    length vals = c_size c -> c_rows c <> [] ->
    c_insertdim c axis (Some vals)
    = Ok (mkCurve (map (fun '(r, v) => firstn k r ++ cast (c_dtype c) v :: skipn k r) (combine (c_rows c) vals))
            (S (c_ndim c)) (c_dtype c) None).
  Proof.
    intros (Hn & Hr & _) Hk Hax Hl Hne. unfold c_insertdim.
    destruct ((axis <? - Z.of_nat (c_ndim c)) || (Z.of_nat (c_ndim c) <? axis))%Z eqn:Eb.
    { apply orb_true_iff in Eb. lia. }
    rewrite map_length, Hl, Nat.eqb_refl. cbn [rbind].
    replace (Z.to_nat _) with k by (destruct (Z.ltb_spec axis 0); lia).
    assert (Em : map (fun '(r, v) => firstn k r ++ v :: skipn k r) (combine (c_rows c) (map (cast (c_dtype c)) vals))
               = map (fun '(r, v) => firstn k r ++ cast (c_dtype c) v :: skipn k r) (combine (c_rows c) vals)).
    { generalize (c_rows c). clear. intros rows. revert vals. induction rows as [|r rows IH]; intros [|v vals]; try reflexivity.
      cbn. f_equal. apply IH. }
    rewrite Em. rewrite mk_curve_ok; [|lia| |discriminate].
    - f_equal. f_equal. unfold c_size in Hl. destruct (c_rows c); [contradiction|].
      destruct vals; [discriminate Hl|]. reflexivity.
    - intros r H. apply in_map_iff in H. destruct H as ([r0 v] & <- & H).
      apply in_combine_l in H. apply Hr in H. rewrite app_length. cbn [length].
      rewrite firstn_length, skipn_length. lia.
  Qed.

  Lemma insertdim_default c axis : c_insertdim c axis None = c_insertdim c axis (Some (repeat n0 (c_size c))) \/ c_dtype c = DInt.
  Proof.
    destruct (c_dtype c) eqn:E; [right; reflexivity|left]. unfold c_insertdim. rewrite E.
    replace (map (cast DFloat) (repeat n0 (c_size c))) with (repeat (n0 (T:=T)) (c_size c))
      by (symmetry; apply map_id). reflexivity.
  Qed.
End Gen3.

(** *** Over the reals *)

Local Open Scope R_scope.

Lemma Rltb_iff a b : Rltb a b = true <-> a < b.
Proof. unfold Rltb. destruct (Rlt_dec a b); split; intros; try congruence; tauto. Qed.
Lemma Rleb_iff a b : Rleb a b = true <-> a <= b.
Proof. unfold Rleb. destruct (Rle_dec a b); split; intros; try congruence; tauto. Qed.
Lemma Reqb_iff a b : Reqb a b = true <-> a = b.
Proof. unfold Reqb. destruct (Req_EM_T a b); split; intros; try congruence; tauto. Qed.
Lemma Rltb_false a b : Rltb a b = false <-> b <= a.
Proof. unfold Rltb. destruct (Rlt_dec a b); split; intros; try congruence; lra. Qed.
Lemma Rleb_false a b : Rleb a b = false <-> b < a.
Proof. unfold Rleb. destruct (Rle_dec a b); split; intros; try congruence; lra. Qed.
Lemma Reqb_false a b : Reqb a b = false <-> a <> b.
Proof. unfold Reqb. destruct (Req_EM_T a b); split; intros; try congruence; tauto. Qed.

Lemma row_eqb_R (u v : list R) : row_eqb u v = true <-> u = v.
Proof.
  revert v. induction u as [|a u IH]; intros [|b v]; cbn [row_eqb].
  - split; reflexivity.
  - split; discriminate.
  - split; discriminate.
  - rewrite andb_true_iff, IH. cbn [neqb RNum]. rewrite Reqb_iff. split.
    + intros [-> ->]. reflexivity.
    + intros H. injection H as <- <-. auto.
Qed.

Lemma isclose_R (a b : R) :
  isclose a b = true <-> Rabs (a - b) <= / 100000000 + / 100000 * Rabs b.
Proof.
  unfold isclose, isclose_tol, isfinite. cbn [nisnan nisinf RNum negb andb nleb nsub nadd nmul nabs].
  unfold rtol_default, atol_default. cbn [nlit RNum]. rewrite Rleb_iff.
  replace (1 / 100000000) with (/ 100000000) by lra. replace (1 / 100000) with (/ 100000) by lra. tauto.
Qed.

Lemma isclose_R_refl (a : R) : isclose a a = true.
Proof.
  apply isclose_R. replace (a - a) with 0 by lra. rewrite Rabs_R0.
  pose proof (Rabs_pos a). lra.
Qed.

Lemma isequal_R_refl d1 d2 (a : R) : isequal d1 d2 a a = true.
Proof.
  unfold isequal. destruct (is_int d1 && is_int d2); [|apply isclose_R_refl].
  apply Reqb_iff. reflexivity.
Qed.

Lemma close_points_R_refl d1 d2 (p : list R) : close_points d1 d2 p p.
Proof. induction p; constructor; [apply isequal_R_refl|assumption]. Qed.

Lemma c_eq_R_refl (c : curve R) : wf c -> c_eq c c = true.
Proof.
  intros Hwf. apply c_eq_spec; try assumption. split; [reflexivity|].
  induction (c_rows c); constructor; [apply close_points_R_refl|assumption].
Qed.

Lemma unique_R (c : curve R) :
  wf c -> exists c', c_unique c = Ok c' /\ NoDup (c_rows c') /\
    (forall p, In p (c_rows c') <-> In p (c_rows c)).
Proof.
  intros Hwf. destruct (c_unique_ok c Hwf) as (c' & H & (S & _) & _).
  exists c'. split; [assumption|]. split.
  - apply (NoDup_nth _ []). intros i j Hi Hj E.
    destruct (Nat.lt_trichotomy i j) as [L|[L|L]]; [|assumption|].
    + pose proof (unique_pairwise _ _ i j S L Hj) as U. rewrite E in U.
      assert (row_eqb (nth j (c_rows c') []) (nth j (c_rows c') []) = true) by (apply row_eqb_R; reflexivity).
      congruence.
    + pose proof (unique_pairwise _ _ j i S L Hi) as U. rewrite E in U.
      assert (row_eqb (nth j (c_rows c') []) (nth j (c_rows c') []) = true) by (apply row_eqb_R; reflexivity).
      congruence.
  - intros p. split; [apply (at_positions_in _ _ _ _ S)|].
    intros Hp.
    (* the first position holding p *)
    assert (E : exists k, nth_error (c_rows c) k = Some p /\ forall j, (j < k)%nat -> nth j (c_rows c) [] <> p).
    { clear - Hp. induction (c_rows c) as [|r rows IH]; [destruct Hp|].
      destruct (row_eqb r p) eqn:E.
      - apply row_eqb_R in E. exists 0%nat. split; [cbn; congruence|]. intros; lia.
      - assert (r <> p) by (intros G; apply row_eqb_R in G; congruence).
        destruct Hp as [Hp|Hp]; [contradiction|]. destruct (IH Hp) as (k & Hk & Hf).
        exists (S k). split; [assumption|]. intros [|j] Hj; [assumption|]. apply Hf. lia. }
    destruct E as (k & Hk & Hf).
    assert (Hin : In k (first_occurrences (c_rows c))).
    { apply first_occ_In. split; [apply nth_error_Some; congruence|]. intros j Hj.
      apply not_true_iff_false. rewrite row_eqb_R. rewrite (nth_error_nth _ _ [] Hk). auto. }
    unfold at_positions in S. destruct (Forall2_in_l _ _ _ _ S Hin) as (q & Hq & E).
    congruence.
Qed.

Lemma np_get_pyindex {A} (l : list A) i k d : py_index (length l) i k -> np_get l i = Ok (nth k l d).
Proof.
  intros H. apply np_get_ok. exists k. split; [assumption|]. apply nth_error_nth'. apply H.
Qed.

Lemma is_cooriented_R (c : curve R) a1 a2 k1 k2 p q :
  wf c -> (2 <= c_size c)%nat -> py_index (c_ndim c) a1 k1 -> py_index (c_ndim c) a2 k2 ->
  nth_error (c_rows c) 0 = Some p -> nth_error (c_rows c) (c_size c - 1) = Some q ->
  is_cooriented c a1 a2 = Ok (Rltb 0 (plane_det k1 k2 p q)).
Proof.
  intros (Hn & Hr & _) Hs H1 H2 Hp Hq. unfold is_cooriented.
  assert (Hb : c_bool c = true).
  { unfold c_bool. destruct (c_size c); [lia|]. destruct (c_ndim c); [lia|]. reflexivity. }
  rewrite Hb. destruct (Nat.eqb_spec (c_size c) 1); [lia|]. cbn [negb orb].
  rewrite (getitem_int_ok c 0 0 p) by (assumption || (split; [lia|auto])). cbn [rbind].
  rewrite (getitem_int_ok c (-1) (c_size c - 1) q) by (assumption || (split; [lia|right; lia])). cbn [rbind snd].
  apply nth_error_In in Hp. apply nth_error_In in Hq. apply Hr in Hp. apply Hr in Hq.
  rewrite (np_get_pyindex p a1 k1 0) by (rewrite Hp; assumption).
  rewrite (np_get_pyindex q a1 k1 0) by (rewrite Hq; assumption).
  rewrite (np_get_pyindex p a2 k2 0) by (rewrite Hp; assumption).
  rewrite (np_get_pyindex q a2 k2 0) by (rewrite Hq; assumption).
  reflexivity.
Qed.

Lemma nth_error_rev_ends {A} (l : list A) p q :
  nth_error l 0 = Some p -> nth_error l (length l - 1) = Some q ->
  nth_error (rev l) 0 = Some q /\ nth_error (rev l) (length l - 1) = Some p.
Proof.
  intros Hp Hq. assert (0 < length l)%nat by (apply nth_error_Some; congruence).
  split.
  - rewrite (nth_error_nth' _ p) by (rewrite rev_length; lia). rewrite rev_nth by assumption.
    f_equal. apply nth_error_nth. rewrite <- Hq. f_equal; lia.
  - rewrite (nth_error_nth' _ p) by (rewrite rev_length; lia). rewrite rev_nth by lia.
    f_equal. apply nth_error_nth. rewrite <- Hp. f_equal; lia.
Qed.

Lemma coorient_R (c : curve R) a1 a2 k1 k2 p q :
  wf c -> int_data c -> (2 <= c_size c)%nat -> py_index (c_ndim c) a1 k1 -> py_index (c_ndim c) a2 k2 ->
  nth_error (c_rows c) 0 = Some p -> nth_error (c_rows c) (c_size c - 1) = Some q ->
  c_coorientplane c a1 a2 =
  Ok (if Rltb 0 (plane_det k1 k2 p q) then c
      else mkCurve (rev (c_rows c)) (c_ndim c) (c_dtype c) (option_map (@rev R) (c_t c))).
Proof.
  intros Hwf Hint Hs H1 H2 Hp Hq. unfold c_coorientplane.
  rewrite (is_cooriented_R c a1 a2 k1 k2 p q) by assumption. cbn [rbind].
  assert (Hne : c_rows c <> []) by (unfold c_size in Hs; destruct (c_rows c); [cbn in Hs; lia|discriminate]).
  destruct (Rltb 0 _); cbn [negb].
  - apply c_copy_id; [assumption|assumption|right; assumption].
  - rewrite c_reverse_ok by assumption. destruct (c_rows c); [contradiction|reflexivity].
Qed.

Lemma reverse_int_data (c c' : curve R) : int_data c -> wf c -> c_reverse c = Ok c' -> int_data c'.
Proof.
  intros H Hwf E. rewrite c_reverse_ok in E by assumption. injection E as <-.
  intros Hd r x Hr Hx. cbn in *. apply in_rev in Hr. eapply H; eauto.
Qed.

Lemma plane_det_swap k1 k2 (p q : list R) : plane_det k1 k2 q p = - plane_det k1 k2 p q.
Proof. unfold plane_det. cbn. lra. Qed.
