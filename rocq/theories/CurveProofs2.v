(** More proofs about the Curve container operations: deletion, search,
    unique, drop, dimensions, copies. *)
From Coq Require Import ZArith List Bool Arith Lia Sorted Permutation.
From Verif Require Import Num Py Numeric Curve Spec ListFacts SliceProofs ArrayProofs CurveProofs.
Import ListNotations.

Lemma norm_indices_ok n ix :
  (forall i, In i ix -> (- Z.of_nat n <= i < Z.of_nat n)%Z) ->
  exists ps, norm_indices n ix = Ok ps /\ Forall2 (py_index n) ix ps.
Proof.
  induction ix as [|i ix IH]; intros H.
  - exists []. split; [reflexivity|constructor].
  - destruct IH as (ps & E & F); [intros; apply H; right; assumption|].
    destruct (norm_index n i) as [k|] eqn:Ek.
    + exists (k :: ps). split.
      * unfold norm_indices in *. cbn. rewrite Ek, E. reflexivity.
      * constructor; [|assumption]. apply norm_index_some. assumption.
    + apply norm_index_none in Ek. specialize (H i (or_introl eq_refl)). lia.
Qed.

Lemma norm_indices_raise n ix i :
  In i ix -> (i < - Z.of_nat n \/ Z.of_nat n <= i)%Z -> norm_indices n ix = Raise IndexError.
Proof.
  intros Hi H. unfold norm_indices. apply rseq_raise.
  - exists i. split; [assumption|]. apply norm_index_none in H. rewrite H. reflexivity.
  - intros x e. destruct (norm_index n x); congruence.
Qed.

Lemma Forall2_in_r {A B} (R : A -> B -> Prop) l1 l2 b :
  Forall2 R l1 l2 -> In b l2 -> exists a, In a l1 /\ R a b.
Proof.
  induction 1 as [|x y l1 l2 H _ IH]; intros Hb; [destruct Hb|].
  destruct Hb as [<-|Hb].
  - exists x. split; [left; reflexivity|assumption].
  - destruct (IH Hb) as (a & Ha & HR). exists a. split; [right|]; assumption.
Qed.

Lemma Forall2_in_l {A B} (R : A -> B -> Prop) l1 l2 a :
  Forall2 R l1 l2 -> In a l1 -> exists b, In b l2 /\ R a b.
Proof.
  induction 1 as [|x y l1 l2 H _ IH]; intros Hb; [destruct Hb|].
  destruct Hb as [<-|Hb].
  - exists y. split; [left; reflexivity|assumption].
  - destruct (IH Hb) as (b & Ha & HR). exists b. split; [right|]; assumption.
Qed.

Lemma py_index_fun n i k1 k2 : py_index n i k1 -> py_index n i k2 -> k1 = k2.
Proof. intros [H1 H2] [H3 H4]. lia. Qed.

Lemma indexer_positions_ok ix n :
  in_range ix n ->
  exists ps, indexer_positions ix n = Ok ps /\ (forall k, In k ps <-> addressed ix n k).
Proof.
  destruct ix as [i|s|l]; cbn [in_range indexer_positions addressed]; intros H.
  - destruct (norm_indices_ok n [i]) as (ps & E & F).
    { intros j [<-|[]]. assumption. }
    exists ps. split; [assumption|]. inversion F as [|? k ? ps' Hk F']; subst. inversion F'; subst.
    intros k'. cbn. split.
    + intros [<-|[]]. assumption.
    + intros Hk'. left. eapply py_index_fun; eauto.
  - rewrite slice_positions_spec by assumption. eexists. split; [reflexivity|]. tauto.
  - destruct (norm_indices_ok n l H) as (ps & E & F).
    exists ps. split; [assumption|]. intros k. split.
    + intros Hk. apply (Forall2_in_r _ _ _ _ F Hk).
    + intros (i & Hi & Hk). destruct (Forall2_in_l _ _ _ _ F Hi) as (k' & Hk' & Hp).
      rewrite (py_index_fun _ _ _ _ Hk Hp). assumption.
Qed.

Lemma indexer_positions_raise ix n :
  ~ in_range ix n ->
  indexer_positions ix n = Raise (match ix with IxSlice _ => ValueError | _ => IndexError end).
Proof.
  destruct ix as [i|s|l]; cbn [in_range indexer_positions]; intros H.
  - apply (norm_indices_raise n [i] i); [left; reflexivity|lia].
  - apply slice_positions_zero. destruct (s_step s) as [z|]; [|exfalso; apply H; discriminate].
    destruct (Z.eq_dec z 0) as [->|Hz]; [reflexivity|]. exfalso. apply H. congruence.
  - destruct (Forall_Exists_dec (fun i => (- Z.of_nat n <= i < Z.of_nat n)%Z)) with (l := l) as [F|F].
    + intros i. destruct (Z_le_dec (- Z.of_nat n) i), (Z_lt_dec i (Z.of_nat n)); (left; lia) || (right; lia).
    + rewrite Forall_forall in F. contradiction.
    + apply Exists_exists in F. destruct F as (i & Hi & Hr).
      apply (norm_indices_raise n l i Hi). lia.
Qed.

Lemma keep_mask_length n ps : length (keep_mask n ps) = n.
Proof. unfold keep_mask. rewrite map_length, seq_length. reflexivity. Qed.

Lemma keep_mask_nth n ps k : k < n -> nth k (keep_mask n ps) false = negb (mem_nat k ps).
Proof.
  intros H. unfold keep_mask.
  rewrite (nth_indep _ false (negb (mem_nat 0 ps))) by (rewrite map_length, seq_length; assumption).
  rewrite (map_nth (fun k => negb (mem_nat k ps))). rewrite seq_nth by assumption. reflexivity.
Qed.

Lemma np_delete_ok {A} (l : list A) ix ps :
  indexer_positions ix (length l) = Ok ps ->
  np_delete l ix = Ok (pick l (positions (length l) (fun k => negb (mem_nat k ps)))).
Proof.
  intros H. unfold np_delete. rewrite H. cbn [rmap]. f_equal.
  rewrite mask_select_filter_seq by apply keep_mask_length. f_equal.
  apply filter_ext_in. intros k Hk. apply in_seq in Hk. apply keep_mask_nth. lia.
Qed.

Lemma filter_const_true {A} (l : list A) : filter (fun _ => true) l = l.
Proof. induction l; cbn; congruence. Qed.

Lemma filter_const_false {A} (l : list A) : filter (fun _ => false) l = [].
Proof. induction l; cbn; congruence. Qed.

Lemma Forall2_length {A B} (R : A -> B -> Prop) l1 l2 : Forall2 R l1 l2 -> length l1 = length l2.
Proof. induction 1; cbn; congruence. Qed.

Section Gen2.
  Context {T : Type} {NT : Num T} {ST : NumSqrt T}.
  Implicit Types c : curve T.

  (** *** Delete *)

  Lemma c_delete_ok c ix ps :
    wf c -> indexer_positions ix (c_size c) = Ok ps ->
    exists c', c_delete c ix = Ok c'
      /\ selects c (positions (c_size c) (fun k => negb (mem_nat k ps))) c' /\ wf c'.
  Proof.
    intros Hwf Hp. unfold c_delete.
    rewrite (on_t_ok c _ (fun t => pick t (positions (c_size c) (fun k => negb (mem_nat k ps))))).
    - cbn [rbind]. rewrite (np_delete_ok _ _ ps) by exact Hp. cbn [rbind].
      apply select_pick; [assumption|]. apply positions_bound.
    - intros t Ht. destruct Hwf as (_ & _ & Hl).
      rewrite (np_delete_ok _ _ ps); rewrite (Hl t Ht); [reflexivity|exact Hp].
  Qed.

  Lemma c_delete_spec c ix :
    wf c -> in_range ix (c_size c) ->
    exists c' ks, c_delete c ix = Ok c' /\ selects c ks c' /\ ascending ks
      /\ (forall k, In k ks <-> (k < c_size c /\ ~ addressed ix (c_size c) k)) /\ wf c'.
  Proof.
    intros Hwf Hr. destruct (indexer_positions_ok _ _ Hr) as (ps & Hp & Ha).
    destruct (c_delete_ok _ _ _ Hwf Hp) as (c' & H & S & W).
    exists c', (positions (c_size c) (fun k => negb (mem_nat k ps))).
    split; [assumption|]. split; [assumption|]. split.
    { apply ascending_sorted, filter_sorted, seq_sorted. }
    split; [|assumption].
    intros k. unfold positions. rewrite filter_In, in_seq, negb_true_iff, mem_nat_false, Ha.
    intuition lia.
  Qed.

  Lemma c_delete_raise c ix :
    wf c -> ~ in_range ix (c_size c) ->
    c_delete c ix = Raise (match ix with IxSlice _ => ValueError | _ => IndexError end).
  Proof.
    intros (_ & _ & Hl) Hr. apply indexer_positions_raise in Hr.
    unfold c_delete, on_t.
    assert (E : forall A (l : list A), length l = c_size c ->
      np_delete l ix = Raise (match ix with IxSlice _ => ValueError | _ => IndexError end)).
    { intros A l H. unfold np_delete. rewrite H, Hr. reflexivity. }
    destruct (c_t c) as [t|]; cbn [rmap rbind].
    - rewrite E by (apply Hl; reflexivity). reflexivity.
    - rewrite E by reflexivity. reflexivity.
  Qed.

  (** *** Round trips *)

  Lemma pick_prefix {A} (l1 l2 : list A) ps :
    Forall (fun k => k < length l1) ps -> pick (l1 ++ l2) ps = pick l1 ps.
  Proof.
    induction 1 as [|k ps H _ IH]; [reflexivity|]. cbn [pick flat_map].
    rewrite nth_error_app1 by assumption. f_equal. exact IH.
  Qed.

  Lemma pick_suffix {A} (l1 l2 : list A) ps :
    pick (l1 ++ l2) (map (fun k => length l1 + k) ps) = pick l2 ps.
  Proof.
    induction ps as [|k ps IH]; [reflexivity|]. cbn [pick flat_map map].
    rewrite nth_error_app2 by lia. replace (length l1 + k - length l1) with k by lia.
    f_equal. exact IH.
  Qed.

  Lemma positions_middle {A} (a b d : list A) :
    pick (a ++ b ++ d)
      (positions (length (a ++ b ++ d))
         (fun k => negb (mem_nat k (seq (length a) (length b))))) = a ++ d.
  Proof.
    unfold positions. rewrite !app_length.
    rewrite !seq_app, !filter_app. cbn [plus].
    rewrite !pick_app.
    assert (M : forall k, mem_nat k (seq (length a) (length b)) = true <-> length a <= k < length a + length b).
    { intros k. rewrite mem_nat_iff, in_seq. tauto. }
    replace (filter _ (seq 0 (length a))) with (seq 0 (length a)).
    2:{ rewrite (filter_ext_in _ (fun _ => true)).
        - symmetry. apply filter_const_true.
        - intros k Hk. apply in_seq in Hk. apply negb_true_iff, not_true_iff_false. rewrite M. lia. }
    replace (filter _ (seq (length a) (length b))) with (@nil nat).
    2:{ rewrite (filter_ext_in _ (fun _ => false)).
        - symmetry. apply filter_const_false.
        - intros k Hk. apply in_seq in Hk. apply negb_false_iff. rewrite M. lia. }
    replace (filter _ (seq (length a + length b) (length d)))
      with (map (fun k => length a + k) (map (fun k => length b + k) (seq 0 (length d)))).
    2:{ rewrite (filter_ext_in _ (fun _ => true)).
        - rewrite map_map.
          replace (map _ _) with (seq (length a + length b) (length d)).
          + symmetry. apply filter_const_true.
          + generalize (length d). intros n. generalize (length a). generalize (length b). intros p q.
            assert (G : forall s, seq (q + p + s) n = map (fun k => q + (p + k)) (seq s n)).
            { induction n as [|n IH]; intros s; cbn; [reflexivity|].
              f_equal; [lia|]. rewrite <- IH. f_equal. lia. }
            specialize (G 0). rewrite Nat.add_0_r in G. exact G.
        - intros k Hk. apply in_seq in Hk. apply negb_true_iff, not_true_iff_false. rewrite M. lia. }
    rewrite pick_prefix by (apply Forall_forall; intros k Hk; apply in_seq in Hk; lia).
    rewrite pick_seq_all. rewrite !pick_suffix. rewrite pick_seq_all. reflexivity.
  Qed.

  Lemma insert_delete_rows c i k x :
    wf c -> (forall c, x = ICurve c -> wf c) -> c_ndim c = item_ndim x ->
    k <= c_size c -> (i = Z.of_nat k \/ (i < 0 /\ i = Z.of_nat k - Z.of_nat (c_size c)))%Z ->
    exists c1 c2, c_insert c (IxInt i) x = Ok c1
      /\ c_delete c1 (IxSlice (mkSlice (Some (Z.of_nat k))
                        (Some (Z.of_nat (k + length (item_rows x)))) None)) = Ok c2
      /\ c_rows c2 = c_rows c /\ c_dtype c2 = c_dtype c /\ c_t c2 = None.
  Proof.
    intros Hwf Hx E Hk Hi.
    destruct (c_insert_int_ok c i k x Hwf Hx E Hk Hi) as (c1 & H1 & R1 & T1 & D1 & N1 & W1).
    exists c1.
    assert (Hlen : length (new_rows c x) = length (item_rows x)) by apply map_length.
    set (s := mkSlice (Some (Z.of_nat k)) (Some (Z.of_nat (k + length (item_rows x)))) None).
    assert (Hsz : c_size c1 = c_size c + length (item_rows x)).
    { unfold c_size. rewrite R1, !app_length, Hlen. rewrite firstn_length, skipn_length.
      unfold c_size in Hk. lia. }
    assert (Hp : indexer_positions (IxSlice s) (c_size c1) = Ok (seq k (length (item_rows x)))).
    { cbn [indexer_positions]. rewrite slice_positions_spec by discriminate. f_equal.
      unfold s. rewrite slice_spec_run. cbv zeta. unfold bound, clip.
      destruct (Z.ltb_spec (Z.of_nat k) 0); [lia|].
      destruct (Z.ltb_spec (Z.of_nat (k + length (item_rows x))) 0); [lia|].
      replace (Z.to_nat _) with k by lia. f_equal. lia. }
    destruct (c_delete_ok _ _ _ W1 Hp) as (c2 & H2 & (S2 & ST2 & SD2 & _) & W2).
    exists c2. split; [assumption|]. split; [assumption|].
    split; [|split; [congruence|]].
    - apply at_positions_iff_pick in S2; [|apply positions_bound].
      rewrite S2. unfold c_size. rewrite R1.
      assert (Ef : length (firstn k (c_rows c)) = k) by (rewrite firstn_length; unfold c_size in Hk; lia).
      pose proof (positions_middle (firstn k (c_rows c)) (new_rows c x) (skipn k (c_rows c))) as PM.
      rewrite Ef, Hlen in PM. rewrite PM. apply firstn_skipn.
    - unfold at_positions_opt in ST2. rewrite T1 in ST2. destruct (c_t c2); [contradiction|reflexivity].
  Qed.

  Lemma c_append_rows c x :
    wf c -> (forall c, x = ICurve c -> wf c) -> c_ndim c = item_ndim x ->
    exists c', c_append c x = Ok c' /\ c_rows c' = c_rows c ++ new_rows c x
      /\ c_t c' = None /\ c_dtype c' = c_dtype c /\ (c_rows c' <> [] -> c_ndim c' = c_ndim c) /\ wf c'.
  Proof.
    intros Hwf Hx E. unfold c_append.
    destruct (c_insert_int_ok c (Z.of_nat (c_size c)) (c_size c) x Hwf Hx E) as (c' & H & R & Ht & D & N & W); [lia|lia|].
    exists c'. unfold c_size in *. rewrite firstn_all, skipn_all, app_nil_r in R.
    repeat (split; [assumption|]). assumption.
  Qed.

  (** *** Search *)

  Lemma allequal_Forall2 d1 d2 (u v : list T) :
    allequal d1 d2 u v = true <-> Forall2 (fun a b => isequal d1 d2 a b = true) u v.
  Proof.
    revert v. induction u as [|a u IH]; intros [|b v]; cbn.
    - split; [constructor|reflexivity].
    - split; [discriminate|inversion 1].
    - split; [discriminate|inversion 1].
    - rewrite andb_true_iff, IH. split.
      + intros [H1 H2]. constructor; assumption.
      + inversion 1; subst. split; assumption.
  Qed.

  Lemma allequal2_Forall2 d1 d2 (r s : list (list T)) :
    allequal2 d1 d2 r s = true <->
    Forall2 (Forall2 (fun a b => isequal d1 d2 a b = true)) r s.
  Proof.
    revert s. induction r as [|a r IH]; intros [|b s]; cbn.
    - split; [constructor|reflexivity].
    - split; [discriminate|inversion 1].
    - split; [discriminate|inversion 1].
    - rewrite andb_true_iff, IH, allequal_Forall2. split.
      + intros [H1 H2]. constructor; assumption.
      + inversion 1; subst. split; assumption.
  Qed.

  Lemma first_true_some m k :
    first_true m = Some k <-> nth_error m k = Some true /\ (forall j, j < k -> nth_error m j = Some false).
  Proof.
    revert k. induction m as [|b m IH]; intros k; cbn.
    - split; [discriminate|]. intros [H _]. destruct k; discriminate.
    - destruct b.
      + split.
        * intros H. injection H as <-. split; [reflexivity|]. intros; lia.
        * intros [H1 H2]. destruct k as [|k]; [reflexivity|]. specialize (H2 0 ltac:(lia)). discriminate.
      + destruct (first_true m) as [q|] eqn:E; cbn.
        * split.
          { intros H. injection H as <-. destruct (proj1 (IH q) eq_refl) as [H1 H2].
            split; [assumption|]. intros [|j] Hj; [reflexivity|]. apply H2. lia. }
          { intros [H1 H2]. destruct k as [|k]; [discriminate|]. cbn in H1.
            f_equal. f_equal. assert (Some q = Some k); [|congruence].
            apply IH. split; [assumption|]. intros j Hj. apply (H2 (S j)). lia. }
        * split; [discriminate|]. intros [H1 H2]. destruct k as [|k]; [discriminate|]. cbn in H1.
          assert (None = Some k); [|discriminate].
          apply IH. split; [assumption|]. intros j Hj. apply (H2 (S j)). lia.
  Qed.

  Lemma first_true_none m : first_true m = None <-> ~ In true m.
  Proof.
    induction m as [|b m IH]; cbn; [tauto|]. destruct b.
    - split; [discriminate|]. intros H. exfalso. apply H. left. reflexivity.
    - destruct (first_true m); cbn.
      + split; [discriminate|]. intros H. exfalso.
        assert (Some n = None); [|discriminate]. apply IH. tauto.
      + split; [|reflexivity]. intros _ [H|H]; [discriminate|]. apply IH in H; auto.
  Qed.

  Lemma existsb_id_In m : existsb id m = true <-> In true m.
  Proof.
    rewrite existsb_exists. split.
    - intros (b & H & E). unfold id in E. subst. assumption.
    - intros H. exists true. split; [assumption|reflexivity].
  Qed.

  Definition close_points (pd dt : dtype) (p r : list T) : Prop :=
    Forall2 (fun a b => isequal pd dt a b = true) p r.

  Lemma match_mask_nth pd dt p (rows : list (list T)) k :
    nth_error (match_mask pd dt p rows) k = Some true <->
    exists r, nth_error rows k = Some r /\ close_points pd dt p r.
  Proof.
    unfold match_mask. rewrite nth_error_map. split.
    - intros H. destruct (nth_error rows k) as [r|]; [|discriminate]. cbn in H.
      exists r. split; [reflexivity|]. apply allequal_Forall2. congruence.
    - intros (r & -> & H). cbn. apply allequal_Forall2 in H. congruence.
  Qed.

  Lemma match_mask_nth_false pd dt p (rows : list (list T)) k :
    nth_error (match_mask pd dt p rows) k = Some false <->
    exists r, nth_error rows k = Some r /\ ~ close_points pd dt p r.
  Proof.
    unfold match_mask. rewrite nth_error_map. split.
    - intros H. destruct (nth_error rows k) as [r|]; [|discriminate]. cbn in H.
      exists r. split; [reflexivity|]. intros G. apply allequal_Forall2 in G. congruence.
    - intros (r & -> & H). cbn. f_equal. apply not_true_iff_false. intros G.
      apply allequal_Forall2 in G. contradiction.
  Qed.

  Lemma match_mask_In pd dt p (rows : list (list T)) :
    In true (match_mask pd dt p rows) <-> exists r, In r rows /\ close_points pd dt p r.
  Proof.
    unfold match_mask. rewrite in_map_iff. split.
    - intros (r & H & Hr). exists r. split; [assumption|]. apply allequal_Forall2. assumption.
    - intros (r & Hr & H). exists r. split; [apply allequal_Forall2; assumption|assumption].
  Qed.

  Lemma contains_point_spec c p pd :
    contains_point c p pd = true <->
    (c_ndim c = length p /\ exists r, In r (c_rows c) /\ close_points pd (c_dtype c) p r).
  Proof.
    unfold contains_point. destruct (Nat.eqb_spec (c_ndim c) (length p)) as [E|E]; cbn.
    - rewrite existsb_id_In, match_mask_In. tauto.
    - split; [discriminate|]. tauto.
  Qed.

  Lemma c_count_spec c p pd :
    c_ndim c = length p ->
    exists ks, c_count c p pd = Ok (length ks) /\ ascending ks /\
      forall k, In k ks <-> exists r, nth_error (c_rows c) k = Some r /\ close_points pd (c_dtype c) p r.
  Proof.
    intros E. unfold c_count. rewrite E, Nat.eqb_refl. cbn [negb].
    set (m := match_mask pd (c_dtype c) p (c_rows c)).
    exists (filter (fun k => nth k m false) (seq 0 (length m))). split; [|split].
    - f_equal. clearbody m. clear. induction m as [|b m IH]; [reflexivity|].
      cbn [length seq filter]. change (nth 0 (b :: m) false) with b.
      rewrite <- seq_shift.
      assert (G : forall q, length (filter (fun k => nth k (b :: m) false) (map S q))
                = length (filter (fun k => nth k m false) q)).
      { induction q as [|y q IHq]; [reflexivity|]. cbn [map filter].
        change (nth (S y) (b :: m) false) with (nth y m false).
        destruct (nth y m false); cbn [length]; rewrite IHq; reflexivity. }
      destruct b; unfold id at 1; cbn [length]; rewrite G, IH; reflexivity.
    - apply ascending_sorted, filter_sorted, seq_sorted.
    - intros k. rewrite filter_In, in_seq. rewrite <- match_mask_nth. fold m. split.
      + intros [H1 H2]. rewrite (nth_error_nth' m false) by lia. congruence.
      + intros H. assert (k < length m) by (apply nth_error_Some; congruence).
        split; [lia|]. apply nth_error_nth. assumption.
  Qed.

  Lemma c_index_full c p pd :
    c_ndim c = length p ->
    match c_index c p pd None None with
    | Ok i => exists k r, i = Z.of_nat k /\ nth_error (c_rows c) k = Some r
                /\ close_points pd (c_dtype c) p r
                /\ forall j r', j < k -> nth_error (c_rows c) j = Some r' -> ~ close_points pd (c_dtype c) p r'
    | Raise e => e = ValueError /\ forall r, In r (c_rows c) -> ~ close_points pd (c_dtype c) p r
    end.
  Proof.
    intros E. unfold c_index. rewrite E, Nat.eqb_refl. cbn [negb rbind].
    destruct (first_true (match_mask pd (c_dtype c) p (c_rows c))) as [k|] eqn:Ef.
    - apply first_true_some in Ef. destruct Ef as [H1 H2].
      apply match_mask_nth in H1. destruct H1 as (r & Hr & Hc).
      exists k, r. split; [reflexivity|]. split; [assumption|]. split; [assumption|].
      intros j r' Hj Hr'. specialize (H2 j Hj). apply match_mask_nth_false in H2.
      destruct H2 as (r2 & E2 & H2). congruence.
    - apply first_true_none in Ef. split; [reflexivity|]. intros r Hr Hc. apply Ef.
      apply match_mask_In. eauto.
  Qed.

  Lemma nth_error_pick_seq {A} (l : list A) a n k :
    a + n <= length l -> k < n -> nth_error (pick l (seq a n)) k = nth_error l (a + k).
  Proof.
    revert a k. induction n as [|n IH]; intros a k Hl Hk; [lia|].
    cbn [seq pick flat_map]. destruct (nth_error_ex l a) as [x Hx]; [lia|]. rewrite Hx.
    destruct k as [|k]; cbn [app nth_error].
    - rewrite Nat.add_0_r. congruence.
    - fold (pick l (seq (S a) n)). rewrite IH by lia. f_equal. lia.
  Qed.

  (** What Curve.index returns for the position [k]. *)
  Definition reported (n : nat) (start : option Z) (k : nat) : Z :=
    match start with
    | Some s => if (s <? - Z.of_nat n)%Z then (Z.of_nat k + s)%Z
                else if (s <? 0)%Z then (Z.of_nat k - Z.of_nat n)%Z else Z.of_nat k
    | None => Z.of_nat k
    end.

  (** Curve.index on an interval. *)
  Lemma c_index_interval c p pd start stop :
    c_ndim c = length p ->
    let ks := slice_spec (mkSlice start stop None) (c_size c) in
    match c_index c p pd start stop with
    | Ok i => exists k r, In k ks /\ i = reported (c_size c) start k /\ nth_error (c_rows c) k = Some r
                /\ close_points pd (c_dtype c) p r
                /\ forall j r', In j ks -> j < k -> nth_error (c_rows c) j = Some r' -> ~ close_points pd (c_dtype c) p r'
    | Raise e => e = ValueError /\
                forall j r, In j ks -> nth_error (c_rows c) j = Some r -> ~ close_points pd (c_dtype c) p r
    end.
  Proof.
    intros E ks. unfold c_index. rewrite E, Nat.eqb_refl. cbn [negb].
    set (n := c_size c) in *.
    set (lo := Z.to_nat (bound (Z.of_nat n) 0 (Z.of_nat n) 0 start)).
    set (hi := Z.to_nat (bound (Z.of_nat n) 0 (Z.of_nat n) (Z.of_nat n) stop)).
    assert (Eks : ks = seq lo (hi - lo)) by (unfold ks; rewrite slice_spec_run; reflexivity).
    assert (Hlo : lo <= n) by (unfold lo, bound, clip; destruct start; lia).
    assert (Hhi : hi <= n) by (unfold hi, bound, clip; destruct stop; lia).
    assert (Edata : (match start, stop with
                  | None, None => Ok (c_rows c)
                  | _, _ => np_slice (c_rows c) (mkSlice start stop None)
                  end) = Ok (pick (c_rows c) ks)).
    { destruct start as [s|]; [apply np_slice_spec; discriminate|].
      destruct stop as [s|]; [apply np_slice_spec; discriminate|].
      f_equal. rewrite Eks. unfold lo, hi, bound. rewrite Nat2Z.id. cbn. rewrite Nat.sub_0_r.
      symmetry. apply pick_seq_all. }
    rewrite Edata. cbn [rbind].
    destruct (first_true _) as [q|] eqn:Ef.
    - apply first_true_some in Ef. destruct Ef as [H1 H2].
      apply match_mask_nth in H1. destruct H1 as (r & Hr & Hc).
      assert (Hb : Forall (fun k => k < length (c_rows c)) ks).
      { rewrite Eks. apply Forall_forall. intros k Hk. apply in_seq in Hk. unfold n, c_size in *. lia. }
      assert (Hq : q < hi - lo).
      { assert (Hq : q < length (pick (c_rows c) ks)) by (apply nth_error_Some; congruence).
        rewrite pick_length in Hq by assumption. rewrite Eks, seq_length in Hq. assumption. }
      rewrite Eks in Hr. rewrite nth_error_pick_seq in Hr by (unfold n, c_size in *; lia).
      exists (lo + q), r. split; [rewrite Eks; apply in_seq; lia|].
      split.
      { unfold reported. destruct start as [s|]; [|unfold lo, bound; lia].
        unfold lo, bound, clip in *.
        destruct (Z.eqb_spec s 0) as [->|Hs0]; [destruct (Z.ltb_spec 0 (- Z.of_nat n)); cbn; lia|].
        destruct (Z.ltb_spec s (- Z.of_nat n)); destruct (Z.ltb_spec s 0); lia. }
      split; [assumption|]. split; [assumption|].
      intros j r' Hj Hjk Hr' Hc'. rewrite Eks in Hj. apply in_seq in Hj.
      specialize (H2 (j - lo) ltac:(lia)). apply match_mask_nth_false in H2.
      destruct H2 as (r2 & E2 & H2). rewrite Eks in E2.
      rewrite nth_error_pick_seq in E2 by (unfold n, c_size in *; lia).
      replace (lo + (j - lo)) with j in E2 by lia. congruence.
    - apply first_true_none in Ef. split; [reflexivity|].
      intros j r Hj Hr Hc. apply Ef. apply match_mask_In. exists r. split; [|assumption].
      unfold pick. apply in_flat_map. exists j. rewrite Hr. split; [assumption|left; reflexivity].
  Qed.

  Lemma contains_curve_spec c other :
    wf c -> wf other ->
    (contains_curve c other = true <->
     (c_ndim c = c_ndim other /\
      exists pre run post, c_rows c = pre ++ run ++ post
        /\ Forall2 (close_points (c_dtype c) (c_dtype other)) run (c_rows other))).
  Proof.
    intros Hwf Hwf'. unfold contains_curve.
    destruct (Nat.eqb_spec (c_ndim c) (c_ndim other)) as [E|E]; cbn [negb].
    2:{ split; [discriminate|]. tauto. }
    destruct (Nat.eqb_spec (c_size c) (c_size other)) as [Es|Es].
    - rewrite allequal2_Forall2. split.
      + intros H. split; [assumption|]. exists [], (c_rows c), []. rewrite app_nil_r. auto.
      + intros (_ & pre & run & post & Hr & F).
        apply Forall2_length in F as Hl.
        unfold c_size in Es. rewrite Hr, !app_length in Es.
        assert (pre = []) as -> by (apply length_zero_iff_nil; lia).
        assert (post = []) as -> by (apply length_zero_iff_nil; lia).
        rewrite app_nil_r in Hr. cbn in Hr. rewrite Hr. assumption.
    - destruct (Nat.ltb_spec (c_size c) (c_size other)).
      + split; [discriminate|]. intros (_ & pre & run & post & Hr & F).
        apply Forall2_length in F. unfold c_size in *. rewrite Hr, !app_length in *. lia.
      + rewrite existsb_exists. split.
        * intros (i & Hi & He). apply allequal2_Forall2 in He. split; [assumption|].
          exists (firstn i (c_rows c)), (firstn (c_size other) (skipn i (c_rows c))),
                 (skipn (c_size other) (skipn i (c_rows c))).
          split; [|assumption]. rewrite firstn_skipn, firstn_skipn. reflexivity.
        * intros (_ & pre & run & post & Hr & F). apply Forall2_length in F as Hl.
          exists (length pre). split.
          { apply in_seq. unfold c_size in *. rewrite Hr, !app_length in *. lia. }
          { apply allequal2_Forall2. rewrite Hr, skipn_app, skipn_all, Nat.sub_diag. cbn [app skipn].
            unfold c_size. rewrite <- Hl, firstn_app, firstn_all, Nat.sub_diag. cbn. rewrite app_nil_r.
            assumption. }
  Qed.

  Lemma c_eq_spec c other :
    wf c -> wf other ->
    (c_eq c other = true <->
     (c_ndim c = c_ndim other /\
      Forall2 (close_points (c_dtype c) (c_dtype other)) (c_rows c) (c_rows other))).
  Proof.
    intros Hwf Hwf'. unfold c_eq.
    destruct (Nat.eqb_spec (c_ndim c) (c_ndim other)) as [E|E]; cbn [negb].
    2:{ split; [discriminate|]. tauto. }
    destruct (Nat.eqb_spec (c_size c) (c_size other)) as [Es|Es]; cbn [negb].
    - rewrite allequal2_Forall2. tauto.
    - split; [discriminate|]. intros (_ & F). apply Forall2_length in F. unfold c_size in Es. contradiction.
  Qed.

  (** *** unique *)

  Lemma first_occ_sorted (rows : list (list T)) : StronglySorted lt (first_occurrences rows).
  Proof. apply filter_sorted, seq_sorted. Qed.

  Lemma unique_index (rows : list (list T)) :
    sort_by Nat.ltb (np_unique_index rows) = first_occurrences rows.
  Proof.
    apply sort_of_perm; [apply first_occ_sorted|]. unfold np_unique_index. apply sort_by_perm.
  Qed.

  Lemma Forall2_py_nat n ks : Forall (fun k => k < n) ks -> Forall2 (py_index n) (map Z.of_nat ks) ks.
  Proof. induction 1 as [|k ks H _ IH]; constructor; [split; [assumption|auto]|assumption]. Qed.

  Lemma first_occ_bound (rows : list (list T)) : Forall (fun k => k < length rows) (first_occurrences rows).
  Proof. apply positions_bound. Qed.

  Lemma c_unique_ok c :
    wf c -> exists c', c_unique c = Ok c' /\ selects c (first_occurrences (c_rows c)) c' /\ wf c'.
  Proof.
    intros Hwf. unfold c_unique. rewrite unique_index.
    apply (getitem_list_ok c (map Z.of_nat (first_occurrences (c_rows c))) _ Hwf).
    apply Forall2_py_nat, first_occ_bound.
  Qed.

  Lemma first_occ_In (rows : list (list T)) k :
    In k (first_occurrences rows) <->
    k < length rows /\ forall j, j < k -> row_eqb (nth j rows []) (nth k rows []) = false.
  Proof.
    unfold first_occurrences. rewrite filter_In, in_seq, negb_true_iff. split.
    - intros [H1 H2]. split; [lia|]. intros j Hj. apply not_true_iff_false. intros E.
      apply not_true_iff_false in H2. apply H2. apply existsb_exists. exists j. split; [|assumption].
      apply in_seq. lia.
    - intros [H1 H2]. split; [lia|]. apply not_true_iff_false. intros E.
      apply existsb_exists in E. destruct E as (j & Hj & E). apply in_seq in Hj.
      rewrite H2 in E by lia. discriminate.
  Qed.

  Lemma at_positions_nth {A} (l l' : list A) ks i d :
    at_positions l ks l' -> i < length ks -> nth i l' d = nth (nth i ks 0) l d.
  Proof.
    intros H. revert i. induction H as [|k a ks l' Hk _ IH]; intros i Hi; [cbn in Hi; lia|].
    destruct i as [|i]; cbn.
    - symmetry. apply nth_error_nth. assumption.
    - apply IH. cbn in Hi. lia.
  Qed.

  Lemma ascending_nth ks i j : ascending ks -> i < j -> j < length ks -> nth i ks 0 < nth j ks 0.
  Proof.
    intros H Hij Hj. eapply H; [exact Hij| |]; apply nth_error_nth'; lia.
  Qed.

  Lemma unique_pairwise (rows rows' : list (list T)) i j :
    at_positions rows (first_occurrences rows) rows' ->
    i < j -> j < length rows' -> row_eqb (nth i rows' []) (nth j rows' []) = false.
  Proof.
    intros H Hij Hj. pose proof (at_positions_length _ _ _ H) as Hl.
    rewrite (at_positions_nth _ _ _ i [] H) by lia.
    rewrite (at_positions_nth _ _ _ j [] H) by lia.
    assert (Hin : In (nth j (first_occurrences rows) 0) (first_occurrences rows)) by (apply nth_In; lia).
    apply first_occ_In in Hin. apply Hin. apply ascending_nth; [|assumption|lia].
    apply ascending_sorted, first_occ_sorted.
  Qed.

  Lemma unique_fixpoint (rows : list (list T)) :
    (forall i j, i < j -> j < length rows -> row_eqb (nth i rows []) (nth j rows []) = false) ->
    first_occurrences rows = seq 0 (length rows).
  Proof.
    intros H. apply sorted_ext; [apply first_occ_sorted|apply seq_sorted|].
    intros k. rewrite first_occ_In, in_seq. split.
    - intros [H1 _]. lia.
    - intros [_ H1]. cbn in H1. split; [lia|]. intros j Hj. apply H; lia.
  Qed.

  Lemma at_positions_all {A} (l : list A) l' : at_positions l (seq 0 (length l)) l' -> l' = l.
  Proof.
    intros H. apply at_positions_iff_pick in H.
    - rewrite pick_seq_all in H. assumption.
    - apply Forall_forall. intros k Hk. apply in_seq in Hk. lia.
  Qed.

  (** A selection of every position gives back the curve itself. *)
  Lemma selects_all c c' :
    wf c -> keeps_dim c -> selects c (seq 0 (c_size c)) c' -> wf c' -> c_rows c <> [] -> c' = c.
  Proof.
    intros (Hn & Hr & Ht) Hk (R & P & D & N) _ Hne.
    unfold c_size in *. apply at_positions_all in R.
    destruct c as [rows n dt td], c' as [rows' n' dt' td']. cbn in *.
    subst rows' dt'. f_equal.
    - apply N. destruct rows; [contradiction|discriminate].
    - destruct td as [t|], td' as [t'|]; cbn in P; try contradiction; [|reflexivity].
      f_equal. rewrite <- (Ht t eq_refl) in P. apply at_positions_all in P. assumption.
  Qed.

  Lemma c_unique_empty_ndim c : c_rows c = [] -> wf c ->
    c_unique c = Ok (mkCurve [] 2 (c_dtype c) (c_t c)).
  Proof.
    intros E Hwf. unfold c_unique. rewrite E. cbn.
    destruct Hwf as (_ & _ & Ht). unfold on_t. destruct (c_t c) as [t|] eqn:Et; cbn; [|reflexivity].
    specialize (Ht t eq_refl). rewrite E in Ht. cbn in Ht. apply length_zero_iff_nil in Ht. subst t.
    reflexivity.
  Qed.

  Lemma c_unique_idempotent c c' :
    wf c -> c_unique c = Ok c' -> c_unique c' = Ok c'.
  Proof.
    intros Hwf H. destruct (c_unique_ok c Hwf) as (c1 & H1 & S1 & W1).
    assert (c1 = c') by congruence. subst c1. clear H1.
    destruct (c_rows c') as [|r0 rows0] eqn:E'.
    - rewrite (c_unique_empty_ndim c' E' W1).
      assert (E : c_rows c = []).
      { destruct S1 as (R & _). pose proof (at_positions_length _ _ _ R) as L. rewrite E' in L.
        destruct (c_rows c) as [|r l]; [reflexivity|]. cbn in L. discriminate. }
      rewrite (c_unique_empty_ndim c E Hwf) in H. injection H as <-. reflexivity.
    - destruct (c_unique_ok c' W1) as (c2 & H2 & S2 & W2). rewrite H2. f_equal.
      assert (Hne : c_rows c' <> []) by (rewrite E'; discriminate).
      destruct S1 as (R & _).
      rewrite unique_fixpoint in S2 by (intros i j Hij Hj; exact (unique_pairwise _ _ i j R Hij Hj)).
      apply selects_all; try assumption. right. assumption.
  Qed.

  (** *** drop *)

  Lemma positions_negb n m :
    length m = n -> positions n (fun k => nth k (map negb m) false) = positions n (fun k => negb (nth k m true)).
  Proof.
    intros H. apply filter_ext_in. intros k Hk. apply in_seq in Hk.
    rewrite (nth_indep _ false (negb true)) by (rewrite map_length; lia).
    apply map_nth.
  Qed.

  Lemma c_drop_mask c isa m :
    wf c -> isa (c_rows c) = DropMask m -> length m = c_size c ->
    exists c', c_drop c isa = Ok c' /\ selects c (positions (c_size c) (fun k => negb (nth k m true))) c' /\ wf c'.
  Proof.
    intros Hwf Hi Hm. unfold c_drop. rewrite Hi. rewrite <- positions_negb by assumption.
    apply by_mask_ok; [assumption|]. rewrite map_length. assumption.
  Qed.

  Lemma c_drop_mask2 c isa mm :
    wf c -> isa (c_rows c) = DropMask2 mm -> length mm = c_size c ->
    exists c', c_drop c isa = Ok c'
      /\ selects c (positions (c_size c) (fun k => negb (existsb id (nth k mm [true])))) c' /\ wf c'.
  Proof.
    intros Hwf Hi Hm. unfold c_drop. rewrite Hi.
    replace (positions (c_size c) (fun k => negb (existsb id (nth k mm [true]))))
      with (positions (c_size c) (fun k => nth k (map negb (map (existsb id) mm)) false)).
    - apply by_mask_ok; [assumption|]. rewrite !map_length. assumption.
    - rewrite positions_negb by (rewrite map_length; assumption).
      apply filter_ext_in. intros k Hk. f_equal.
      change true with (existsb id [true]) at 1. apply map_nth.
  Qed.

  Lemma c_drop_bad_mask c isa m :
    wf c -> isa (c_rows c) = DropMask m -> length m <> c_size c -> c_drop c isa = Raise IndexError.
  Proof.
    intros Hwf Hi Hm. unfold c_drop. rewrite Hi. apply by_mask_raise; [assumption|].
    rewrite map_length. assumption.
  Qed.

  (** *** copy *)

  Lemma map_cast_float (rows : list (list T)) : map (map (cast DFloat)) rows = rows.
  Proof.
    rewrite <- (map_id rows) at 2. apply map_ext. intros r. rewrite <- (map_id r) at 2.
    apply map_ext. reflexivity.
  Qed.

  (** Integer-typed data consist of integers (truncation leaves them alone). *)
  Definition int_data c : Prop :=
    c_dtype c = DInt -> forall r x, In r (c_rows c) -> In x r -> ntrunc x = x.

  Lemma map_cast_id c : int_data c -> map (map (cast (c_dtype c))) (c_rows c) = c_rows c.
  Proof.
    intros H. unfold int_data in H. destruct (c_dtype c); [|apply map_cast_float].
    rewrite <- (map_id (c_rows c)) at 2. apply map_ext_in. intros r Hr.
    rewrite <- (map_id r) at 2. apply map_ext_in. intros x Hx. cbn. eapply H; eauto.
  Qed.

  Lemma c_copy_ok c :
    wf c -> int_data c ->
    c_copy c = Ok (mkCurve (c_rows c) (match c_rows c with [] => 2 | _ => c_ndim c end) (c_dtype c) (c_t c)).
  Proof.
    intros (Hn & Hr & Ht) Hint. unfold c_copy, curve_init. cbn [negb]. change (2 <? 2)%Z with false. cbv iota.
    destruct (c_rows c) as [|r rows] eqn:E.
    - unfold c_size. rewrite E. rewrite as2d_empty by reflexivity. cbn [rbind].
      cbn. destruct (c_t c) as [t|] eqn:Et; [|reflexivity].
      cbn. specialize (Ht t eq_refl). cbn in Ht.
      unfold nd_size. cbn. rewrite Ht. cbn. reflexivity.
    - unfold c_size. rewrite E. rewrite as2d_id; [|assumption|cbn; lia].
      cbn [rbind].
      replace (map (map (cast (c_dtype c))) (r :: rows)) with (r :: rows)
        by (rewrite <- E; symmetry; apply map_cast_id; assumption).
      destruct (Nat.eqb_spec (length (r :: rows) * c_ndim c) 0) as [E0|E0]; [cbn in E0; lia|].
      destruct (Nat.eqb_spec (length (r :: rows) * c_ndim c) 0) as [|_]; [contradiction|].
      destruct (Nat.ltb_spec (c_ndim c) 2); [lia|]. cbn [negb andb].
      destruct (c_t c) as [t|]; [|reflexivity].
      unfold nd_ndim, nd_size. cbn [nd_shape length Nat.eqb negb fold_right].
      rewrite (Ht t eq_refl), Nat.mul_1_r, Nat.eqb_refl. reflexivity.
  Qed.

  Lemma c_copy_id c : wf c -> int_data c -> keeps_dim c -> c_copy c = Ok c.
  Proof.
    intros Hwf Hi Hk. rewrite c_copy_ok by assumption. f_equal.
    destruct c as [rows n dt t]. unfold keeps_dim in Hk. cbn in *. f_equal.
    destruct rows; [destruct Hk; [congruence|contradiction]|reflexivity].
  Qed.

  (** *** values *)

  Lemma c_values_ok c axis k :
    wf c -> py_index (c_ndim c) axis k ->
    exists col, c_values c axis = Ok col /\ length col = c_size c /\
      forall i r, nth_error (c_rows c) i = Some r -> nth_error col i = nth_error r k.
  Proof.
    intros (Hn & Hr & _) [H1 H2]. unfold c_values.
    destruct (Z.leb_spec (Z.of_nat (c_ndim c)) axis); [lia|].
    rewrite (proj2 (norm_index_some _ _ k)) by (split; assumption).
    eexists. split; [reflexivity|]. split; [apply map_length|].
    intros i r Hi. rewrite nth_error_map, Hi. cbn. symmetry. apply nth_error_nth'.
    rewrite (Hr r) by (eapply nth_error_In; eauto). assumption.
  Qed.

  Lemma rows_from_columns c :
    wf c ->
    map (fun i => map (fun col => nth i col n0) (c_values_all c)) (seq 0 (c_size c)) = c_rows c.
  Proof.
    intros (Hn & Hr & _). apply nth_error_ext_list. intros i.
    rewrite nth_error_map. destruct (Nat.lt_ge_cases i (c_size c)) as [Hi|Hi].
    - rewrite (nth_error_nth' _ 0) by (rewrite seq_length; assumption). rewrite seq_nth by assumption.
      cbn [option_map plus]. destruct (nth_error_ex (c_rows c) i Hi) as [r Er]. rewrite Er. f_equal.
      apply nth_error_ext_list. intros k. unfold c_values_all. rewrite map_map, nth_error_map.
      apply nth_error_In in Er as Hin. apply Hr in Hin.
      destruct (Nat.lt_ge_cases k (c_ndim c)) as [Hk|Hk].
      + rewrite (nth_error_nth' _ 0) by (rewrite seq_length; assumption). rewrite seq_nth by assumption.
        cbn [option_map plus].
        rewrite (nth_indep _ n0 (nth k [] n0)) by (rewrite map_length; assumption).
        rewrite (map_nth (fun r => nth k r n0)).
        rewrite (nth_error_nth _ _ _ Er). symmetry. apply nth_error_nth'. lia.
      + rewrite (proj2 (nth_error_None (seq 0 (c_ndim c)) k)) by (rewrite seq_length; lia).
        rewrite (proj2 (nth_error_None r k)) by lia. reflexivity.
    - rewrite (proj2 (nth_error_None (seq 0 (c_size c)) i)) by (rewrite seq_length; lia).
      rewrite (proj2 (nth_error_None (c_rows c) i)) by assumption. reflexivity.
  Qed.

  (** Curve([values(0), ..., values(n-1)]) rebuilds the points. *)
  Lemma rebuild_from_values c :
    wf c -> c_rows c <> [] ->
    curve_init (SSeq (mkNd [c_ndim c; c_size c] (concat (c_values_all c)))) None None None None
    = Ok (mkCurve (c_rows c) (c_ndim c) DFloat None).
  Proof.
    intros Hwf Hne. pose proof Hwf as (Hn & Hr & _). unfold curve_init.
    change (2 <? 2)%Z with false. cbv iota.
    assert (Hl : length (c_values_all c) = c_ndim c)
      by (unfold c_values_all; rewrite map_length, seq_length; reflexivity).
    assert (Hsz : c_size c <> 0) by (unfold c_size; destruct (c_rows c); [contradiction|discriminate]).
    rewrite <- Hl at 1. rewrite (as2d_transpose _ _ n0).
    - cbn [rbind]. rewrite rows_from_columns by assumption. rewrite map_cast_float, Hl.
      fold (c_size c).
      destruct (Nat.eqb_spec (c_size c * c_ndim c) 0) as [E|E]; [nia|].
      fold (c_size c). destruct (Nat.eqb_spec (c_size c * c_ndim c) 0) as [|_]; [contradiction|].
      destruct (Nat.ltb_spec (c_ndim c) 2); [lia|]. reflexivity.
    - intros r H. unfold c_values_all in H. apply in_map_iff in H. destruct H as (k & <- & _).
      apply map_length.
    - rewrite Hl. nia.
  Qed.

  (** *** insertdim / deletedim *)

  Lemma c_insertdim_ok c axis k vals :
    wf c -> c_dtype c = DFloat -> k <= c_ndim c ->
    (axis = Z.of_nat k \/ (axis < 0 /\ axis = Z.of_nat k - Z.of_nat (c_ndim c)))%Z ->
    length vals = c_size c -> c_rows c <> [] ->
    c_insertdim c axis (Some vals)
    = Ok (mkCurve (map (fun '(r, v) => firstn k r ++ v :: skipn k r) (combine (c_rows c) vals))
            (S (c_ndim c)) DFloat None).
  Proof.
    intros (Hn & Hr & _) Hd Hk Hax Hl Hne. unfold c_insertdim.
    destruct ((axis <? - Z.of_nat (c_ndim c)) || (Z.of_nat (c_ndim c) <? axis))%Z eqn:Eb.
    { apply orb_true_iff in Eb. lia. }
    rewrite Hd. replace (map (cast DFloat) vals) with vals by (symmetry; apply map_id).
    rewrite Hl, Nat.eqb_refl. cbn [rbind].
    replace (Z.to_nat _) with k by (destruct (Z.ltb_spec axis 0); lia).
    rewrite mk_curve_ok; [|lia| |discriminate].
    - f_equal. f_equal. unfold c_size in Hl. destruct (c_rows c); [contradiction|].
      destruct vals; [discriminate Hl|]. reflexivity.
    - intros r H. apply in_map_iff in H. destruct H as ([r0 v] & <- & H).
      apply in_combine_l in H. apply Hr in H. rewrite app_length. cbn [length].
      rewrite firstn_length, skipn_length. lia.
  Qed.

  Lemma c_insertdim_raise c axis v :
    (axis < - Z.of_nat (c_ndim c) \/ Z.of_nat (c_ndim c) < axis)%Z ->
    c_insertdim c axis v = Raise IndexError.
  Proof.
    intros H. unfold c_insertdim.
    destruct ((axis <? - Z.of_nat (c_ndim c)) || (Z.of_nat (c_ndim c) <? axis))%Z eqn:Eb; [reflexivity|].
    apply orb_false_iff in Eb. lia.
  Qed.

  Lemma keep_one_others k q : (forall x, In x q -> x <> k) ->
    map (fun k0 => negb (mem_nat k0 [k])) q = repeat true (length q).
  Proof.
    induction q as [|y q IH]; intros Hq; [reflexivity|]. cbn [map length repeat].
    rewrite IH by (intros; apply Hq; right; assumption). f_equal.
    apply negb_true_iff, mem_nat_false. cbn. intros [Ey|[]]. apply (Hq y); [left; reflexivity|auto].
  Qed.

  Lemma keep_mask_one n k : k < n ->
    keep_mask n [k] = repeat true k ++ false :: repeat true (n - S k).
  Proof.
    intros H. unfold keep_mask.
    replace n with (k + S (n - S k)) at 1 by lia. rewrite seq_app, map_app. cbn [plus seq map].
    f_equal; [|f_equal].
    - rewrite keep_one_others by (intros y Hy; apply in_seq in Hy; lia). rewrite seq_length. reflexivity.
    - apply negb_false_iff, mem_nat_iff. left. reflexivity.
    - rewrite keep_one_others by (intros y Hy; apply in_seq in Hy; lia). rewrite seq_length. reflexivity.
  Qed.

  Lemma mask_select_remove {A} (l : list A) k :
    k < length l -> mask_select l (keep_mask (length l) [k]) = firstn k l ++ skipn (S k) l.
  Proof.
    intros H. rewrite keep_mask_one by assumption.
    destruct (nth_error_ex l k H) as [a Ha]. rewrite (split_at _ _ _ Ha) at 1.
    assert (Hf : length (firstn k l) = k) by (rewrite firstn_length; lia).
    rewrite mask_select_app by (rewrite repeat_length; lia).
    rewrite <- Hf at 2. rewrite mask_select_all. f_equal. cbn [mask_select].
    replace (length l - S k) with (length (skipn (S k) l)) by (rewrite skipn_length; lia).
    apply mask_select_all.
  Qed.

  Lemma filter_id_keep_one n k : k < n -> length (filter id (keep_mask n [k])) = n - 1.
  Proof.
    intros H. rewrite keep_mask_one by assumption. rewrite filter_app, app_length. cbn [filter id].
    assert (G : forall m, length (filter id (repeat true m)) = m)
      by (induction m; cbn; congruence).
    unfold id at 2. rewrite !G. lia.
  Qed.

  Lemma c_deletedim_int_ok c axis k :
    wf c -> py_index (c_ndim c) axis k -> c_ndim c <> 2 -> c_rows c <> [] ->
    c_deletedim c (IxInt axis)
    = Ok (mkCurve (map (fun r => firstn k r ++ skipn (S k) r) (c_rows c)) (c_ndim c - 1) (c_dtype c) None).
  Proof.
    intros (Hn & Hr & _) Hk H2 Hne. unfold c_deletedim.
    destruct (Nat.eqb_spec (c_ndim c) 2); [contradiction|].
    cbn [indexer_positions]. unfold norm_indices. cbn [map rseq].
    rewrite (proj2 (norm_index_some _ _ _) Hk). cbn [rbind].
    assert (Hkn : k < c_ndim c) by apply Hk.
    rewrite filter_id_keep_one by assumption.
    replace (map (fun r => mask_select r (keep_mask (c_ndim c) [k])) (c_rows c))
      with (map (fun r => firstn k r ++ skipn (S k) r) (c_rows c)).
    2:{ apply map_ext_in. intros r H. apply Hr in H. rewrite <- H. symmetry. apply mask_select_remove. lia. }
    rewrite mk_curve_ok; [|lia| |discriminate].
    - f_equal. f_equal. destruct (c_rows c); [contradiction|]. reflexivity.
    - intros r H. apply in_map_iff in H. destruct H as (r0 & <- & H). apply Hr in H.
      rewrite app_length, firstn_length, skipn_length. lia.
  Qed.

  Lemma remove_inserted {A} k (r : list A) v :
    k <= length r ->
    firstn k (firstn k r ++ v :: skipn k r) ++ skipn (S k) (firstn k r ++ v :: skipn k r) = r.
  Proof.
    intros H. assert (Hf : length (firstn k r) = k) by (rewrite firstn_length; lia).
    rewrite firstn_app, Hf, Nat.sub_diag, firstn_O, app_nil_r.
    rewrite (firstn_all2 (firstn k r)) by lia.
    rewrite skipn_app, Hf. rewrite (skipn_all2 (firstn k r)) by lia.
    replace (S k - k) with 1 by lia. cbn. apply firstn_skipn.
  Qed.

  Lemma insertdim_deletedim c axis k vals :
    wf c -> c_dtype c = DFloat -> k <= c_ndim c ->
    (axis = Z.of_nat k \/ (axis < 0 /\ axis = Z.of_nat k - Z.of_nat (c_ndim c)))%Z ->
    length vals = c_size c -> c_rows c <> [] ->
    exists c1, c_insertdim c axis (Some vals) = Ok c1 /\
      c_deletedim c1 (IxInt (Z.of_nat k)) = Ok (mkCurve (c_rows c) (c_ndim c) (c_dtype c) None).
  Proof.
    intros Hwf Hd Hk Hax Hl Hne. eexists. split; [apply c_insertdim_ok; eassumption|].
    pose proof Hwf as (Hn & Hr & _).
    assert (Hcomb : length (combine (c_rows c) vals) = c_size c)
      by (rewrite combine_length; unfold c_size in *; lia).
    rewrite (c_deletedim_int_ok _ _ k).
    - cbn [c_rows c_ndim c_dtype]. f_equal. rewrite Hd. f_equal; [|lia].
      rewrite map_map.
      transitivity (map fst (combine (c_rows c) vals)).
      + apply map_ext_in. intros [r v] H. apply in_combine_l in H. apply Hr in H.
        apply (remove_inserted k r v). rewrite H. exact Hk.
      + clear - Hl. unfold c_size in Hl. revert vals Hl. induction (c_rows c) as [|r l IH]; intros [|v vals] Hl; cbn in *; try lia; [reflexivity|].
        f_equal. apply IH. lia.
    - split; [|split]; cbn [c_ndim c_rows c_t]; [lia| |discriminate].
      intros p H. apply in_map_iff in H. destruct H as ([r0 v] & <- & H).
      apply in_combine_l in H. apply Hr in H. rewrite app_length. cbn [length].
      rewrite firstn_length, skipn_length. lia.
    - cbn [c_ndim]. split; [lia|auto].
    - cbn [c_ndim]. lia.
    - cbn [c_rows]. intros E. apply map_eq_nil in E. rewrite E in Hcomb. cbn in Hcomb.
      unfold c_size in Hcomb. destruct (c_rows c); [contradiction|discriminate].
  Qed.

  (** *** subcurve *)

  Lemma subcurve_ok c i j :
    wf c -> i <= j -> j < c_size c ->
    exists c', subcurve c (Z.of_nat i) (Z.of_nat j) true = Ok c'
      /\ selects c (seq i (j - i + 1)) c' /\ wf c'.
  Proof.
    intros Hwf Hij Hj. unfold subcurve.
    destruct (getitem_slice_ok c (mkSlice (Some (Z.of_nat i)) (Some (Z.of_nat j + 1)%Z) None) Hwf)
      as (c' & H & S & W); [discriminate|].
    exists c'. split; [assumption|]. split; [|assumption].
    rewrite slice_spec_run in S. cbv zeta in S. unfold bound, clip in S.
    destruct (Z.ltb_spec (Z.of_nat i) 0); [lia|]. destruct (Z.ltb_spec (Z.of_nat j + 1) 0); [lia|].
    replace (seq i (j - i + 1)) with
      (seq (Z.to_nat (Z.max 0 (Z.min (Z.of_nat (c_size c)) (Z.of_nat i))))
          (Z.to_nat (Z.max 0 (Z.min (Z.of_nat (c_size c)) (Z.of_nat j + 1))) -
           Z.to_nat (Z.max 0 (Z.min (Z.of_nat (c_size c)) (Z.of_nat i)))))
      by (f_equal; lia).
    assumption.
  Qed.

  Lemma subcurve_open_ok c i j :
    wf c -> i <= j -> j < c_size c ->
    exists c', subcurve c (Z.of_nat i) (Z.of_nat j) false = Ok c'
      /\ selects c (seq i (j - i)) c' /\ wf c'.
  Proof.
    intros Hwf Hij Hj. unfold subcurve.
    destruct (getitem_slice_ok c (mkSlice (Some (Z.of_nat i)) (Some (Z.of_nat j + 0)%Z) None) Hwf)
      as (c' & H & S & W); [discriminate|].
    exists c'. split; [assumption|]. split; [|assumption].
    rewrite slice_spec_run in S. cbv zeta in S. unfold bound, clip in S.
    destruct (Z.ltb_spec (Z.of_nat i) 0); [lia|]. destruct (Z.ltb_spec (Z.of_nat j + 0) 0); [lia|].
    replace (seq i (j - i)) with
      (seq (Z.to_nat (Z.max 0 (Z.min (Z.of_nat (c_size c)) (Z.of_nat i))))
          (Z.to_nat (Z.max 0 (Z.min (Z.of_nat (c_size c)) (Z.of_nat j + 0))) -
           Z.to_nat (Z.max 0 (Z.min (Z.of_nat (c_size c)) (Z.of_nat i)))))
      by (f_equal; lia).
    assumption.
  Qed.
End Gen2.
