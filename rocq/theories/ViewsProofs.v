(** Proofs about CurvePoint and CurveSegment objects. *)
From Coq Require Import ZArith List Bool Arith Lia Reals Lra.
From Verif Require Import Num Py Numeric Curve Vec Geom DiffGeom Views Spec GeomSpec.
From Verif Require Import ListFacts SliceProofs ArrayProofs VecFacts CurveProofs CurveProofs2 CurveProofs3 GeomProofs DiffGeomProofs DiffGeomProofs4.
Import ListNotations.
Local Open Scope list_scope.

Section Gen.
  Context {T : Type} {NT : Num T} {ST : NumSqrt T}.
  Implicit Types r : cref T.

  (** The number of points of the curve of a view. *)
  Definition rf_len r : Z := Z.of_nat (c_size (rf_curve r)).
  (** The position an index means, counted around the curve. *)
  Definition around r (i : Z) : nat := Z.to_nat (i mod rf_len r).

  Lemma around_lt r i : (0 < rf_len r)%Z -> around r i < c_size (rf_curve r).
  Proof. intros H. unfold around. pose proof (Z.mod_pos_bound i _ H). unfold rf_len in *. lia. Qed.

  Lemma cp_new_ok r i : (- 2 * rf_len r <= i < rf_len r)%Z ->
    exists x, nth_error (c_rows (rf_curve r)) (around r i) = Some x /\
      cp_new r i = Ok (mkCPoint r (if (i <? 0)%Z then rf_len r + i else i)%Z x).
  Proof.
    intros H. assert (P : (0 < rf_len r)%Z) by lia. pose proof (around_lt r i P) as L.
    destruct (nth_error (c_rows (rf_curve r)) (around r i)) as [x|] eqn:E; [|apply nth_error_None in E; unfold c_size in L; lia].
    exists x. split; [reflexivity|]. unfold cp_new, getitem_int. fold (rf_len r).
    set (j := if (i <? 0)%Z then (rf_len r + i)%Z else i).
    destruct (np_get_wrapped (c_rows (rf_curve r)) (c_size (rf_curve r)) (around r i) j eq_refl L) as (y & Ey & Gy).
    - fold (rf_len r). unfold around. rewrite Z2Nat.id by (apply Z.mod_pos_bound; assumption).
      unfold j. destruct (Z.ltb_spec i 0).
      + destruct (Z.ltb_spec i (- rf_len r)).
        * right. rewrite <- (Z.mod_unique i (rf_len r) (-2) (i + 2 * rf_len r)); lia.
        * left. rewrite <- (Z.mod_unique i (rf_len r) (-1) (i + rf_len r)); lia.
      + left. rewrite Z.mod_small; lia.
    - rewrite Gy. cbn [rbind fst snd]. congruence.
  Qed.

  Lemma cp_new_raise r i : ~ (- 2 * rf_len r <= i < rf_len r)%Z -> cp_new r i = Raise IndexError.
  Proof. intros H. unfold cp_new. rewrite getitem_int_raise; [reflexivity|]. unfold rf_len in H. lia. Qed.

  Lemma cp_new_inv r i p : cp_new r i = Ok p ->
    (- 2 * rf_len r <= i < rf_len r)%Z /\
    exists x, nth_error (c_rows (rf_curve r)) (around r i) = Some x /\ p = mkCPoint r (if (i <? 0)%Z then rf_len r + i else i)%Z x.
  Proof.
    intros H.
    assert (B : (- 2 * rf_len r <= i < rf_len r)%Z).
    { destruct (Z_le_gt_dec (- 2 * rf_len r) i) as [?|?]; [destruct (Z_lt_ge_dec i (rf_len r)) as [?|?]; [lia|]|];
        rewrite cp_new_raise in H by lia; discriminate. }
    split; [assumption|]. destruct (cp_new_ok r i B) as (x & E & Q). exists x. split; [assumption|]. congruence.
  Qed.

  Lemma around_stored r i : (- 2 * rf_len r <= i < rf_len r)%Z -> around r (if (i <? 0)%Z then rf_len r + i else i)%Z = around r i.
  Proof.
    intros H. unfold around. destruct (i <? 0)%Z; [|reflexivity]. f_equal.
    rewrite <- (Z_mod_plus_full i 1 (rf_len r)). f_equal. lia.
  Qed.

  Lemma cp_copy_spec r i p : cp_new r i = Ok p ->
    cp_copy p = Ok (mkCPoint r (Z.of_nat (around r i)) (cp_data p)).
  Proof.
    intros H. destruct (cp_new_inv r i p H) as (B & x & E & ->). unfold cp_copy. cbn [cp_ref cp_idx cp_data].
    set (j := if (i <? 0)%Z then (rf_len r + i)%Z else i) in *.
    destruct (cp_new_ok r j) as (y & Ey & Gy); [unfold j; destruct (Z.ltb_spec i 0); lia|]. rewrite Gy.
    pose proof (around_stored r i B) as A. fold j in A. rewrite A in Ey. rewrite E in Ey. injection Ey as <-.
    f_equal. f_equal. unfold around. rewrite Z2Nat.id by (apply Z.mod_pos_bound; lia).
    unfold j. destruct (Z.ltb_spec i 0).
    - destruct (Z.ltb_spec (rf_len r + i) 0).
      + apply (Z.mod_unique i (rf_len r) (-2)); lia.
      + apply (Z.mod_unique i (rf_len r) (-1)); lia.
    - destruct (Z.ltb_spec i 0); [lia|]. rewrite Z.mod_small; lia.
  Qed.

  Lemma cp_new_nonneg r k : k < c_size (rf_curve r) ->
    exists x, nth_error (c_rows (rf_curve r)) k = Some x /\ cp_new r (Z.of_nat k) = Ok (mkCPoint r (Z.of_nat k) x).
  Proof.
    intros H. destruct (cp_new_ok r (Z.of_nat k)) as (x & E & Q); [unfold rf_len; lia|].
    exists x. replace (around r (Z.of_nat k)) with k in E by (unfold around; rewrite Z.mod_small by (unfold rf_len; lia); lia).
    split; [assumption|]. rewrite Q. destruct (Z.ltb_spec (Z.of_nat k) 0); [lia|reflexivity].
  Qed.

  Lemma stored_wraps r i : (- 2 * rf_len r <= i < rf_len r)%Z ->
    let j := (if (i <? 0)%Z then rf_len r + i else i)%Z in
    (j = Z.of_nat (around r i) \/ j = Z.of_nat (around r i) - rf_len r)%Z /\ ((j < 0)%Z <-> (i < - rf_len r)%Z).
  Proof.
    intros B j. unfold around. rewrite Z2Nat.id by (apply Z.mod_pos_bound; lia). unfold j. destruct (Z.ltb_spec i 0).
    - destruct (Z.ltb_spec i (- rf_len r)).
      + split; [right|lia]. rewrite <- (Z.mod_unique i (rf_len r) (-2) (i + 2 * rf_len r)); lia.
      + split; [left|lia]. rewrite <- (Z.mod_unique i (rf_len r) (-1) (i + rf_len r)); lia.
    - split; [left|lia]. rewrite Z.mod_small; lia.
  Qed.

  Lemma wf_nonempty_bool r i : wf (rf_curve r) -> (- 2 * rf_len r <= i < rf_len r)%Z -> c_bool (rf_curve r) = true.
  Proof. intros W B. apply c_bool_wf; [assumption|]. intros N. unfold rf_len, c_size in B. rewrite N in B. cbn in B. lia. Qed.

  Lemma tval_length junk (c : curve T) : wf c -> c_bool c = true -> length (c_tval junk c) = c_size c.
  Proof.
    intros (_ & _ & Ht) B. unfold c_tval. destruct (c_t c) eqn:E; [apply Ht; reflexivity|apply gen_cumarclen; assumption].
  Qed.

  Lemma cp_t_spec junk r i p : wf (rf_curve r) -> cp_new r i = Ok p ->
    exists x, cp_t junk p = Ok x /\ nth_error (c_tval junk (rf_curve r)) (around r i) = Some x.
  Proof.
    intros W H. destruct (cp_new_inv r i p H) as (B & x & E & ->). unfold cp_t. cbn [cp_ref cp_idx].
    destruct (np_get_wrapped (c_tval junk (rf_curve r)) (c_size (rf_curve r)) (around r i) (if (i <? 0)%Z then rf_len r + i else i)%Z) as (y & Ey & Gy).
    - apply tval_length; [assumption|]. apply (wf_nonempty_bool r i); assumption.
    - apply around_lt. lia.
    - apply (stored_wraps r i B).
    - exists y. split; assumption.
  Qed.

  Lemma point_prop_around junk r i p q : wf (rf_curve r) -> cp_new r i = Ok p ->
    point_prop junk (rf_curve r) (cp_idx p) q = point_prop junk (rf_curve r) (Z.of_nat (around r i)) q.
  Proof.
    intros W H. destruct (cp_new_inv r i p H) as (B & x & E & ->). cbn [cp_idx]. unfold point_prop.
    destruct (curve_prop junk (rf_curve r) _) as [a|e] eqn:P; cbn [rbind]; [|reflexivity].
    pose proof (wf_nonempty_bool r i W B) as Bb. destruct (prop_entries junk (rf_curve r) _ a W Bb P) as (L & N).
    assert (K : around r i < c_size (rf_curve r)) by (apply around_lt; lia).
    destruct a as [v|m|ax]; cbn [entries arr_get] in *; [| |destruct (N ax eq_refl)].
    - destruct (np_get_wrapped v (c_size (rf_curve r)) (around r i) _ L K (proj1 (stored_wraps r i B))) as (y & Ey & ->).
      destruct (np_get_wrapped v (c_size (rf_curve r)) (around r i) (Z.of_nat (around r i)) L K (or_introl eq_refl)) as (z & Ez & ->). congruence.
    - destruct (np_get_wrapped m (c_size (rf_curve r)) (around r i) _ L K (proj1 (stored_wraps r i B))) as (y & Ey & ->).
      destruct (np_get_wrapped m (c_size (rf_curve r)) (around r i) (Z.of_nat (around r i)) L K (or_introl eq_refl)) as (z & Ez & ->). congruence.
  Qed.

  (** Where a sub-curve ends (exclusive). *)
  Definition stop_of r (j : Z) (endpoint : bool) : nat :=
    if endpoint then (if (j =? - rf_len r - 1)%Z then 0 else S (around r j)) else around r j.

  Lemma cp_subcurve_spec r i j p o endpoint : wf (rf_curve r) -> cp_new r i = Ok p -> cp_new r j = Ok o ->
    exists c', cp_subcurve p (PAView o) endpoint = Ok c' /\
      selects (rf_curve r) (seq (around r i) (stop_of r j endpoint - around r i)) c' /\ wf c'.
  Proof.
    intros W Hp Ho. destruct (cp_new_inv r i p Hp) as (Bi & x & _ & ->). destruct (cp_new_inv r j o Ho) as (Bj & y & _ & ->).
    unfold cp_subcurve. cbn [cp_ref cp_idx]. rewrite Nat.eqb_refl. cbn [negb]. unfold subcurve.
    set (a := (if (i <? 0)%Z then rf_len r + i else i)%Z). set (b := (if (j <? 0)%Z then rf_len r + j else j)%Z).
    destruct (stored_wraps r i Bi) as (Ha & Ha'). destruct (stored_wraps r j Bj) as (Hb & Hb'). fold a in Ha, Ha'. fold b in Hb, Hb'.
    pose proof (around_lt r i ltac:(lia)) as Li. pose proof (around_lt r j ltac:(lia)) as Lj.
    destruct (getitem_slice_ok (rf_curve r) (mkSlice (Some a) (Some (b + (if endpoint then 1 else 0))%Z) None) W) as (c' & H & S & Wc); [discriminate|].
    exists c'. split; [assumption|]. split; [|assumption].
    rewrite slice_spec_run in S. cbv zeta in S. unfold bound, clip in S.
    fold (rf_len r) in S.
    match type of S with selects _ (seq ?u ?v) _ => assert (Hu : u = around r i) by (unfold rf_len in *; destruct (Z.ltb_spec a 0); lia);
      assert (Hv : v = stop_of r j endpoint - around r i) end.
    - rewrite Hu. f_equal. unfold stop_of. destruct endpoint.
      + destruct (Z.eqb_spec j (- rf_len r - 1)) as [Ej|Ej].
        * replace (b + 1)%Z with 0%Z by (unfold b; destruct (Z.ltb_spec j 0); lia). cbn. unfold rf_len. lia.
        * assert (b <> -1)%Z by (unfold b; destruct (Z.ltb_spec j 0); lia).
          unfold rf_len in *. destruct (Z.ltb_spec (b + 1) 0); lia.
      + unfold rf_len in *. destruct (Z.ltb_spec (b + 0) 0); lia.
    - rewrite Hv, Hu in S. assumption.
  Qed.

  (** The stored index of CurveSegment(curve, i). *)
  Definition seg_stored r (i : Z) : Z := if (i <? 0)%Z then (rf_len r - 1 + i)%Z else i.

  Lemma cs_new_spec r i : (1 <= rf_len r)%Z ->
    ((- 2 * rf_len r <= seg_stored r i < rf_len r - 1)%Z ->
       exists p q, cp_new r (seg_stored r i) = Ok p /\ cp_new r (seg_stored r i + 1) = Ok q /\
         cs_new r i = Ok (mkCSeg r (seg_stored r i) p q)) /\
    ((rf_len r - 1 <= seg_stored r i)%Z -> cs_new r i = Raise ValueError) /\
    ((seg_stored r i < - 2 * rf_len r)%Z -> cs_new r i = Raise IndexError).
  Proof.
    intros H1. unfold cs_new. cbv zeta. fold (rf_len r). fold (seg_stored r i). repeat split.
    - intros H. destruct (Z.leb_spec (rf_len r - 1) (seg_stored r i)); [lia|].
      destruct (cp_new_ok r (seg_stored r i)) as (x & _ & E); [lia|]. rewrite E. cbn [rbind].
      destruct (cp_new_ok r (seg_stored r i + 1)) as (y & _ & F); [lia|]. rewrite F. cbn [rbind].
      eexists. eexists. repeat split; reflexivity.
    - intros H. destruct (Z.leb_spec (rf_len r - 1) (seg_stored r i)); [reflexivity|lia].
    - intros H. destruct (Z.leb_spec (rf_len r - 1) (seg_stored r i)); [lia|]. rewrite cp_new_raise by lia. reflexivity.
  Qed.
End Gen.
