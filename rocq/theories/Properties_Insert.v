(** Properties C65 (insertion at several places) and C66 (iteration). *)
From Coq Require Import ZArith List Bool Arith Lia QArith.
From Verif Require Import Num Py Numeric Point Curve Iter Spec Fixtures.
From Verif Require Import ListFacts SliceProofs CurveProofs InsertProofs.
Import ListNotations.
Local Open Scope nat_scope.

(** ** C65 Insertion at several places *)

Section Insert.
  Context {T : Type} {NT : Num T}.

  Lemma inserted_in {A} (l : list A) ks vals a : In a (inserted l ks vals) -> In a l \/ In a vals.
  Proof.
    unfold inserted. intros H. apply in_flat_map in H. destruct H as (j & _ & H).
    apply in_app_iff in H. destruct H as [H|H].
    - right. apply in_map_iff in H. destruct H as ((k, v) & <- & H). apply filter_In in H.
      destruct H as [H _]. exact (in_combine_r _ _ _ _ H).
    - left. rewrite <- (firstn_skipn j l). apply in_app_iff. right.
      rewrite <- (firstn_skipn 1 (skipn j l)). apply in_app_iff. left. assumption.
  Qed.

  Lemma c_insert_rows c ix x rows :
    wf c -> (forall c2, x = ICurve c2 -> wf c2) -> c_ndim c = item_ndim x ->
    np_insert_ix (c_rows c) ix (map (map (cast (c_dtype c))) (item_rows x)) = Ok rows ->
    (forall r, In r rows -> In r (c_rows c) \/ In r (map (map (cast (c_dtype c))) (item_rows x))) ->
    exists c', c_insert c ix x = Ok c' /\ c_rows c' = rows /\ c_t c' = None /\ c_dtype c' = c_dtype c
      /\ (c_rows c' <> [] -> c_ndim c' = c_ndim c) /\ wf c'.
  Proof.
    intros Hwf Hx E H Hin. unfold c_insert. rewrite E, Nat.eqb_refl. cbn [negb]. rewrite H. cbn [rbind].
    assert (Hr : forall r, In r rows -> length r = c_ndim c).
    { intros r Hr. destruct (Hin r Hr) as [H0|H0].
      - apply Hwf. assumption.
      - exact (new_rows_length c x r Hx E H0). }
    rewrite <- E. rewrite mk_curve_ok; [|apply Hwf|exact Hr|discriminate].
    eexists. split; [reflexivity|]. cbn [c_rows c_t c_dtype c_ndim].
    split; [reflexivity|]. split; [reflexivity|]. split; [reflexivity|]. split.
    - intros H0. destruct rows; [contradiction|reflexivity].
    - apply wf_mk; [apply Hwf|exact Hr|discriminate].
  Qed.
End Insert.

(** One point of the inserted curve per index: the i-th point of [x] ends up
    immediately before the point the i-th index refers to. *)
Theorem C65_insert_at_indices :
  forall (T : Type) (NT : Num T) (c : curve T) (is : list Z) (ks : list nat) (x : item T),
    wf c -> (forall c2, x = ICurve c2 -> wf c2) -> c_ndim c = item_ndim x ->
    Forall2 (insert_index (c_size c)) is ks -> length (item_rows x) = length is ->
    exists c', c_insert c (Py.IxList is) x = Ok c' /\
      c_rows c' = inserted (c_rows c) ks (map (map (cast (c_dtype c))) (item_rows x))
      /\ c_t c' = None /\ c_dtype c' = c_dtype c
      /\ (c_rows c' <> [] -> c_ndim c' = c_ndim c) /\ wf c'.
Proof.
  intros T NT c is ks x Hwf Hx E F Hl. apply c_insert_rows; try assumption.
  - assert (M : np_insert_many (c_rows c) is (map (map (cast (c_dtype c))) (item_rows x))
                = Ok (inserted (c_rows c) ks (map (map (cast (c_dtype c))) (item_rows x)))).
    { apply np_insert_many_ok; [assumption|]. rewrite map_length. assumption. }
    cbn [np_insert_ix]. destruct is as [|i [|i2 is]]; [exact M| |exact M].
    (* a single index: numpy.insert of the one row *)
    destruct (item_rows x) as [|r [|r2 rs]]; try discriminate. cbn [map].
    inversion F as [|i0 k0 is0 ks0 H F0]; subst. inversion F0; subst.
    unfold np_insert. fold (c_size c). destruct H as [Hk Hi].
    destruct ((i <? - Z.of_nat (c_size c)) || (Z.of_nat (c_size c) <? i))%Z eqn:Eb.
    { apply orb_true_iff in Eb. lia. }
    replace (Z.to_nat _) with k0 by (destruct (Z.ltb_spec i 0); lia).
    f_equal. symmetry. apply inserted_one. exact Hk.
  - intros r Hr. exact (inserted_in _ _ _ _ Hr).
Qed.
Print Assumptions C65_insert_at_indices.

(** One point (or a curve of one point) is inserted at every index. *)
Theorem C65_insert_point_at_indices :
  forall (T : Type) (NT : Num T) (c : curve T) (is : list Z) (ks : list nat) (x : item T) (p : list T),
    wf c -> (forall c2, x = ICurve c2 -> wf c2) -> c_ndim c = item_ndim x -> item_rows x = [p] ->
    Forall2 (insert_index (c_size c)) is ks -> length is <> 1 ->
    exists c', c_insert c (Py.IxList is) x = Ok c' /\
      c_rows c' = inserted (c_rows c) ks (repeat (map (cast (c_dtype c)) p) (length is))
      /\ c_t c' = None /\ c_dtype c' = c_dtype c
      /\ (c_rows c' <> [] -> c_ndim c' = c_ndim c) /\ wf c'.
Proof.
  intros T NT c is ks x p Hwf Hx E Hp F Hl. apply c_insert_rows; try assumption.
  - rewrite Hp. cbn [map np_insert_ix].
    pose proof (np_insert_many_one (c_rows c) is ks (map (cast (c_dtype c)) p) F) as M.
    destruct is as [|i [|i2 is]]; [exact M|contradiction Hl; reflexivity|exact M].
  - intros r Hr. apply inserted_in in Hr. destruct Hr as [Hr|Hr]; [left; assumption|right].
    rewrite Hp. cbn. left. symmetry. exact (repeat_spec _ _ _ Hr).
Qed.
Print Assumptions C65_insert_point_at_indices.

(** A list of one index is that index: the whole of [x] is inserted there. *)
Theorem C65_one_index :
  forall (T : Type) (NT : Num T) (c : curve T) (i : Z) (x : item T),
    c_insert c (Py.IxList [i]) x = c_insert c (Py.IxInt i) x.
Proof. reflexivity. Qed.
Print Assumptions C65_one_index.

(** A slice stands for the positions it selects; a zero step is a ValueError. *)
Theorem C65_slice :
  forall (T : Type) (NT : Num T) (c : curve T) (s : slice) (x : item T),
    (s_step s <> Some 0%Z ->
     c_insert c (Py.IxSlice s) x = c_insert c (Py.IxList (map Z.of_nat (slice_spec s (c_size c)))) x
     /\ Forall2 (insert_index (c_size c)) (map Z.of_nat (slice_spec s (c_size c))) (slice_spec s (c_size c)))
    /\ (s_step s = Some 0%Z -> c_insert c (Py.IxSlice s) x = Raise ValueError).
Proof.
  intros T NT c s x. split; intros H.
  - split.
    + unfold c_insert. destruct (negb _); [reflexivity|]. cbn [np_insert_ix]. fold (c_size c).
      rewrite slice_positions_spec by assumption. reflexivity.
    + pose proof (slice_spec_bound s (c_size c)) as B.
      induction B as [|k ks Hk B IH]; [constructor|]. cbn [map]. constructor; [|assumption].
      split; [lia|left; reflexivity].
  - unfold c_insert. destruct (negb _); [reflexivity|]. cbn [np_insert_ix].
    rewrite slice_positions_zero by assumption. reflexivity.
Qed.
Print Assumptions C65_slice.

(** Neither one point nor as many points as indices: ValueError. *)
Theorem C65_count_error :
  forall (T : Type) (NT : Num T) (c : curve T) (is : list Z) (ks : list nat) (x : item T),
    Forall2 (insert_index (c_size c)) is ks -> length is <> 1 ->
    length (item_rows x) <> length is -> length (item_rows x) <> 1 ->
    c_insert c (Py.IxList is) x = Raise ValueError.
Proof.
  intros T NT c is ks x F H1 H2 H3. unfold c_insert. destruct (negb _); [reflexivity|].
  assert (M : np_insert_many (c_rows c) is (map (map (cast (c_dtype c))) (item_rows x)) = Raise ValueError).
  { apply np_insert_many_shape with ks; [assumption|rewrite map_length; assumption..]. }
  cbn [np_insert_ix]. destruct is as [|i [|i2 is]]; [rewrite M; reflexivity|contradiction H1; reflexivity|rewrite M; reflexivity].
Qed.
Print Assumptions C65_count_error.

(** An index above the size is an IndexError, wherever in the list it is. *)
Theorem C65_index_error_high :
  forall (T : Type) (NT : Num T) (c : curve T) (is : list Z) (x : item T),
    c_ndim c = item_ndim x -> (exists i, In i is /\ (Z.of_nat (c_size c) < i)%Z) ->
    c_insert c (Py.IxList is) x = Raise IndexError.
Proof.
  intros T NT c is x E (i & Hi & Hb). unfold c_insert. rewrite E, Nat.eqb_refl. cbn [negb np_insert_ix].
  assert (M : np_insert_many (c_rows c) is (map (map (cast (c_dtype c))) (item_rows x)) = Raise IndexError).
  { apply np_insert_many_high. exists i. split; assumption. }
  destruct is as [|i1 [|i2 is]]; [contradiction| |rewrite M; reflexivity].
  destruct Hi as [->|[]]. unfold np_insert. fold (c_size c).
  destruct (Z.ltb_spec (Z.of_nat (c_size c)) i); [|lia]. rewrite orb_true_r. reflexivity.
Qed.
Print Assumptions C65_index_error_high.

(** But with several indices one below -size is not always an IndexError: here
    it is accepted, and the point is put somewhere else. *)
Theorem C65_index_error_low_refuted :
  ~ (forall (c : curve Q) (is : list Z) (x : item Q), wf c -> c_ndim c = item_ndim x ->
       (exists i, In i is /\ (i < - Z.of_nat (c_size c))%Z) ->
       c_insert c (Py.IxList is) x = Raise IndexError).
Proof.
  intros H. specialize (H q4 [-6; 0]%Z (IPoint [9; 9]%Q)).
  assert (W : wf q4).
  { split; [cbn; lia|]. split.
    - intros p Hp. cbn in Hp. intuition (subst; reflexivity).
    - intros t Ht. injection Ht as <-. reflexivity. }
  specialize (H W eq_refl (ex_intro _ (-6)%Z (conj (or_introl eq_refl) eq_refl))).
  vm_compute in H. discriminate H.
Qed.
Print Assumptions C65_index_error_low_refuted.

(** The example of the documentation, two points at one index, and a point at
    every other position. *)
Example C65_ex :
  c_insert q4 (Py.IxList [1; 2]%Z) (ICurve q2)
  = Ok (mkCurve [[0; 0]; [5; 6]; [1; 0]; [7; 8]; [1; 1]; [1; 0]]%Q 2 DFloat None)
  /\ c_insert q4 (Py.IxList [4; -1; -1]%Z) (IPoint [9; 9]%Q)
     = Ok (mkCurve [[0; 0]; [1; 0]; [1; 1]; [9; 9]; [9; 9]; [1; 0]; [9; 9]]%Q 2 DFloat None)
  /\ c_insert q4 (Py.IxList [2; 0]%Z) (ICurve q2)
     = Ok (mkCurve [[7; 8]; [0; 0]; [1; 0]; [5; 6]; [1; 1]; [1; 0]]%Q 2 DFloat None)
  /\ c_insert q4 (Py.IxSlice (mkSlice None None (Some 2%Z))) (IPoint [9; 9]%Q)
     = Ok (mkCurve [[9; 9]; [0; 0]; [1; 0]; [9; 9]; [1; 1]; [1; 0]]%Q 2 DFloat None)
  /\ c_insert q4 (Py.IxList [0; 1; 2]%Z) (ICurve q2) = Raise ValueError
  /\ c_insert q4 (Py.IxList [5; 0]%Z) (ICurve q2) = Raise IndexError
  /\ c_insert q4 (Py.IxList [-6; 0]%Z) (ICurve q2)
     = Ok (mkCurve [[0; 0]; [7; 8]; [1; 0]; [1; 1]; [5; 6]; [1; 0]]%Q 2 DFloat None)
  /\ Forall2 (insert_index 4) [4; -1; -1]%Z [4; 3; 3].
Proof.
  split; [reflexivity|]. split; [reflexivity|]. split; [reflexivity|]. split; [reflexivity|].
  split; [reflexivity|]. split; [reflexivity|]. split; [reflexivity|].
  repeat constructor; cbn; lia.
Qed.

(** ** C66 Iteration *)

(** [k] calls of next() deliver the first [k] points with their indices, and
    the iteration ends after the last point, never earlier or later. *)
Theorem C66_curve_iteration :
  forall (T : Type) (c : curve T) (k : nat),
    let pts := combine (map Z.of_nat (seq 0 (c_size c))) (c_rows c) in
    curve_iter c k = (firstn k pts, if k <=? c_size c then Running else Ended).
Proof.
  intros T c k pts. unfold curve_iter.
  assert (G : forall k s, s <= c_size c ->
    iter_steps (getitem_int c) k (Z.of_nat s) = (firstn k (skipn s pts), if k + s <=? c_size c then Running else Ended)).
  { clear k. induction k as [|k IH]; intros s Hs.
    - cbn [iter_steps firstn plus]. destruct (Nat.leb_spec s (c_size c)); [reflexivity|lia].
    - cbn [iter_steps]. destruct (Nat.eq_dec s (c_size c)) as [->|N].
      + rewrite getitem_int_raise by lia.
        rewrite skipn_all2 by (unfold pts; rewrite combine_length, map_length, seq_length; lia).
        destruct (Nat.leb_spec (S k + c_size c) (c_size c)); [lia|reflexivity].
      + destruct (nth_error_ex (c_rows c) s) as (r & Hr); [unfold c_size in *; lia|].
        rewrite (getitem_int_ok c (Z.of_nat s) s r); [|split; [lia|left; reflexivity]|assumption].
        replace (Z.of_nat s + 1)%Z with (Z.of_nat (S s)) by lia. rewrite IH by lia.
        replace (k + S s) with (S k + s) by lia. f_equal.
        assert (Hn : nth_error pts s = Some (Z.of_nat s, r)).
        { unfold pts, c_size. clear -Hr. revert Hr. generalize (c_rows c).
          assert (G : forall l a s, nth_error l s = Some r ->
            nth_error (combine (map Z.of_nat (seq a (length l))) l) s = Some (Z.of_nat (a + s), r)).
          { induction l as [|x l IH]; intros a [|q] H; cbn [nth_error length seq map combine] in H |- *; try discriminate.
            - rewrite Nat.add_0_r. congruence.
            - rewrite (IH (S a) q H). do 2 f_equal. lia. }
          intros l H. exact (G l 0 s H). }
        clear -Hn. revert Hn. generalize pts. generalize (Z.of_nat s, r). clear. intros w. induction s as [|s IH]; intros [|x l] H; try discriminate.
        * cbn in H. injection H as ->. reflexivity.
        * cbn [skipn]. apply IH. exact H. }
  specialize (G k 0 ltac:(lia)). rewrite Nat.add_0_r in G. exact G.
Qed.
Print Assumptions C66_curve_iteration.

(** reversed(curve) delivers the same points, last first. *)
Theorem C66_curve_reversed :
  forall (T : Type) (c : curve T),
    curve_reversed c = Ok (rev (combine (map Z.of_nat (seq 0 (c_size c))) (c_rows c))).
Proof.
  intros T c. unfold curve_reversed, iter_reversed. apply rseq_ok_iff.
  rewrite !map_rev. f_equal.
  assert (G : forall l a, (forall k r, nth_error l k = Some r -> nth_error (c_rows c) (a + k) = Some r) ->
    map (fun k => getitem_int c (Z.of_nat k)) (seq a (length l))
    = map Ok (combine (map Z.of_nat (seq a (length l))) l)).
  { induction l as [|r l IH]; intros a H; [reflexivity|]. cbn [length seq map combine]. f_equal.
    - specialize (H 0 r eq_refl). rewrite Nat.add_0_r in H. apply getitem_int_ok; [|assumption].
      split; [|left; reflexivity]. unfold c_size. apply nth_error_Some. congruence.
    - apply IH. intros k r' Hk. specialize (H (S k) r' Hk). replace (S a + k) with (a + S k) by lia. assumption. }
  apply G. intros k r H. exact H.
Qed.
Print Assumptions C66_curve_reversed.

(** A point with a 1-D array delivers its coordinates. *)
Theorem C66_point_iteration :
  forall (T : Type) (NT : Num T) (p : point T) (u : list T) (k : nat), p_data p = A1 u ->
    point_iter p k = (firstn k (map VNum u), if k <=? length u then Running else Ended)
    /\ point_reversed p = Ok (map VNum (rev u)) /\ p_ndim p = length u.
Proof.
  intros T NT p u k Hp.
  assert (Hg : forall i, p_getitem p (IxInt i) = rmap VNum (np_get u i)).
  { intros i. unfold p_getitem. rewrite Hp. reflexivity. }
  assert (Hn : p_ndim p = length u) by (unfold p_ndim, arr_size; rewrite Hp; reflexivity).
  split; [|split; [|assumption]].
  - unfold point_iter.
    assert (G : forall k s, s <= length u ->
      iter_steps (fun i => p_getitem p (IxInt i)) k (Z.of_nat s)
      = (firstn k (map VNum (skipn s u)), if k + s <=? length u then Running else Ended)).
    { clear k. induction k as [|k IH]; intros s Hs.
      - cbn [iter_steps firstn plus]. destruct (Nat.leb_spec s (length u)); [reflexivity|lia].
      - cbn [iter_steps]. rewrite Hg. destruct (Nat.eq_dec s (length u)) as [->|N].
        + rewrite np_get_raise by lia. cbn [rmap].
          rewrite skipn_all2 by lia. destruct (Nat.leb_spec (S k + length u) (length u)); [lia|reflexivity].
        + destruct (nth_error_ex u s) as (a & Ha); [lia|]. rewrite (np_get_nat u s a Ha). cbn [rmap].
          replace (Z.of_nat s + 1)%Z with (Z.of_nat (S s)) by lia. rewrite IH by lia.
          replace (k + S s) with (S k + s) by lia. f_equal.
          clear -Ha. revert u Ha. induction s as [|s IH]; intros [|x u] H; try discriminate.
          * cbn in H. injection H as ->. reflexivity.
          * cbn [skipn]. apply IH. exact H. }
    specialize (G k 0 ltac:(lia)). rewrite Nat.add_0_r in G. exact G.
  - unfold point_reversed, iter_reversed. rewrite Hn. apply rseq_ok_iff.
    rewrite !map_rev. f_equal.
    assert (G : forall l a, (forall q x, nth_error l q = Some x -> nth_error u (a + q) = Some x) ->
      map (fun q => p_getitem p (IxInt (Z.of_nat q))) (seq a (length l)) = map Ok (map VNum l)).
    { induction l as [|x l IH]; intros a H; [reflexivity|]. cbn [length seq map]. f_equal.
      - specialize (H 0 x eq_refl). rewrite Nat.add_0_r in H. rewrite Hg, (np_get_nat u a x H). reflexivity.
      - apply IH. intros q y Hq. specialize (H (S q) y Hq). replace (S a + q) with (a + S q) by lia. assumption. }
    apply G. intros q x H. exact H.
Qed.
Print Assumptions C66_point_iteration.

(** A point made from one number has length 1 but delivers no coordinate;
    reversed() raises. *)
Theorem C66_scalar_point_refuted :
  forall (T : Type) (NT : Num T) (x : T) (k : nat), exists p, point_init (PNumber x) None = Ok p /\
    p_ndim p = 1 /\ point_iter p (S k) = ([], Ended) /\ point_reversed p = Raise IndexError.
Proof. intros T NT x k. eexists. split; [reflexivity|]. repeat split. Qed.
Print Assumptions C66_scalar_point_refuted.

Example C66_ex :
  curve_iter q2 1 = ([(0%Z, [5; 6]%Q)], Running)
  /\ curve_iter q2 2 = ([(0%Z, [5; 6]%Q); (1%Z, [7; 8]%Q)], Running)
  /\ curve_iter q2 7 = ([(0%Z, [5; 6]%Q); (1%Z, [7; 8]%Q)], Ended)
  /\ curve_reversed q2 = Ok [(1%Z, [7; 8]%Q); (0%Z, [5; 6]%Q)]
  /\ curve_iter qe3 1 = ([], Ended)
  /\ point_iter (mkPoint (A1 [3; 4]%Q) DFloat) 5 = ([VNum 3%Q; VNum 4%Q], Ended).
Proof. repeat split. Qed.
