(** Chord and arc length, gradient: proofs over the reals. *)
From Coq Require Import ZArith List Bool Arith Lia Reals Lra.
From Verif Require Import Num Py Numeric Curve Vec DiffGeom Spec GeomSpec ListFacts VecFacts GeomProofs.
Import ListNotations.
Local Open Scope R_scope.

(** ** Chord lengths *)

Lemma c_chordlen_rows {T} {NT : Num T} {ST : NumSqrt T} junk (c : curve T) : c_bool c = true -> c_chordlen junk c = chordlen_rows (c_rows c).
Proof. intros N. unfold c_chordlen. rewrite N. reflexivity. Qed.
Lemma c_bool_rows {T} (c : curve T) : c_bool c = true -> c_rows c <> [].
Proof. unfold c_bool, c_size. intros H E. rewrite E in H. discriminate. Qed.
Lemma c_bool_wf {T} (c : curve T) : wf c -> c_rows c <> [] -> c_bool c = true.
Proof.
  intros (H & _) N. unfold c_bool, c_size. destruct (c_rows c); [contradiction|]. cbn [length Nat.eqb negb andb].
  destruct (c_ndim c); [lia|reflexivity].
Qed.

Lemma row_diff_vsub (u : list R) : forall v, row_diff u v = map2 (fun a b => b - a) u v.
Proof. induction u as [|a u IH]; intros [|b v]; cbn; try reflexivity. rewrite IH. reflexivity. Qed.

Lemma chord_row (u v : list R) : length u = length v ->
  nsqrt (vsum (map (fun x => nmul x x) (row_diff u v))) = dist u v.
Proof.
  intros H. cbn [nsqrt RSqrt]. unfold dist, norm. f_equal. revert v H.
  induction u as [|a u IH]; intros [|b v] H; try discriminate; [reflexivity|].
  cbn [length] in H. cbn [row_diff map minus inner]. unfold vsum in *. cbn [fold_right]. rewrite (IH v) by lia. reflexivity.
Qed.

Lemma chordlen_rows_cons2 (a b : list R) r :
  chordlen_rows (a :: b :: r) = nsqrt (vsum (map (fun x => nmul x x) (row_diff a b))) :: chordlen_rows (b :: r).
Proof. reflexivity. Qed.

Lemma chordlen_rows_length (rows : list (list R)) : length (chordlen_rows rows) = (length rows - 1)%nat.
Proof.
  unfold chordlen_rows. rewrite map_length. induction rows as [|a [|b r] IH]; cbn; [reflexivity|reflexivity|].
  cbn in IH. rewrite IH. lia.
Qed.

Lemma dims_tail n a r : dims n (a :: r) -> dims n r.
Proof. intros H p Hp. apply H. right. assumption. Qed.

Lemma chordlen_rows_nth n (rows : list (list R)) : dims n rows -> forall i, (S i < length rows)%nat ->
  nth i (chordlen_rows rows) 0 = dist (nth i rows []) (nth (S i) rows []).
Proof.
  induction rows as [|a [|b r] IH]; intros D i Hi; cbn in Hi; try lia.
  rewrite chordlen_rows_cons2. destruct i as [|i].
  - cbn [nth]. apply chord_row. rewrite (D a), (D b) by (cbn; auto). reflexivity.
  - change (nth (S i) (_ :: chordlen_rows (b :: r)) 0) with (nth i (chordlen_rows (b :: r)) 0).
    rewrite IH; [reflexivity|apply dims_tail with a; assumption|cbn; lia].
Qed.

(** The length of a polygon, by recursion on its corners. *)
Fixpoint polyline (rows : list (list R)) : R :=
  match rows with
  | a :: ((b :: _) as rest) => dist a b + polyline rest
  | _ => 0
  end.

Lemma polyline_vsum n (rows : list (list R)) : dims n rows -> vsum (chordlen_rows rows) = polyline rows.
Proof.
  induction rows as [|a [|b r] IH]; intros D; [reflexivity|reflexivity|].
  rewrite chordlen_rows_cons2. rewrite chord_row by (rewrite (D a), (D b) by (cbn; auto); reflexivity).
  change (vsum (dist a b :: chordlen_rows (b :: r))) with (dist a b + vsum (chordlen_rows (b :: r))).
  rewrite IH by (apply dims_tail with a; assumption). reflexivity.
Qed.

Lemma arclen_polyline n junk (c : curve R) : dims n (c_rows c) -> c_bool c = true -> c_arclen junk c = polyline (c_rows c).
Proof.
  intros D N. unfold c_arclen. rewrite c_chordlen_rows by assumption. apply (polyline_vsum n). assumption.
Qed.

Lemma dist_nonneg p q : 0 <= dist p q.
Proof. unfold dist, norm. apply sqrt_pos. Qed.
Lemma dist_sym p q : length p = length q -> dist p q = dist q p.
Proof. intros H. rewrite !dist_vdist by congruence. apply vdist_sym. assumption. Qed.
Lemma dist_refl p : dist p p = 0.
Proof. rewrite dist_vdist by reflexivity. apply vdist_refl. Qed.
Lemma dist_triangle p q r : length p = length q -> length q = length r -> dist p r <= dist p q + dist q r.
Proof. intros H1 H2. rewrite !dist_vdist by congruence. apply vdist_triangle; assumption. Qed.

Lemma polyline_nonneg rows : 0 <= polyline rows.
Proof.
  induction rows as [|a [|b r] IH]; cbn; [lra|lra|]. pose proof (dist_nonneg a b). cbn in IH. lra.
Qed.

Lemma polyline_app (l : list (list R)) : forall a b r, polyline (l ++ [a] ++ b :: r) = polyline (l ++ [a]) + dist a b + polyline (b :: r).
Proof.
  induction l as [|x l IH]; intros a b r; [cbn; lra|].
  destruct l as [|y l].
  - cbn. lra.
  - cbn [app] in IH. specialize (IH a b r).
    change (polyline ((x :: y :: l) ++ [a] ++ b :: r)) with (dist x y + polyline ((y :: l) ++ [a] ++ b :: r)).
    change (polyline ((x :: y :: l) ++ [a])) with (dist x y + polyline ((y :: l) ++ [a])).
    cbn [app] in *. rewrite IH. lra.
Qed.

Lemma polyline_join l1 l2 : l1 <> [] -> l2 <> [] ->
  polyline (l1 ++ l2) = polyline l1 + dist (last l1 []) (hd [] l2) + polyline l2.
Proof.
  intros N1 N2. destruct (exists_last N1) as (l & a & ->). destruct l2 as [|b r]; [contradiction|].
  rewrite <- app_assoc, polyline_app, last_last. reflexivity.
Qed.

Lemma polyline_rev n (rows : list (list R)) : dims n rows -> polyline (rev rows) = polyline rows.
Proof.
  induction rows as [|a [|b r] IH]; intros D; [reflexivity|reflexivity|].
  change (rev (a :: b :: r)) with ((rev r ++ [b]) ++ [a]). rewrite <- app_assoc, polyline_app.
  change (rev r ++ [b]) with (rev (b :: r)). rewrite IH by (apply dims_tail with a; assumption).
  cbn. rewrite (dist_sym b a) by (rewrite (D a), (D b) by (cbn; auto); reflexivity). lra.
Qed.

Lemma polyline_ends n (rows : list (list R)) : dims n rows -> rows <> [] ->
  dist (hd [] rows) (last rows []) <= polyline rows.
Proof.
  induction rows as [|a [|b r] IH]; intros D N; [contradiction|cbn; rewrite dist_refl; lra|].
  assert (D' := dims_tail _ _ _ D). specialize (IH D' ltac:(discriminate)).
  change (last (a :: b :: r) []) with (last (b :: r) (@nil R)). cbn [hd] in *.
  assert (L : length (last (b :: r) []) = n).
  { destruct (exists_last (l := b :: r) ltac:(discriminate)) as (l & x & E). rewrite E in *. rewrite last_last.
    apply D'. apply in_app_iff. cbn. auto. }
  assert (La : length a = n) by (apply D; left; reflexivity).
  assert (Lb : length b = n) by (apply D'; left; reflexivity).
  pose proof (dist_triangle a b (last (b :: r) []) ltac:(congruence) ltac:(congruence)).
  change (polyline (a :: b :: r)) with (dist a b + polyline (b :: r)). lra.
Qed.

(** Maps that multiply distances. *)
Lemma polyline_map n f k (rows : list (list R)) : dims n rows ->
  (forall p q, length p = n -> length q = n -> dist (f p) (f q) = k * dist p q) ->
  polyline (map f rows) = k * polyline rows.
Proof.
  intros D H. induction rows as [|a [|b r] IH]; [cbn; lra|cbn; lra|].
  change (polyline (map f (a :: b :: r))) with (dist (f a) (f b) + polyline (map f (b :: r))).
  rewrite IH by (apply dims_tail with a; assumption).
  rewrite H by (apply D; cbn; auto). cbn. lra.
Qed.

(** Omitting corners shortens. *)
Inductive sublist {A} : list A -> list A -> Prop :=
| sub_nil : sublist [] []
| sub_skip x l l' : sublist l l' -> sublist l (x :: l')
| sub_keep x l l' : sublist l l' -> sublist (x :: l) (x :: l').

Lemma sublist_in {A} (l l' : list A) : sublist l l' -> forall x, In x l -> In x l'.
Proof.
  intros H. induction H as [|y l l' H IH|y l l' H IH]; intros x K; [assumption|right; auto|].
  destruct K as [K|K]; [left; assumption|right; auto].
Qed.

Lemma polyline_shortcut n a (l l' : list (list R)) : dims n (a :: l') -> sublist l l' -> polyline (a :: l) <= polyline (a :: l').
Proof.
  intros D H. revert a D. induction H as [|x l l' H IH|x l l' H IH]; intros a D; [cbn; lra| |].
  - assert (D' := dims_tail _ _ _ D). specialize (IH x D').
    change (polyline (a :: x :: l')) with (dist a x + polyline (x :: l')).
    assert (La : length a = n) by (apply D; cbn; auto). assert (Lx : length x = n) by (apply D; cbn; auto).
    destruct l as [|y l].
    + cbn [polyline] in *. pose proof (dist_nonneg a x). pose proof (polyline_nonneg (x :: l')). cbn [polyline] in *. lra.
    + change (polyline (x :: y :: l)) with (dist x y + polyline (y :: l)) in IH.
      change (polyline (a :: y :: l)) with (dist a y + polyline (y :: l)).
      assert (Ly : length y = n) by (apply D'; right; apply (sublist_in _ _ H); left; reflexivity).
      pose proof (dist_triangle a x y ltac:(congruence) ltac:(congruence)). lra.
  - specialize (IH x (dims_tail _ _ _ D)).
    change (polyline (a :: x :: l)) with (dist a x + polyline (x :: l)).
    change (polyline (a :: x :: l')) with (dist a x + polyline (x :: l')). lra.
Qed.
Lemma polyline_sublist n (l l' : list (list R)) : dims n l' -> sublist l l' -> polyline l <= polyline l'.
Proof.
  intros D H. revert D. induction H as [|x l l' H IH|x l l' H IH]; intros D; [lra| |].
  - specialize (IH (dims_tail _ _ _ D)). destruct l' as [|y l']; [exact IH|].
    change (polyline (x :: y :: l')) with (dist x y + polyline (y :: l')). pose proof (dist_nonneg x y). lra.
  - apply (polyline_shortcut n); assumption.
Qed.

(** ** Cumulative arc length *)

Lemma cumsum_from_length {T} {NT : Num T} (l : list T) : forall a, length (cumsum_from a l) = length l.
Proof. induction l as [|x l IH]; intros a; cbn; [reflexivity|]. rewrite IH. reflexivity. Qed.
Lemma cumsum_length {T} {NT : Num T} (l : list T) : length (cumsum l) = length l.
Proof. destruct l; cbn; [reflexivity|]. rewrite cumsum_from_length. reflexivity. Qed.

Lemma cumsum_zero (l : list R) : cumsum l = cumsum_from 0 l.
Proof. destruct l as [|x l]; cbn; [reflexivity|]. rewrite Rplus_0_l. reflexivity. Qed.

(** Prefix sums. *)
Lemma cumsum_from_nth (l : list R) : forall a i, (i < length l)%nat ->
  nth i (cumsum_from a l) 0 = a + vsum (firstn (S i) l).
Proof.
  induction l as [|x l IH]; intros a i Hi; cbn in Hi; [lia|]. destruct i as [|i].
  - cbn. lra.
  - cbn [cumsum_from nth]. rewrite IH by lia. change (firstn (S (S i)) (x :: l)) with (x :: firstn (S i) l).
    cbn [vsum fold_right nadd RNum]. unfold vsum. cbn [nadd RNum]. lra.
Qed.

Lemma cumarclen_nth junk (c : curve R) : c_bool c = true -> forall i, (i < length (c_rows c))%nat ->
  nth i (c_cumarclen junk c) 0 = vsum (firstn i (chordlen_rows (c_rows c))).
Proof.
  intros N i Hi. unfold c_cumarclen. rewrite c_chordlen_rows by assumption. rewrite cumsum_zero. destruct i as [|i]; [reflexivity|].
  cbn [nth]. rewrite cumsum_from_nth; [lra|]. rewrite chordlen_rows_length. cbn in *. lia.
Qed.

Lemma cumarclen_length junk (c : curve R) : c_bool c = true -> length (c_cumarclen junk c) = length (c_rows c).
Proof.
  intros N. unfold c_cumarclen. rewrite c_chordlen_rows by assumption. cbn [length].
  rewrite cumsum_length, chordlen_rows_length. apply c_bool_rows in N. destruct (c_rows c); [contradiction|]. cbn. lia.
Qed.

Lemma chordlen_firstn (rows : list (list R)) : forall i, firstn i (chordlen_rows rows) = chordlen_rows (firstn (S i) rows).
Proof.
  induction rows as [|a [|b r] IH]; intros i; [destruct i; reflexivity|destruct i; reflexivity|].
  destruct i as [|i]; [reflexivity|]. change (firstn (S (S i)) (a :: b :: r)) with (a :: b :: firstn i r).
  rewrite !chordlen_rows_cons2. cbn [firstn]. f_equal. rewrite IH. reflexivity.
Qed.

Lemma dims_firstn n k rows : dims n rows -> dims n (firstn k rows).
Proof. intros D p H. apply D. rewrite <- (firstn_skipn k rows). apply in_app_iff. auto. Qed.

Lemma cumarclen_polyline n junk (c : curve R) : dims n (c_rows c) -> c_bool c = true -> forall i, (i < length (c_rows c))%nat ->
  nth i (c_cumarclen junk c) 0 = polyline (firstn (S i) (c_rows c)).
Proof.
  intros D N i Hi. rewrite cumarclen_nth by assumption. rewrite chordlen_firstn. apply (polyline_vsum n). apply dims_firstn. assumption.
Qed.

Lemma cumarclen_step n junk (c : curve R) : dims n (c_rows c) -> c_bool c = true -> forall i, (S i < length (c_rows c))%nat ->
  nth (S i) (c_cumarclen junk c) 0 = nth i (c_cumarclen junk c) 0 + dist (nth i (c_rows c) []) (nth (S i) (c_rows c) []).
Proof.
  intros D N i Hi.
  rewrite !cumarclen_nth by (assumption || lia).
  rewrite <- (chordlen_rows_nth n) by assumption.
  assert (L : (i < length (chordlen_rows (c_rows c)))%nat) by (rewrite chordlen_rows_length; lia).
  revert L. generalize (chordlen_rows (c_rows c)). clear. intros l. revert i.
  induction l as [|x l IH]; intros i Hi; cbn in Hi; [lia|]. destruct i as [|i]; [cbn; lra|].
  change (firstn (S (S i)) (x :: l)) with (x :: firstn (S i) l). change (firstn (S i) (x :: l)) with (x :: firstn i l).
  cbn [nth]. unfold vsum in *. cbn [fold_right]. rewrite IH by lia. cbn. lra.
Qed.
