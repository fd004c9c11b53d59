(** The cubic spline: uniqueness, and the interpolator. *)
From Coq Require Import ZArith String List Bool Arith Lia Reals Lra Psatz.
From Verif Require Import Num Py Numeric Curve Vec Geom DiffGeom Intersect Registry Interp Splines Splines2 Spec GeomSpec.
From Verif Require Import ListFacts VecFacts CurveProofs3 GeomProofs DiffGeomProofs2 InterpProofs InterpProofs2 InterpProofs3.
From Verif Require Import SplineProofs SplineProofs2 SplineProofs3 SplineProofs4 SplineProofs5.
Import ListNotations.
Local Open Scope string_scope.
Local Open Scope list_scope.
Local Open Scope R_scope.

(** ** Uniqueness *)

Section Unique.
  Variables (b0 b1 : bc1 R) (xs ys : list R) (f f1 f2 : R -> R).
  Hypothesis I : increasing xs.
  Hypothesis H2 : (2 <= length xs)%nat.
  Hypothesis F : spline_fun b0 b1 xs ys f f1 f2.
  Let n := length xs.
  Let x k := nth k xs 0.
  Let y k := nth k ys 0.
  Let e k := f1 (x k).
  Let h k := x (S k) - x k.
  Let m k := (y (S k) - y k) / h k.
  Local Notation p0 := (cp0 xs y e).
  Local Notation p1 := (cp1 xs y e).
  Local Notation p2 := (cp2 xs y e).

  Let xlt k : (S k < n)%nat -> x k < x (S k).
  Proof. intros Hk. exact (I k Hk). Qed.

  Let D0 : forall v, derivable_pt_lim f v (f1 v). Proof. apply F. Qed.
  Let D1' : forall v, derivable_pt_lim f1 v (f2 v). Proof. apply F. Qed.

  (** Any such function is, on each piece, the cubic given by its values and
      derivatives at the samples. *)
  Lemma f_piece k v : in_piece xs k v -> f v = p0 k v.
  Proof.
    intros Hv. destruct Hv as (Hk & Hlr). assert (Hv : in_piece xs k v) by (split; assumption).
    destruct (proj1 (proj2 F) k Hk) as (a0 & a1 & a2 & a3 & Hq). pose proof (xlt k Hk) as L.
    assert (Vk := proj1 (proj2 (proj2 F)) k ltac:(lia)). assert (Vs := proj1 (proj2 (proj2 F)) (S k) Hk).
    rewrite (Hq v Hv). apply (cp0_hermite xs y e I k a0 a1 a2 a3 Hk).
    - change (nth k ys 0) with (y k) in Vk. rewrite <- Vk. symmetry. apply Hq. apply (in_piece_at xs I); assumption.
    - change (nth (S k) ys 0) with (y (S k)) in Vs. rewrite <- Vs. symmetry. apply Hq. apply (in_piece_at xs I); assumption.
    - symmetry. apply (deriv_right f (fun v => a0 + a1 * v + a2 * (v * v) + a3 * (v * v * v)) (x k) _ _ (h k)); [unfold h; lra| |apply D0|apply poly_deriv].
      intros u Hu. apply Hq. apply (in_piece_mid xs); [assumption|]. unfold h, x in *. lra.
    - symmetry. apply (deriv_left f (fun v => a0 + a1 * v + a2 * (v * v) + a3 * (v * v * v)) (x (S k)) _ _ (h k)); [unfold h; lra| |apply D0|apply poly_deriv].
      intros u Hu. apply Hq. apply (in_piece_mid xs); [assumption|]. unfold h, x in *. lra.
  Qed.

  Lemma f1_piece k v : (S k < n)%nat -> x k <= v <= x (S k) -> f1 v = p1 k v.
  Proof.
    intros Hk Hv. destruct (Rlt_dec v (x (S k))) as [L|L].
    - apply (deriv_right f (p0 k) v _ _ (x (S k) - v)); [lra| |apply D0|apply cp0_deriv].
      intros u Hu. apply f_piece. apply (in_piece_mid xs); [assumption|]. fold (x k) (x (S k)). lra.
    - pose proof (xlt k Hk). apply (deriv_left f (p0 k) v _ _ (h k)); [unfold h; lra| |apply D0|apply cp0_deriv].
      intros u Hu. apply f_piece. apply (in_piece_mid xs); [assumption|]. unfold h in Hu. fold (x k) (x (S k)). lra.
  Qed.

  Lemma f2_left k : (S k < n)%nat -> f2 (x k) = p2 k (x k).
  Proof.
    intros Hk. pose proof (xlt k Hk). apply (deriv_right f1 (p1 k) (x k) _ _ (h k)); [unfold h; lra| |apply D1'|apply cp1_deriv].
    intros u Hu. apply f1_piece; [assumption|]. unfold h in Hu. lra.
  Qed.
  Lemma f2_right k : (S k < n)%nat -> f2 (x (S k)) = p2 k (x (S k)).
  Proof.
    intros Hk. pose proof (xlt k Hk). apply (deriv_left f1 (p1 k) (x (S k)) _ _ (h k)); [unfold h; lra| |apply D1'|apply cp1_deriv].
    intros u Hu. apply f1_piece; [assumption|]. unfold h in Hu. lra.
  Qed.

  (** If f is one cubic on both pieces, their third derivatives agree. *)
  Lemma third_eq k a0 a1 a2 a3 : (S k < n)%nat ->
    (forall v, x k <= v <= x (S k) -> f v = a0 + a1 * v + a2 * (v * v) + a3 * (v * v * v)) -> pc3 xs y e k = a3.
  Proof.
    intros Hk Hq. pose proof (xlt k Hk) as L.
    set (c0 := y k - e k * x k + pc2 xs y e k * (x k * x k) - pc3 xs y e k * (x k * x k * x k)).
    set (c1 := e k - 2 * pc2 xs y e k * x k + 3 * pc3 xs y e k * (x k * x k)).
    set (c2 := pc2 xs y e k - 3 * pc3 xs y e k * x k).
    destruct (cubic_zero (c0 - a0) (c1 - a1) (c2 - a2) (pc3 xs y e k - a3) (x k) (x (S k)) L) as [A _]; [|lra].
    intros v Hv. assert (E : f v = p0 k v) by (apply f_piece, (in_piece_mid xs); assumption).
    rewrite (Hq v Hv) in E. pose proof (cp0_poly xs y e k v) as K. cbv beta in K.
    change (p0 k v = c0 + c1 * v + c2 * (v * v) + pc3 xs y e k * (v * v * v)) in K.
    rewrite K in E. lra.
  Qed.

  Lemma f_system : system_eq b0 b1 xs ys e.
  Proof.
    assert (In : inner_eq xs ys e).
    { intros k Hk. apply (second_iff xs y e I k Hk). change (p2 k (x (S k)) = p2 (S k) (x (S k))).
      rewrite <- f2_right by lia. apply f2_left. assumption. }
    assert (T3 := third_eq). assert (F2l := f2_left). assert (F2r := f2_right).
    split; [assumption|]. destruct F as (_ & _ & V & Ec1 & Ec2). destruct (parabola_case b0 b1 xs) eqn:Pc.
    - apply (parabola_case_iff b0 b1 xs) in Pc. destruct (Ec1 Pc) as (a0 & a1 & a2 & Hq). destruct Pc as (En & _ & _).
      assert (C : forall k, (S k < 3)%nat -> pc3 xs y e k = 0).
      { intros k Hk. apply (T3 k a0 a1 a2); [unfold n; lia|]. intros v _. rewrite Hq. ring. }
      assert (G : forall k, (S k < 3)%nat -> e k + e (S k) = 2 * m k).
      { intros k Hk. pose proof (C k Hk) as Ck. unfold pc3 in Ck. fold (x k) (x (S k)) in Ck. fold (h k) in Ck. fold (m k) in Ck.
        pose proof (xlt k ltac:(unfold n; lia)) as L.
        assert (Z : e k + e (S k) - 2 * m k = (e k + e (S k) - 2 * m k) / (h k * h k) * (h k * h k)).
        { field. unfold h. lra. }
        rewrite Ck in Z. lra. }
      split; apply G; lia.
    - assert (Np : ~ (length xs = 3%nat /\ b0 = Nak /\ b1 = Nak)).
      { intros A. apply parabola_case_iff in A. congruence. }
      destruct (Ec2 Np) as [Es Ee]. unfold start_cond, end_cond, start_eq, end_eq in *. fold n. split.
      + destruct b0 as [|v|v].
        * destruct Es as [Sa Sb]. split; [exact Sa|]. intros H3. destruct (Sb H3) as (a0 & a1 & a2 & a3 & Hq).
          apply (third_start xs ys I H2 e H3 In). change (pc3 xs y e 0 = pc3 xs y e 1).
          rewrite (T3 0%nat a0 a1 a2 a3), (T3 1%nat a0 a1 a2 a3); try reflexivity; try lia; intros u Hu; apply Hq; fold (x 2); [lra|].
          pose proof (xlt 1 ltac:(lia)). lra.
        * exact Es.
        * rewrite <- Es. change (nth 0 xs 0) with (x 0%nat). rewrite F2l by (unfold n; lia).
          pose proof (cp2_left xs y e 0) as K. cbv beta in K. change (p2 0%nat (x 0%nat) = 2 * ((3 * m 0%nat - 2 * e 0%nat - e 1%nat) / h 0%nat)) in K.
          rewrite K. pose proof (xlt 0%nat ltac:(unfold n; lia)).
          fold (x 0) (x 1). fold (y 0) (y 1). fold (h 0). unfold m. field. unfold h. lra.
      + destruct b1 as [|v|v].
        * destruct Ee as [Sa Sb]. split; [exact Sa|]. intros H3. destruct (Sb H3) as (a0 & a1 & a2 & a3 & Hq).
          apply (third_end xs ys I H2 e H3 In). change (pc3 xs y e (n - 3) = pc3 xs y e (n - 2)).
          rewrite (T3 (n - 3)%nat a0 a1 a2 a3), (T3 (n - 2)%nat a0 a1 a2 a3); try reflexivity; try lia; intros u Hu; apply Hq; fold n; fold (x (n - 3)); [|lra].
          pose proof (xlt (n - 3) ltac:(lia)) as L. replace (S (n - 3)) with (n - 2)%nat in L by lia. lra.
        * exact Ee.
        * rewrite <- Ee. fold n. change (nth (n - 1) xs 0) with (x (n - 1)%nat). replace (n - 1)%nat with (S (n - 2)) by (unfold n; lia).
          rewrite F2r by (unfold n; lia).
          pose proof (cp2_right xs y e I (n - 2) ltac:(fold n; unfold n; lia)) as K. cbv beta in K.
          change (p2 (n - 2)%nat (x (S (n - 2))) = 2 * ((e (n - 2)%nat + 2 * e (S (n - 2)) - 3 * m (n - 2)%nat) / h (n - 2)%nat)) in K.
          rewrite K. pose proof (xlt (n - 2) ltac:(unfold n; lia)). 
          fold (x (n - 2)) (x (S (n - 2))). fold (y (n - 2)) (y (S (n - 2))). fold (h (n - 2)). unfold m. field. unfold h. lra.
  Qed.

  Theorem spline_unique v : f v = spl0 b0 b1 xs ys v.
  Proof.
    destruct (piece_exists xs I H2 v) as (k & Hk & Ek & Hl & Hr).
    assert (Hv : in_piece xs k v). { split; [assumption|]. split; [assumption|]. destruct Hr; [left; assumption|right; lra]. }
    rewrite (f_piece k v Hv). unfold spl0, pw. rewrite Ek.
    assert (E : forall i, (i < n)%nat -> e i = deriv_at b0 b1 xs ys i) by (apply deriv_at_unique; [assumption|assumption|apply f_system]).
    unfold cp0, pc2, pc3. rewrite !E by (unfold n; lia). reflexivity.
  Qed.
End Unique.

(** ** The interpolator *)

Lemma cubic_rows_length b0 b1 (xs : list R) rows n : length (cubic_rows b0 b1 xs rows n) = length xs.
Proof. unfold cubic_rows. rewrite map_length, seq_length. reflexivity. Qed.

Lemma cubic_rows_nth b0 b1 (xs : list R) rows n k j : (k < length xs)%nat -> (j < n)%nat ->
  nth j (nth k (cubic_rows b0 b1 xs rows n) []) 0 = nth k (cubic_derivs (bc_coord b0 j) (bc_coord b1 j) xs (column rows j)) 0.
Proof.
  intros Hk Hj. unfold cubic_rows. rewrite (nth_map_in _ _ _ 0%nat) by (rewrite seq_length; assumption). rewrite seq_nth by assumption.
  rewrite (nth_map_in _ _ _ 0%nat) by (rewrite seq_length; assumption). rewrite seq_nth by assumption. reflexivity.
Qed.

(** One coordinate of the interpolated point. *)
Lemma cubic_at qnan ex b0 b1 (xs : list R) rows n v j : increasing xs -> (2 <= length xs)%nat -> length rows = length xs ->
  (j < n)%nat -> (ex = true \/ inside xs v) ->
  nth j (hermite_at qnan ex xs rows (cubic_rows b0 b1 xs rows n) n v) 0
  = spl0 (bc_coord b0 j) (bc_coord b1 j) xs (column rows j) v.
Proof.
  intros I H2 L Hj Hex. destruct (piece_exists xs I H2 v) as (k & Hk & Ek & Hl & Hr).
  assert (Hr' : (S (S k) = length xs \/ v <= nth (S k) xs 0)) by (destruct Hr; [left; assumption|right; lra]).
  rewrite (hermite_at_eq qnan ex xs _ _ _ I H2 v k j Hk Hj Hex Hl Hr').
  unfold spl0, pw. rewrite Ek. rewrite !cubic_rows_nth by lia.
  rewrite <- (cp0_hval xs _ _ I k v Hk). rewrite !column_nth by lia. reflexivity.
Qed.

Lemma cubic_eq junk qnan periodic b ex (c : curve R) bcs : wf c -> (2 <= c_size c)%nat -> increasing (c_tval junk c) ->
  is_periodic b = false -> validate_bc (c_ndim c) b = Ok bcs ->
  cubic junk qnan periodic b ex c = Ok (as_array (c_ndim c)
    (map (hermite_at qnan ex (c_tval junk c) (c_rows c) (cubic_rows (fst bcs) (snd bcs) (c_tval junk c) (c_rows c) (c_ndim c)) (c_ndim c)))).
Proof.
  intros W H I Nb V. assert (N := size_nonempty c ltac:(lia)). assert (L := tval_length junk c W N).
  unfold cubic. rewrite Nb.
  rewrite (proj2 (prepare_ok_iff _ _)) by (unfold c_size in *; split; [lia|split; [congruence|assumption]]).
  rewrite V. cbn [rbind]. rewrite hermite_new_ok; try assumption; try (unfold c_size in *; lia). 2:{ rewrite cubic_rows_length. reflexivity. }
  reflexivity.
Qed.

Lemma cubic_fails junk qnan periodic b ex (c : curve R) : is_periodic b = false ->
  (forall bcs, ~ ((2 <= c_size c)%nat /\ increasing (c_tval junk c) /\ validate_bc (c_ndim c) b = Ok bcs)) ->
  exists e, cubic junk qnan periodic b ex c = Raise e.
Proof.
  intros Nb H. unfold cubic. rewrite Nb. destruct (prepare_ok (c_tval junk c) (c_rows c)) eqn:E; [|eexists; reflexivity].
  apply prepare_ok_iff in E as (E1 & E2 & E3).
  destruct (validate_bc (c_ndim c) b) as [bcs|e] eqn:V; [|eexists; reflexivity].
  exfalso. apply (H bcs). unfold c_size. split; [lia|]. split; [assumption|reflexivity].
Qed.
