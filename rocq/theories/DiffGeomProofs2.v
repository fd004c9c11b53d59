(** Numerical gradient and Frenet vectors: proofs over the reals. *)
From Coq Require Import ZArith List Bool Arith Lia Reals Lra.
From Verif Require Import Num Py Numeric Curve Vec DiffGeom Spec GeomSpec ListFacts CurveProofs3 VecFacts GeomProofs DiffGeomProofs.
Import ListNotations.
Local Open Scope R_scope.

(** ** The difference quotients on sequences of numbers *)

Definition slope (m : nat) (f : nat -> R) (i : nat) : R :=
  if Nat.eqb m 2 then f 1%nat - f 0%nat
  else if Nat.eqb i 0 then - (3 / 2) * f 0%nat + 2 * f 1%nat - / 2 * f 2%nat
  else if Nat.eqb i (m - 1) then / 2 * f (m - 3)%nat - 2 * f (m - 2)%nat + 3 / 2 * f (m - 1)%nat
  else (f (i + 1)%nat - f (i - 1)%nat) / 2.

Lemma slope_ext m f g i : (2 <= m)%nat -> (i < m)%nat -> (forall k, (k < m)%nat -> f k = g k) -> slope m f i = slope m g i.
Proof.
  intros Hm Hi H. unfold slope. destruct (Nat.eqb_spec m 2); [rewrite !H by lia; reflexivity|].
  destruct (Nat.eqb_spec i 0); [rewrite !H by lia; reflexivity|].
  destruct (Nat.eqb_spec i (m - 1)); rewrite !H by lia; reflexivity.
Qed.
Lemma slope_linear m a b f g i : slope m (fun k => a * f k + b * g k) i = a * slope m f i + b * slope m g i.
Proof. unfold slope. destruct (Nat.eqb m 2), (Nat.eqb i 0), (Nat.eqb i (m - 1)); field. Qed.
Lemma slope_const m a i : slope m (fun _ => a) i = 0.
Proof. unfold slope. destruct (Nat.eqb m 2), (Nat.eqb i 0), (Nat.eqb i (m - 1)); field. Qed.
Lemma slope_rev m f i : (2 <= m)%nat -> (i < m)%nat ->
  slope m (fun k => f (m - 1 - k)%nat) i = - slope m f (m - 1 - i)%nat.
Proof.
  intros Hm Hi. unfold slope. destruct (Nat.eqb_spec m 2) as [->|N2]; [cbn; lra|].
  destruct (Nat.eqb_spec i 0) as [->|N0].
  - destruct (Nat.eqb_spec (m - 1 - 0) 0); [lia|]. rewrite (Nat.sub_0_r (m - 1)), Nat.eqb_refl.
    replace (m - 1 - 1)%nat with (m - 2)%nat by lia. replace (m - 1 - 2)%nat with (m - 3)%nat by lia. field.
  - destruct (Nat.eqb_spec i (m - 1)) as [->|NL].
    + rewrite Nat.sub_diag. cbn [Nat.eqb]. replace (m - 1 - (m - 3))%nat with 2%nat by lia.
      replace (m - 1 - (m - 2))%nat with 1%nat by lia. field.
    + destruct (Nat.eqb_spec (m - 1 - i) 0); [lia|]. destruct (Nat.eqb_spec (m - 1 - i) (m - 1)); [lia|].
      replace (m - 1 - (i + 1))%nat with (m - 1 - i - 1)%nat by lia.
      replace (m - 1 - (i - 1))%nat with (m - 1 - i + 1)%nat by lia. field.
Qed.
Lemma slope_quadratic m a b c i : (3 <= m)%nat -> (i < m)%nat ->
  slope m (fun k => a + b * INR k + c * (INR k * INR k)) i = b + 2 * c * INR i.
Proof.
  intros Hm Hi. unfold slope. destruct (Nat.eqb_spec m 2); [lia|].
  destruct (Nat.eqb_spec i 0) as [->|N0]; [cbn; lra|].
  destruct (Nat.eqb_spec i (m - 1)) as [->|NL].
  - rewrite (minus_INR m 1), (minus_INR m 2), (minus_INR m 3) by lia. cbn [INR]. field.
  - rewrite plus_INR, minus_INR by lia. cbn [INR]. field.
Qed.

(** ** The gradient of rows *)

Definition coord (rows : list (list R)) (j : nat) (k : nat) : R := nth j (nth k rows []) 0.

Lemma gradient_length (rows : list (list R)) : length (gradient rows) = length rows.
Proof.
  unfold gradient. destruct rows as [|a [|b [|c r]]]; try reflexivity.
  change (gradient (a :: b :: c :: r)) with (np_gradient true (a :: b :: c :: r)) || cbn [length].
  unfold np_gradient. rewrite map_length, seq_length. reflexivity.
Qed.

Lemma dims_nth n (rows : list (list R)) i : dims n rows -> (i < length rows)%nat -> length (nth i rows []) = n.
Proof. intros D H. apply D. apply nth_In. assumption. Qed.

Lemma np_gradient_nth e (rows : list (list R)) i : (i < length rows)%nat ->
  nth i (np_gradient e rows) [] =
    (let m := length rows in let f i := nth i rows [] in
     if Nat.eqb i 0 then
        if e then vadd (vadd (vscale (f 0%nat) (nlit (-3) 2)) (vscale (f 1%nat) (nlit 2 1))) (vscale (f 2%nat) (nlit (-1) 2))
        else vsub (f 1%nat) (f 0%nat)
      else if Nat.eqb i (m - 1) then
        if e then vadd (vadd (vscale (f (m - 3)%nat) (nlit 1 2)) (vscale (f (m - 2)%nat) (nlit (-2) 1))) (vscale (f (m - 1)%nat) (nlit 3 2))
        else vsub (f (m - 1)%nat) (f (m - 2)%nat)
      else map (fun x => ndiv x (nlit 2 1)) (vsub (f (i + 1)%nat) (f (i - 1)%nat))).
Proof.
  intros Hi. unfold np_gradient. cbv zeta.
  match goal with |- nth i (map ?f _) _ = _ => rewrite (nth_indep (map f (seq 0 (length rows))) [] (f 0%nat)) by (rewrite map_length, seq_length; assumption);
    rewrite (map_nth f) end.
  rewrite seq_nth by assumption. reflexivity.
Qed.

Lemma nth_half (u : list R) j : nth j (map (fun x => ndiv x (nlit 2 1)) u) 0 = nth j u 0 / 2.
Proof.
  assert (Q : forall x : R, ndiv x (nlit 2 1) = x / 2) by (intros x; cbn; field).
  rewrite (map_ext _ _ Q). revert j. induction u as [|a u IH]; intros [|j]; cbn; try lra. apply IH.
Qed.

Lemma gradient_nth n (rows : list (list R)) i : dims n rows -> (2 <= length rows)%nat -> (i < length rows)%nat ->
  length (nth i (gradient rows) []) = n /\
  forall j, nth j (nth i (gradient rows) []) 0 = slope (length rows) (coord rows j) i.
Proof.
  intros D Hm Hi.
  assert (L : forall k, (k < length rows)%nat -> length (nth k rows []) = n) by (intros k Hk; apply dims_nth; assumption).
  destruct (Nat.eq_dec (length rows) 2) as [E2|N2].
  - assert (G : gradient rows = np_gradient false rows) by (unfold gradient; rewrite E2; reflexivity).
    rewrite G, np_gradient_nth by assumption. cbv zeta. unfold slope. rewrite E2. cbn [Nat.eqb Nat.sub].
    assert (Q : nth i [nth 0 rows []; nth 1 rows []] [] = nth i rows []).
    { destruct rows as [|a [|b [|]]]; try discriminate. reflexivity. }
    destruct i as [|[|i]]; [| |lia]; cbn [Nat.eqb]; (split; [rewrite vsub_length; [apply L; lia|rewrite !L by lia; reflexivity]|]);
      intros j; rewrite nth_vsub by (rewrite !L by lia; reflexivity); reflexivity.
  - assert (G : gradient rows = np_gradient true rows).
    { unfold gradient. destruct rows as [|a [|b [|c r]]]; cbn in *; try lia; reflexivity. }
    rewrite G, np_gradient_nth by assumption. cbv zeta. unfold slope.
    destruct (Nat.eqb_spec (length rows) 2) as [|_]; [lia|].
    destruct (Nat.eqb_spec i 0) as [->|N0]; [|destruct (Nat.eqb_spec i (length rows - 1)) as [->|NL]].
    + split.
      * rewrite !vadd_length, !vscale_length; rewrite ?vadd_length, ?vscale_length, ?L by (rewrite ?vscale_length, ?L by lia; lia || reflexivity); try lia; reflexivity.
      * intros j. rewrite !nth_vadd, !nth_vscale; rewrite ?vadd_length, ?vscale_length, ?L by (rewrite ?vscale_length, ?L by lia; lia || reflexivity); try lia; try reflexivity.
        unfold coord. cbn [nadd nmul nlit RNum]. cbn. field.
    + split.
      * rewrite !vadd_length, !vscale_length; rewrite ?vadd_length, ?vscale_length, ?L by (rewrite ?vscale_length, ?L by lia; lia || reflexivity); try lia; reflexivity.
      * intros j. rewrite !nth_vadd, !nth_vscale; rewrite ?vadd_length, ?vscale_length, ?L by (rewrite ?vscale_length, ?L by lia; lia || reflexivity); try lia; try reflexivity.
        unfold coord. cbn [nadd nmul nlit RNum]. cbn. field.
    + split.
      * rewrite map_length, vsub_length; rewrite ?L by lia; reflexivity.
      * intros j. rewrite nth_half, nth_vsub by (rewrite ?L by lia; reflexivity). reflexivity.
Qed.

Lemma gradient_dims n (rows : list (list R)) : dims n rows -> (2 <= length rows)%nat -> dims n (gradient rows).
Proof.
  intros D Hm p Hp. destruct (In_nth _ _ [] Hp) as (i & Hi & <-). rewrite gradient_length in Hi.
  apply (proj1 (gradient_nth n rows i D Hm Hi)).
Qed.

(** ** Linear structure *)

(** Rows of the form p + a_k u + b_k v. *)
Definition plane_rows (n : nat) (p u v : list R) (a b : nat -> R) (rows : list (list R)) : Prop :=
  dims n rows /\ length u = n /\ length v = n /\
  forall k j, (k < length rows)%nat -> coord rows j k = nth j p 0 + a k * nth j u 0 + b k * nth j v 0.

Lemma gradient_plane n p u v a b rows : (2 <= length rows)%nat -> plane_rows n p u v a b rows ->
  plane_rows n [] u v (slope (length rows) a) (slope (length rows) b) (gradient rows).
Proof.
  intros Hm (D & Lu & Lv & H). split; [apply gradient_dims; assumption|]. split; [assumption|]. split; [assumption|].
  intros k j Hk. rewrite gradient_length in Hk. unfold coord at 1.
  rewrite (proj2 (gradient_nth n rows k D Hm Hk)).
  rewrite (slope_ext _ _ (fun i => 1 * (1 * nth j p 0 + nth j u 0 * a i) + nth j v 0 * b i)) by (try assumption; intros i Hi; rewrite H by assumption; lra).
  rewrite slope_linear, slope_linear, slope_const. destruct j; cbn [nth]; lra.
Qed.

(** ** Norms and Frenet vectors *)

Lemma norm_vnorm (u : list R) : norm u = vnorm u.
Proof. reflexivity || (unfold norm, vnorm; cbn [nsqrt RSqrt]; f_equal; rewrite inner_vdot; reflexivity). Qed.

Lemma isclose_zero (x : R) : isclose x n0 = true <-> Rabs x <= / 100000000.
Proof.
  unfold isclose, isclose_tol, isfinite, rtol_default, atol_default. cbn [nisnan nisinf RNum negb andb nleb].
  rewrite Rleb_iff. cbn [nabs nsub nadd nmul nlit n0 RNum]. rewrite Rminus_0_r, Rabs_R0.
  replace (1 / 100000000 + 1 / 100000 * 0) with (/ 100000000) by field. reflexivity.
Qed.

Lemma frenet_norm_far (v : list R) : / 100000000 < vnorm v -> frenet_norm v = vnorm v.
Proof.
  intros H. unfold frenet_norm. destruct (isclose (vnorm v) n0) eqn:E; [|reflexivity].
  apply isclose_zero in E. rewrite Rabs_right in E by (pose proof (vnorm_nonneg v); lra). lra.
Qed.
Lemma frenet_norm_near (v : list R) : vnorm v <= / 100000000 -> frenet_norm v = 1.
Proof.
  intros H. unfold frenet_norm. destruct (isclose (vnorm v) n0) eqn:E; [reflexivity|].
  exfalso. assert (K : isclose (vnorm v) n0 = true) by (apply isclose_zero; rewrite Rabs_right by (pose proof (vnorm_nonneg v); lra); assumption).
  congruence.
Qed.
Lemma frenet_norm_pos (v : list R) : 0 < frenet_norm v.
Proof.
  destruct (Rle_lt_dec (vnorm v) (/ 100000000)); [rewrite frenet_norm_near by assumption; lra|].
  rewrite frenet_norm_far by assumption. lra.
Qed.

Lemma unit_row_scale (v : list R) : unit_row v = vscale v (/ frenet_norm v).
Proof. reflexivity. Qed.
Lemma unit_row_length (v : list R) : length (unit_row v) = length v.
Proof. unfold unit_row. apply map_length. Qed.

Lemma unit_row_norm (v : list R) : / 100000000 < vnorm v -> vnorm (unit_row v) = 1.
Proof.
  intros H. rewrite unit_row_scale, frenet_norm_far by assumption. rewrite vnorm_scale, Rabs_right; [field; lra|].
  left. apply Rinv_0_lt_compat. lra.
Qed.
Lemma unit_row_near (v : list R) : vnorm v <= / 100000000 -> unit_row v = v.
Proof.
  intros H. rewrite unit_row_scale, frenet_norm_near by assumption. apply vec_ext; [apply vscale_length|].
  intros i. rewrite nth_vscale. lra.
Qed.
Lemma vdot_unit (e : list R) : vnorm e = 1 -> vdot e e = 1.
Proof. intros H. rewrite <- vnorm_sq, H. lra. Qed.

Lemma reject_length (v e : list R) : length v = length e -> length (reject v e) = length v.
Proof. intros H. unfold reject. rewrite vsub_length; rewrite ?vscale_length; congruence. Qed.
Lemma reject_dot (v e : list R) : length v = length e -> vnorm e = 1 -> vdot (reject v e) e = 0.
Proof.
  intros L H. unfold reject. rewrite vdot_sub_l by (rewrite vscale_length; assumption).
  rewrite vdot_scale_l, vdot_unit by assumption. lra.
Qed.

Lemma vdot_unit_row (v w : list R) : vdot (unit_row v) w = / frenet_norm v * vdot v w.
Proof. rewrite unit_row_scale, vdot_scale_l. reflexivity. Qed.

(** Rows of the Frenet matrices. *)
Lemma nth_map_unit (rows : list (list R)) i : nth i (map unit_row rows) [] = unit_row (nth i rows []).
Proof. change (@nil R) with (unit_row (@nil R)) at 1. apply map_nth. Qed.
Lemma nth_map2_in {A B C} (f : A -> B -> C) u v i da db dc : (i < length u)%nat -> (i < length v)%nat ->
  nth i (map2 f u v) dc = f (nth i u da) (nth i v db).
Proof.
  revert v i. induction u as [|a u IH]; intros [|b v] [|i] Hu Hv; cbn in *; try lia; [reflexivity|]. apply IH; lia.
Qed.

Section Rows.
  Variable rows : list (list R).
  Let m := length rows.

  Lemma deriv1_length : length (deriv1 rows) = m. Proof. apply gradient_length. Qed.
  Lemma deriv2_length : length (deriv2 rows) = m. Proof. unfold deriv2. rewrite gradient_length. apply deriv1_length. Qed.
  Lemma deriv3_length : length (deriv3 rows) = m. Proof. unfold deriv3. rewrite gradient_length. apply deriv2_length. Qed.
  Lemma frenet1_length : length (frenet1_rows rows) = m.
  Proof. unfold frenet1_rows. rewrite map_length. apply deriv1_length. Qed.
  Lemma normal_length : length (normal_rows rows) = m.
  Proof. unfold normal_rows. rewrite map2_length, deriv2_length, frenet1_length. apply Nat.min_id. Qed.
  Lemma frenet2_length : length (frenet2_rows rows) = m.
  Proof. unfold frenet2_rows. rewrite map_length. apply normal_length. Qed.
  Lemma binormal_length : length (binormal_rows rows) = m.
  Proof. unfold binormal_rows. rewrite map2_length, combine_length, deriv3_length, frenet1_length, frenet2_length. rewrite !Nat.min_id. reflexivity. Qed.
  Lemma frenet3_length : length (frenet3_rows rows) = m.
  Proof. unfold frenet3_rows. rewrite map_length. apply binormal_length. Qed.

  Variable i : nat.
  Hypothesis Hi : (i < m)%nat.
  Let t := nth i (deriv1 rows) [].
  Let s := nth i (deriv2 rows) [].
  Let d := nth i (deriv3 rows) [].

  Lemma frenet1_nth : nth i (frenet1_rows rows) [] = unit_row t.
  Proof. apply nth_map_unit. Qed.
  Lemma normal_nth : nth i (normal_rows rows) [] = reject s (unit_row t).
  Proof.
    unfold normal_rows. rewrite (nth_map2_in _ _ _ _ [] []) by (rewrite ?deriv2_length, ?frenet1_length; assumption).
    rewrite frenet1_nth. reflexivity.
  Qed.
  Lemma frenet2_nth : nth i (frenet2_rows rows) [] = unit_row (reject s (unit_row t)).
  Proof. unfold frenet2_rows. rewrite nth_map_unit, normal_nth. reflexivity. Qed.
  Lemma binormal_nth : nth i (binormal_rows rows) [] =
    (let e1 := unit_row t in let e2 := unit_row (reject s e1) in
     vsub (vsub d (vscale e1 (vdot d e1))) (vscale e2 (vdot d e2))).
  Proof.
    unfold binormal_rows.
    rewrite (nth_map2_in _ _ _ _ [] ([], [])) by (rewrite ?combine_length, ?deriv3_length, ?frenet1_length, ?frenet2_length, ?Nat.min_id; assumption).
    rewrite combine_nth by (rewrite frenet1_length, frenet2_length; reflexivity).
    rewrite frenet1_nth, frenet2_nth. reflexivity.
  Qed.
  Lemma frenet3_nth : nth i (frenet3_rows rows) [] = unit_row (nth i (binormal_rows rows) []).
  Proof. apply nth_map_unit. Qed.
End Rows.

Lemma reject2_dots (d e1 e2 : list R) : length d = length e1 -> length e2 = length e1 ->
  vnorm e1 = 1 -> vdot e1 e2 = 0 ->
  let b := vsub (vsub d (vscale e1 (vdot d e1))) (vscale e2 (vdot d e2)) in
  length b = length d /\ vdot b e1 = 0 /\ (vnorm e2 = 1 -> vdot b e2 = 0).
Proof.
  intros L1 L2 N1 O. cbv zeta.
  assert (Q1 : length (vscale e1 (vdot d e1)) = length d) by (rewrite vscale_length; congruence).
  assert (Q2 : length (vsub d (vscale e1 (vdot d e1))) = length (vscale e2 (vdot d e2)))
    by (rewrite vsub_length by congruence; rewrite vscale_length; congruence).
  split; [rewrite vsub_length, vsub_length by congruence; reflexivity|].
  split; [|intros N2]; rewrite vdot_sub_l, vdot_sub_l, !vdot_scale_l by congruence.
  - rewrite (vdot_comm e2 e1), O, vdot_unit by assumption. lra.
  - rewrite O, vdot_unit by assumption. lra.
Qed.

(** All rows of one length: derivatives keep the dimension, except for a
    one-point curve where they have one coordinate. *)
Lemma deriv_dims n (rows : list (list R)) : dims n rows -> rows <> [] ->
  exists k, (k = n \/ length rows = 1%nat /\ k = 1%nat) /\ dims k (deriv1 rows) /\ dims k (deriv2 rows) /\ dims k (deriv3 rows).
Proof.
  intros D N. unfold deriv3, deriv2, deriv1. destruct rows as [|a [|b r]]; [contradiction| |].
  - exists 1%nat. split; [auto|]. cbn. split; [|split]; intros p [<-|[]]; reflexivity.
  - exists n. split; [auto|]. assert (L : (2 <= length (a :: b :: r))%nat) by (cbn; lia).
    assert (D1 : dims n (gradient (a :: b :: r))) by (apply gradient_dims; assumption).
    assert (D2 : dims n (gradient (gradient (a :: b :: r)))) by (apply gradient_dims; [assumption|rewrite gradient_length; assumption]).
    split; [assumption|]. split; [assumption|]. apply gradient_dims; [assumption|]. rewrite !gradient_length. assumption.
Qed.

(** The Frenet vectors at one point. *)
Lemma frenet_at n (rows : list (list R)) i : dims n rows -> (i < length rows)%nat ->
  let t := nth i (deriv1 rows) [] in let e1 := nth i (frenet1_rows rows) [] in
  let nv := nth i (normal_rows rows) [] in let e2 := nth i (frenet2_rows rows) [] in
  let bv := nth i (binormal_rows rows) [] in let e3 := nth i (frenet3_rows rows) [] in
  (/ 100000000 < vnorm t -> vnorm e1 = 1 /\ t = vscale e1 (vnorm t) /\ vdot nv e1 = 0 /\ vdot e2 e1 = 0 /\ vdot bv e1 = 0 /\ vdot e3 e1 = 0) /\
  (vnorm t <= / 100000000 -> e1 = t) /\
  (/ 100000000 < vnorm nv -> vnorm e2 = 1 /\ nv = vscale e2 (vnorm nv)) /\
  (vnorm nv <= / 100000000 -> e2 = nv) /\
  (/ 100000000 < vnorm t -> / 100000000 < vnorm nv -> vdot bv e2 = 0 /\ vdot e3 e2 = 0) /\
  (/ 100000000 < vnorm bv -> vnorm e3 = 1 /\ bv = vscale e3 (vnorm bv)) /\
  (vnorm bv <= / 100000000 -> e3 = bv).
Proof.
  intros D Hi t e1 nv e2 bv e3.
  destruct (deriv_dims n rows D) as (k & _ & D1 & D2 & D3); [intros E; rewrite E in Hi; cbn in Hi; lia|].
  assert (Lt : length t = k) by (apply dims_nth; [assumption|rewrite deriv1_length; assumption]).
  assert (Ls : length (nth i (deriv2 rows) []) = k) by (apply dims_nth; [assumption|rewrite deriv2_length; assumption]).
  assert (Ld : length (nth i (deriv3 rows) []) = k) by (apply dims_nth; [assumption|rewrite deriv3_length; assumption]).
  assert (E1 : e1 = unit_row t) by apply frenet1_nth.
  assert (EN : nv = reject (nth i (deriv2 rows) []) e1) by (unfold nv; rewrite normal_nth by assumption; rewrite E1; reflexivity).
  assert (E2 : e2 = unit_row nv) by (unfold e2, nv, frenet2_rows; apply nth_map_unit).
  assert (EB : bv = vsub (vsub (nth i (deriv3 rows) []) (vscale e1 (vdot (nth i (deriv3 rows) []) e1))) (vscale e2 (vdot (nth i (deriv3 rows) []) e2))).
  { unfold bv. rewrite binormal_nth by assumption. cbv zeta. fold t. rewrite <- E1, <- EN, <- E2. reflexivity. }
  assert (E3 : e3 = unit_row bv) by apply frenet3_nth.
  assert (L1 : length e1 = k) by (rewrite E1, unit_row_length; assumption).
  assert (LN : length nv = k) by (rewrite EN, reject_length; congruence).
  assert (L2 : length e2 = k) by (rewrite E2, unit_row_length; assumption).
  assert (SC : forall v : list R, / 100000000 < vnorm v -> v = vscale (unit_row v) (vnorm v)).
  { intros v H. apply vec_ext; [rewrite vscale_length, unit_row_length; reflexivity|]. intros j.
    rewrite unit_row_scale, frenet_norm_far, !nth_vscale by assumption. field. lra. }
  split.
  { intros H. assert (N1 : vnorm e1 = 1) by (rewrite E1; apply unit_row_norm; assumption).
    split; [assumption|]. split; [rewrite E1; apply SC; assumption|].
    assert (O : vdot nv e1 = 0) by (rewrite EN; apply reject_dot; [congruence|assumption]).
    split; [assumption|].
    assert (O2 : vdot e2 e1 = 0) by (rewrite E2, vdot_unit_row, O; lra).
    split; [assumption|].
    destruct (reject2_dots (nth i (deriv3 rows) []) e1 e2) as (_ & B1 & _); [congruence|congruence|assumption|rewrite vdot_comm; assumption|].
    rewrite <- EB in B1. split; [assumption|]. rewrite E3, vdot_unit_row, B1. lra. }
  split; [intros H; rewrite E1; apply unit_row_near; assumption|].
  split; [intros H; split; [rewrite E2; apply unit_row_norm; assumption|rewrite E2; apply SC; assumption]|].
  split; [intros H; rewrite E2; apply unit_row_near; assumption|].
  split.
  { intros H HN. assert (N1 : vnorm e1 = 1) by (rewrite E1; apply unit_row_norm; assumption).
    assert (N2 : vnorm e2 = 1) by (rewrite E2; apply unit_row_norm; assumption).
    assert (O : vdot nv e1 = 0) by (rewrite EN; apply reject_dot; [congruence|assumption]).
    assert (O2 : vdot e2 e1 = 0) by (rewrite E2, vdot_unit_row, O; lra).
    destruct (reject2_dots (nth i (deriv3 rows) []) e1 e2) as (_ & _ & B2); [congruence|congruence|assumption|rewrite vdot_comm; assumption|].
    rewrite <- EB in B2. specialize (B2 N2). split; [assumption|]. rewrite E3, vdot_unit_row, B2. lra. }
  split; [intros H; split; [rewrite E3; apply unit_row_norm; assumption|rewrite E3; apply SC; assumption]|].
  intros H; rewrite E3; apply unit_row_near; assumption.
Qed.
