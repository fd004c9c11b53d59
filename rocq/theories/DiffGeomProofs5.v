(** Curvature: mirror images, parabolas, circles, scaling in space; finite choice. *)
From Coq Require Import ZArith List Bool Arith Lia Reals Lra Psatz.
From Verif Require Import Num Py Numeric Curve Vec DiffGeom Spec GeomSpec ListFacts CurveProofs2 VecFacts GeomProofs.
From Verif Require Import DiffGeomProofs DiffGeomProofs2 DiffGeomProofs3.
Import ListNotations.
Local Open Scope R_scope.

(** Plane rows given by coordinate functions. *)
Definition plane2 (x y : nat -> R) (rows : list (list R)) : Prop :=
  dims 2 rows /\ forall k, (k < length rows)%nat -> coord rows 0 k = x k /\ coord rows 1 k = y k.

Lemma gradient_plane2 x y rows : (2 <= length rows)%nat -> plane2 x y rows ->
  plane2 (slope (length rows) x) (slope (length rows) y) (gradient rows).
Proof.
  intros Hm (D & H). split; [apply gradient_dims; assumption|]. intros k Hk. rewrite gradient_length in Hk.
  split; (unfold coord at 1; rewrite (proj2 (gradient_nth 2 rows k D Hm Hk)); apply slope_ext; [assumption|assumption|apply H]).
Qed.

Lemma curvature2_plane2 x y rows i : (2 <= length rows)%nat -> plane2 x y rows -> (i < length rows)%nat ->
  let m := length rows in
  let fx := slope m x i in let fy := slope m y i in
  let sx := slope m (slope m x) i in let sy := slope m (slope m y) i in
  nth i (map2 curvature2 (deriv1 rows) (deriv2 rows)) 0 = (sy * fx - sx * fy) / ((fx * fx + fy * fy) * sqrt (fx * fx + fy * fy))
  /\ norm (nth i (deriv1 rows) []) = sqrt (fx * fx + fy * fy).
Proof.
  intros Hm P Hi. cbv zeta. assert (P1 := gradient_plane2 x y rows Hm P).
  assert (P2 := gradient_plane2 _ _ (gradient rows) ltac:(rewrite gradient_length; assumption) P1). rewrite gradient_length in P2.
  destruct P1 as (D1 & H1). destruct P2 as (D2 & H2). rewrite !gradient_length in *.
  destruct (H1 i Hi) as (X1 & Y1). destruct (H2 i Hi) as (X2 & Y2). unfold coord in *.
  split.
  - rewrite curvature2_nth by assumption. rewrite curvature2_R. unfold deriv2, deriv1. rewrite X1, Y1, X2, Y2. reflexivity.
  - rewrite norm_vnorm. change (vnorm ?v) with (sqrt (vdot v v)). unfold deriv1. rewrite plane_speed by (apply (dims_nth 2); [assumption|rewrite gradient_length; assumption]).
    rewrite X1, Y1. reflexivity.
Qed.

Lemma slope_neg m f i : slope m (fun k => - f k) i = - slope m f i.
Proof. unfold slope. destruct (Nat.eqb m 2), (Nat.eqb i 0), (Nat.eqb i (m - 1)); field. Qed.

(** Interior points of a uniformly sampled circle. *)
Lemma slope_inner m f i : (0 < i < m - 1)%nat -> slope m f i = (f (i + 1)%nat - f (i - 1)%nat) / 2.
Proof.
  intros H. unfold slope. destruct (Nat.eqb_spec m 2); [lia|]. destruct (Nat.eqb_spec i 0); [lia|].
  destruct (Nat.eqb_spec i (m - 1)); [lia|reflexivity].
Qed.
Lemma INR_prev i : (0 < i)%nat -> INR (i - 1) = INR i - 1.
Proof. intros H. rewrite minus_INR by lia. reflexivity. Qed.
Lemma INR_next i : INR (i + 1) = INR i + 1.
Proof. rewrite plus_INR. reflexivity. Qed.

Lemma slope_cos m c r o h i : (0 < i < m - 1)%nat ->
  slope m (fun k => c + r * cos (o + h * INR k)) i = - (r * sin h) * sin (o + h * INR i).
Proof.
  intros H. rewrite slope_inner by assumption. rewrite INR_prev, INR_next by lia.
  replace (o + h * (INR i + 1)) with ((o + h * INR i) + h) by ring.
  replace (o + h * (INR i - 1)) with ((o + h * INR i) - h) by ring.
  rewrite cos_plus, cos_minus. field.
Qed.
Lemma slope_sin m c r o h i : (0 < i < m - 1)%nat ->
  slope m (fun k => c + r * sin (o + h * INR k)) i = (r * sin h) * cos (o + h * INR i).
Proof.
  intros H. rewrite slope_inner by assumption. rewrite INR_prev, INR_next by lia.
  replace (o + h * (INR i + 1)) with ((o + h * INR i) + h) by ring.
  replace (o + h * (INR i - 1)) with ((o + h * INR i) - h) by ring.
  rewrite sin_plus, sin_minus. field.
Qed.
Lemma slope2_inner m f g i : (1 < i)%nat -> (i < m - 2)%nat -> (forall k, (0 < k < m - 1)%nat -> slope m f k = g k) ->
  slope m (slope m f) i = slope m g i.
Proof. intros H1 H2 E. rewrite (slope_inner m (slope m f) i), (slope_inner m g i) by lia. rewrite !E by lia. reflexivity. Qed.

Lemma circle_curvature m cx cy r o h i : (1 < i)%nat -> (i < m - 2)%nat -> 0 < r -> sin h <> 0 ->
  let x := fun k => cx + r * cos (o + h * INR k) in let y := fun k => cy + r * sin (o + h * INR k) in
  let fx := slope m x i in let fy := slope m y i in
  let sx := slope m (slope m x) i in let sy := slope m (slope m y) i in
  (sy * fx - sx * fy) / ((fx * fx + fy * fy) * sqrt (fx * fx + fy * fy)) = (if Rlt_dec 0 (sin h) then / r else - / r)
  /\ sqrt (fx * fx + fy * fy) = r * Rabs (sin h).
Proof.
  intros H1 H2 Hr Hh. cbv zeta.
  assert (X2 : slope m (slope m (fun k => cx + r * cos (o + h * INR k))) i = - (r * sin h * sin h) * cos (o + h * INR i)).
  { rewrite (slope2_inner m _ (fun k => 0 + - (r * sin h) * sin (o + h * INR k)) i H1 H2)
      by (intros k Hk; rewrite slope_cos by assumption; ring). rewrite slope_sin by lia. ring. }
  assert (Y2 : slope m (slope m (fun k => cy + r * sin (o + h * INR k))) i = - (r * sin h * sin h) * sin (o + h * INR i)).
  { rewrite (slope2_inner m _ (fun k => 0 + (r * sin h) * cos (o + h * INR k)) i H1 H2)
      by (intros k Hk; rewrite slope_sin by assumption; ring). rewrite slope_cos by lia. ring. }
  rewrite X2, Y2. rewrite slope_cos, slope_sin by lia.
  set (t := o + h * INR i). set (s := sin h) in *.
  assert (SC : sin t * sin t = 1 - cos t * cos t) by (pose proof (sin2_cos2 t) as K; unfold Rsqr in K; lra).
  assert (Q : - (r * s) * sin t * (- (r * s) * sin t) + r * s * cos t * (r * s * cos t) = (r * s) * (r * s)).
  { replace (- (r * s) * sin t * (- (r * s) * sin t)) with ((r * s) * (r * s) * (sin t * sin t)) by ring. rewrite SC. ring. }
  rewrite Q. assert (A : sqrt (r * s * (r * s)) = r * Rabs s).
  { change (r * s * (r * s)) with (Rsqr (r * s)). rewrite sqrt_Rsqr_abs, Rabs_mult, (Rabs_right r) by lra. reflexivity. }
  rewrite A. split; [|reflexivity].
  replace (- (r * s * s) * sin t * (- (r * s) * sin t) - - (r * s * s) * cos t * (r * s * cos t))
    with (r * s * s * (r * s) * (sin t * sin t + cos t * cos t)) by ring.
  rewrite SC. replace (1 - cos t * cos t + cos t * cos t) with 1 by ring.
  destruct (Rlt_dec 0 s) as [K|K].
  - rewrite Rabs_right by lra. field. split; lra.
  - rewrite Rabs_left by lra. field. split; lra.
Qed.

(** Scaling in space. *)
Lemma unit_row_vscale (v : list R) s : 0 < s -> / 100000000 < vnorm v -> / 100000000 < s * vnorm v ->
  unit_row (vscale v s) = unit_row v.
Proof.
  intros Hs H1 H2. rewrite !unit_row_scale, !frenet_norm_far; [|assumption|rewrite vnorm_scale, Rabs_right by lra; assumption].
  apply vec_ext; [rewrite !vscale_length; reflexivity|]. intros i. rewrite !nth_vscale, vnorm_scale, Rabs_right by lra.
  field. split; lra.
Qed.

Lemma finite_choice (P : nat -> R -> R -> Prop) m : (forall i, (i < m)%nat -> exists s t, P i s t) ->
  exists f g, forall i, (i < m)%nat -> P i (f i) (g i).
Proof.
  induction m as [|m IH]; intros H; [exists (fun _ => 0), (fun _ => 0); intros i Hi; lia|].
  destruct IH as (f & g & K); [intros i Hi; apply H; lia|]. destruct (H m ltac:(lia)) as (s & t & Pm).
  exists (fun i => if Nat.eqb i m then s else f i), (fun i => if Nat.eqb i m then t else g i).
  intros i Hi. destruct (Nat.eqb_spec i m) as [->|N]; [assumption|]. apply K. lia.
Qed.

Lemma common_plane_rows n (rows : list (list R)) : dims n rows -> in_common_plane n rows ->
  exists p u v a b, plane_rows n p u v a b rows.
Proof.
  intros D (p & u & v & Lp & Lu & Lv & H).
  destruct (finite_choice (fun k s t => forall j, coord rows j k = nth j p 0 + s * nth j u 0 + t * nth j v 0) (length rows)) as (a & b & K).
  { intros i Hi. destruct (H (nth i rows []) (nth_In _ _ Hi)) as (s & t & E). exists s, t. exact E. }
  exists p, u, v, a, b. split; [assumption|]. split; [assumption|]. split; [assumption|]. intros k j Hk. apply K. assumption.
Qed.

(** Straight lines. *)
Lemma along_rows n p u (s : nat -> R) rows : dims n rows -> length u = n ->
  (forall i, (i < length rows)%nat -> along p u (s i) (nth i rows [])) ->
  plane_rows n p u (repeat 0 n) s (fun _ => 0) rows.
Proof.
  intros D Lu H. split; [assumption|]. split; [assumption|]. split; [apply repeat_length|].
  intros k j Hk. unfold coord. rewrite (H k Hk j). ring.
Qed.
