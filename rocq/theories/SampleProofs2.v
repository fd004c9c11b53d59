(** Curvature of samples: perturbation of the plane and of the space formula. *)
From Coq Require Import ZArith List Bool Arith Lia Reals Lra Psatz.
From Verif Require Import Num Vec DiffGeom Spec GeomSpec VecFacts GeomProofs DiffGeomProofs2 SampleProofs.
Import ListNotations.
Local Open Scope R_scope.

Lemma Rabs_mul_le a b x y : Rabs a <= x -> Rabs b <= y -> Rabs (a * b) <= x * y.
Proof. intros A B. rewrite Rabs_mult. apply Rmult_le_compat; try apply Rabs_pos; assumption. Qed.
Lemma Rabs_add_le a b x y : Rabs a <= x -> Rabs b <= y -> Rabs (a + b) <= x + y.
Proof. intros A B. eapply Rle_trans; [apply Rabs_triang|lra]. Qed.
Lemma Rabs_sub_le a b x y : Rabs a <= x -> Rabs b <= y -> Rabs (a - b) <= x + y.
Proof. intros A B. unfold Rminus. apply Rabs_add_le; [assumption|rewrite Rabs_Ropp; assumption]. Qed.

(** *** The plane *)
Definition hyp (x y : R) : R := sqrt (x * x + y * y).
Lemma hyp_sq x y : hyp x y * hyp x y = x * x + y * y.
Proof. unfold hyp. apply sqrt_sqrt. nra. Qed.
Lemma hyp_pos x y : 0 <= hyp x y. Proof. apply sqrt_pos. Qed.
Lemma hyp_x x y : Rabs x <= hyp x y.
Proof. rewrite <- (sqrt_Rsqr_abs x). unfold hyp. apply sqrt_le_1_alt. unfold Rsqr. nra. Qed.
Lemma hyp_y x y : Rabs y <= hyp x y.
Proof. rewrite <- (sqrt_Rsqr_abs y). unfold hyp. apply sqrt_le_1_alt. unfold Rsqr. nra. Qed.
Lemma hyp_grow x y a b e : Rabs a <= e -> Rabs b <= e -> hyp (x + a) (y + b) <= hyp x y + 2 * e.
Proof.
  intros A B. assert (E : 0 <= e) by (pose proof (Rabs_pos a); lra). pose proof (hyp_pos x y) as P.
  apply Rsqr_incr_0_var; [|lra]. unfold Rsqr. rewrite hyp_sq.
  pose proof (Rabs_mul_le x a _ _ (hyp_x x y) A) as X. pose proof (Rabs_mul_le y b _ _ (hyp_y x y) B) as Y.
  apply Rabs_lt_le_inv in X, Y, A, B. pose proof (hyp_sq x y). nra.
Qed.
Lemma hyp_scale k x y : 0 <= k -> hyp (k * x) (k * y) = k * hyp x y.
Proof.
  intros K. apply Rsqr_inj; [apply hyp_pos|apply Rmult_le_pos; [exact K|apply hyp_pos]|]. unfold Rsqr. rewrite hyp_sq.
  replace (k * hyp x y * (k * hyp x y)) with (k * k * (hyp x y * hyp x y)) by ring. rewrite hyp_sq. ring.
Qed.

Lemma curv_close px py qx qy ax ay bx by_ e1 e2 W v :
  0 < v -> v <= hyp px py -> Rabs ax <= e1 -> Rabs ay <= e1 -> Rabs bx <= e2 -> Rabs by_ <= e2 -> Rabs qx <= W -> Rabs qy <= W -> 4 * e1 <= v ->
  let N := hyp (px + ax) (py + ay) in let n := hyp px py in
  0 < N /\
  Rabs (((qy + by_) * (px + ax) - (qx + bx) * (py + ay)) / (N * N * N) - (qy * px - qx * py) / (n * n * n)) <= 8 * e2 / v ^ 2 + 72 * e1 * W / v ^ 3.
Proof.
  intros Hv Hn Ax Ay Bx By Qx Qy H4. cbv zeta.
  pose proof (hyp_grow px py ax ay e1 Ax Ay) as U.
  pose proof (hyp_grow (px + ax) (py + ay) (- ax) (- ay) e1 ltac:(rewrite Rabs_Ropp; exact Ax) ltac:(rewrite Rabs_Ropp; exact Ay)) as L.
  replace (px + ax + - ax) with px in L by ring. replace (py + ay + - ay) with py in L by ring.
  pose proof (hyp_x (px + ax) (py + ay)) as PX. pose proof (hyp_y (px + ax) (py + ay)) as PY. pose proof (hyp_x px py) as Px. pose proof (hyp_y px py) as Py.
  set (N := hyp (px + ax) (py + ay)) in *. set (n := hyp px py) in *.
  assert (E1 : 0 <= e1) by (pose proof (Rabs_pos ax); lra). assert (E2 : 0 <= e2) by (pose proof (Rabs_pos bx); lra). assert (W0 : 0 <= W) by (pose proof (Rabs_pos qx); lra).
  assert (N0 : 0 < N) by lra. split; [exact N0|]. assert (n0 : 0 < n) by lra.
  set (a := / N). set (b := / n). assert (Ha : a * N = 1) by (apply Rinv_l; lra). assert (Hb : b * n = 1) by (apply Rinv_l; lra).
  assert (a0 : 0 < a) by (apply Rinv_0_lt_compat; exact N0). assert (b0 : 0 < b) by (apply Rinv_0_lt_compat; exact n0).
  assert (ab : a <= 2 * b). { apply (Rmult_le_reg_r (N * n)); [nra|]. replace (a * (N * n)) with (a * N * n) by ring. replace (2 * b * (N * n)) with (2 * N * (b * n)) by ring. rewrite Ha, Hb. lra. }
  assert (dab : Rabs (a - b) <= 4 * e1 * (b * b)).
  { replace (a - b) with ((n - N) * (a * b)). 2:{ replace ((n - N) * (a * b)) with (a * (b * n) - b * (a * N)) by ring. rewrite Ha, Hb. ring. }
    rewrite Rabs_mult. rewrite (Rabs_right (a * b)) by nra. assert (Rabs (n - N) <= 2 * e1) by (apply Rabs_le; lra).
    apply Rle_trans with (2 * e1 * (a * b)); [apply Rmult_le_compat_r; [nra|assumption]|]. assert (e1 * b * a <= e1 * b * (2 * b)) by (apply Rmult_le_compat_l; nra). nra. }
  set (X := (qy + by_) * (px + ax) - (qx + bx) * (py + ay)). set (x := qy * px - qx * py).
  assert (DX : Rabs (X - x) <= 2 * (e1 * W) + 2 * (e2 * N)).
  { replace (X - x) with ((ax * qy - ay * qx) + (by_ * (px + ax) - bx * (py + ay))) by (unfold X, x; ring).
    pose proof (Rabs_add_le _ _ _ _ (Rabs_sub_le _ _ _ _ (Rabs_mul_le _ _ _ _ Ax Qy) (Rabs_mul_le _ _ _ _ Ay Qx)) (Rabs_sub_le _ _ _ _ (Rabs_mul_le _ _ _ _ By PX) (Rabs_mul_le _ _ _ _ Bx PY))). lra. }
  assert (Bx0 : Rabs x <= 2 * (W * n)).
  { pose proof (Rabs_sub_le _ _ _ _ (Rabs_mul_le _ _ _ _ Qy Px) (Rabs_mul_le _ _ _ _ Qx Py)). unfold x. lra. }
  replace (X / (N * N * N) - x / (n * n * n)) with ((X - x) * (a * a * a) + x * ((a - b) * (a * a + a * b + b * b))) by (unfold a, b; field; lra).
  assert (T1 : Rabs ((X - x) * (a * a * a)) <= 16 * (e1 * W) * (b * b * b) + 8 * e2 * (b * b)).
  { rewrite Rabs_mult, (Rabs_right (a * a * a)) by nra.
    apply Rle_trans with ((2 * (e1 * W) + 2 * (e2 * N)) * (a * a * a)); [apply Rmult_le_compat_r; [nra|exact DX]|].
    replace ((2 * (e1 * W) + 2 * (e2 * N)) * (a * a * a)) with (2 * (e1 * W) * (a * a * a) + 2 * e2 * (a * a) * (a * N)) by ring. rewrite Ha.
    assert (A2 : a * a <= 4 * (b * b)) by nra. assert (A3 : a * a * a <= 8 * (b * b * b)) by nra.
    assert (EW : 0 <= e1 * W) by (apply Rmult_le_pos; assumption). nra. }
  assert (T2 : Rabs (x * ((a - b) * (a * a + a * b + b * b))) <= 56 * (e1 * W) * (b * b * b)).
  { assert (A : Rabs (a * a + a * b + b * b) <= 7 * (b * b)) by (rewrite Rabs_right; nra).
    pose proof (Rabs_mul_le _ _ _ _ Bx0 (Rabs_mul_le _ _ _ _ dab A)) as K.
    replace (2 * (W * n) * (4 * e1 * (b * b) * (7 * (b * b)))) with (56 * (e1 * W) * (b * b * b) * (b * n)) in K by ring. rewrite Hb in K. lra. }
  assert (bv : b <= / v) by (apply Rinv_le_contravar; assumption). assert (v0 : 0 < / v) by (apply Rinv_0_lt_compat; exact Hv).
  assert (B2 : b * b <= / v * / v) by nra. assert (B3 : b * b * b <= / v * / v * / v) by nra.
  eapply Rle_trans; [apply Rabs_triang|]. replace (8 * e2 / v ^ 2 + 72 * e1 * W / v ^ 3) with (8 * e2 * (/ v * / v) + 72 * (e1 * W) * (/ v * / v * / v)) by (field; lra).
  assert (EW : 0 <= e1 * W) by (apply Rmult_le_pos; assumption). nra.
Qed.

(** *** Any dimension *)

(** The part of [d] across [p]. *)
Definition across (d p : list R) : list R := vsub d (vscale p (vdot d p / vdot p p)).
Definition unit (p : list R) : list R := vscale p (/ vnorm p).

Ltac vlen := repeat (rewrite ?vadd_length, ?vsub_length, ?vscale_length, ?vopp_length); try congruence; try reflexivity.

Lemma vnorm_sub_le (u v : list R) : length u = length v -> vnorm (vsub u v) <= vnorm u + vnorm v.
Proof.
  intros L. replace (vsub u v) with (vadd u (vopp v)).
  - eapply Rle_trans; [apply vnorm_triangle; rewrite vopp_length; exact L|]. rewrite vnorm_opp. lra.
  - apply vec_ext; [rewrite vadd_length, vsub_length; vlen|]. intros i. rewrite nth_vadd, nth_vsub, nth_vopp by vlen. ring.
Qed.
Lemma vnorm_gap (u v : list R) : length u = length v -> Rabs (vnorm (vadd u v) - vnorm u) <= vnorm v.
Proof.
  intros L. pose proof (vnorm_triangle u v L) as A. assert (L' : length (vadd u v) = length v) by (rewrite vadd_length; congruence).
  pose proof (vnorm_sub_le (vadd u v) v L') as B.
  replace (vsub (vadd u v) v) with u in B; [apply Rabs_le; lra|].
  apply vec_ext; [rewrite vsub_length; [rewrite vadd_length; congruence|congruence]|]. intros i. rewrite nth_vsub, nth_vadd by congruence. ring.
Qed.
Lemma vnorm_close (u v : list R) : length u = length v -> Rabs (vnorm u - vnorm v) <= vnorm (vsub u v).
Proof.
  intros L. pose proof (vnorm_gap v (vsub u v) ltac:(rewrite vsub_length; congruence)) as H.
  replace (vadd v (vsub u v)) with u in H; [exact H|].
  apply vec_ext; [rewrite vadd_length; [congruence|rewrite vsub_length; congruence]|]. intros i. rewrite nth_vadd, nth_vsub by (rewrite ?vsub_length; congruence). ring.
Qed.

Lemma across_length d p : length d = length p -> length (across d p) = length p.
Proof. intros L. unfold across. rewrite vsub_length; vlen. Qed.
Lemma across_norm d p : length d = length p -> vdot p p <> 0 -> vnorm (across d p) <= vnorm d.
Proof.
  intros L P. apply Rsqr_incr_0_var; [|apply vnorm_nonneg]. unfold Rsqr. rewrite !vnorm_sq. unfold across.
  rewrite vdot_sub_l, !vdot_sub_r, !vdot_scale_l, !vdot_scale_r by vlen. rewrite (vdot_comm p d).
  assert (0 <= vdot d p * vdot d p / vdot p p) by (apply Rmult_le_pos; [nra|left; apply Rinv_0_lt_compat; pose proof (vdot_nonneg p); lra]).
  replace (vdot d p / vdot p p * (vdot d p / vdot p p * vdot p p)) with (vdot d p * vdot d p / vdot p p) by (field; exact P).
  replace (vdot d p / vdot p p * vdot d p) with (vdot d p * vdot d p / vdot p p) by (field; exact P). lra.
Qed.

(** The unit vector to second order. *)
Lemma unit_expand p d : length d = length p -> 0 < vnorm p -> 2 * vnorm d <= vnorm p ->
  vnorm (vsub (vsub (unit (vadd p d)) (unit p)) (vscale (across d p) (/ vnorm p))) <= 5 * (vnorm d * vnorm d) / (vnorm p * vnorm p).
Proof.
  intros L P H. set (n := vnorm p) in *. set (e := vnorm d) in *. set (s := vdot d p / n). set (r := vnorm (vadd p d)).
  assert (e0 : 0 <= e) by apply vnorm_nonneg. assert (Pn : vdot p p = n * n) by (unfold n; rewrite vnorm_sq; reflexivity).
  assert (Hs : Rabs s <= e).
  { unfold s, Rdiv. rewrite Rabs_mult, (Rabs_right (/ n)) by (left; apply Rinv_0_lt_compat; exact P).
    apply (Rmult_le_reg_r n); [exact P|]. rewrite Rmult_assoc, Rinv_l by lra. pose proof (vdot_le_norm d p L). unfold e, n. lra. }
  assert (Hr : Rabs (r - n) <= e) by (apply vnorm_gap; congruence).
  apply Rabs_lt_le_inv in Hs. pose proof (Rabs_lt_le_inv _ _ Hr) as Hr'.
  assert (r0 : n / 2 <= r) by lra.
  set (rho := r - n - s).
  assert (R2 : r * r = n * n + 2 * (n * s) + e * e).
  { unfold r. rewrite vnorm_sq, vdot_add_l, !vdot_add_r by (rewrite ?vadd_length; congruence). rewrite (vdot_comm p d), Pn. replace (vdot d d) with (e * e) by (unfold e; apply vnorm_sq). unfold s. field. lra. }
  assert (Rho : Rabs rho <= e * e / n).
  { assert (F : rho * (r + n + s) = e * e - s * s) by (unfold rho; nra). assert (K : n <= r + n + s) by lra.
    assert (rho0 : 0 <= rho). { destruct (Rle_lt_dec 0 rho) as [|C]; [assumption|]. exfalso. assert (s * s <= e * e) by nra. nra. }
    rewrite Rabs_right by lra. apply (Rmult_le_reg_r n); [exact P|]. unfold Rdiv. rewrite Rmult_assoc, Rinv_l by lra. nra. }
  set (w := vsub (vsub (unit (vadd p d)) (unit p)) (vscale (across d p) (/ n))).
  assert (E : w = vadd (vadd (vscale p (s * (r - n) / (n * n * r))) (vscale d (- s / (r * n)))) (vscale (vadd p d) (- rho / (r * n)))).
  { assert (La : length (across d p) = length p) by (apply across_length; exact L).
    assert (Lp : length (vadd p d) = length p) by (rewrite vadd_length; congruence).
    unfold w, unit. apply vec_ext.
    - rewrite !vsub_length, !vadd_length; rewrite ?vsub_length, ?vadd_length, ?vscale_length; try congruence; rewrite ?vsub_length, ?vadd_length, ?vscale_length; congruence.
    - intros i. rewrite !nth_vsub by (rewrite ?vsub_length, ?vscale_length, ?vscale_length; rewrite ?vscale_length; congruence).
      rewrite !nth_vscale. fold r n. rewrite (nth_vadd (vadd _ _)) by (rewrite ?vadd_length; rewrite ?vscale_length; congruence).
      rewrite (nth_vadd (vscale _ _)) by (rewrite ?vscale_length; congruence). rewrite !nth_vscale. rewrite (nth_vadd p d) by congruence.
      unfold across. rewrite nth_vsub, nth_vscale by (rewrite vscale_length; congruence). rewrite Pn.
      replace (vdot d p / (n * n)) with (s / n) by (unfold s; field; lra). replace rho with (r - n - s) by reflexivity. field. lra. }
  rewrite E.
  assert (Lp : length (vadd p d) = length p) by (rewrite vadd_length; congruence).
  eapply Rle_trans; [apply vnorm_triangle; rewrite ?vadd_length; rewrite ?vscale_length; congruence|].
  eapply Rle_trans; [apply Rplus_le_compat_r, vnorm_triangle; rewrite ?vscale_length; congruence|].
  rewrite !vnorm_scale. fold n e r.
  assert (b0 : 0 < / n) by (apply Rinv_0_lt_compat; exact P). assert (r1 : 0 < r) by lra. assert (c0 : 0 < / r) by (apply Rinv_0_lt_compat; exact r1).
  set (b := / n) in *. set (c := / r) in *. assert (Hb : b * n = 1) by (apply Rinv_l; lra). assert (Hc : c * r = 1) by (apply Rinv_l; lra).
  assert (cb : c <= 2 * b). { apply (Rmult_le_reg_r (n * r)); [nra|]. replace (c * (n * r)) with (c * r * n) by ring. replace (2 * b * (n * r)) with (2 * r * (b * n)) by ring. rewrite Hb, Hc. lra. }
  assert (As : Rabs s <= e) by (apply Rabs_le; lra).
  assert (T1 : Rabs (s * (r - n) / (n * n * r)) * n <= 2 * (e * e) * (b * b)).
  { replace (s * (r - n) / (n * n * r)) with (s * (r - n) * (b * b * c)) by (unfold b, c; field; lra). rewrite Rabs_mult, (Rabs_right (b * b * c)) by (repeat apply Rmult_le_pos || idtac; nra).
    pose proof (Rabs_mul_le _ _ _ _ As Hr) as K. replace (Rabs (s * (r - n)) * (b * b * c) * n) with (Rabs (s * (r - n)) * (b * c) * (b * n)) by ring. rewrite Hb, Rmult_1_r.
    apply Rle_trans with (e * e * (b * c)); [apply Rmult_le_compat_r; [nra|exact K]|]. assert (b * c <= b * (2 * b)) by (apply Rmult_le_compat_l; lra). assert (0 <= e * e) by nra. nra. }
  assert (T2 : Rabs (- s / (r * n)) * e <= 2 * (e * e) * (b * b)).
  { replace (- s / (r * n)) with (- s * (b * c)) by (unfold b, c; field; lra). rewrite Rabs_mult, (Rabs_right (b * c)), Rabs_Ropp by nra.
    assert (b * c <= b * (2 * b)) by (apply Rmult_le_compat_l; lra). assert (0 <= b * c) by nra. pose proof (Rabs_pos s). assert (Rabs s * e <= e * e) by nra. assert (0 <= Rabs s * e) by nra. nra. }
  assert (T3 : Rabs (- rho / (r * n)) * r <= (e * e) * (b * b)).
  { replace (- rho / (r * n)) with (- rho * (b * c)) by (unfold b, c; field; lra). rewrite Rabs_mult, (Rabs_right (b * c)), Rabs_Ropp by nra.
    replace (Rabs rho * (b * c) * r) with (Rabs rho * b * (c * r)) by ring. rewrite Hc, Rmult_1_r. unfold Rdiv in Rho. fold b in Rho. nra. }
  replace (5 * (e * e) / (n * n)) with (5 * (e * e) * (b * b)) by (unfold b; field; lra). lra.
Qed.

Lemma vdot_coords (u : list R) e : (forall x, In x u -> Rabs x <= e) -> vdot u u <= INR (length u) * (e * e).
Proof.
  induction u as [|a u IH]; intros H; [cbn; lra|]. rewrite vdot_cons. cbn [length]. rewrite S_INR.
  specialize (IH (fun x Hx => H x (or_intror Hx))). pose proof (H a (or_introl eq_refl)) as A. apply Rabs_lt_le_inv in A. nra.
Qed.
Lemma vnorm_coords (u : list R) e : 0 <= e -> (forall j, (j < length u)%nat -> Rabs (nth j u 0) <= e) -> vnorm u <= sqrt (INR (length u)) * e.
Proof.
  intros E H. apply Rsqr_incr_0_var; [|apply Rmult_le_pos; [apply sqrt_pos|exact E]]. unfold Rsqr. rewrite vnorm_sq.
  replace (sqrt (INR (length u)) * e * (sqrt (INR (length u)) * e)) with (sqrt (INR (length u)) * sqrt (INR (length u)) * (e * e)) by ring.
  rewrite sqrt_sqrt by apply pos_INR. apply vdot_coords. intros x Hx. destruct (In_nth u x 0 Hx) as (j & Hj & <-). apply H, Hj.
Qed.
Lemma coord_norm (u : list R) j : Rabs (nth j u 0) <= vnorm u.
Proof.
  revert j. induction u as [|a u IH]; intros j; [replace (nth j [] 0) with 0 by (destruct j; reflexivity); rewrite Rabs_R0; apply vnorm_nonneg|].
  rewrite <- (Rabs_right (vnorm (a :: u))) by (apply Rle_ge, vnorm_nonneg). apply Rsqr_le_abs_0. unfold Rsqr. rewrite vnorm_sq, vdot_cons. pose proof (vdot_nonneg u).
  destruct j as [|j]; cbn [nth]; [nra|]. specialize (IH j). pose proof (vnorm_sq u). pose proof (vnorm_nonneg u). apply Rabs_lt_le_inv in IH. nra.
Qed.

(** A slope uses rows at most two steps away. *)
Lemma slope_close_local m F G e i : (3 <= m)%nat -> (i < m)%nat -> (forall k, (k < m)%nat -> Rabs (INR k - INR i) <= 2 -> Rabs (F k - G k) <= e) ->
  Rabs (slope m F i - slope m G i) <= 4 * e.
Proof.
  intros Hm Hi H.
  assert (K : forall k c, (k < m)%nat -> INR k = INR i + c -> -2 <= c <= 2 -> - e <= F k - G k <= e).
  { intros k c Hk E Hc. apply Rabs_lt_le_inv, H; [exact Hk|]. rewrite E. apply Rabs_le. lra. }
  assert (K0 : - e <= F i - G i <= e) by (apply (K i 0); [exact Hi|ring|lra]).
  unfold slope. destruct (Nat.eqb_spec m 2); [lia|]. apply Rabs_le.
  destruct (Nat.eqb_spec i 0) as [E|].
  - subst i. pose proof (K 1%nat 1 ltac:(lia) ltac:(cbn; ring) ltac:(lra)); pose proof (K 2%nat 2 ltac:(lia) ltac:(cbn; ring) ltac:(lra)); lra.
  - destruct (Nat.eqb_spec i (m - 1)) as [E|].
    + pose proof (K (m - 2)%nat (-1) ltac:(lia) ltac:(rewrite E, !minus_INR by lia; cbn; ring) ltac:(lra)).
      pose proof (K (m - 3)%nat (-2) ltac:(lia) ltac:(rewrite E, !minus_INR by lia; cbn; ring) ltac:(lra)). rewrite <- E. lra.
    + pose proof (K (i + 1)%nat 1 ltac:(lia) ltac:(rewrite plus_INR; cbn; ring) ltac:(lra)). pose proof (K (i - 1)%nat (-1) ltac:(lia) ltac:(rewrite minus_INR by lia; cbn; ring) ltac:(lra)). lra.
Qed.
Lemma slope_line m u z i : (3 <= m)%nat -> (i < m)%nat -> slope m (fun k => u + (INR k - INR i) * z) i = z.
Proof.
  intros Hm Hi. rewrite (slope_ext m _ (fun k => (u - INR i * z) + z * INR k + 0 * (INR k * INR k))) by (try lia; intros; ring).
  rewrite slope_quadratic by assumption. ring.
Qed.

Definition vec (n : nat) (g : nat -> R -> R) (x : R) : list R := map (fun j => g j x) (seq 0 n).
Lemma vec_length n g x : length (vec n g x) = n.
Proof. unfold vec. rewrite map_length, seq_length. reflexivity. Qed.
Lemma vec_nth n g x j : (j < n)%nat -> nth j (vec n g x) 0 = g j x.
Proof.
  intros H. unfold vec. rewrite (nth_indep _ 0 (g 0%nat x)) by (rewrite map_length, seq_length; exact H). rewrite (map_nth (fun j => g j x)), seq_nth by exact H. reflexivity.
Qed.
Lemma unit_scale (p : list R) k : 0 < k -> unit (vscale p k) = unit p.
Proof.
  intros K. unfold unit. apply vec_ext; [rewrite !vscale_length; reflexivity|]. intros i. rewrite !nth_vscale, vnorm_scale, Rabs_right by lra.
  destruct (Req_dec (vnorm p) 0) as [Z|Z]; [|field; lra].
  apply vnorm_eq0 in Z. rewrite Z, nth_zeros. ring.
Qed.

Section Space.
  Variables (n m : nat) (a h v W M : R) (f f1 f2 f3 : nat -> R -> R) (rows : list (list R)).
  Hypothesis Hn : (0 < n)%nat.
  Hypothesis Hm : (3 <= m)%nat.
  Hypothesis Hh : 0 < h.
  Hypothesis Hv : 0 < v.
  Hypothesis D : dims n rows.
  Hypothesis Lr : length rows = m.
  Hypothesis Hrows : forall i j, (i < m)%nat -> (j < n)%nat -> nth j (nth i rows []) 0 = f j (at_ a h i).
  Let lo := a.
  Let hi := at_ a h (m - 1).
  Hypothesis D0 : forall j, (j < n)%nat -> deriv_on lo hi (f j) (f1 j).
  Hypothesis D1 : forall j, (j < n)%nat -> deriv_on lo hi (f1 j) (f2 j).
  Hypothesis D2 : forall j, (j < n)%nat -> deriv_on lo hi (f2 j) (f3 j).
  Hypothesis B3 : forall j, (j < n)%nat -> bounded_on lo hi (f3 j) M.
  Hypothesis Bv : forall x, lo <= x <= hi -> v <= vnorm (vec n f1 x).
  Hypothesis BW : forall x, lo <= x <= hi -> vnorm (vec n f2 x) <= W.
  Let r := sqrt (INR n).
  Let S := r * M.
  Hypothesis Small : 4 * (h * W) + 6 * S * h ^ 2 <= v.
  Hypothesis Large : / 50000000 < h * v.

  Let M0 : 0 <= M.
  Proof. pose proof (B3 0%nat Hn a ltac:(unfold lo, hi, at_; pose proof (pos_INR (m - 1)); nra)) as H. pose proof (Rabs_pos (f3 0%nat a)). lra. Qed.
  Let r0 : 0 <= r. Proof. apply sqrt_pos. Qed.
  Let S0 : 0 <= S. Proof. unfold S. apply Rmult_le_pos; [exact r0|exact M0]. Qed.
  Let W0 : 0 <= W.
  Proof. pose proof (BW a ltac:(unfold lo, hi, at_; pose proof (pos_INR (m - 1)); nra)) as H. pose proof (vnorm_nonneg (vec n f2 a)). lra. Qed.
  Let h2 : 0 < h ^ 2. Proof. apply pow_lt, Hh. Qed.
  Let dlt := h * (2 * W) + 3 * S * h ^ 2.
  Let err (nn : R) := 3 * S * h ^ 2 / nn + 5 * (dlt * dlt) / (nn * nn).

  (** The first derivative of a row, as a perturbed exact one. *)
  Lemma row_alpha k : (k < m)%nat -> exists al, length al = n /\ nth k (deriv1 rows) [] = vscale (vadd (vec n f1 (at_ a h k)) al) h /\
    (forall j, (j < n)%nat -> Rabs (nth j al 0) <= M * h ^ 2) /\ vnorm al <= S * h ^ 2.
  Proof.
    intros Hk. destruct (gradient_nth n rows k D ltac:(lia) ltac:(lia)) as (L & G).
    set (al := vsub (vscale (nth k (gradient rows) []) (/ h)) (vec n f1 (at_ a h k))).
    assert (La : length al = n) by (unfold al; rewrite vsub_length, vscale_length; [exact L|rewrite vscale_length, vec_length; exact L]).
    exists al. split; [exact La|].
    assert (B : forall j, (j < n)%nat -> Rabs (nth j al 0) <= M * h ^ 2).
    { intros j Hj. unfold al. rewrite nth_vsub by (rewrite vscale_length, vec_length; exact L). rewrite nth_vscale, vec_nth, G by exact Hj. rewrite Lr.
      rewrite (slope_ext m _ (fun q => f j (at_ a h q))) by (try lia; intros q Hq; unfold coord; apply Hrows; assumption).
      pose proof (proj1 (slope_d3 a h m Hh Hm (f j) (f1 j) (f2 j) (f3 j) M k (D0 j Hj) (D1 j Hj) (D2 j Hj) (B3 j Hj) Hk)) as K. apply Rabs_lt_le_inv in K.
      set (s := slope m (fun q => f j (at_ a h q)) k) in *. set (y := f1 j (at_ a h k)) in *. assert (Es : s = s * / h * h) by (field; lra). rewrite Es in K. set (z := s * / h) in *.
      apply Rabs_le. assert (0 <= M * h ^ 2) by (apply Rmult_le_pos; [exact M0|lra]). split; apply (Rmult_le_reg_r h); try exact Hh; nra. }
    split; [|split; [exact B|]].
    - unfold deriv1. apply vec_ext; [rewrite vscale_length, vadd_length, vec_length; [exact L|rewrite vec_length; congruence]|].
      intros j. rewrite nth_vscale, nth_vadd by (rewrite vec_length; congruence). unfold al. rewrite nth_vsub, nth_vscale by (rewrite vscale_length, vec_length; exact L). field. lra.
    - pose proof (vnorm_coords al (M * h ^ 2) ltac:(apply Rmult_le_pos; [exact M0|lra]) ltac:(rewrite La; exact B)) as K. rewrite La in K. unfold S, r. lra.
  Qed.

  Lemma far k al : (k < m)%nat -> length al = n -> vnorm al <= S * h ^ 2 -> / 100000000 < vnorm (vscale (vadd (vec n f1 (at_ a h k)) al) h) /\ v / 2 <= vnorm (vadd (vec n f1 (at_ a h k)) al).
  Proof.
    intros Hk La B. rewrite vnorm_scale, Rabs_right by lra. pose proof (vnorm_gap (vec n f1 (at_ a h k)) al ltac:(rewrite vec_length; congruence)) as G. apply Rabs_lt_le_inv in G.
    pose proof (Bv _ (at_in a h m Hh Hm k Hk)) as V. set (x := vnorm (vadd _ _)) in *. assert (hW : 0 <= h * W) by (apply Rmult_le_pos; lra).
    assert (v / 2 <= x) by lra. split; [|assumption]. nra.
  Qed.

  (** The unit tangent of a row near the [i]-th. *)
  Lemma row_unit i k j : (i < m)%nat -> (k < m)%nat -> (j < n)%nat -> Rabs (INR k - INR i) <= 2 ->
    let p := vec n f1 (at_ a h i) in let q := vec n f2 (at_ a h i) in
    Rabs (nth j (nth k (frenet1_rows rows) []) 0 - (nth j (unit p) 0 + (INR k - INR i) * (h * (nth j (across q p) 0 / vnorm p)))) <= err (vnorm p).
  Proof.
    intros Hi Hk Hj Hc p q. set (c := INR k - INR i) in *. pose proof (Bv _ (at_in a h m Hh Hm i Hi)) as V. fold p in V. pose proof (BW _ (at_in a h m Hh Hm i Hi)) as BQ. fold q in BQ.
    assert (Lp : length p = n) by apply vec_length. assert (Lq : length q = n) by apply vec_length.
    destruct (row_alpha k Hk) as (al & La & Ea & Ba & Na). destruct (far k al Hk La Na) as (F1 & F2).
    unfold frenet1_rows. rewrite nth_map_unit, Ea. rewrite unit_row_scale, frenet_norm_far by exact F1. fold (unit (vscale (vadd (vec n f1 (at_ a h k)) al) h)). rewrite unit_scale by exact Hh.
    set (pk := vec n f1 (at_ a h k)) in *. assert (Lk : length pk = n) by apply vec_length.
    set (de := vsub (vadd pk al) p). assert (Lka : length (vadd pk al) = n) by (rewrite vadd_length; congruence). assert (Ld : length de = n) by (unfold de; rewrite vsub_length; congruence).
    assert (Ep : vadd pk al = vadd p de).
    { apply vec_ext; [rewrite vadd_length, vadd_length; congruence|]. intros l. unfold de. rewrite (nth_vadd p) by (rewrite vsub_length; congruence). rewrite nth_vsub by congruence. ring. }
    rewrite Ep. set (ga := vsub de (vscale q (c * h))). assert (Lg : length ga = n) by (unfold ga; rewrite vsub_length; rewrite ?vscale_length; congruence).
    assert (Ng : vnorm ga <= 3 * S * h ^ 2).
    { assert (Z : 0 <= 3 * M * h ^ 2) by (pose proof M0; pose proof h2; nra).
      pose proof (vnorm_coords ga (3 * M * h ^ 2) Z) as K. rewrite Lg in K. fold r in K. unfold S. replace (3 * (r * M) * h ^ 2) with (r * (3 * M * h ^ 2)) by ring. apply K.
      intros l Hl. unfold ga. rewrite nth_vsub, nth_vscale by (rewrite vscale_length; congruence). unfold de. rewrite nth_vsub, nth_vadd by congruence. unfold pk, p, q. rewrite !vec_nth by exact Hl.
      pose proof (taylor2 lo hi (f1 l) (f2 l) (f3 l) M (at_ a h i) (at_ a h k) (D1 l Hl) (D2 l Hl) (B3 l Hl) (at_in a h m Hh Hm i Hi) (at_in a h m Hh Hm k Hk)) as T.
      rewrite at_diff in T. fold c in T. rewrite Rabs_mult, (Rabs_right h) in T by lra. specialize (Ba l Hl).
      assert (Cs : (h * Rabs c) ^ 2 <= 4 * h ^ 2). { replace ((h * Rabs c) ^ 2) with (h ^ 2 * (Rabs c * Rabs c)) by ring. pose proof (Rabs_pos c). assert (Rabs c * Rabs c <= 4) by nra. nra. }
      assert (T' : M * (h * Rabs c) ^ 2 / 2 <= 2 * M * h ^ 2) by (pose proof M0; nra).
      apply Rabs_lt_le_inv in T, Ba. apply Rabs_le. lra. }
    assert (Ed : de = vadd (vscale q (c * h)) ga).
    { apply vec_ext; [rewrite vadd_length, vscale_length; rewrite ?vscale_length; congruence|]. intros l. unfold ga. rewrite nth_vadd, nth_vsub, nth_vscale by (rewrite ?vsub_length, ?vscale_length; rewrite ?vscale_length; congruence). ring. }
    assert (Nd : vnorm de <= dlt).
    { rewrite Ed. eapply Rle_trans; [apply vnorm_triangle; rewrite vscale_length; congruence|]. rewrite vnorm_scale, Rabs_mult, (Rabs_right h) by lra.
      unfold dlt. assert (Rabs c * h * vnorm q <= h * (2 * W)); [|lra]. pose proof (vnorm_nonneg q). pose proof (Rabs_pos c).
      assert (Rabs c * vnorm q <= 2 * W) by (apply Rmult_le_compat; lra). nra. }
    assert (P0 : 0 < vnorm p) by lra. assert (Sm : 2 * vnorm de <= vnorm p) by (unfold dlt in Nd; nra).
    pose proof (unit_expand p de ltac:(congruence) P0 Sm) as U.
    assert (Pp : vdot p p <> 0) by (rewrite <- vnorm_sq; nra).
    assert (Ea2 : forall l, nth l (across de p) 0 = c * h * nth l (across q p) 0 + nth l (across ga p) 0).
    { intros l. unfold across. rewrite !nth_vsub, !nth_vscale by (rewrite vscale_length; congruence). rewrite Ed. rewrite nth_vadd, nth_vscale by (rewrite vscale_length; congruence).
      rewrite vdot_add_l, vdot_scale_l by (rewrite vscale_length; congruence). field. exact Pp. }
    pose proof (coord_norm (vsub (vsub (unit (vadd p de)) (unit p)) (vscale (across de p) (/ vnorm p))) j) as C.
    pose proof (across_length de p ltac:(congruence)) as Lac.
    assert (Lpd : length (vadd p de) = n) by (rewrite vadd_length; congruence).
    assert (Lu1 : length (unit (vadd p de)) = n) by (unfold unit; rewrite vscale_length; exact Lpd). assert (Lu2 : length (unit p) = n) by (unfold unit; rewrite vscale_length; exact Lp).
    rewrite !nth_vsub in C by (rewrite ?vsub_length, ?vscale_length; congruence). rewrite nth_vscale, Ea2 in C.
    pose proof (coord_norm (across ga p) j) as C2. pose proof (across_norm ga p ltac:(congruence) Pp) as C3.
    set (nn := vnorm p) in *. set (u1 := nth j (unit (vadd p de)) 0) in *. set (u0 := nth j (unit p) 0) in *. set (w := nth j (across q p) 0) in *. set (g := nth j (across ga p) 0) in *.
    assert (b0 : 0 < / nn) by (apply Rinv_0_lt_compat; exact P0).
    assert (E1 : Rabs (g * / nn) <= 3 * S * h ^ 2 / nn) by (unfold Rdiv; apply Rabs_mul_le; [lra|rewrite Rabs_right; lra]).
    assert (E2 : 5 * (vnorm de * vnorm de) / (nn * nn) <= 5 * (dlt * dlt) / (nn * nn)).
    { unfold Rdiv. apply Rmult_le_compat_r; [left; apply Rinv_0_lt_compat; nra|]. pose proof (vnorm_nonneg de). nra. }
    unfold err. replace (u1 - (u0 + c * (h * (w / nn)))) with ((u1 - u0 - (c * h * w + g) * / nn) + g * / nn) by (unfold Rdiv; ring).
    eapply Rle_trans; [apply Rabs_triang|]. lra.
  Qed.

  Lemma space_curv i : (i < m)%nat ->
    let p := vec n f1 (at_ a h i) in let q := vec n f2 (at_ a h i) in
    Rabs (vnorm (nth i (gradient (frenet1_rows rows)) []) / vnorm (nth i (deriv1 rows) []) - vnorm (across q p) / (vnorm p * vnorm p))
    <= 24 * r * S * h / v ^ 2 + 40 * r * h * (2 * W + 3 * S * h) ^ 2 / v ^ 3 + 2 * W * S * h ^ 2 / v ^ 3.
  Proof.
    intros Hi p q. pose proof (Bv _ (at_in a h m Hh Hm i Hi)) as V. fold p in V. pose proof (BW _ (at_in a h m Hh Hm i Hi)) as BQ. fold q in BQ.
    assert (Lp : length p = n) by apply vec_length. assert (Lq : length q = n) by apply vec_length.
    set (E1 := frenet1_rows rows). assert (LE : length E1 = m) by (unfold E1, frenet1_rows; rewrite map_length; unfold deriv1; rewrite gradient_length; exact Lr).
    assert (DE : dims n E1).
    { intros x Hx. apply in_map_iff in Hx. destruct Hx as (y & <- & Hy). rewrite unit_row_length. apply (gradient_dims n rows D); [lia|exact Hy]. }
    destruct (gradient_nth n E1 i DE ltac:(lia) ltac:(lia)) as (Lg & G). set (g := nth i (gradient E1) []) in *.
    assert (P0 : 0 < vnorm p) by lra. assert (Pp : vdot p p <> 0) by (rewrite <- vnorm_sq; nra).
    set (nn := vnorm p) in *. set (w := vscale (across q p) (/ nn)).
    assert (Lw : length w = n) by (unfold w; rewrite vscale_length, across_length; congruence).
    assert (dlt0 : 0 <= dlt). { unfold dlt. pose proof W0. pose proof S0. pose proof h2. assert (0 <= h * W) by nra. assert (0 <= S * h ^ 2) by nra. lra. }
    assert (err0 : 0 <= err nn). { unfold err. pose proof S0. pose proof h2. assert (0 < / nn) by (apply Rinv_0_lt_compat; exact P0). apply Rplus_le_le_0_compat; unfold Rdiv; apply Rmult_le_pos; try (left; apply Rinv_0_lt_compat); nra. }
    assert (Gw : vnorm (vsub g (vscale w h)) <= r * (4 * err nn)).
    { pose proof (vnorm_coords (vsub g (vscale w h)) (4 * err nn) ltac:(lra)) as K. assert (Lgw : length (vsub g (vscale w h)) = n) by (rewrite vsub_length; rewrite ?vscale_length; congruence).
      rewrite Lgw in K. apply K. intros j Hj. rewrite nth_vsub, nth_vscale by (rewrite vscale_length; congruence). rewrite G, LE.
      unfold w. rewrite nth_vscale. replace (nth j (across q p) 0 * / nn * h) with (h * (nth j (across q p) 0 / nn)) by (unfold Rdiv; ring).
      rewrite <- (slope_line m (nth j (unit p) 0) (h * (nth j (across q p) 0 / nn)) i Hm Hi). apply slope_close_local; [exact Hm|exact Hi|].
      intros k Hk Hc. unfold coord. apply (row_unit i k j Hi Hk Hj Hc). }
    pose proof (vnorm_close g (vscale w h) ltac:(rewrite vscale_length; congruence)) as Cg. rewrite vnorm_scale, (Rabs_right h) in Cg by lra.
    destruct (row_alpha i Hi) as (al & La & Ea & _ & Na). destruct (far i al Hi La Na) as (_ & F2). fold p in Ea, F2. rewrite Ea, vnorm_scale, (Rabs_right h) by lra.
    pose proof (vnorm_gap p al ltac:(congruence)) as Gn. fold nn in Gn. set (N := vnorm (vadd p al)) in *.
    assert (Ww : vnorm w <= W / nn). { unfold w. rewrite vnorm_scale, Rabs_right by (left; apply Rinv_0_lt_compat; exact P0). pose proof (across_norm q p ltac:(congruence) Pp). unfold Rdiv. rewrite Rmult_comm. apply Rmult_le_compat_r; [left; apply Rinv_0_lt_compat; exact P0|lra]. }
    replace (vnorm (across q p) / (nn * nn)) with (vnorm w / nn) by (unfold w; rewrite vnorm_scale, Rabs_right by (left; apply Rinv_0_lt_compat; exact P0); field; lra).
    set (x := vnorm g) in *. set (y := vnorm w) in *. assert (y0 : 0 <= y) by apply vnorm_nonneg.
    assert (NN : nn / 2 <= N). { apply Rabs_lt_le_inv in Gn. assert (0 <= h * W) by (apply Rmult_le_pos; [lra|exact W0]). lra. }
    assert (N0 : 0 < N) by lra. set (A := / N). set (b := / nn). assert (HA : A * N = 1) by (apply Rinv_l; lra). assert (Hb : b * nn = 1) by (apply Rinv_l; lra).
    assert (A0 : 0 < A) by (apply Rinv_0_lt_compat; exact N0). assert (b0 : 0 < b) by (apply Rinv_0_lt_compat; exact P0).
    assert (Ab : A <= 2 * b). { apply (Rmult_le_reg_r (N * nn)); [nra|]. replace (A * (N * nn)) with (A * N * nn) by ring. replace (2 * b * (N * nn)) with (2 * N * (b * nn)) by ring. rewrite HA, Hb. lra. }
    set (t := r * (4 * err nn)) in *. assert (t0 : 0 <= t) by (unfold t; apply Rmult_le_pos; [exact r0|lra]).
    replace (x / (h * N) - y / nn) with ((x - h * y) * (A * / h) + y * ((nn - N) * (A * b))).
    2:{ unfold A, b. field. lra. }
    assert (h0 : 0 < / h) by (apply Rinv_0_lt_compat; exact Hh).
    assert (T1 : Rabs ((x - h * y) * (A * / h)) <= t * (2 * b * / h)).
    { apply Rabs_mul_le; [lra|]. rewrite Rabs_right by nra. apply Rmult_le_compat_r; lra. }
    assert (T2 : Rabs (y * ((nn - N) * (A * b))) <= W * b * (S * h ^ 2 * (2 * b * b))).
    { apply Rabs_mul_le; [rewrite Rabs_right by lra; exact Ww|]. apply Rabs_mul_le; [rewrite Rabs_minus_sym; lra|]. rewrite Rabs_right by nra. apply Rmult_le_compat_r; lra. }
    eapply Rle_trans; [apply Rabs_triang|].
    assert (Et : t * (2 * b * / h) = 24 * (r * S * h) * (b * b) + 40 * (r * h * (2 * W + 3 * S * h) ^ 2) * (b * b * b)).
    { unfold t, err, dlt, b. field. lra. }
    assert (bv : b <= / v) by (apply Rinv_le_contravar; assumption). assert (v0 : 0 < / v) by (apply Rinv_0_lt_compat; exact Hv).
    assert (B2 : b * b <= / v * / v) by nra. assert (BB3 : b * b * b <= / v * / v * / v) by nra.
    replace (24 * r * S * h / v ^ 2 + 40 * r * h * (2 * W + 3 * S * h) ^ 2 / v ^ 3 + 2 * W * S * h ^ 2 / v ^ 3)
      with (24 * (r * S * h) * (/ v * / v) + 40 * (r * h * (2 * W + 3 * S * h) ^ 2) * (/ v * / v * / v) + 2 * (W * S * h ^ 2) * (/ v * / v * / v)) by (field; lra).
    assert (Q1 : 0 <= r * S * h) by (repeat apply Rmult_le_pos; try lra; try exact r0; try exact S0).
    assert (Q2 : 0 <= r * h * (2 * W + 3 * S * h) ^ 2) by (apply Rmult_le_pos; [apply Rmult_le_pos; [exact r0|lra]|apply pow2_ge_0]).
    assert (Q3 : 0 <= W * S * h ^ 2) by (repeat apply Rmult_le_pos; try lra; try exact W0; try exact S0).
    replace (W * b * (S * h ^ 2 * (2 * b * b))) with (2 * (W * S * h ^ 2) * (b * b * b)) in T2 by ring.
    rewrite Et in T1.
    assert (Z1 : 24 * (r * S * h) * (b * b) <= 24 * (r * S * h) * (/ v * / v)) by (apply Rmult_le_compat_l; lra).
    assert (Z2 : 40 * (r * h * (2 * W + 3 * S * h) ^ 2) * (b * b * b) <= 40 * (r * h * (2 * W + 3 * S * h) ^ 2) * (/ v * / v * / v)) by (apply Rmult_le_compat_l; lra).
    assert (Z3 : 2 * (W * S * h ^ 2) * (b * b * b) <= 2 * (W * S * h ^ 2) * (/ v * / v * / v)) by (apply Rmult_le_compat_l; lra).
    eapply Rle_trans; [apply Rplus_le_compat; [exact T1|exact T2]|]. apply Rplus_le_compat; [apply Rplus_le_compat; [exact Z1|exact Z2]|exact Z3].
  Qed.
End Space.
