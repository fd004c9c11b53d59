(** Torsion of samples: distances from planes, and the perturbation of the torsion formula. *)
From Coq Require Import ZArith List Bool Arith Lia Reals Lra Psatz.
From Verif Require Import Num Vec DiffGeom Spec GeomSpec VecFacts GeomProofs DiffGeomProofs2 DiffGeomProofs3 DiffGeomProofs5 SampleProofs SampleProofs2.
Import ListNotations.
Local Open Scope R_scope.

Lemma coef_le r p : length r = length p -> 0 < vnorm p -> Rabs (vdot r p / vdot p p) <= vnorm r / vnorm p.
Proof.
  intros L P. rewrite <- vnorm_sq. unfold Rdiv. rewrite Rabs_mult, (Rabs_right (/ (vnorm p * vnorm p))) by (left; apply Rinv_0_lt_compat; nra).
  pose proof (vdot_le_norm r p L) as K. apply (Rmult_le_reg_r (vnorm p * vnorm p)); [nra|].
  replace (Rabs (vdot r p) * / (vnorm p * vnorm p) * (vnorm p * vnorm p)) with (Rabs (vdot r p)) by (field; lra).
  replace (vnorm r * / vnorm p * (vnorm p * vnorm p)) with (vnorm r * vnorm p) by (field; lra). exact K.
Qed.
Lemma across_orth q p : length q = length p -> vdot p p <> 0 -> vdot (across q p) p = 0.
Proof. intros L P. unfold across. rewrite vdot_sub_l, vdot_scale_l by vlen. field. exact P. Qed.
Lemma vdot_pos p : 0 < vnorm p -> vdot p p <> 0.
Proof. intros P. rewrite <- vnorm_sq. nra. Qed.

(** The part across [p] is the shortest of the differences from multiples of [p]. *)
Lemma across_min q p s : length q = length p -> 0 < vnorm p -> vnorm (across q p) <= vnorm (vsub q (vscale p s)).
Proof.
  intros L P. apply vdot_pos in P. replace (across q p) with (across (vsub q (vscale p s)) p); [apply across_norm; [vlen|exact P]|].
  apply vec_ext; [rewrite !across_length; vlen|]. intros i. unfold across. rewrite vdot_sub_l, vdot_scale_l by vlen. repeat (rewrite ?nth_vscale; rewrite ?nth_vsub by vlen). field. exact P.
Qed.
Definition across2 (r p q : list R) : list R := across (across r p) (across q p).
(** ... and the part across two vectors is the shortest of the differences from their span. *)
Lemma across2_min r p q s t : length r = length p -> length q = length p -> 0 < vnorm p -> 0 < vnorm (across q p) ->
  vnorm (across2 r p q) <= vnorm (vsub (vsub r (vscale p s)) (vscale q t)).
Proof.
  intros Lr Lq P N. set (z := vsub (vsub r (vscale p s)) (vscale q t)). assert (Lz : length z = length p) by (unfold z; vlen).
  pose proof (across_length q p Lq) as La. pose proof (across_length r p Lr) as Lb.
  apply vdot_pos in P. apply Rle_trans with (vnorm (across z p)); [|apply across_norm; [exact Lz|exact P]].
  replace (across z p) with (vsub (across r p) (vscale (across q p) t)); [apply across_min; [congruence|exact N]|].
  apply vec_ext; [rewrite vsub_length, !across_length; vlen; rewrite across_length; vlen|]. intros i. unfold across, z.
  rewrite !vdot_sub_l, !vdot_scale_l by vlen.
  repeat (rewrite ?nth_vscale; rewrite ?nth_vsub by vlen). field. exact P.
Qed.
Lemma across2_form r p q : length r = length p -> length q = length p -> 0 < vnorm p -> 0 < vnorm (across q p) ->
  exists s t, across2 r p q = vsub (vsub r (vscale p s)) (vscale q t) /\ Rabs t <= vnorm r / vnorm (across q p) /\ Rabs s <= (vnorm r + Rabs t * vnorm q) / vnorm p.
Proof.
  intros Lr Lq P N. pose proof (across_length q p Lq) as La. pose proof (across_length r p Lr) as Lb.
  set (t := vdot (across r p) (across q p) / vdot (across q p) (across q p)). exists (vdot r p / vdot p p - t * (vdot q p / vdot p p)), t.
  assert (Ht : Rabs t <= vnorm r / vnorm (across q p)).
  { eapply Rle_trans; [apply coef_le; [congruence|exact N]|]. apply Rmult_le_compat_r; [left; apply Rinv_0_lt_compat; exact N|]. apply across_norm; [exact Lr|apply vdot_pos, P]. }
  split; [|split; [exact Ht|]].
  - unfold across2. unfold across at 1. fold t. apply vec_ext; [vlen|]. intros i. unfold across.
    repeat (rewrite ?nth_vscale; rewrite ?nth_vsub by vlen). ring.
  - pose proof (coef_le r p Lr P) as K1. pose proof (coef_le q p Lq P) as K2. unfold Rminus.
    eapply Rle_trans; [apply Rabs_triang|]. rewrite Rabs_Ropp, Rabs_mult.
    replace ((vnorm r + Rabs t * vnorm q) / vnorm p) with (vnorm r / vnorm p + Rabs t * (vnorm q / vnorm p)) by (unfold Rdiv; ring).
    apply Rplus_le_compat; [exact K1|]. apply Rmult_le_compat_l; [apply Rabs_pos|exact K2].
Qed.
Lemma shift3 (r p q R P Q : list R) s t : length r = length p -> length q = length p -> length R = length p -> length P = length p -> length Q = length p ->
  vnorm (vsub (vsub R (vscale P s)) (vscale Q t)) <= vnorm (vsub (vsub r (vscale p s)) (vscale q t)) + (vnorm (vsub R r) + Rabs s * vnorm (vsub P p) + Rabs t * vnorm (vsub Q q)).
Proof.
  intros L1 L2 L3 L4 L5.
  replace (vsub (vsub R (vscale P s)) (vscale Q t)) with
    (vadd (vsub (vsub r (vscale p s)) (vscale q t)) (vsub (vsub (vsub R r) (vscale (vsub P p) s)) (vscale (vsub Q q) t))).
  - eapply Rle_trans; [apply vnorm_triangle; vlen|]. apply Rplus_le_compat_l.
    eapply Rle_trans; [apply vnorm_sub_le; vlen|]. rewrite vnorm_scale. apply Rplus_le_compat_r.
    eapply Rle_trans; [apply vnorm_sub_le; vlen|]. rewrite vnorm_scale. lra.
  - apply vec_ext; [vlen|]. intros i. repeat (rewrite ?nth_vscale; rewrite ?nth_vadd by vlen; rewrite ?nth_vsub by vlen). ring.
Qed.
Lemma shift2 (p q P Q : list R) s : length q = length p -> length P = length p -> length Q = length p ->
  vnorm (vsub Q (vscale P s)) <= vnorm (vsub q (vscale p s)) + (vnorm (vsub Q q) + Rabs s * vnorm (vsub P p)).
Proof.
  intros L1 L2 L3. replace (vsub Q (vscale P s)) with (vadd (vsub q (vscale p s)) (vsub (vsub Q q) (vscale (vsub P p) s))).
  - eapply Rle_trans; [apply vnorm_triangle; vlen|]. apply Rplus_le_compat_l.
    eapply Rle_trans; [apply vnorm_sub_le; vlen|]. rewrite vnorm_scale. lra.
  - apply vec_ext; [vlen|]. intros i. repeat (rewrite ?nth_vscale; rewrite ?nth_vadd by vlen; rewrite ?nth_vsub by vlen). ring.
Qed.
Lemma vnorm_sub_sym (u v : list R) : length u = length v -> vnorm (vsub u v) = vnorm (vsub v u).
Proof.
  intros L. rewrite <- vnorm_opp. f_equal. apply vec_ext; [vlen|]. intros i. rewrite nth_vopp, !nth_vsub by vlen. ring.
Qed.

Lemma across_close p q P Q k : length q = length p -> length P = length p -> length Q = length p -> 0 < vnorm p -> 0 < vnorm P ->
  vnorm q <= k * vnorm p -> vnorm Q <= k * vnorm P ->
  Rabs (vnorm (across Q P) - vnorm (across q p)) <= vnorm (vsub Q q) + k * vnorm (vsub P p).
Proof.
  intros L1 L2 L3 p0 P0 K1 K2.
  assert (Hc : forall x y, length x = length y -> 0 < vnorm y -> vnorm x <= k * vnorm y -> Rabs (vdot x y / vdot y y) <= k).
  { intros x y L H K. eapply Rle_trans; [apply coef_le; assumption|]. apply (Rmult_le_reg_r (vnorm y)); [exact H|]. unfold Rdiv. rewrite Rmult_assoc, Rinv_l by lra. lra. }
  pose proof (across_min Q P (vdot q p / vdot p p) ltac:(congruence) P0) as M1.
  pose proof (shift2 p q P Q (vdot q p / vdot p p) L1 L2 L3) as S1. change (vsub q (vscale p (vdot q p / vdot p p))) with (across q p) in S1.
  pose proof (Hc q p L1 p0 K1) as C1.
  pose proof (across_min q p (vdot Q P / vdot P P) L1 p0) as M2.
  pose proof (shift2 P Q p q (vdot Q P / vdot P P) ltac:(congruence) ltac:(congruence) ltac:(congruence)) as S2. change (vsub Q (vscale P (vdot Q P / vdot P P))) with (across Q P) in S2.
  pose proof (Hc Q P ltac:(congruence) P0 K2) as C2.
  rewrite (vnorm_sub_sym q Q), (vnorm_sub_sym p P) in S2 by congruence.
  pose proof (vnorm_nonneg (vsub P p)) as Z. set (d := vnorm (vsub P p)) in *.
  pose proof (Rmult_le_compat_r d _ _ Z C1) as T1. pose proof (Rmult_le_compat_r d _ _ Z C2) as T2. apply Rabs_le. lra.
Qed.

Section Core.
  Variables (h v w W A B : R).
  Hypothesis h0 : 0 < h.
  Hypothesis v0 : 0 < v.
  Hypothesis w0 : 0 < w.
  Hypothesis A0 : 0 <= A.
  Hypothesis B0 : 0 <= B.
  Hypothesis wW : w <= W.
  Let u := W / v.
  Let G := A + B * h + W * u.
  Hypothesis Small : 8 * h * G <= w.

  Let uv : u * v = W. Proof. unfold u. field. lra. Qed.
  Let u0 : 0 < u. Proof. unfold u. apply Rmult_lt_0_compat; [lra|apply Rinv_0_lt_compat; exact v0]. Qed.
  Let Bh : 0 <= B * h. Proof. apply Rmult_le_pos; lra. Qed.
  Let Wu : 0 < W * u. Proof. apply Rmult_lt_0_compat; [lra|exact u0]. Qed.
  Let gA : A <= G. Proof. unfold G. lra. Qed.
  Let gB : B * h <= G. Proof. unfold G. lra. Qed.
  Let gu : W * u <= G. Proof. unfold G. lra. Qed.
  Let G0 : 0 < G. Proof. lra. Qed.
  (** Steps are short against all the lengths. *)
  Let hA : h * A <= w / 8. Proof. assert (h * A <= h * G) by (apply Rmult_le_compat_l; lra). lra. Qed.
  Let hB : h * (B * h) <= w / 8. Proof. assert (h * (B * h) <= h * G) by (apply Rmult_le_compat_l; lra). lra. Qed.
  Let hu : h * u <= / 8.
  Proof.
    assert (h * (W * u) <= h * G) by (apply Rmult_le_compat_l; lra). assert (K : h * u * W <= / 8 * W) by lra. apply (Rmult_le_reg_r W); [lra|exact K].
  Qed.
  Let wu : w * u <= G. Proof. assert (w * u <= W * u) by (apply Rmult_le_compat_r; lra). lra. Qed.
  Let hW : h * W <= v / 8. Proof. rewrite <- uv. assert (h * u * v <= / 8 * v) by (apply Rmult_le_compat_r; lra). lra. Qed.
  Let e1 := A * h ^ 2 / 6.
  Let e2 := B * h ^ 2 / 3.
  Let e10 : 0 <= e1. Proof. unfold e1. assert (0 <= A * h ^ 2) by (apply Rmult_le_pos; [exact A0|apply pow_le; lra]). lra. Qed.
  Let e20 : 0 <= e2. Proof. unfold e2. assert (0 <= B * h ^ 2) by (apply Rmult_le_pos; [exact B0|apply pow_le; lra]). lra. Qed.
  Let e1W : e1 <= h * W / 48.
  Proof. unfold e1. assert (h * (h * A) <= h * (W / 8)) by (apply Rmult_le_compat_l; lra). lra. Qed.
  Let e1v : e1 <= v / 384. Proof. lra. Qed.
  Let e2w : e2 <= w / 24. Proof. unfold e2. lra. Qed.

  Lemma near_norm P Q p q : length q = length p -> length P = length p -> length Q = length p -> v <= vnorm p -> vnorm q <= W ->
    v - e1 <= vnorm P -> vnorm Q <= W + e2 -> vnorm (vsub P p) <= h * W + e1 -> vnorm (vsub Q q) <= h * A + e2 ->
    Rabs (vnorm (across Q P) - vnorm (across q p)) <= 6 / 5 * h * G.
  Proof.
    intros L1 L2 L3 Hp Hq HP HQ Dp Dq.
    assert (K : 0 < 9 / 8 * u) by lra.
    assert (K1 : 9 / 8 * u * v <= 9 / 8 * u * vnorm p) by (apply Rmult_le_compat_l; lra).
    assert (K2 : 9 / 8 * u * (383 / 384 * v) <= 9 / 8 * u * vnorm P) by (apply Rmult_le_compat_l; lra).
    pose proof (across_close p q P Q (9 / 8 * u) L1 L2 L3 ltac:(lra) ltac:(lra) ltac:(lra) ltac:(lra)) as C.
    eapply Rle_trans; [exact C|].
    assert (K3 : 9 / 8 * u * vnorm (vsub P p) <= 9 / 8 * u * (49 / 48 * (h * W))) by (apply Rmult_le_compat_l; lra).
    assert (K4 : 0 <= h * (B * h)) by (apply Rmult_le_pos; lra). assert (K5 : 0 <= h * A) by (apply Rmult_le_pos; lra). assert (K6 : 0 <= h * (W * u)) by (apply Rmult_le_pos; lra).
    unfold e2 in Dq. unfold G. lra.
  Qed.

  Variables (p q r P Q R e : list R).
  Hypothesis Lq : length q = length p.
  Hypothesis Lr : length r = length p.
  Hypothesis LP : length P = length p.
  Hypothesis LQ : length Q = length p.
  Hypothesis LR : length R = length p.
  Hypothesis Hp : v <= vnorm p.
  Hypothesis Hq : vnorm q <= W.
  Hypothesis Hr : vnorm r <= A.
  Hypothesis Hn : w <= vnorm (across q p).
  Hypothesis Dp : vnorm (vsub P p) <= e1.
  Hypothesis Dq : vnorm (vsub Q q) <= e2.
  Hypothesis Dr : vnorm (vsub R r) <= 5 / 6 * B * h.

  Let HP : v - e1 <= vnorm P. Proof. pose proof (vnorm_close P p LP) as C. apply Rabs_lt_le_inv in C. lra. Qed.
  Let HQ : vnorm Q <= W + e2. Proof. pose proof (vnorm_close Q q ltac:(congruence)) as C. apply Rabs_lt_le_inv in C. lra. Qed.
  Let HR : vnorm R <= G. Proof. pose proof (vnorm_close R r ltac:(congruence)) as C. apply Rabs_lt_le_inv in C. unfold G. lra. Qed.
  Lemma own_normal : 17 / 20 * w <= vnorm (across Q P).
  Proof.
    assert (0 <= h * W) by (apply Rmult_le_pos; lra). assert (0 <= h * A) by (apply Rmult_le_pos; lra).
    pose proof (near_norm P Q p q Lq LP LQ Hp Hq HP HQ ltac:(lra) ltac:(lra)) as C. apply Rabs_lt_le_inv in C. lra.
  Qed.

  Lemma coef_small a b c x : 0 <= x -> 0 < b -> 0 <= c -> a <= c / b -> x <= b -> a * x <= c.
  Proof.
    intros X Hb Hc Ha Hx. apply Rle_trans with (c / b * x); [apply Rmult_le_compat_r; assumption|].
    apply Rle_trans with (c / b * b); [apply Rmult_le_compat_l; [apply Rmult_le_pos; [exact Hc|left; apply Rinv_0_lt_compat; exact Hb]|exact Hx]|]. right. field. lra.
  Qed.

  Lemma binormal_close : Rabs (vnorm (across2 R P Q) - vnorm (across2 r p q)) <= h * (B + G * G / (2 * w)).
  Proof.
    pose proof own_normal as N0. assert (P0 : 0 < vnorm P) by lra. assert (p0 : 0 < vnorm p) by lra.
    (* coefficients of size G / w and G u / w at most, up to constants *)
    assert (E : forall s t, Rabs t * (17 / 20 * w) <= G -> Rabs s * (383 / 384 * v) <= G + Rabs t * (25 / 24 * W) ->
      5 / 6 * B * h + Rabs s * e1 + Rabs t * e2 <= h * (B + G * G / (2 * w))).
    { intros s t Ht Hs. set (x := Rabs s) in *. set (y := Rabs t) in *. assert (x0 : 0 <= x) by apply Rabs_pos. assert (y0 : 0 <= y) by apply Rabs_pos.
      replace (h * (B + G * G / (2 * w))) with (B * h + h * (G * G / (2 * w))) by ring.
      assert (Y : y * e2 <= h * (G * G / (2 * w)) * (4 / 5)).
      { assert (y * e2 <= 1 / 3 * (h * (y * G))). { unfold e2. replace (y * (B * h ^ 2 / 3)) with (1 / 3 * (h * (y * (B * h)))) by field. assert (h * (y * (B * h)) <= h * (y * G)) by (apply Rmult_le_compat_l; [lra|apply Rmult_le_compat_l; lra]). lra. }
        assert (y * G <= 20 / 17 * (G * G / w)). { apply (Rmult_le_reg_r w); [exact w0|]. replace (20 / 17 * (G * G / w) * w) with (20 / 17 * G * G) by (field; lra). replace (y * G * w) with (20 / 17 * (y * (17 / 20 * w)) * G) by field. apply Rmult_le_compat_r; lra. }
        assert (h * (y * G) <= h * (20 / 17 * (G * G / w))) by (apply Rmult_le_compat_l; lra).
        assert (0 <= h * (G * G / w)) by (apply Rmult_le_pos; [lra|apply Rmult_le_pos; [nra|left; apply Rinv_0_lt_compat; exact w0]]).
        replace (h * (G * G / (2 * w)) * (4 / 5)) with (2 / 5 * (h * (G * G / w))) by (field; lra). lra. }
      assert (X : x * e1 <= h * (G * G / (2 * w)) * (1 / 5)).
      { assert (X1 : x * v * w <= 384 / 383 * (G * w + 25 / 24 * (20 / 17) * (G * W))).
        { assert (x * v <= 384 / 383 * (G + y * (25 / 24 * W))) by lra. assert (y * w <= 20 / 17 * G) by lra.
          assert (y * w * W <= 20 / 17 * G * W) by (apply Rmult_le_compat_r; lra).
          assert (x * v * w <= 384 / 383 * (G + y * (25 / 24 * W)) * w) by (apply Rmult_le_compat_r; lra). lra. }
        assert (G * w <= G * W) by (apply Rmult_le_compat_l; lra).
        assert (X2 : x * v * w <= 12 / 5 * (G * W)). { assert (0 <= G * W) by (apply Rmult_le_pos; lra). lra. }
        assert (X3 : x * w * w <= 12 / 5 * (G * G)).
        { apply (Rmult_le_reg_r v); [exact v0|]. replace (x * w * w * v) with (x * v * w * w) by ring.
          apply Rle_trans with (12 / 5 * (G * W) * w); [apply Rmult_le_compat_r; lra|]. rewrite <- uv.
          replace (12 / 5 * (G * (u * v)) * w) with (12 / 5 * G * v * (w * u)) by ring. replace (12 / 5 * (G * G) * v) with (12 / 5 * G * v * G) by ring.
          apply Rmult_le_compat_l; [|exact wu]. apply Rmult_le_pos; lra. }
        replace (h * (G * G / (2 * w)) * (1 / 5)) with (h * / w * (G * G) / 10) by (field; lra).
        assert (X4 : x * w <= / w * (12 / 5 * (G * G))). { apply (Rmult_le_reg_r w); [exact w0|]. replace (/ w * (12 / 5 * (G * G)) * w) with (12 / 5 * (G * G)) by (field; lra). exact X3. }
        assert (X5 : x * e1 <= h * (x * w) / 48). { unfold e1. assert (x * h * (h * A) <= x * h * (w / 8)) by (apply Rmult_le_compat_l; [apply Rmult_le_pos; lra|exact hA]). lra. }
        assert (h * (x * w) <= h * (/ w * (12 / 5 * (G * G)))) by (apply Rmult_le_compat_l; lra). 
        assert (0 <= h * / w * (G * G)) by (apply Rmult_le_pos; [apply Rmult_le_pos; [lra|left; apply Rinv_0_lt_compat; exact w0]|nra]). lra. }
      lra. }
    apply Rabs_le. split.
    - destruct (across2_form R P Q ltac:(congruence) ltac:(congruence) P0 ltac:(lra)) as (s & t & Ef & Ht & Hs).
      pose proof (across2_min r p q s t Lr Lq p0 ltac:(lra)) as M.
      pose proof (shift3 R P Q r p q s t ltac:(congruence) ltac:(congruence) ltac:(congruence) ltac:(congruence) ltac:(congruence)) as K. rewrite <- Ef in K.
      rewrite (vnorm_sub_sym r R), (vnorm_sub_sym p P), (vnorm_sub_sym q Q) in K by congruence.
      assert (T1 : Rabs t * (17 / 20 * w) <= G).
      { apply Rle_trans with (vnorm R); [|exact HR]. apply (coef_small _ (vnorm (across Q P))); try lra; [apply vnorm_nonneg]. }
      assert (T2 : Rabs s * (383 / 384 * v) <= G + Rabs t * (25 / 24 * W)).
      { apply Rle_trans with (vnorm R + Rabs t * vnorm Q).
        - apply (coef_small _ (vnorm P)); try lra. apply Rplus_le_le_0_compat; [apply vnorm_nonneg|apply Rmult_le_pos; [apply Rabs_pos|apply vnorm_nonneg]].
        - assert (Rabs t * vnorm Q <= Rabs t * (25 / 24 * W)) by (apply Rmult_le_compat_l; [apply Rabs_pos|lra]). lra. }
      pose proof (E s t T1 T2). assert (Rabs s * vnorm (vsub P p) <= Rabs s * e1) by (apply Rmult_le_compat_l; [apply Rabs_pos|exact Dp]).
      assert (Rabs t * vnorm (vsub Q q) <= Rabs t * e2) by (apply Rmult_le_compat_l; [apply Rabs_pos|exact Dq]). lra.
    - destruct (across2_form r p q Lr Lq p0 ltac:(lra)) as (s & t & Ef & Ht & Hs).
      pose proof (across2_min R P Q s t ltac:(congruence) ltac:(congruence) P0 ltac:(lra)) as M.
      pose proof (shift3 r p q R P Q s t Lr Lq LR LP LQ) as K. rewrite <- Ef in K.
      assert (T1 : Rabs t * (17 / 20 * w) <= G).
      { apply Rle_trans with (vnorm r); [|lra]. apply (coef_small _ (vnorm (across q p))); try lra; [apply vnorm_nonneg]. }
      assert (T2 : Rabs s * (383 / 384 * v) <= G + Rabs t * (25 / 24 * W)).
      { apply Rle_trans with (vnorm r + Rabs t * vnorm q).
        - apply (coef_small _ (vnorm p)); try lra. apply Rplus_le_le_0_compat; [apply vnorm_nonneg|apply Rmult_le_pos; [apply Rabs_pos|apply vnorm_nonneg]].
        - assert (Rabs t * vnorm q <= Rabs t * (25 / 24 * W)) by (apply Rmult_le_compat_l; [apply Rabs_pos|lra]). lra. }
      pose proof (E s t T1 T2). assert (Rabs s * vnorm (vsub P p) <= Rabs s * e1) by (apply Rmult_le_compat_l; [apply Rabs_pos|exact Dp]).
      assert (Rabs t * vnorm (vsub Q q) <= Rabs t * e2) by (apply Rmult_le_compat_l; [apply Rabs_pos|exact Dq]). lra.
  Qed.

  Hypothesis Le : length e = length p.
  Hypothesis He : vnorm e = 1.
  Hypothesis eP : vdot P e = 0.
  Hypothesis eQ : vdot Q e = 0.

  (** The unit normal of a neighbour, along the direction of the binormal. *)
  Lemma side P' Q' c : length P' = length p -> length Q' = length p -> v - e1 <= vnorm P' -> vnorm Q' <= W + e2 ->
    vnorm (vsub P' p) <= h * W + e1 -> vnorm (vsub Q' q) <= h * A + e2 ->
    vnorm (vsub (vsub P' P) (vscale Q c)) <= h ^ 2 * (5 / 6 * A + B * h / 3) -> vnorm (vsub Q' Q) <= h * (A + 2 / 3 * B * h) ->
    17 / 20 * w <= vnorm (across Q' P') /\
    Rabs (vdot (across Q' P') e / vnorm (across Q' P') - vdot Q' e / vnorm (across q p)) <= 63 / 25 * (h ^ 2 * (G / w) ^ 2).
  Proof.
    intros L1 L2 H1 H2 H3 H4 H5 H6.
    pose proof (near_norm P' Q' p q Lq L1 L2 Hp Hq H1 H2 H3 H4) as C. pose proof (Rabs_lt_le_inv _ _ C) as C'.
    set (N' := vnorm (across Q' P')) in *. set (N := vnorm (across q p)) in *. assert (HN : 17 / 20 * w <= N') by lra. split; [exact HN|].
    assert (P0 : 0 < vnorm P') by lra.
    assert (Ha : Rabs (vdot Q' e) <= h * G).
    { replace (vdot Q' e) with (vdot (vsub Q' Q) e) by (rewrite vdot_sub_l by congruence; lra).
      eapply Rle_trans; [apply vdot_le_norm; vlen|]. rewrite He, Rmult_1_r. eapply Rle_trans; [exact H6|]. apply Rmult_le_compat_l; [lra|]. unfold G. lra. }
    assert (Hb : Rabs (vdot P' e) <= h ^ 2 * (5 / 6 * G)).
    { replace (vdot P' e) with (vdot (vsub (vsub P' P) (vscale Q c)) e) by (rewrite !vdot_sub_l, vdot_scale_l by vlen; rewrite eP, eQ; ring).
      eapply Rle_trans; [apply vdot_le_norm; vlen|]. rewrite He, Rmult_1_r. eapply Rle_trans; [exact H5|]. apply Rmult_le_compat_l; [apply pow_le; lra|]. unfold G. lra. }
    assert (Hc : Rabs (vdot Q' P' / vdot P' P') <= 9 / 8 * u).
    { eapply Rle_trans; [apply coef_le; [congruence|exact P0]|]. apply (Rmult_le_reg_r (vnorm P')); [exact P0|]. unfold Rdiv. rewrite Rmult_assoc, Rinv_l by lra.
      assert (9 / 8 * u * (383 / 384 * v) <= 9 / 8 * u * vnorm P') by (apply Rmult_le_compat_l; lra). lra. }
    unfold across at 1. rewrite vdot_sub_l, vdot_scale_l by vlen.
    set (x := vdot Q' e) in *. set (y := vdot P' e) in *. set (l := vdot Q' P' / vdot P' P') in *.
    replace ((x - l * y) / N' - x / N) with (x * ((N - N') / (N' * N)) - l * y / N') by (field; lra).
    assert (w1 : 0 < / w) by (apply Rinv_0_lt_compat; exact w0).
    assert (I1 : / N' <= 20 / 17 * / w). { replace (20 / 17 * / w) with (/ (17 / 20 * w)) by (field; lra). apply Rinv_le_contravar; lra. }
    assert (I2 : / N <= / w) by (apply Rinv_le_contravar; lra). assert (J1 : 0 < / N') by (apply Rinv_0_lt_compat; lra). assert (J2 : 0 < / N) by (apply Rinv_0_lt_compat; lra).
    assert (U1 : Rabs ((N - N') / (N' * N)) <= 6 / 5 * h * G * (20 / 17 * / w * / w)).
    { replace ((N - N') / (N' * N)) with ((N - N') * (/ N' * / N)) by (field; lra). apply Rabs_mul_le; [rewrite Rabs_minus_sym; exact C|].
      rewrite Rabs_right by nra. apply Rmult_le_compat; lra. }
    assert (U2 : Rabs (l * y / N') <= 9 / 8 * u * (h ^ 2 * (5 / 6 * G)) * (20 / 17 * / w)).
    { unfold Rdiv at 1. apply Rabs_mul_le; [apply Rabs_mul_le; assumption|]. rewrite Rabs_right; lra. }
    assert (U3 : 9 / 8 * u * (h ^ 2 * (5 / 6 * G)) * (20 / 17 * / w) <= 75 / 68 * (h ^ 2 * (G / w) ^ 2)).
    { assert (u <= G * / w). { apply (Rmult_le_reg_r w); [exact w0|]. rewrite Rmult_assoc, Rinv_l by lra. lra. }
      replace (9 / 8 * u * (h ^ 2 * (5 / 6 * G)) * (20 / 17 * / w)) with (75 / 68 * (h ^ 2 * (G * / w * u))) by (field; lra).
      replace ((G / w) ^ 2) with (G * / w * (G * / w)) by (unfold Rdiv; ring). apply Rmult_le_compat_l; [lra|]. apply Rmult_le_compat_l; [apply pow_le; lra|]. apply Rmult_le_compat_l; [|assumption]. apply Rmult_le_pos; lra. }
    pose proof (Rabs_sub_le _ _ _ _ (Rabs_mul_le _ _ _ _ Ha U1) U2) as U.
    replace (h * G * (6 / 5 * h * G * (20 / 17 * / w * / w))) with (24 / 17 * (h ^ 2 * (G / w) ^ 2)) in U by (field; lra).
    assert (0 <= h ^ 2 * (G / w) ^ 2) by (apply Rmult_le_pos; apply pow2_ge_0). lra.
  Qed.

  Lemma torsion_close P1 Q1 P2 Q2 N1 N2 :
    N1 = vnorm (across Q1 P1) -> N2 = vnorm (across Q2 P2) ->
    length Q1 = length p -> length Q2 = length p ->
    Rabs (vdot (across Q1 P1) e / N1 - vdot Q1 e / vnorm (across q p)) <= 63 / 25 * (h ^ 2 * (G / w) ^ 2) ->
    Rabs (vdot (across Q2 P2) e / N2 - vdot Q2 e / vnorm (across q p)) <= 63 / 25 * (h ^ 2 * (G / w) ^ 2) ->
    vsub Q1 Q2 = vscale R (2 * h) -> vdot R e = vnorm (across2 R P Q) ->
    Rabs ((vdot (across Q1 P1) e / N1 - vdot (across Q2 P2) e / N2) / 2 / (h * vnorm P) - vnorm (across2 r p q) / (vnorm (across q p) * vnorm p))
      <= h / v * (4 * (G / w) ^ 2 + 2 * B / w).
  Proof.
    intros _ _ L1 L2 S1 S2 ER Eb. pose proof binormal_close as Bc. set (X1 := vdot (across Q1 P1) e / N1) in *. set (X2 := vdot (across Q2 P2) e / N2) in *.
    assert (E2 : vdot Q1 e - vdot Q2 e = 2 * h * vnorm (across2 R P Q)) by (rewrite <- vdot_sub_l, ER, vdot_scale_l, Eb by congruence; reflexivity).
    assert (Hb : vnorm (across2 r p q) <= A).
    { eapply Rle_trans; [|exact Hr]. unfold across2. pose proof (across_norm r p Lr ltac:(apply vdot_pos; lra)).
      pose proof (across_norm (across r p) (across q p) ltac:(rewrite !across_length by assumption; reflexivity) ltac:(apply vdot_pos; lra)). lra. }
    pose proof (vnorm_nonneg (across2 r p q)) as b0. pose proof (vnorm_close P p LP) as Cp.
    set (N := vnorm (across q p)) in *. set (b := vnorm (across2 r p q)) in *. set (b' := vnorm (across2 R P Q)) in *. set (m := vnorm p) in *. set (m' := vnorm P) in *.
    set (a1 := vdot Q1 e) in *. set (a2 := vdot Q2 e) in *. set (g := G / w) in *.
    assert (g0 : 0 < g) by (unfold g; apply Rmult_lt_0_compat; [exact G0|apply Rinv_0_lt_compat; exact w0]).
    assert (m0 : 0 < m') by lra. assert (N0 : 0 < N) by lra.
    assert (D1 : Rabs ((X1 - X2) / 2 - h * b' / N) <= 63 / 25 * (h ^ 2 * g ^ 2)).
    { replace ((X1 - X2) / 2 - h * b' / N) with (((X1 - a1 / N) - (X2 - a2 / N)) / 2).
      2:{ replace (h * b' / N) with ((a1 - a2) / N / 2) by (rewrite E2; field; lra). unfold Rdiv. ring. }
      pose proof (Rabs_sub_le _ _ _ _ S1 S2) as K. apply Rabs_lt_le_inv in K. apply Rabs_le. lra. }
    assert (v1 : 0 < / v) by (apply Rinv_0_lt_compat; exact v0). assert (w1 : 0 < / w) by (apply Rinv_0_lt_compat; exact w0). assert (h1 : 0 < / h) by (apply Rinv_0_lt_compat; exact h0).
    assert (I1 : / m' <= 384 / 383 * / v). { replace (384 / 383 * / v) with (/ (383 / 384 * v)) by (field; lra). apply Rinv_le_contravar; lra. }
    assert (I2 : / N <= / w) by (apply Rinv_le_contravar; lra). assert (I3 : / m <= / v) by (apply Rinv_le_contravar; lra).
    assert (J1 : 0 < / m') by (apply Rinv_0_lt_compat; lra). assert (J2 : 0 < / N) by (apply Rinv_0_lt_compat; lra). assert (J3 : 0 < / m) by (apply Rinv_0_lt_compat; lra).
    replace ((X1 - X2) / 2 / (h * m') - b / (N * m)) with (((X1 - X2) / 2 - h * b' / N) * (/ h * / m') + ((b' - b) * (/ N * / m') + b * / N * ((m - m') * (/ m' * / m)))) by (field; lra).
    assert (T1 : Rabs (((X1 - X2) / 2 - h * b' / N) * (/ h * / m')) <= 63 / 25 * (h ^ 2 * g ^ 2) * (/ h * (384 / 383 * / v))).
    { apply Rabs_mul_le; [exact D1|]. rewrite Rabs_right by nra. apply Rmult_le_compat_l; lra. }
    assert (T2 : Rabs ((b' - b) * (/ N * / m')) <= h * (B + G * G / (2 * w)) * (/ w * (384 / 383 * / v))).
    { apply Rabs_mul_le; [exact Bc|]. rewrite Rabs_right by nra. apply Rmult_le_compat; lra. }
    assert (T3 : Rabs (b * / N * ((m - m') * (/ m' * / m))) <= A * / w * (e1 * (384 / 383 * / v * / v))).
    { apply Rabs_mul_le; [apply Rabs_mul_le; rewrite Rabs_right; lra|]. apply Rabs_mul_le; [rewrite Rabs_minus_sym; lra|]. rewrite Rabs_right by nra. apply Rmult_le_compat; lra. }
    assert (T4 : A * / w * (e1 * (384 / 383 * / v * / v)) <= 1 / 40 * (h * / v * g ^ 2)).
    { assert (K1 : A * e1 <= h * (A * w) / 48) by (unfold e1; assert (A * h * (h * A) <= A * h * (w / 8)) by (apply Rmult_le_compat_l; [apply Rmult_le_pos; lra|exact hA]); lra).
      assert (K2 : A * / v <= g ^ 2).
      { unfold g. replace ((G / w) ^ 2) with (G * G * / w * / w) by (field; lra). apply (Rmult_le_reg_r (v * (w * w))); [apply Rmult_lt_0_compat; nra|].
        replace (A * / v * (v * (w * w))) with (A * (w * w)) by (field; lra). replace (G * G * / w * / w * (v * (w * w))) with (G * (G * v)) by (field; lra).
        apply Rmult_le_compat; [exact A0|nra|exact gA|]. apply Rle_trans with (w * W); [apply Rmult_le_compat_l; lra|]. rewrite <- uv. replace (w * (u * v)) with (w * u * v) by ring. apply Rmult_le_compat_r; lra. }
      replace (A * / w * (e1 * (384 / 383 * / v * / v))) with (384 / 383 * (A * e1) * (/ w * / v * / v)) by ring.
      apply Rle_trans with (384 / 383 * (h * (A * w) / 48) * (/ w * / v * / v)).
      { apply Rmult_le_compat_r; [left; apply Rmult_lt_0_compat; [apply Rmult_lt_0_compat; assumption|assumption]|]. lra. }
      replace (384 / 383 * (h * (A * w) / 48) * (/ w * / v * / v)) with (8 / 383 * (h * / v * (A * / v))) by (field; lra).
      assert (Z : 0 <= h * / v) by (apply Rmult_le_pos; lra). pose proof (Rmult_le_compat_l _ _ _ Z K2). assert (0 <= h * / v * g ^ 2) by (apply Rmult_le_pos; [exact Z|apply pow2_ge_0]). lra. }
    pose proof (Rabs_add_le _ _ _ _ T1 (Rabs_add_le _ _ _ _ T2 (Rle_trans _ _ _ T3 T4))) as T. eapply Rle_trans; [exact T|].
    replace (63 / 25 * (h ^ 2 * g ^ 2) * (/ h * (384 / 383 * / v))) with (63 / 25 * (384 / 383) * (h * / v * g ^ 2)) by (field; lra).
    replace (h * (B + G * G / (2 * w)) * (/ w * (384 / 383 * / v))) with (384 / 383 * (h * / v * (B * / w)) + 192 / 383 * (h * / v * g ^ 2)) by (unfold g; field; lra).
    replace (h / v * (4 * g ^ 2 + 2 * B / w)) with (4 * (h * / v * g ^ 2) + 2 * (h * / v * (B * / w))) by (field; lra).
    assert (0 <= h * / v * g ^ 2) by (apply Rmult_le_pos; [apply Rmult_le_pos; lra|apply pow2_ge_0]). assert (0 <= h * / v * (B * / w)) by (apply Rmult_le_pos; apply Rmult_le_pos; lra). lra.
  Qed.
End Core.

(** *** The rows of the library *)
Lemma unit_row_far (p : list R) k : 0 < k -> / 100000000 < k * vnorm p -> unit_row (vscale p k) = unit p.
Proof.
  intros K H. rewrite <- (unit_scale p k K). rewrite unit_row_scale, frenet_norm_far; [reflexivity|]. rewrite vnorm_scale, Rabs_right; lra.
Qed.
Lemma unit_length p : length (unit p) = length p. Proof. unfold unit. apply vscale_length. Qed.
Lemma unit_norm p : 0 < vnorm p -> vnorm (unit p) = 1.
Proof. intros P. unfold unit. rewrite vnorm_scale, Rabs_right by (left; apply Rinv_0_lt_compat; exact P). field. lra. Qed.
Lemma reject_scale P Q k : length Q = length P -> 0 < vnorm P -> reject (vscale Q k) (unit P) = vscale (across Q P) k.
Proof.
  intros L P0. unfold reject, unit, across. apply vec_ext; [vlen|]. intros i. rewrite vdot_scale_l, vdot_scale_r, <- vnorm_sq.
  repeat (rewrite ?nth_vscale; rewrite ?nth_vsub by vlen). field. lra.
Qed.
Lemma binormal_scale P Q R k : length Q = length P -> length R = length P -> 0 < vnorm P -> 0 < vnorm (across Q P) ->
  (let e1 := unit P in let e2 := unit (across Q P) in let d := vscale R k in vsub (vsub d (vscale e1 (vdot d e1))) (vscale e2 (vdot d e2))) = vscale (across2 R P Q) k.
Proof.
  intros LQ LR P0 N0. cbv zeta. pose proof (across_length Q P LQ) as La. pose proof (across_length R P LR) as Lb.
  pose proof (across_orth Q P LQ (vdot_pos P P0)) as O. unfold across2. unfold across at 3.
  replace (vdot (across R P) (across Q P)) with (vdot R (across Q P)).
  2:{ unfold across at 2. rewrite vdot_sub_l, vdot_scale_l, (vdot_comm P (across Q P)), O by vlen. ring. }
  set (N := across Q P) in *. unfold unit, across. apply vec_ext; [vlen|]. intros i. rewrite !vdot_scale_l, !vdot_scale_r, <- !vnorm_sq.
  repeat (rewrite ?nth_vscale; rewrite ?nth_vsub by vlen). field. lra.
Qed.

Section Rows.
  Variables (n : nat) (rows : list (list R)) (h : R) (i : nat) (P Q : nat -> list R) (Z : list R).
  Hypothesis D : dims n rows.
  Hypothesis H1 : (0 < i)%nat.
  Hypothesis H2 : (S i < length rows)%nat.
  Hypothesis h0 : 0 < h.
  Let close k := k = (i - 1)%nat \/ k = i \/ k = (i + 1)%nat.
  Hypothesis EP : forall k, close k -> length (P k) = n /\ nth k (deriv1 rows) [] = vscale (P k) h.
  Hypothesis EQ : forall k, close k -> length (Q k) = n /\ nth k (deriv2 rows) [] = vscale (Q k) (h ^ 2).
  Hypothesis EZ : length Z = n /\ nth i (deriv3 rows) [] = vscale Z (h ^ 3).
  Hypothesis TP : forall k, close k -> / 100000000 < h * vnorm (P k).
  Hypothesis TQ : forall k, close k -> / 100000000 < h ^ 2 * vnorm (across (Q k) (P k)).
  Hypothesis TZ : / 100000000 < h ^ 3 * vnorm (across2 Z (P i) (Q i)).

  Let pos3 x y : 0 < x -> / 100000000 < x * y -> 0 < y.
  Proof. intros X H. apply (Rmult_lt_reg_l x); [exact X|]. lra. Qed.
  Lemma row_e2 k : close k -> nth k (frenet2_rows rows) [] = unit (across (Q k) (P k)).
  Proof.
    intros C. assert (Hk : (k < length rows)%nat) by (destruct C as [C|[C|C]]; lia). destruct (EP k C) as (LP & E1). destruct (EQ k C) as (LQ & E2).
    rewrite frenet2_nth, E1, E2, unit_row_far by (try exact Hk; try exact h0; apply TP, C).
    rewrite reject_scale by first [congruence | apply (pos3 h); [exact h0|apply TP, C]]. apply unit_row_far; [apply pow_lt, h0|apply TQ, C].
  Qed.
  Lemma row_e3 : nth i (frenet3_rows rows) [] = unit (across2 Z (P i) (Q i)).
  Proof.
    assert (C : close i) by (right; left; reflexivity). destruct (EP i C) as (LP & E1). destruct (EQ i C) as (LQ & E2). destruct EZ as (LZ & E3).
    assert (P0 : 0 < vnorm (P i)) by (apply (pos3 h); [exact h0|apply TP, C]). assert (N0 : 0 < vnorm (across (Q i) (P i))) by (apply (pos3 (h ^ 2)); [apply pow_lt, h0|apply TQ, C]).
    rewrite frenet3_nth. rewrite binormal_nth by lia. cbv zeta. rewrite E1, E2, E3.
    rewrite (unit_row_far (P i) h) by (try exact h0; apply TP, C). rewrite reject_scale by (try congruence; exact P0).
    rewrite (unit_row_far (across (Q i) (P i)) (h ^ 2)) by (try (apply pow_lt, h0); apply TQ, C).
    pose proof (binormal_scale (P i) (Q i) Z (h ^ 3) ltac:(congruence) ltac:(congruence) P0 N0) as K. cbv zeta in K. rewrite K.
    apply unit_row_far; [apply pow_lt, h0|exact TZ].
  Qed.

  Lemma row_torsion : exists e, length e = n /\ vnorm e = 1 /\ vdot (P i) e = 0 /\ vdot (Q i) e = 0 /\ vdot Z e = vnorm (across2 Z (P i) (Q i)) /\
    nth i (torsion_rows rows) 0 =
      (vdot (across (Q (i + 1)%nat) (P (i + 1)%nat)) e / vnorm (across (Q (i + 1)%nat) (P (i + 1)%nat)) -
       vdot (across (Q (i - 1)%nat) (P (i - 1)%nat)) e / vnorm (across (Q (i - 1)%nat) (P (i - 1)%nat))) / 2 / (h * vnorm (P i)).
  Proof.
    assert (C : close i) by (right; left; reflexivity). assert (Cp : close (i + 1)) by (right; right; reflexivity). assert (Cm : close (i - 1)) by (left; reflexivity).
    destruct (EP i C) as (LP & E1). destruct (EQ i C) as (LQ & E2). destruct EZ as (LZ & E3).
    assert (P0 : 0 < vnorm (P i)) by (apply (pos3 h); [exact h0|apply TP, C]). assert (N0 : 0 < vnorm (across (Q i) (P i))) by (apply (pos3 (h ^ 2)); [apply pow_lt, h0|apply TQ, C]).
    assert (B0 : 0 < vnorm (across2 Z (P i) (Q i))) by (apply (pos3 (h ^ 3)); [apply pow_lt, h0|exact TZ]).
    assert (La : length (across (Q i) (P i)) = n) by (rewrite across_length; congruence). assert (Lb : length (across Z (P i)) = n) by (rewrite across_length; congruence).
    assert (L2 : length (across2 Z (P i) (Q i)) = n) by (unfold across2; rewrite across_length; congruence).
    set (b := across2 Z (P i) (Q i)) in *. exists (unit b).
    assert (ON : vdot b (across (Q i) (P i)) = 0) by (apply across_orth; [congruence|apply vdot_pos, N0]).
    assert (OP : vdot b (P i) = 0).
    { unfold b, across2. unfold across at 1. rewrite vdot_sub_l, vdot_scale_l by vlen. rewrite !across_orth by (try congruence; apply vdot_pos, P0). ring. }
    assert (OQ : vdot b (Q i) = 0).
    { unfold across in ON. rewrite vdot_sub_r, vdot_scale_r, OP in ON by vlen. lra. }
    assert (OZ : vdot b Z = vdot b b).
    { unfold b at 3. unfold across2. unfold across at 1. rewrite vdot_sub_r, vdot_scale_r, ON by vlen. unfold across. rewrite vdot_sub_r, vdot_scale_r, OP by vlen. ring. }
    split; [rewrite unit_length; exact L2|]. split; [apply unit_norm, B0|]. unfold unit.
    split; [rewrite vdot_scale_r, vdot_comm, OP; ring|]. split; [rewrite vdot_scale_r, vdot_comm, OQ; ring|].
    split; [rewrite vdot_scale_r, vdot_comm, OZ, <- vnorm_sq; field; lra|].
    rewrite torsion_nth by lia. rewrite row_e3, E1. fold b. rewrite vnorm_scale, (Rabs_right h) by lra. apply (f_equal (fun z => z / (h * vnorm (P i)))).
    assert (D2 : dims n (frenet2_rows rows)).
    { intros z Hz. destruct (In_nth _ _ [] Hz) as (k & Hk & <-). rewrite frenet2_length in Hk. rewrite frenet2_nth by exact Hk.
      assert (G1 : dims n (deriv1 rows)) by (apply gradient_dims; [exact D|lia]).
      assert (G2 : dims n (deriv2 rows)) by (apply gradient_dims; [exact G1|rewrite deriv1_length; lia]).
      rewrite unit_row_length, reject_length; [apply G2, nth_In; rewrite deriv2_length; exact Hk|]. rewrite unit_row_length.
      rewrite (G2 (nth k (deriv2 rows) [])), (G1 (nth k (deriv1 rows) [])) by (apply nth_In; rewrite ?deriv1_length, ?deriv2_length; exact Hk). reflexivity. }
    destruct (gradient_nth n (frenet2_rows rows) i D2 ltac:(rewrite frenet2_length; lia) ltac:(rewrite frenet2_length; lia)) as (Lg & Gg).
    replace (nth i (gradient (frenet2_rows rows)) []) with (vscale (vsub (unit (across (Q (i + 1)%nat) (P (i + 1)%nat))) (unit (across (Q (i - 1)%nat) (P (i - 1)%nat)))) (/ 2)).
    - assert (Lx : length (across (Q (i + 1)%nat) (P (i + 1)%nat)) = n) by (rewrite across_length; [apply EP, Cp|rewrite (proj1 (EP _ Cp)); apply EQ, Cp]).
      assert (Ly : length (across (Q (i - 1)%nat) (P (i - 1)%nat)) = n) by (rewrite across_length; [apply EP, Cm|rewrite (proj1 (EP _ Cm)); apply EQ, Cm]).
      fold (unit b). rewrite vdot_scale_l, vdot_sub_l by (rewrite !unit_length; congruence). unfold unit at 1 3. rewrite !vdot_scale_l. unfold Rdiv. ring.
    - apply vec_ext.
      + rewrite vscale_length, vsub_length; rewrite !unit_length, !across_length; rewrite ?(proj1 (EP _ Cp)), ?(proj1 (EP _ Cm)), ?(proj1 (EQ _ Cp)), ?(proj1 (EQ _ Cm)); congruence.
      + intros j. rewrite Gg, frenet2_length, DiffGeomProofs5.slope_inner by lia. unfold coord. rewrite !row_e2 by assumption.
        rewrite nth_vscale, nth_vsub; [unfold Rdiv; ring|]. rewrite !unit_length, !across_length; rewrite ?(proj1 (EP _ Cp)), ?(proj1 (EP _ Cm)), ?(proj1 (EQ _ Cp)), ?(proj1 (EQ _ Cm)); congruence.
  Qed.
End Rows.

(** *** Gram determinants *)
Definition gram2 (p q : list R) : R := vdot p p * vdot q q - vdot p q * vdot p q.
Definition gram3 (p q r : list R) : R :=
  vdot p p * (vdot q q * vdot r r - vdot q r * vdot q r) - vdot p q * (vdot p q * vdot r r - vdot q r * vdot p r) + vdot p r * (vdot p q * vdot q r - vdot q q * vdot p r).
Lemma across_gram p q : length q = length p -> 0 < vnorm p -> vnorm (across q p) = sqrt (gram2 p q) / vnorm p.
Proof.
  intros L P. assert (Pp : 0 < vdot p p) by (rewrite <- vnorm_sq; nra). rewrite <- (sqrt_square (vnorm p)) at 1 by lra. rewrite vnorm_sq.
  rewrite <- sqrt_div_alt by exact Pp. unfold vnorm. change (nsqrt ?z) with (sqrt z). f_equal. unfold across, gram2.
  rewrite vdot_sub_l, !vdot_sub_r, !vdot_scale_l, !vdot_scale_r by vlen. rewrite (vdot_comm q p). field. lra.
Qed.
Lemma across_sq x y : length x = length y -> vdot y y <> 0 -> vdot (across x y) (across x y) = vdot x x - vdot x y * vdot x y / vdot y y.
Proof. intros L Y. unfold across. rewrite vdot_sub_l, !vdot_sub_r, !vdot_scale_l, !vdot_scale_r by vlen. rewrite (vdot_comm y x). field. exact Y. Qed.
Lemma across2_gram p q r : length q = length p -> length r = length p -> 0 < vnorm p -> 0 < gram2 p q -> vnorm (across2 r p q) = sqrt (gram3 p q r) / sqrt (gram2 p q).
Proof.
  intros Lq Lr P G. assert (Pp : 0 < vdot p p) by (rewrite <- vnorm_sq; nra).
  assert (E : vdot (across2 r p q) (across2 r p q) = gram3 p q r / gram2 p q).
  { pose proof (across_length q p Lq) as La. pose proof (across_length r p Lr) as Lb.
    assert (Aq : vdot (across q p) (across q p) = gram2 p q / vdot p p) by (unfold across, gram2; rewrite vdot_sub_l, !vdot_sub_r, !vdot_scale_l, !vdot_scale_r by vlen; rewrite (vdot_comm q p); field; lra).
    assert (Ar : vdot (across r p) (across r p) = gram2 p r / vdot p p) by (unfold across, gram2; rewrite vdot_sub_l, !vdot_sub_r, !vdot_scale_l, !vdot_scale_r by vlen; rewrite (vdot_comm r p); field; lra).
    assert (Arq : vdot (across r p) (across q p) = vdot q r - vdot p q * vdot p r / vdot p p) by (unfold across; rewrite vdot_sub_l, !vdot_sub_r, !vdot_scale_l, !vdot_scale_r by vlen; rewrite (vdot_comm q p), (vdot_comm r p), (vdot_comm r q); field; lra).
    unfold across2. rewrite across_sq by (try congruence; rewrite Aq; apply Rgt_not_eq, Rdiv_lt_0_compat; assumption).
    rewrite Aq, Ar, Arq. unfold gram3, gram2 in *. field. lra. }
  unfold vnorm at 1. change (nsqrt ?z) with (sqrt z). rewrite E. apply sqrt_div_alt, G.
Qed.
