(** The discrete Frenet apparatus of a circular helix. *)
From Coq Require Import ZArith List Bool Arith Lia Reals Lra Psatz.
From Verif Require Import Num Py Numeric Curve Vec DiffGeom Spec GeomSpec.
From Verif Require Import ListFacts ArrayProofs VecFacts CurveProofs CurveProofs2 CurveProofs3 DiffGeomProofs DiffGeomProofs2 DiffGeomProofs3 DiffGeomProofs4 DiffGeomProofs5.
Import ListNotations.
Local Open Scope R_scope.

(** A vector given in the frame that rotates with the helix. *)
Definition fr (x y z t : R) : list R := [x * sin t + y * cos t; x * cos t - y * sin t; z].

Lemma list3_eq (a b c a' b' c' : R) : a = a' -> b = b' -> c = c' -> [a; b; c] = [a'; b'; c'].
Proof. congruence. Qed.

Lemma fr_dot x y z x' y' z' t : vdot (fr x y z t) (fr x' y' z' t) = x * x' + y * y' + z * z'.
Proof.
  pose proof (sin2_cos2 t) as S. unfold Rsqr in S. unfold vdot, fr. cbn. rnum.
  replace ((x * sin t + y * cos t) * (x' * sin t + y' * cos t) + ((x * cos t - y * sin t) * (x' * cos t - y' * sin t) + (z * z' + 0)))
    with ((x * x' + y * y') * (sin t * sin t + cos t * cos t) + z * z') by ring. rewrite S. ring.
Qed.
Lemma fr_norm x y z t : vnorm (fr x y z t) = sqrt (x * x + y * y + z * z).
Proof. unfold vnorm. rewrite fr_dot. reflexivity. Qed.
Lemma fr_scale x y z t k : vscale (fr x y z t) k = fr (x * k) (y * k) (z * k) t.
Proof. unfold vscale, fr. cbn. rnum. apply list3_eq; ring. Qed.
Lemma fr_sub x y z x' y' z' t : vsub (fr x y z t) (fr x' y' z' t) = fr (x - x') (y - y') (z - z') t.
Proof. unfold vsub, fr. cbn. rnum. apply list3_eq; ring. Qed.

Lemma gradient_inner n (rows : list (list R)) i j : dims n rows -> (0 < i)%nat -> (S i < length rows)%nat ->
  nth j (nth i (gradient rows) []) 0 = (nth j (nth (S i) rows []) 0 - nth j (nth (i - 1) rows []) 0) / 2.
Proof.
  intros D H1 H2. destruct (gradient_nth n rows i D ltac:(lia) ltac:(lia)) as (_ & G). rewrite G. unfold slope, coord.
  destruct (Nat.eqb_spec (length rows) 2); [lia|]. destruct (Nat.eqb_spec i 0); [lia|]. destruct (Nat.eqb_spec i (length rows - 1)); [lia|].
  rewrite Nat.add_1_r. reflexivity.
Qed.

Lemma gradient_fr (rows : list (list R)) i t h x y z z0 : dims 3 rows -> (0 < i)%nat -> (S i < length rows)%nat ->
  nth (i - 1) rows [] = fr x y (z - z0) (t - h) -> nth (S i) rows [] = fr x y (z + z0) (t + h) ->
  nth i (gradient rows) [] = fr (- y * sin h) (x * sin h) z0 t.
Proof.
  intros D H1 H2 E1 E2. apply vec_ext.
  - rewrite (proj1 (gradient_nth 3 rows i D ltac:(lia) ltac:(lia))). reflexivity.
  - intros j. rewrite (gradient_inner 3) by assumption. rewrite E1, E2. unfold fr.
    rewrite !sin_plus, !cos_plus, !sin_minus, !cos_minus. destruct j as [|[|[|j]]]; cbn [nth]; try field. destruct j; field.
Qed.

Lemma unit_fr x y z t : / 100000000 < sqrt (x * x + y * y + z * z) ->
  unit_row (fr x y z t) = let n := sqrt (x * x + y * y + z * z) in fr (x / n) (y / n) (z / n) t.
Proof. intros H. rewrite unit_row_scale, frenet_norm_far by (rewrite fr_norm; assumption). rewrite fr_norm. apply fr_scale. Qed.

Section Helix.
  Variables (rows : list (list R)) (o h a b : R).
  Let m := length rows.
  Let th k := o + h * INR k.
  Hypothesis D : dims 3 rows.
  Hypothesis H : forall k, (k < m)%nat -> nth k rows [] = fr a 0 (b * th k) (th k).
  Let s := sin h.
  Let N := sqrt (a * a * (s * s) + b * b * (h * h)).
  Hypothesis Hm : (2 <= m)%nat.

  Lemma th_prev i : (0 < i)%nat -> th (i - 1) = th i - h.
  Proof. intros Hi. unfold th. rewrite minus_INR by lia. cbn. ring. Qed.
  Lemma th_next i : th (S i) = th i + h.
  Proof. unfold th. rewrite S_INR. ring. Qed.

  Lemma helix_d1 i : (0 < i)%nat -> (S i < m)%nat -> nth i (deriv1 rows) [] = fr 0 (a * s) (b * h) (th i).
  Proof.
    intros H1 H2. unfold deriv1. rewrite (gradient_fr rows i (th i) h a 0 (b * th i) (b * h)); try assumption.
    - fold s. f_equal; ring.
    - rewrite H, th_prev by lia. f_equal. ring.
    - rewrite H, th_next by lia. f_equal. ring.
  Qed.
  Lemma D1 : dims 3 (deriv1 rows). Proof. apply gradient_dims; assumption. Qed.
  Lemma D2 : dims 3 (deriv2 rows). Proof. apply gradient_dims; [apply D1|]. rewrite deriv1_length. assumption. Qed.

  Lemma helix_d2 i : (1 < i)%nat -> (S (S i) < m)%nat -> nth i (deriv2 rows) [] = fr (- (a * s * s)) 0 0 (th i).
  Proof.
    intros H1 H2. unfold deriv2.
    rewrite (gradient_fr (deriv1 rows) i (th i) h 0 (a * s) (b * h) 0); [fold s; f_equal; ring|apply D1|lia|rewrite deriv1_length; fold m; lia| |].
    - rewrite helix_d1, th_prev by lia. f_equal. ring.
    - rewrite helix_d1, th_next by lia. f_equal. ring.
  Qed.
  Lemma helix_d3 i : (2 < i)%nat -> (S (S (S i)) < m)%nat -> nth i (deriv3 rows) [] = fr 0 (- (a * s * s * s)) 0 (th i).
  Proof.
    intros H1 H2. unfold deriv3.
    rewrite (gradient_fr (deriv2 rows) i (th i) h (- (a * s * s)) 0 0 0); [fold s; f_equal; ring|apply D2|lia|rewrite deriv2_length; fold m; lia| |].
    - rewrite helix_d2, th_prev by lia. f_equal. ring.
    - rewrite helix_d2, th_next by lia. f_equal. ring.
  Qed.

  Hypothesis HN : / 100000000 < N.
  Lemma N_pos : 0 < N. Proof. lra. Qed.
  Lemma N_sq : N * N = a * a * (s * s) + b * b * (h * h).
  Proof. unfold N. apply sqrt_sqrt. nra. Qed.
  Lemma N_d1 : sqrt (0 * 0 + a * s * (a * s) + b * h * (b * h)) = N.
  Proof. unfold N. f_equal. ring. Qed.

  Lemma helix_e1 i : (0 < i)%nat -> (S i < m)%nat -> nth i (frenet1_rows rows) [] = fr 0 (a * s / N) (b * h / N) (th i).
  Proof.
    intros H1 H2. unfold frenet1_rows. rewrite nth_map_unit, helix_d1 by assumption. rewrite unit_fr by (rewrite N_d1; assumption).
    cbv zeta. rewrite N_d1. f_equal. unfold Rdiv. ring.
  Qed.
  Lemma De1 : dims 3 (frenet1_rows rows).
  Proof. intros p Hp. unfold frenet1_rows in Hp. apply in_map_iff in Hp as (q & <- & Hq). rewrite unit_row_length. apply D1. assumption. Qed.

  Lemma helix_grad_e1 i : (1 < i)%nat -> (S (S i) < m)%nat -> nth i (gradient (frenet1_rows rows)) [] = fr (- (a * s * s / N)) 0 0 (th i).
  Proof.
    intros H1 H2. rewrite (gradient_fr (frenet1_rows rows) i (th i) h 0 (a * s / N) (b * h / N) 0); [|apply De1|lia|rewrite frenet1_length; fold m; lia| |].
    - fold s. unfold Rdiv. f_equal; ring.
    - rewrite helix_e1, th_prev by lia. f_equal. ring.
    - rewrite helix_e1, th_next by lia. f_equal. ring.
  Qed.

  Lemma helix_curvature i : (1 < i)%nat -> (S (S i) < m)%nat ->
    nth i (curvature_space rows) 0 = Rabs a * (s * s) / (a * a * (s * s) + b * b * (h * h)).
  Proof.
    intros H1 H2. rewrite curvature_space_nth by (fold m; lia).
    rewrite helix_grad_e1, helix_d1 by lia. rewrite !fr_norm, N_d1, <- N_sq. pose proof N_pos.
    replace (- (a * s * s / N) * - (a * s * s / N) + 0 * 0 + 0 * 0) with (Rsqr (a * (s * s) / N)) by (unfold Rsqr; field; lra).
    rewrite sqrt_Rsqr_abs. unfold Rdiv. rewrite !Rabs_mult, (Rabs_right (/ N)).
    2:{ apply Rle_ge. left. apply Rinv_0_lt_compat. assumption. }
    replace (Rabs s * Rabs s) with (s * s) by (rewrite <- Rabs_mult; symmetry; apply Rabs_right; nra).
    rnum. field. lra.
  Qed.

  (** Signs: sg * |x| = x. *)
  Hypothesis Ha : / 100000000 < Rabs a * (s * s).
  Lemma a_s_neq : a <> 0 /\ s <> 0.
  Proof.
    split; intros E; rewrite E in Ha; [rewrite Rabs_R0 in Ha|]; lra.
  Qed.
  Definition sg (x : R) := x / Rabs x.
  Lemma sg_sq x : x <> 0 -> sg x * sg x = 1.
  Proof. intros Hx. unfold sg. assert (Rabs x * Rabs x = x * x) by (rewrite <- Rabs_mult; apply Rabs_right; nra).
    assert (Rabs x <> 0) by (apply Rabs_no_R0; assumption).
    replace (x / Rabs x * (x / Rabs x)) with (x * x / (Rabs x * Rabs x)) by (field; assumption). rewrite H0. field. assumption. Qed.
  Lemma sg_abs x : x <> 0 -> sg x * x = Rabs x.
  Proof. intros Hx. unfold sg. assert (Rabs x * Rabs x = x * x) by (rewrite <- Rabs_mult; apply Rabs_right; nra).
    assert (Rabs x <> 0) by (apply Rabs_no_R0; assumption).
    replace (x / Rabs x * x) with (x * x / Rabs x) by (field; assumption). rewrite <- H0. field. assumption. Qed.

  Lemma helix_n i : (1 < i)%nat -> (S (S i) < m)%nat -> nth i (normal_rows rows) [] = fr (- (a * s * s)) 0 0 (th i).
  Proof.
    intros H1 H2. rewrite normal_nth by (fold m; lia). rewrite <- frenet1_nth. rewrite helix_e1, helix_d2 by lia.
    unfold reject. rewrite fr_dot, fr_scale, fr_sub. f_equal; ring.
  Qed.
  Lemma norm_n : sqrt (- (a * s * s) * - (a * s * s) + 0 * 0 + 0 * 0) = Rabs a * (s * s).
  Proof.
    replace (- (a * s * s) * - (a * s * s) + 0 * 0 + 0 * 0) with (Rsqr (a * (s * s))) by (unfold Rsqr; ring).
    rewrite sqrt_Rsqr_abs, Rabs_mult. f_equal. apply Rabs_right. nra.
  Qed.
  Lemma helix_e2 i : (1 < i)%nat -> (S (S i) < m)%nat -> nth i (frenet2_rows rows) [] = fr (- sg a) 0 0 (th i).
  Proof.
    intros H1 H2. unfold frenet2_rows. rewrite nth_map_unit, helix_n by assumption. rewrite unit_fr by (rewrite norm_n; assumption).
    cbv zeta. rewrite norm_n. destruct a_s_neq as [A S]. pose proof (Rabs_no_R0 a A). f_equal; unfold sg; field; split; assumption.
  Qed.
  Lemma De2 : dims 3 (frenet2_rows rows).
  Proof.
    intros p Hp. unfold frenet2_rows in Hp. apply in_map_iff in Hp as (q & <- & Hq). rewrite unit_row_length.
    unfold normal_rows in Hq. destruct (In_nth _ _ [] Hq) as (k & Hk & <-). change (map2 reject (deriv2 rows) (frenet1_rows rows)) with (normal_rows rows) in *.
    rewrite normal_length in Hk. rewrite normal_nth by assumption. rewrite reject_length.
    - apply D2, nth_In. rewrite deriv2_length. assumption.
    - rewrite unit_row_length, (D2 (nth k (deriv2 rows) [])), (D1 (nth k (deriv1 rows) [])); [reflexivity| |]; apply nth_In; rewrite ?deriv1_length, ?deriv2_length; assumption.
  Qed.
  Lemma helix_grad_e2 i : (2 < i)%nat -> (S (S (S i)) < m)%nat -> nth i (gradient (frenet2_rows rows)) [] = fr 0 (- sg a * s) 0 (th i).
  Proof.
    intros H1 H2. rewrite (gradient_fr (frenet2_rows rows) i (th i) h (- sg a) 0 0 0); [|apply De2|lia|rewrite frenet2_length; fold m; lia| |].
    - fold s. f_equal. ring.
    - rewrite helix_e2, th_prev by lia. f_equal. ring.
    - rewrite helix_e2, th_next by lia. f_equal. ring.
  Qed.

  (** The binormal: (a s^3 b h / N^2) (-b h, a s) in the (y, z) directions. *)
  Definition q := a * (s * s * s) * (b * h) / (N * N).
  Lemma helix_b i : (2 < i)%nat -> (S (S (S i)) < m)%nat -> nth i (binormal_rows rows) [] = fr 0 (- q * (b * h)) (q * (a * s)) (th i).
  Proof.
    intros H1 H2. rewrite binormal_nth by (fold m; lia). cbv zeta.
    rewrite <- frenet2_nth, <- frenet1_nth by (fold m; lia). rewrite helix_e1, helix_e2, helix_d3 by lia.
    rewrite !fr_dot, !fr_scale, !fr_sub. pose proof N_pos as P. pose proof N_sq as Q. unfold q.
    f_equal; try (field; lra).
    replace (- (a * s * s * s) - a * s / N * (0 * 0 + - (a * s * s * s) * (a * s / N) + 0 * (b * h / N)) - 0 * (0 * - sg a + - (a * s * s * s) * 0 + 0 * 0))
      with (- (a * s * s * s) * ((N * N - a * a * (s * s)) / (N * N))) by (field; lra).
    rewrite Q at 1. field. lra.
  Qed.
  Hypothesis Hq : / 100000000 < Rabs (a * (s * s * s) * (b * h)) / N.
  Lemma norm_b : sqrt (0 * 0 + - q * (b * h) * (- q * (b * h)) + q * (a * s) * (q * (a * s))) = Rabs (a * (s * s * s) * (b * h)) / N.
  Proof.
    pose proof N_pos as P. pose proof N_sq as Q.
    replace (0 * 0 + - q * (b * h) * (- q * (b * h)) + q * (a * s) * (q * (a * s))) with (Rsqr (q * N)).
    - rewrite sqrt_Rsqr_abs. unfold q. replace (a * (s * s * s) * (b * h) / (N * N) * N) with (a * (s * s * s) * (b * h) / N) by (field; lra).
      unfold Rdiv. rewrite Rabs_mult, (Rabs_right (/ N)); [reflexivity|]. apply Rle_ge. left. apply Rinv_0_lt_compat. assumption.
    - unfold Rsqr. replace (q * N * (q * N)) with (q * q * (N * N)) by ring. rewrite Q. ring.
  Qed.
  Lemma q_neq : a * (s * s * s) * (b * h) <> 0.
  Proof. intros E. rewrite E, Rabs_R0 in Hq. unfold Rdiv in Hq. lra. Qed.
  Lemma helix_e3 i : (2 < i)%nat -> (S (S (S i)) < m)%nat ->
    nth i (frenet3_rows rows) [] = fr 0 (- sg (a * (s * s * s) * (b * h)) * (b * h) / N) (sg (a * (s * s * s) * (b * h)) * (a * s) / N) (th i).
  Proof.
    intros H1 H2. rewrite frenet3_nth, helix_b by assumption. rewrite unit_fr by (rewrite norm_b; assumption). cbv zeta. rewrite norm_b.
    pose proof N_pos. pose proof (Rabs_no_R0 _ q_neq). unfold sg, q. f_equal; field; repeat split; try lra; try assumption.
  Qed.

  Lemma helix_torsion i : (2 < i)%nat -> (S (S (S i)) < m)%nat ->
    nth i (torsion_rows rows) 0 = Rabs (s * (b * h)) / (a * a * (s * s) + b * b * (h * h)).
  Proof.
    intros H1 H2. rewrite torsion_nth by (fold m; lia).
    rewrite helix_grad_e2, helix_e3, helix_d1 by lia. rewrite fr_dot, fr_norm, N_d1, <- N_sq. pose proof N_pos. rnum.
    destruct a_s_neq as [A S]. pose proof q_neq as Nq.
    assert (B : b * h <> 0) by (intros E; apply Nq; rewrite E; ring).
    assert (K : sg a * s * sg (a * (s * s * s) * (b * h)) * (b * h) = Rabs (s * (b * h))).
    { unfold sg. rewrite !Rabs_mult.
      pose proof (Rabs_no_R0 a A) as A1. pose proof (Rabs_no_R0 s S) as S1.
      assert (B1 : Rabs b <> 0) by (apply Rabs_no_R0; intros E; apply B; rewrite E; ring).
      assert (B2 : Rabs h <> 0) by (apply Rabs_no_R0; intros E; apply B; rewrite E; ring).
      assert (Ea : Rabs a * Rabs a = a * a) by (rewrite <- Rabs_mult; apply Rabs_right; nra).
      assert (Es : Rabs s * Rabs s = s * s) by (rewrite <- Rabs_mult; apply Rabs_right; nra).
      assert (Eb : Rabs b * Rabs b = b * b) by (rewrite <- Rabs_mult; apply Rabs_right; nra).
      assert (Eh : Rabs h * Rabs h = h * h) by (rewrite <- Rabs_mult; apply Rabs_right; nra).
      replace (a / Rabs a * s * (a * (s * s * s) * (b * h) / (Rabs a * (Rabs s * Rabs s * Rabs s) * (Rabs b * Rabs h))) * (b * h))
        with (a * a * (s * s) * (s * s) * (b * b) * (h * h) / (Rabs a * Rabs a * (Rabs s * Rabs s) * Rabs s * (Rabs b * Rabs h))) by (field; repeat split; assumption).
      rewrite <- Eb, <- Eh, Ea. rewrite <- Es at 2. rewrite Es at 2. field. repeat split; assumption. }
    rewrite <- K. field. lra.
  Qed.
End Helix.
