(** Sign, shape and total of the windows. *)
From Coq Require Import ZArith List Bool Arith Lia Reals Lra Psatz.
From Verif Require Import Num Py Curve Vec Interp Windows WindowSpec VecFacts SmoothProofs InterpProofs WindowProofs.
Import ListNotations.
Local Open Scope list_scope.
Local Open Scope R_scope.

(** ** Multiple angles *)

Lemma cos_2 x : cos (2 * x) = 2 * cos x * cos x - 1.
Proof. apply cos_2a_cos. Qed.
Lemma cos_3 x : cos (3 * x) = 4 * cos x * cos x * cos x - 3 * cos x.
Proof.
  replace (3 * x) with (2 * x + x) by ring. rewrite cos_plus, cos_2, sin_2a. pose proof (sin2_cos2 x) as E. unfold Rsqr in E.
  replace (2 * sin x * cos x * sin x) with (2 * cos x * (sin x * sin x)) by ring. replace (sin x * sin x) with (1 - cos x * cos x) by lra. ring.
Qed.
Lemma cos_4 x : cos (4 * x) = 8 * cos x * cos x * cos x * cos x - 8 * cos x * cos x + 1.
Proof. replace (4 * x) with (2 * (2 * x)) by ring. rewrite !cos_2. ring. Qed.

(** ** The cosine on [0, 1] *)

Lemma cos_pi_decr u v : 0 <= u -> u <= v -> v <= 1 -> cos (PI * v) <= cos (PI * u).
Proof.
  intros H1 H2 H3. pose proof PI_RGT_0. apply cos_decr_1; try (apply Rmult_le_pos; lra); try (rewrite <- (Rmult_1_r PI) at 2; apply Rmult_le_compat_l; lra).
  apply Rmult_le_compat_l; lra.
Qed.
Lemma cos_pi_gt u : 0 <= u -> u < 1 -> -1 < cos (PI * u).
Proof.
  intros H1 H2. pose proof PI_RGT_0. rewrite <- cos_PI. apply cos_decreasing_1; try lra; try (apply Rmult_le_pos; lra).
  - rewrite <- (Rmult_1_r PI) at 2; apply Rmult_le_compat_l; lra.
  - rewrite <- (Rmult_1_r PI) at 2; apply Rmult_lt_compat_l; lra.
Qed.

(** ** sin y - y cos y *)

Lemma bohman_deriv y : derivable_pt_lim (fun y => sin y - y * cos y) y (y * sin y).
Proof.
  replace (y * sin y) with (cos y - (1 * cos y + y * - sin y)) by ring.
  apply (derivable_pt_lim_minus sin (fun y => y * cos y)); [apply derivable_pt_lim_sin|].
  apply (derivable_pt_lim_mult id cos); [apply derivable_pt_lim_id|apply derivable_pt_lim_cos].
Qed.
Lemma bohman_mono a b : 0 <= a -> a < b -> b <= PI -> sin a - a * cos a < sin b - b * cos b.
Proof.
  intros H1 H2 H3. destruct (MVT_cor2 (fun y => sin y - y * cos y) (fun y => y * sin y) a b H2) as (c & E & Hc).
  - intros c _. apply bohman_deriv.
  - assert (0 < c * sin c). { apply Rmult_lt_0_compat; [lra|]. apply sin_gt_0; lra. } nra.
Qed.
Lemma bohman_alt u : (1 - u) * cos (PI * u) + sin (PI * u) / PI = (sin (PI * (1 - u)) - PI * (1 - u) * cos (PI * (1 - u))) / PI.
Proof.
  pose proof PI_RGT_0. replace (PI * (1 - u)) with (PI - PI * u) by ring. rewrite sin_minus, cos_minus, sin_PI, cos_PI. field. lra.
Qed.
Lemma bohman_decr u v : 0 <= u -> u < v -> v <= 1 -> (1 - v) * cos (PI * v) + sin (PI * v) / PI < (1 - u) * cos (PI * u) + sin (PI * u) / PI.
Proof.
  intros H1 H2 H3. pose proof PI_RGT_0. rewrite !bohman_alt. unfold Rdiv. apply Rmult_lt_compat_r; [apply Rinv_0_lt_compat; lra|].
  apply bohman_mono; [apply Rmult_le_pos; lra|apply Rmult_lt_compat_l; lra|]. rewrite <- (Rmult_1_r PI) at 2. apply Rmult_le_compat_l; lra.
Qed.
Lemma bohman_one : (1 - 1) * cos (PI * 1) + sin (PI * 1) / PI = 0.
Proof. rewrite Rmult_1_r, sin_PI. unfold Rdiv. ring. Qed.

(** ** Cubics of the cosine *)

Lemma cubic_mono p0 p1 p2 p3 c d : 0 <= p1 -> 0 <= p2 -> 0 <= p3 -> -1 <= c -> c <= d ->
  p0 + p1 * (c + 1) + p2 * (c + 1) * (c + 1) + p3 * (c + 1) * (c + 1) * (c + 1) <= p0 + p1 * (d + 1) + p2 * (d + 1) * (d + 1) + p3 * (d + 1) * (d + 1) * (d + 1).
Proof.
  intros H1 H2 H3 Hc Hd. set (s := c + 1). set (t := d + 1). assert (0 <= s) by (unfold s; lra). assert (s <= t) by (unfold s, t; lra).
  assert (s * s <= t * t) by nra. assert (s * s * s <= t * t * t) by nra. nra.
Qed.

(** ** Shape *)

Lemma parzen_decr m i j : (2 <= m)%nat -> (i < m)%nat -> (j < m)%nat -> half_steps m i <= half_steps m j -> taper Parzen m (half_steps m j) <= taper Parzen m (half_steps m i).
Proof.
  intros M Hi Hj H. cbn [taper]. assert (P : 2 <= INR m) by (apply le_INR in M; cbn in M; lra).
  pose proof (half_steps_range m i Hi) as Ri. pose proof (half_steps_range m j Hj) as Rj.
  set (a := half_steps m i) in *. set (b := half_steps m j) in *.
  assert (A : forall x, x / INR m * INR m = x) by (intros x; field; lra).
  set (u := a / INR m). set (v := b / INR m). pose proof (A a) as Au. pose proof (A b) as Av. fold u in Au. fold v in Av.
  assert (U0 : 0 <= u) by nra. assert (UV : u <= v) by nra. assert (V1 : v < 1) by nra.
  assert (I : forall p q, 0 <= p -> p <= q -> q <= / 2 -> 1 - 6 * q ^ 2 * (1 - q) <= 1 - 6 * p ^ 2 * (1 - p)).
  { intros p q Hp Hq Hh. assert (p ^ 2 * (1 - p) <= q ^ 2 * (1 - q)); [|lra].
    replace (q ^ 2 * (1 - q)) with (p ^ 2 * (1 - p) + (q - p) * ((q + p) - (q * q + q * p + p * p))) by ring.
    assert (q * q <= / 2 * q) by (apply Rmult_le_compat_r; lra). assert (q * p <= / 2 * p) by (apply Rmult_le_compat_r; lra).
    assert (p * p <= / 2 * p) by (apply Rmult_le_compat_r; lra). assert (0 <= (q - p) * ((q + p) - (q * q + q * p + p * p))) by (apply Rmult_le_pos; lra). lra. }
  assert (O : forall p q, 0 <= p -> p <= q -> q <= 1 -> 2 * (1 - q) ^ 3 <= 2 * (1 - p) ^ 3).
  { intros p q Hp Hq Hh. assert (K : (1 - q) ^ 3 <= (1 - p) ^ 3); [|lra]. apply pow_incr. lra. }
  destruct (Rle_dec b ((INR m - 1) / 2)) as [Db|Db], (Rle_dec a ((INR m - 1) / 2)) as [Da|Da]; try lra.
  - apply I; [assumption|assumption|]. nra.
  - assert (Hh : / 2 <= v).
    { assert (INR m / 2 <= b); [|nra]. unfold b in *. rewrite half_steps_INR in * by assumption. set (d := (if (2 * j <=? m - 1)%nat then m - 1 - 2 * j else 2 * j - (m - 1))%nat) in *.
      destruct (Rle_lt_dec (INR m / 2) (INR d)) as [|L]; [assumption|exfalso].
      assert (L1 : INR (2 * d) < INR m) by (rewrite mult_INR; cbn [INR]; lra). assert (L2 : INR m < INR (2 * d + 1)) by (rewrite plus_INR, mult_INR; cbn [INR]; lra).
      apply INR_lt in L1, L2. lia. }
    apply Rle_trans with (2 * (1 - / 2) ^ 3); [apply O; lra|]. replace (2 * (1 - / 2) ^ 3) with (1 - 6 * (/ 2) ^ 2 * (1 - / 2)) by field. apply I; [assumption| |lra]. nra.
  - apply O; lra.
Qed.

(** Farther places have no larger values. *)
Lemma taper_decr w m i j : w <> Flattop -> (2 <= m)%nat -> (i < m)%nat -> (j < m)%nat -> half_steps m i <= half_steps m j ->
  taper w m (half_steps m j) <= taper w m (half_steps m i).
Proof.
  intros Nw M Hi Hj H. pose proof (INR_1_pos m M) as P. pose proof PI_RGT_0 as PP.
  pose proof (half_steps_range m i Hi) as Ri. pose proof (half_steps_range m j Hj) as Rj.
  pose proof (ratio_range m i M Hi) as [U0 _]. pose proof (ratio_range m j M Hj) as [_ V1].
  assert (UV : ratio m i <= ratio m j) by (unfold ratio, Rdiv; apply Rmult_le_compat_r; [left; apply Rinv_0_lt_compat; lra|assumption]).
  destruct (Req_dec (ratio m i) (ratio m j)) as [E|NE].
  { assert (Eh : half_steps m i = half_steps m j); [|rewrite Eh; apply Rle_refl].
    unfold ratio in E. apply (f_equal (fun x => x * (INR m - 1))) in E. unfold Rdiv in E. rewrite !Rmult_assoc, Rinv_l in E by lra. lra. }
  assert (C := cos_pi_decr (ratio m i) (ratio m j) U0 UV V1). assert (C1 := proj1 (COS_bound (PI * ratio m j))). 
  destruct w; try contradiction; try (apply parzen_decr; assumption); cbn [taper]; fold (ratio m i) (ratio m j); rewrite ?cos_2, ?cos_3;
    set (c := cos (PI * ratio m j)) in *; set (d := cos (PI * ratio m i)) in *.
  - lra.
  - lra.
  - pose proof (cubic_mono 0 0.18 0.16 0 c d ltac:(lra) ltac:(lra) ltac:(lra) C1 C). nra.
  - pose proof (cubic_mono 0.00006 0.02829 0.1424 0.04672 c d ltac:(lra) ltac:(lra) ltac:(lra) C1 C). lra.
  - left. apply bohman_decr; lra.
  - lra.
  - apply cos_decr_1.
    + unfold Rdiv. apply Rmult_le_pos; [apply Rmult_le_pos; lra|left; apply Rinv_0_lt_compat; lra].
    + apply Rmult_le_reg_r with (2 * INR m); [lra|]. unfold Rdiv. rewrite Rmult_assoc, Rinv_l by lra. nra.
    + unfold Rdiv. apply Rmult_le_pos; [apply Rmult_le_pos; lra|left; apply Rinv_0_lt_compat; lra].
    + apply Rmult_le_reg_r with (2 * INR m); [lra|]. unfold Rdiv. rewrite Rmult_assoc, Rinv_l by lra. nra.
    + unfold Rdiv. apply Rmult_le_compat_r; [left; apply Rinv_0_lt_compat; lra|]. apply Rmult_le_compat_l; lra.
  - lra.
  - lra.
  - pose proof (cubic_mono 0.0003628 0.0385494 0.1455058 0.0425644 c d ltac:(lra) ltac:(lra) ltac:(lra) C1 C). lra.
  - assert (Q : forall x, 0 < x -> half_steps m i / x <= half_steps m j / x) by (intros x Hx; unfold Rdiv; apply Rmult_le_compat_r; [left; apply Rinv_0_lt_compat; lra|assumption]).
    destruct (Nat.even m); [specialize (Q (INR m))|specialize (Q (INR m + 1))]; lra.
Qed.

(** ** Sign *)

Lemma taper_end w m k : (2 <= m)%nat -> ratio m k = 1 -> zero_ended w = true -> taper w m (half_steps m k) = 0.
Proof.
  intros M E Z. destruct w; try discriminate Z; cbn [taper]; fold (ratio m k); rewrite ?cos_2, E; try apply bohman_one; rewrite ?Rmult_1_r, ?cos_PI; lra.
Qed.
Lemma taper_pos w m k : w <> Flattop -> (2 <= m)%nat -> (k < m)%nat -> (zero_ended w = true -> ratio m k <> 1) -> 0 < taper w m (half_steps m k).
Proof.
  intros Nw M Hk Z. pose proof (INR_1_pos m M) as P. pose proof PI_RGT_0 as PP. pose proof (half_steps_range m k Hk) as Rk.
  pose proof (ratio_range m k M Hk) as [U0 U1]. assert (C1 := COS_bound (PI * ratio m k)).
  assert (C : zero_ended w = true -> -1 < cos (PI * ratio m k)) by (intros Q; specialize (Z Q); apply cos_pi_gt; lra).
  assert (N0 : zero_ended w = true -> ratio m k < 1) by (intros Q; specialize (Z Q); lra).
  destruct w; try contradiction; cbn [zero_ended] in C, N0; try specialize (C eq_refl); try specialize (N0 eq_refl); cbn [taper]; fold (ratio m k); rewrite ?cos_2, ?cos_3;
    set (c := cos (PI * ratio m k)) in *; try lra.
  - pose proof (cubic_mono 0 0.18 0.16 0 (-1) c ltac:(lra) ltac:(lra) ltac:(lra) ltac:(lra) ltac:(lra)). nra.
  - pose proof (cubic_mono 0.00006 0.02829 0.1424 0.04672 (-1) c ltac:(lra) ltac:(lra) ltac:(lra) ltac:(lra) ltac:(lra)). lra.
  - pose proof (bohman_decr (ratio m k) 1 U0 N0 ltac:(lra)) as B. rewrite bohman_one in B. exact B.
  - apply cos_gt_0.
    + apply Rlt_le_trans with 0; [lra|]. unfold Rdiv. apply Rmult_le_pos; [apply Rmult_le_pos; lra|left; apply Rinv_0_lt_compat; lra].
    + apply Rmult_lt_reg_r with (2 * INR m); [lra|]. unfold Rdiv. rewrite Rmult_assoc, Rinv_l by lra. nra.
  - pose proof (cubic_mono 0.0003628 0.0385494 0.1455058 0.0425644 (-1) c ltac:(lra) ltac:(lra) ltac:(lra) ltac:(lra) ltac:(lra)). lra.
  - assert (A : half_steps m k / INR m * INR m = half_steps m k) by (field; lra). set (u := half_steps m k / INR m) in *.
    assert (0 <= u) by nra. assert (u < 1) by nra. destruct (Rle_dec (half_steps m k) ((INR m - 1) / 2)) as [D|D].
    + assert (u <= / 2) by nra. assert (u * (1 - u) <= / 4) by nra. assert (0 <= u * (1 - u)) by nra.
      assert (u * (u * (1 - u)) <= / 2 * / 4) by (apply Rmult_le_compat; lra). lra.
    + assert (0 < (1 - u) ^ 3) by (apply pow_lt; lra). lra.
  - assert (Q : forall x, INR m - 1 < x -> half_steps m k / x < 1).
    { intros x Hx. apply Rmult_lt_reg_r with x; [lra|]. unfold Rdiv. rewrite Rmult_assoc, Rinv_l by lra. lra. }
    destruct (Nat.even m); [specialize (Q (INR m))|specialize (Q (INR m + 1))]; lra.
Qed.

(** ** Totals *)

Lemma cos_sum_step x k : 2 * sin (x / 2) * cos (INR k * x) = sin ((INR k + / 2) * x) - sin ((INR k - / 2) * x).
Proof.
  replace ((INR k + / 2) * x) with (INR k * x + x / 2) by field. replace ((INR k - / 2) * x) with (INR k * x - x / 2) by field.
  rewrite sin_plus, sin_minus. ring.
Qed.
Lemma cos_sum x n : 2 * sin (x / 2) * vsum (map (fun k => cos (INR k * x)) (seq 0 n)) = sin ((INR n - / 2) * x) + sin (x / 2).
Proof.
  induction n as [|n IH].
  - cbn [seq map]. change (vsum []) with 0. cbn [INR]. replace ((0 - / 2) * x) with (- (x / 2)) by field. rewrite sin_neg. ring.
  - rewrite seq_S, map_app, vsum_app, Rmult_plus_distr_l, IH. cbn [map]. rewrite vsum_cons. change (vsum []) with 0. cbn [Nat.add]. rewrite Rplus_0_r, cos_sum_step, S_INR.
    replace (INR n + 1 - / 2) with (INR n + / 2) by field. ring.
Qed.

Lemma sin_2kpi k : sin (2 * PI * INR k) = 0 /\ cos (2 * PI * INR k) = 1.
Proof.
  replace (2 * PI * INR k) with (0 + 2 * INR k * PI) by ring. rewrite sin_period, cos_period, sin_0, cos_0. split; reflexivity.
Qed.
(** The sum of the j-th harmonic over one full turn of n steps. *)
Lemma harmonic_sum n j : (0 < j < n)%nat -> vsum (map (fun k => cos (INR k * (2 * PI * INR j / INR n))) (seq 0 n)) = 0.
Proof.
  intros H. pose proof PI_RGT_0 as PP. assert (J : 1 <= INR j) by (change 1 with (INR 1); apply le_INR; lia). assert (N : INR j < INR n) by (apply lt_INR; lia).
  set (x := 2 * PI * INR j / INR n). assert (E := cos_sum x n).
  assert (Ex : INR n * x = 2 * PI * INR j) by (unfold x; field; lra).
  replace ((INR n - / 2) * x) with (INR n * x - x / 2) in E by field. rewrite sin_minus, Ex in E. destruct (sin_2kpi j) as [-> ->] in E.
  assert (S : 0 < sin (x / 2)).
  { apply sin_gt_0; unfold x.
    - apply Rmult_lt_reg_r with (2 * INR n); [lra|]. replace (2 * PI * INR j / INR n / 2 * (2 * INR n)) with (2 * PI * INR j) by (field; lra). nra.
    - apply Rmult_lt_reg_r with (2 * INR n); [lra|]. replace (2 * PI * INR j / INR n / 2 * (2 * INR n)) with (2 * PI * INR j) by (field; lra). nra. }
  nra.
Qed.

Lemma cos_shift j y : cos (INR j * (y - PI)) = (-1) ^ j * cos (INR j * y).
Proof.
  replace (INR j * (y - PI)) with (INR j * y - INR j * PI) by ring. rewrite cos_minus.
  assert (E : sin (INR j * PI) = 0 /\ cos (INR j * PI) = (-1) ^ j).
  { induction j as [|j [I1 I2]]; [rewrite Rmult_0_l, sin_0, cos_0; split; reflexivity|].
    rewrite S_INR, Rmult_plus_distr_r, Rmult_1_l, sin_plus, cos_plus, I1, I2, sin_PI, cos_PI. cbn [pow]. split; ring. }
  destruct E as [-> ->]. ring.
Qed.

(** The sum of the j-th harmonic over the arguments of the cosine windows. *)
Lemma harmonic_total m j : (0 < j)%nat -> (j < m - 1)%nat -> vsum (map (fun x => cos (INR j * x)) (linspace_nat (- PI) PI m)) = (-1) ^ j.
Proof.
  intros J H. assert (M : (2 <= m)%nat) by lia. pose proof (INR_1_pos m M) as P.
  assert (E : linspace_nat (- PI) PI m = map (fun k => INR k * (2 * PI / INR (m - 1)) - PI) (seq 0 m)).
  { apply (nth_ext _ _ 0 0); [rewrite linspace_length, map_length, seq_length; reflexivity|]. intros k Hk. rewrite linspace_length in Hk.
    rewrite linspace_nth, nth_map_0 by assumption. cbn [Nat.add]. rewrite minus_INR by lia. change (INR 1) with 1. field. lra. }
  rewrite E, map_map. rewrite (sum_ext _ (fun k => (-1) ^ j * cos (INR k * (2 * PI * INR j / INR (m - 1))))).
  2:{ intros k _. rewrite cos_shift. f_equal. f_equal. unfold Rdiv. ring. }
  rewrite sum_scale. assert (Es : seq 0 m = seq 0 (m - 1) ++ [(m - 1)%nat]) by (replace m with (S (m - 1)) at 1 by lia; rewrite seq_S; reflexivity).
  rewrite Es, map_app, vsum_app, harmonic_sum by lia. cbn [map]. rewrite vsum_cons.
  change (vsum []) with 0. replace (INR (m - 1) * (2 * PI * INR j / INR (m - 1))) with (2 * PI * INR j) by (field; rewrite minus_INR by lia; change (INR 1) with 1; lra).
  rewrite (proj2 (sin_2kpi j)). ring.
Qed.

Lemma vsum_const (l : list R) c : vsum (map (fun _ : R => c) l) = INR (length l) * c.
Proof. induction l as [|x l IH]; [cbn; ring|]. cbn [map length]. rewrite vsum_cons, IH, S_INR. ring. Qed.

Lemma general_cosine_total m a : (length a < m)%nat ->
  vsum (general_cosine m a) = INR m * nth 0 a 0 + vsum (map (fun j => nth j a 0 * (-1) ^ j) (seq 1 (length a - 1))).
Proof.
  intros H. unfold general_cosine.
  assert (F : forall x l s, fold_left (fun s k => s + nth k a 0 * cos (INR k * x)) l s = s + vsum (map (fun k => nth k a 0 * cos (INR k * x)) l)).
  { intros x. induction l as [|k l IH]; intros s; [cbn; ring|]. cbn [fold_left map]. rewrite IH, vsum_cons. ring. }
  rewrite (sum_ext _ (fun x => vsum (map (fun k => nth k a 0 * cos (INR k * x)) (seq 0 (length a))))) by (intros x _; rewrite F; ring).
  rewrite sum_swap. destruct (length a) as [|n] eqn:La.
  { destruct a; [|discriminate]. cbn. ring. }
  cbn [seq map]. rewrite vsum_cons. replace (S n - 1)%nat with n by lia. f_equal.
  - rewrite (sum_ext _ (fun _ => nth 0 a 0)) by (intros x _; cbn [INR]; rewrite Rmult_0_l, cos_0; ring). rewrite vsum_const, linspace_length. reflexivity.
  - apply sum_ext. intros j Hj. apply in_seq in Hj. rewrite sum_scale, harmonic_total by lia. reflexivity.
Qed.
