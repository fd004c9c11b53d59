(** Speed and curvature of plane curves in binary64. *)
From Coq Require Import PrimFloat FloatOps FloatAxioms SpecFloat.
From Coq Require Import ZArith List Bool Arith Lia Reals Lra Psatz.
From Flocq Require Import Core BinarySingleNaN Relative.
From Flocq Require Import IEEE754.PrimFloat.
From Verif Require Import Num Py Numeric Curve Vec DiffGeom Spec GeomSpec ListFacts VecFacts.
From Verif Require Import FloatFacts FloatFacts2 FloatFacts3 FloatProofs FloatDerivProofs.
Import ListNotations.
Local Open Scope R_scope.
Local Notation float := PrimFloat.float.

(** ** Numbers: a quotient with a nearly right numerator and denominator *)

Lemma pow5_bounds u : 0 <= u <= / 1000000 -> 1 - 5 * u <= (1 - u) ^ 5 /\ (1 + u) ^ 5 <= 1 + (5 + / 1000) * u.
Proof.
  intros U. assert (u2 : 0 <= u * u <= / 1000000 * u) by (split; [apply Rmult_le_pos; lra|apply Rmult_le_compat_r; lra]).
  assert (u3 : 0 <= u * u * u <= / 1000000 * (u * u)) by (split; [apply Rmult_le_pos; lra|rewrite Rmult_comm; apply Rmult_le_compat_r; lra]).
  assert (u4 : 0 <= u * u * u * u <= / 1000000 * (u * u * u)) by (split; [apply Rmult_le_pos; lra|rewrite Rmult_comm; apply Rmult_le_compat_r; lra]).
  assert (u5 : 0 <= u * u * u * u * u <= / 1000000 * (u * u * u * u)) by (split; [apply Rmult_le_pos; lra|rewrite Rmult_comm; apply Rmult_le_compat_r; lra]).
  split; cbn [pow]; ring_simplify; cbn [pow]; lra.
Qed.
Lemma quot_core u c N X D n e S : 0 <= u <= / 1000000 -> 0 <= c <= 3 -> 0 < n -> n * (1 - u) ^ 5 <= D <= n * (1 + u) ^ 5 -> Rabs (N - X) <= c * u * S -> Rabs X <= S -> Rabs e <= u ->
  Rabs (N / D * (1 + e) - X / n) <= (c + 7) * u * S / n.
Proof.
  intros U C Hn HD HN HX He. destruct (pow5_bounds u U) as (B1 & B2).
  assert (D1 : n * (1 - 5 * u) <= D) by (apply Rle_trans with (n * (1 - u) ^ 5); [apply Rmult_le_compat_l; lra|lra]).
  assert (D2 : D <= n * (1 + (5 + / 1000) * u)) by (apply Rle_trans with (n * (1 + u) ^ 5); [lra|apply Rmult_le_compat_l; lra]).
  assert (Dp : 0 < D) by (eapply Rlt_le_trans; [|exact D1]; apply Rmult_lt_0_compat; lra).
  assert (S0 : 0 <= S) by (pose proof (Rabs_pos X); lra).
  set (k := n / D). assert (Kd : k * D = n) by (unfold k; field; lra).
  assert (K1 : 1 - (5 + / 100) * u <= k).
  { unfold k. apply Rmult_le_reg_r with D; [exact Dp|]. replace (n / D * D) with n by (field; lra).
    apply Rle_trans with ((1 - (5 + / 100) * u) * (n * (1 + (5 + / 1000) * u))); [apply Rmult_le_compat_l; lra|].
    replace ((1 - (5 + / 100) * u) * (n * (1 + (5 + / 1000) * u))) with (n * ((1 - (5 + / 100) * u) * (1 + (5 + / 1000) * u))) by ring.
    rewrite <- (Rmult_1_r n) at 2. apply Rmult_le_compat_l; [lra|]. assert (0 <= u * u) by (apply Rmult_le_pos; lra). ring_simplify. cbn [pow]. rewrite Rmult_1_r. lra. }
  assert (K2 : k <= 1 + (5 + / 100) * u).
  { unfold k. apply Rmult_le_reg_r with D; [exact Dp|]. replace (n / D * D) with n by (field; lra).
    apply Rle_trans with ((1 + (5 + / 100) * u) * (n * (1 - 5 * u))); [|apply Rmult_le_compat_l; lra].
    replace ((1 + (5 + / 100) * u) * (n * (1 - 5 * u))) with (n * ((1 + (5 + / 100) * u) * (1 - 5 * u))) by ring.
    rewrite <- (Rmult_1_r n) at 1. apply Rmult_le_compat_l; [lra|]. assert (0 <= u * u <= / 1000000 * u) by (split; [apply Rmult_le_pos; lra|apply Rmult_le_compat_r; lra]). ring_simplify. cbn [pow]. rewrite Rmult_1_r. lra. }
  set (g := k * (1 + e)).
  assert (G : - ((6 + / 10) * u) <= g - 1 <= (6 + / 10) * u).
  { unfold g. apply Rabs_bounds in He. assert (E2 : - (2 * u) <= k * e <= 2 * u).
    { assert (Ke : Rabs (k * e) <= 2 * u) by (rewrite Rabs_mult, (Rabs_pos_eq k) by lra; apply Rmult_le_compat; [lra|apply Rabs_pos|lra|apply Rabs_of; lra]). apply Rabs_bounds, Ke. }
    assert (E3 : - (/ 100 * u) <= (k - 1) * e <= / 100 * u).
    { assert (Ke : Rabs ((k - 1) * e) <= / 100 * u).
      { rewrite Rabs_mult. apply Rmult_le_compat; [apply Rabs_pos|apply Rabs_pos|apply Rabs_of; lra|apply Rabs_of; lra]. } apply Rabs_bounds, Ke. }
    lra. }
  replace (N / D * (1 + e) - X / n) with ((N * g - X) / n) by (unfold g, k; field; lra).
  unfold Rdiv. rewrite Rabs_mult, (Rabs_pos_eq (/ n)) by (left; apply Rinv_0_lt_compat, Hn). apply Rmult_le_compat_r; [left; apply Rinv_0_lt_compat, Hn|].
  replace (N * g - X) with ((N - X) * g + X * (g - 1)) by ring. eapply Rle_trans; [apply Rabs_triang|]. rewrite !Rabs_mult.
  assert (G1 : Rabs g <= 1 + / 100) by (apply Rabs_of; lra). assert (G2 : Rabs (g - 1) <= (6 + / 10) * u) by (apply Rabs_of; lra).
  assert (uS : 0 <= u * S) by (apply Rmult_le_pos; lra). assert (cuS : 0 <= c * (u * S) <= 3 * (u * S)) by (split; [apply Rmult_le_pos; lra|apply Rmult_le_compat_r; lra]).
  assert (T1 : Rabs (N - X) * Rabs g <= c * u * S * (1 + / 100)) by (apply Rmult_le_compat; [apply Rabs_pos|apply Rabs_pos|exact HN|exact G1]).
  assert (T2 : Rabs X * Rabs (g - 1) <= S * ((6 + / 10) * u)) by (apply Rmult_le_compat; [apply Rabs_pos|apply Rabs_pos|exact HX|exact G2]).
  replace (c * u * S * (1 + / 100)) with (c * (u * S) + c * (u * S) / 100) in T1 by field. replace (S * ((6 + / 10) * u)) with ((6 + / 10) * (u * S)) in T2 by ring.
  replace ((c + 7) * u * S) with (c * (u * S) + 7 * (u * S)) by ring. lra.
Qed.

(** ** Floating-point facts *)

Lemma rel_of z r : rounded z r -> z = 0 \/ tiny <= Rabs z -> Rabs z <= huge -> ffin r /\ exists e, Rabs e <= uro /\ FR r = z * (1 + e).
Proof.
  intros H Z B. assert (F := rounded_huge _ _ H B). split; [exact F|]. rewrite (rounded_fin _ _ H F). destruct Z as [->|Z]; [|apply rnd_rel, Z].
  exists 0. rewrite Rabs_R0, rnd_0. pose proof uro_pos. split; lra.
Qed.

(** Zero, or of absolute value between 2^-100 and 2^100. *)
Definition moderate (x : R) : Prop := x = 0 \/ bpow radix2 (-100) <= Rabs x <= bpow radix2 100.
Lemma moderate_mul x y : moderate x -> moderate y -> (x * y = 0 \/ bpow radix2 (-200) <= Rabs (x * y)) /\ Rabs (x * y) <= bpow radix2 200.
Proof.
  intros [->|X] [->|Y]; try (split; [left; ring|]; rewrite ?Rmult_0_l, ?Rmult_0_r, Rabs_R0; apply bpow_ge_0).
  rewrite Rabs_mult. change (-200)%Z with (-100 + -100)%Z. change 200%Z with (100 + 100)%Z. rewrite !bpow_plus.
  split; [right|]; apply Rmult_le_compat; try apply bpow_ge_0; try apply Rabs_pos; lra.
Qed.
Lemma tiny_le a : (-1022 <= a)%Z -> tiny <= bpow radix2 a. Proof. intros H. apply bpow_le, H. Qed.
Lemma huge_ge a : (a <= 1020)%Z -> bpow radix2 a <= huge. Proof. intros H. apply bpow_le, H. Qed.
Lemma mul_moderate x y : ffin x -> ffin y -> moderate (FR x) -> moderate (FR y) ->
  ffin (PrimFloat.mul x y) /\ exists e, Rabs e <= uro /\ FR (PrimFloat.mul x y) = FR x * FR y * (1 + e).
Proof.
  intros Fx Fy X Y. destruct (moderate_mul _ _ X Y) as (L & U). apply rel_of; [apply mul_rounded; assumption| |].
  - destruct L as [L|L]; [left; exact L|right]. eapply Rle_trans; [|exact L]. apply tiny_le. lia.
  - eapply Rle_trans; [exact U|]. apply huge_ge. lia.
Qed.
Lemma within1 b e : 0 <= b -> Rabs e <= uro -> within 1 (b * (1 + e)) b.
Proof. intros B E. apply within_step; [exact B|apply within_refl|exact E]. Qed.

(** The square of the speed as computed. *)
Section Square.
  Variables fx fy : float.
  Hypothesis Fx : ffin fx. Hypothesis Fy : ffin fy. Hypothesis Mx : moderate (FR fx). Hypothesis My : moderate (FR fy).
  Let q := PrimFloat.add (PrimFloat.mul fx fx) (PrimFloat.mul fy fy).
  Let Q := FR fx * FR fx + FR fy * FR fy.
  Lemma sq_zero_or : Q = 0 \/ bpow radix2 (-200) <= Q.
  Proof.
    unfold Q. destruct (moderate_mul _ _ Mx Mx) as ([A|A] & _), (moderate_mul _ _ My My) as ([B|B] & _);
      pose proof (Rle_0_sqr (FR fx)) as S1; pose proof (Rle_0_sqr (FR fy)) as S2; unfold Rsqr in S1, S2; rewrite ?(Rabs_pos_eq (FR fx * FR fx)), ?(Rabs_pos_eq (FR fy * FR fy)) in * by assumption; [left|right..]; lra.
  Qed.
  Lemma sq_computed : ffin q /\ within 2 (FR q) Q /\ Q <= bpow radix2 201.
  Proof.
    destruct (mul_moderate fx fx Fx Fx Mx Mx) as (F1 & e1 & E1 & V1). destruct (mul_moderate fy fy Fy Fy My My) as (F2 & e2 & E2 & V2).
    destruct (moderate_mul _ _ Mx Mx) as (_ & U1). destruct (moderate_mul _ _ My My) as (_ & U2).
    pose proof (Rle_0_sqr (FR fx)) as S1; pose proof (Rle_0_sqr (FR fy)) as S2; unfold Rsqr in S1, S2. rewrite Rabs_pos_eq in U1, U2 by assumption.
    assert (W : within 1 (FR (PrimFloat.mul fx fx) + FR (PrimFloat.mul fy fy)) Q) by (rewrite V1, V2; apply within_add; apply within1; assumption).
    assert (Q0 : 0 <= Q) by (unfold Q; lra).
    assert (QU : Q <= bpow radix2 201) by (unfold Q; change 201%Z with (1 + 200)%Z; rewrite bpow_plus; change (bpow radix2 1) with 2; lra).
    assert (F3 : ffin q).
    { apply add_huge; [assumption|assumption|]. pose proof (within_nonneg _ _ _ Q0 W). rewrite Rabs_pos_eq by assumption. destruct W as (_ & W). rewrite pow_1 in W. pose proof uro_pos.
      apply Rle_trans with (bpow radix2 202); [|apply huge_ge; lia]. change 202%Z with (1 + 201)%Z. rewrite bpow_plus. change (bpow radix2 1) with 2. nra. }
    split; [exact F3|]. split; [|exact QU]. unfold q in *. rewrite add_R by exact F3. destruct (rnd_add_rel (PrimFloat.mul fx fx) (PrimFloat.mul fy fy)) as (e & He & ->). apply within_step; assumption.
  Qed.
  (** Its root and its power 3/2. *)
  Lemma speed_computed : ffin (PrimFloat.sqrt q) /\ within 2 (FR (PrimFloat.sqrt q)) (sqrt Q).
  Proof.
    destruct sq_computed as (F & W & U). assert (Q0 : 0 <= Q) by (pose proof (Rle_0_sqr (FR fx)) as S1; pose proof (Rle_0_sqr (FR fy)) as S2; unfold Rsqr in *; unfold Q; lra).
    assert (q0 := within_nonneg _ _ _ Q0 W). destruct (sqrt_fin q F q0) as (Fs & Es). split; [exact Fs|]. rewrite Es.
    assert (Ws := within_sqrt 1 _ _ Q0 W). destruct sq_zero_or as [Z|L].
    - rewrite Z in *. rewrite sqrt_0 in *. destruct Ws as (A & B). replace (sqrt (FR q)) with 0 by lra. rewrite rnd_0. split; cbn; lra.
    - destruct (rnd_rel (sqrt (FR q))) as (e & He & ->); [|apply within_step; [apply sqrt_pos|exact Ws|exact He]].
      rewrite Rabs_pos_eq by apply sqrt_pos. destruct Ws as (A & _). rewrite pow_1 in A. apply Rle_trans with (bpow radix2 (-100) * (1 - uro)).
      + apply Rle_trans with (bpow radix2 (-101)); [apply tiny_le; lia|]. change (-101)%Z with (-1 + -100)%Z. rewrite bpow_plus. change (bpow radix2 (-1)) with (/ 2). pose proof (bpow_gt_0 radix2 (-100)). unfold uro. nra.
      + eapply Rle_trans; [|exact A]. apply Rmult_le_compat_r; [pose proof uro_pos; lra|]. rewrite <- (sqrt_square (bpow radix2 (-100))) by apply bpow_ge_0. apply sqrt_le_1_alt. rewrite <- bpow_plus. exact L.
  Qed.
  Lemma cube_computed : 0 < Q -> let D := PrimFloat.mul q (PrimFloat.sqrt q) in
    ffin D /\ within 5 (FR D) (Q * sqrt Q) /\ bpow radix2 (-300) <= Q * sqrt Q <= bpow radix2 302.
  Proof.
    intros Qp D. destruct sq_computed as (F & W & U). destruct speed_computed as (Fs & Ws). assert (Q0 : 0 <= Q) by lra.
    assert (L : bpow radix2 (-200) <= Q) by (destruct sq_zero_or; lra).
    assert (Ls : bpow radix2 (-100) <= sqrt Q) by (rewrite <- (sqrt_square (bpow radix2 (-100))) by apply bpow_ge_0; apply sqrt_le_1_alt; rewrite <- bpow_plus; exact L).
    assert (Us : sqrt Q <= bpow radix2 101).
    { rewrite <- (sqrt_square (bpow radix2 101)) by apply bpow_ge_0; apply sqrt_le_1_alt; rewrite <- bpow_plus. eapply Rle_trans; [exact U|]. apply bpow_le. lia. }
    assert (B : bpow radix2 (-300) <= Q * sqrt Q <= bpow radix2 302).
    { change (-300)%Z with (-200 + -100)%Z. change 302%Z with (201 + 101)%Z. rewrite !bpow_plus. split; apply Rmult_le_compat; try apply bpow_ge_0; try apply sqrt_pos; assumption. }
    assert (Wm := within_mul 2 2 _ _ _ _ Q0 (sqrt_pos Q) W Ws). cbn [Nat.add] in Wm.
    assert (P0 : 0 <= Q * sqrt Q) by (apply Rmult_le_pos; [lra|apply sqrt_pos]). assert (p0 := within_nonneg _ _ _ P0 Wm).
    assert (H4 : (1 + uro) ^ 4 <= 2) by (unfold uro; cbn [pow]; lra). assert (H4' : / 2 <= (1 - uro) ^ 4) by (unfold uro; cbn [pow]; lra).
    destruct Wm as (A1 & A2) eqn:EW. clear EW.
    destruct (rel_of _ _ (mul_rounded _ _ F Fs)) as (Fd & e & He & Ve).
    - right. rewrite Rabs_pos_eq by exact p0. apply Rle_trans with (Q * sqrt Q * (1 - uro) ^ 4); [|exact A1].
      apply Rle_trans with (bpow radix2 (-300) * / 2); [|apply Rmult_le_compat; [apply bpow_ge_0|lra|apply B|exact H4']].
      change (/ 2) with (bpow radix2 (-1)). rewrite <- bpow_plus. apply tiny_le. lia.
    - rewrite Rabs_pos_eq by exact p0. eapply Rle_trans; [exact A2|]. apply Rle_trans with (bpow radix2 302 * 2); [apply Rmult_le_compat; [exact P0|apply pow_le; pose proof uro_pos; lra|apply B|exact H4]|].
      change 2 with (bpow radix2 1). rewrite <- bpow_plus. apply huge_ge. lia.
    - split; [exact Fd|]. split; [|exact B]. unfold D. rewrite Ve. apply within_step; [exact P0|split; assumption|exact He].
  Qed.
End Square.
Lemma curv_sign_div N D : ffin (PrimFloat.div N D) -> ffin D -> 0 <= FR N -> 0 < FR D -> 0 <= FR (PrimFloat.div N D).
Proof. intros F Fd HN HD. rewrite div_R by assumption. rewrite <- rnd_0. apply rnd_le. apply Rmult_le_pos; [exact HN|left; apply Rinv_0_lt_compat, HD]. Qed.

(** The numerator. *)
Lemma cross_sign a b c d : ffin (PrimFloat.sub (PrimFloat.mul a b) (PrimFloat.mul c d)) ->
  (FR c * FR d <= FR a * FR b -> 0 <= FR (PrimFloat.sub (PrimFloat.mul a b) (PrimFloat.mul c d))) /\
  (FR a * FR b <= FR c * FR d -> FR (PrimFloat.sub (PrimFloat.mul a b) (PrimFloat.mul c d)) <= 0).
Proof.
  intros F. destruct (sub_fin_inv _ _ F) as (F1 & F2). rewrite sub_R by exact F. rewrite !mul_R by assumption.
  split; intros H; rewrite <- rnd_0; apply rnd_le; pose proof (rnd_le _ _ H); lra.
Qed.
Lemma cross_computed a b c d : ffin a -> ffin b -> ffin c -> ffin d -> moderate (FR a) -> moderate (FR b) -> moderate (FR c) -> moderate (FR d) ->
  let N := PrimFloat.sub (PrimFloat.mul a b) (PrimFloat.mul c d) in let S := Rabs (FR a * FR b) + Rabs (FR c * FR d) in
  ffin N /\ Rabs (FR N - (FR a * FR b - FR c * FR d)) <= (2 + / 1000) * uro * S /\ S <= bpow radix2 201.
Proof.
  intros Fa Fb Fc Fd Ma Mb Mc Md N S. destruct (mul_moderate a b Fa Fb Ma Mb) as (F1 & e1 & E1 & V1). destruct (mul_moderate c d Fc Fd Mc Md) as (F2 & e2 & E2 & V2).
  destruct (moderate_mul _ _ Ma Mb) as (_ & U1). destruct (moderate_mul _ _ Mc Md) as (_ & U2).
  set (P := FR a * FR b) in *. set (Q := FR c * FR d) in *. assert (Us : S <= bpow radix2 201) by (unfold S; change 201%Z with (1 + 200)%Z; rewrite bpow_plus; change (bpow radix2 1) with 2; lra).
  assert (U : 0 <= uro <= / 1000000) by (unfold uro; lra).
  assert (HP : Rabs (e1 * P) <= uro * Rabs P) by (rewrite Rabs_mult; apply Rmult_le_compat_r; [apply Rabs_pos|exact E1]).
  assert (HQ : Rabs (e2 * Q) <= uro * Rabs Q) by (rewrite Rabs_mult; apply Rmult_le_compat_r; [apply Rabs_pos|exact E2]).
  assert (B1 : - Rabs P <= P <= Rabs P) by (apply Rabs_bounds; lra). assert (B2 : - Rabs Q <= Q <= Rabs Q) by (apply Rabs_bounds; lra).
  pose proof (Rabs_pos P) as P0. pose proof (Rabs_pos Q) as Q0.
  assert (uS : 0 <= uro * S <= / 1000000 * S) by (unfold S; split; [apply Rmult_le_pos; lra|apply Rmult_le_compat_r; lra]).
  apply Rabs_bounds in HP, HQ.
  assert (Ds : Rabs (P * (1 + e1) - Q * (1 + e2)) <= (1 + uro) * S) by (unfold S in *; apply Rabs_of; lra).
  assert (F3 : ffin N).
  { apply sub_huge; [assumption|assumption|]. rewrite V1, V2. apply Rle_trans with (bpow radix2 202); [|apply huge_ge; lia]. change 202%Z with (1 + 201)%Z. rewrite bpow_plus. change (bpow radix2 1) with 2. assert (0 <= S) by (unfold S; lra). nra. }
  split; [exact F3|]. split; [|exact Us]. unfold N in *. rewrite sub_R by exact F3. destruct (rnd_sub_rel (PrimFloat.mul a b) (PrimFloat.mul c d)) as (e3 & E3 & ->). rewrite V1, V2.
  assert (H3 : Rabs (e3 * (P * (1 + e1) - Q * (1 + e2))) <= uro * ((1 + uro) * S)) by (rewrite Rabs_mult; apply Rmult_le_compat; [apply Rabs_pos|apply Rabs_pos|exact E3|exact Ds]).
  assert (uuS : uro * (uro * S) <= / 1000000 * (uro * S)) by (apply Rmult_le_compat_r; lra).
  apply Rabs_bounds in H3. apply Rabs_of. replace ((P * (1 + e1) - Q * (1 + e2)) * (1 + e3) - (P - Q)) with (e1 * P - e2 * Q + e3 * (P * (1 + e1) - Q * (1 + e2))) by ring. unfold S in *. lra.
Qed.

Lemma curvature2_computed fx fy sx sy : ffin fx -> ffin fy -> ffin sx -> ffin sy ->
  moderate (FR fx) -> moderate (FR fy) -> moderate (FR sx) -> moderate (FR sy) ->
  let q := FR fx * FR fx + FR fy * FR fy in let X := FR sy * FR fx - FR sx * FR fy in let S := Rabs (FR sy * FR fx) + Rabs (FR sx * FR fy) in 0 < q ->
  let k := curvature2 [fx; fy] [sx; sy] in
  ffin k /\ Rabs (FR k - X / (q * sqrt q)) <= 10 * uro * S / (q * sqrt q) + eta.
Proof.
  intros Fx Fy Gx Gy Mx My Nx Ny q X S Hq k.
  destruct (cube_computed fx fy Fx Fy Mx My Hq) as (Fd & Wd & Bd). destruct (cross_computed sy fx sx fy Gy Fx Gx Fy Ny Mx Nx My) as (Fn & En & Us).
  unfold k, curvature2. cbn [nth nmul nadd nsub ndiv nsqrt FNum FSqrt]. fold S in En, Us. fold X in En. fold q in Wd, Bd.
  set (D := PrimFloat.mul _ _) in *. set (N := PrimFloat.sub _ _) in *. pose proof (bpow_gt_0 radix2 (-300)) as b3.
  assert (n0 : 0 < q * sqrt q) by lra.
  assert (D0 : 0 < FR D).
  { destruct Wd as (A & _). eapply Rlt_le_trans; [|exact A]. apply Rmult_lt_0_compat; [exact n0|]. apply pow_lt. pose proof uro_pos. lra. }
  assert (U : 0 <= uro <= / 1000000) by (unfold uro; lra).
  assert (S0 : 0 <= S) by (unfold S; pose proof (Rabs_pos (FR sy * FR fx)); pose proof (Rabs_pos (FR sx * FR fy)); lra).
  assert (XS : Rabs X <= S) by (unfold X, S, Rminus; eapply Rle_trans; [apply Rabs_triang|rewrite Rabs_Ropp; lra]).
  assert (H := div_rounded N D Fn Fd ltac:(lra)).
  assert (D1 : bpow radix2 (-301) <= FR D).
  { destruct Wd as (A & _). eapply Rle_trans; [|exact A]. change (-301)%Z with (-300 + -1)%Z. rewrite bpow_plus. change (bpow radix2 (-1)) with (/ 2).
    apply Rmult_le_compat; [lra|lra|apply Bd|]. unfold uro. cbn [pow]. lra. }
  assert (N1 : Rabs (FR N) <= bpow radix2 202).
  { apply Rle_trans with (2 * S); [|change 202%Z with (1 + 201)%Z; rewrite bpow_plus; change (bpow radix2 1) with 2; lra].
    assert (uS : uro * S <= / 1000000 * S) by (apply Rmult_le_compat_r; lra). apply Rabs_bounds in En, XS. apply Rabs_of. lra. }
  assert (Fk : ffin (PrimFloat.div N D)).
  { apply (rounded_huge _ _ H). unfold Rdiv. rewrite Rabs_mult, (Rabs_pos_eq (/ FR D)) by (left; apply Rinv_0_lt_compat, D0).
    apply Rle_trans with (bpow radix2 202 * / bpow radix2 (-301)).
    - apply Rmult_le_compat; [apply Rabs_pos|left; apply Rinv_0_lt_compat, D0|exact N1|apply Rinv_le; [apply bpow_gt_0|exact D1]].
    - rewrite <- bpow_opp, <- bpow_plus. apply huge_ge. lia. }
  split; [exact Fk|]. rewrite (rounded_fin _ _ H Fk). destruct (rnd_err (FR N / FR D)) as (e & t & He & Ht & ->).
  pose proof (quot_core uro (2 + / 1000) (FR N) X (FR D) (q * sqrt q) e S U ltac:(lra) n0 Wd En XS He) as Q.
  assert (Z : 0 <= uro * S / (q * sqrt q)) by (apply Rmult_le_pos; [apply Rmult_le_pos; lra|left; apply Rinv_0_lt_compat, n0]).
  replace ((2 + / 1000 + 7) * uro * S / (q * sqrt q)) with ((9 + / 1000) * (uro * S / (q * sqrt q))) in Q by (unfold Rdiv; ring).
  replace (10 * uro * S / (q * sqrt q)) with (10 * (uro * S / (q * sqrt q))) by (unfold Rdiv; ring).
  apply Rabs_bounds in Q, Ht. apply Rabs_of. lra.
Qed.

(** Integer derivatives: nothing but the root, the product and the quotient is rounded. *)
Lemma mul_dyadic K L e g x y : dyadic K e x -> dyadic L g y -> (K * L < 2 ^ 53)%Z -> (-1074 <= e + g <= 960)%Z ->
  dyadic (K * L) (e + g) (PrimFloat.mul x y) /\ FR (PrimFloat.mul x y) = FR x * FR y.
Proof.
  intros (Fx & z & Kz & Ez) (Fy & w & Kw & Ew) H He.
  assert (B : (Z.abs (z * w) <= K * L)%Z) by (rewrite Z.abs_mul; apply Z.mul_le_mono_nonneg; lia).
  assert (P : FR x * FR y = IZR (z * w) * bpow radix2 (e + g)) by (rewrite Ez, Ew, mult_IZR, bpow_plus; ring).
  destruct (exact_of _ _ (z * w) (e + g) (mul_rounded x y Fx Fy) P ltac:(lia) He) as (F & E).
  split; [split; [exact F|exists (z * w)%Z; split; assumption]|]. rewrite E, P. reflexivity.
Qed.
Lemma add_dyadic K e x y : dyadic K e x -> dyadic K e y -> (2 * K < 2 ^ 53)%Z -> (-1074 <= e <= 960)%Z ->
  dyadic (2 * K) e (PrimFloat.add x y) /\ FR (PrimFloat.add x y) = FR x + FR y.
Proof.
  intros (Fx & z & Kz & Ez) (Fy & w & Kw & Ew) H He.
  assert (P : FR x + FR y = IZR (z + w) * bpow radix2 e) by (rewrite Ez, Ew, plus_IZR; ring).
  destruct (exact_of _ _ (z + w) e (add_rounded x y Fx Fy) P ltac:(lia) He) as (F & E).
  split; [split; [exact F|exists (z + w)%Z; split; [lia|assumption]]|]. rewrite E, P. reflexivity.
Qed.
Lemma sub_dyadic K e x y : dyadic K e x -> dyadic K e y -> (2 * K < 2 ^ 53)%Z -> (-1074 <= e <= 960)%Z ->
  dyadic (2 * K) e (PrimFloat.sub x y) /\ FR (PrimFloat.sub x y) = FR x - FR y.
Proof.
  intros (Fx & z & Kz & Ez) (Fy & w & Kw & Ew) H He.
  assert (P : FR x - FR y = IZR (z - w) * bpow radix2 e) by (rewrite Ez, Ew, minus_IZR; ring).
  destruct (exact_of _ _ (z - w) e (sub_rounded x y Fx Fy) P ltac:(lia) He) as (F & E).
  split; [split; [exact F|exists (z - w)%Z; split; [lia|assumption]]|]. rewrite E, P. reflexivity.
Qed.
Lemma dyadic_abs K e x : dyadic K e x -> FR x = 0 \/ bpow radix2 e <= Rabs (FR x).
Proof.
  intros (_ & z & Kz & ->). destruct (Z.eq_dec z 0) as [->|N]; [left; ring|right]. rewrite Rabs_mult, (Rabs_pos_eq (bpow _ _)) by apply bpow_ge_0. rewrite <- abs_IZR.
  rewrite <- (Rmult_1_l (bpow radix2 e)) at 1. apply Rmult_le_compat_r; [apply bpow_ge_0|]. apply IZR_le. lia.
Qed.
Lemma dyadic_up K e x : dyadic K e x -> Rabs (FR x) <= IZR K * bpow radix2 e.
Proof. intros (_ & z & Kz & ->). rewrite Rabs_mult, (Rabs_pos_eq (bpow _ _)) by apply bpow_ge_0. rewrite <- abs_IZR. apply Rmult_le_compat_r; [apply bpow_ge_0|apply IZR_le, Kz]. Qed.

Lemma dyadic_moderate K e x : dyadic K e x -> (K < 2 ^ 53)%Z -> (-100 <= e <= 40)%Z -> moderate (FR x).
Proof.
  intros D HK He. destruct (dyadic_abs K e x D) as [Z|L]; [left; exact Z|right]. split; [eapply Rle_trans; [|exact L]; apply bpow_le; lia|].
  eapply Rle_trans; [exact (dyadic_up K e x D)|]. apply Rle_trans with (bpow radix2 53 * bpow radix2 40); [|rewrite <- bpow_plus; apply bpow_le; lia].
  destruct D as (_ & z & Kz & _). apply Rmult_le_compat; [apply IZR_le; lia|apply bpow_ge_0|rewrite bpow_pos_Z by lia; apply IZR_le; lia|apply bpow_le; lia].
Qed.
Lemma curvature2_dyadic K fx fy sx sy : (K < 2 ^ 21)%Z -> dyadic (8 * K) (-1) fx -> dyadic (8 * K) (-1) fy -> dyadic (64 * K) (-2) sx -> dyadic (64 * K) (-2) sy ->
  let q := FR fx * FR fx + FR fy * FR fy in let X := FR sy * FR fx - FR sx * FR fy in
  let k := curvature2 [fx; fy] [sx; sy] in
  (0 < q -> ffin k /\ Rabs (FR k - X / (q * sqrt q)) <= 7 * uro * Rabs (X / (q * sqrt q))) /\ (q = 0 -> PrimFloat.is_nan k = true).
Proof.
  intros HK Dx Dy Ex Ey q X k.
  assert (K0 : (0 <= K)%Z) by (destruct Dx as (_ & z & Kz & _); lia).
  assert (KK : (K * K < 2 ^ 42)%Z) by (change (2 ^ 42)%Z with (2 ^ 21 * 2 ^ 21)%Z; apply Z.mul_lt_mono_nonneg; lia).
  assert (R1 : (64 * K * (8 * K) = 512 * (K * K))%Z) by ring. 
  destruct (mul_dyadic _ _ _ _ sy fx Ey Dx ltac:(lia) ltac:(lia)) as (D1 & E1).
  destruct (mul_dyadic _ _ _ _ sx fy Ex Dy ltac:(lia) ltac:(lia)) as (D2 & E2).
  destruct (sub_dyadic _ _ _ _ D1 D2 ltac:(lia) ltac:(lia)) as (DN & EN). rewrite E1, E2 in EN. fold X in EN.
  pose proof (proj1 Dx) as Fx. pose proof (proj1 Dy) as Fy.
  assert (Mx := dyadic_moderate _ _ _ Dx ltac:(lia) ltac:(lia)). assert (My := dyadic_moderate _ _ _ Dy ltac:(lia) ltac:(lia)).
  unfold k, curvature2. cbn [nth nmul nadd nsub ndiv nsqrt FNum FSqrt]. set (N := PrimFloat.sub _ _) in *. set (D := PrimFloat.mul (PrimFloat.add _ _) _) in *.
  assert (U : 0 <= uro <= / 1000000) by (unfold uro; lra). split.
  - intros Hq. destruct (cube_computed fx fy Fx Fy Mx My Hq) as (Fd & Wd & Bd). fold D in Fd, Wd. fold q in Wd, Bd. pose proof (bpow_gt_0 radix2 (-300)) as b3.
    assert (n0 : 0 < q * sqrt q) by lra.
    assert (D0 : 0 < FR D).
    { destruct Wd as (A & _). eapply Rlt_le_trans; [|exact A]. apply Rmult_lt_0_compat; [exact n0|]. apply pow_lt. pose proof uro_pos. lra. }
    assert (D1' : bpow radix2 (-301) <= FR D).
    { destruct Wd as (A & _). eapply Rle_trans; [|exact A]. change (-301)%Z with (-300 + -1)%Z. rewrite bpow_plus. change (bpow radix2 (-1)) with (/ 2).
      apply Rmult_le_compat; [lra|lra|apply Bd|]. unfold uro. cbn [pow]. lra. }
    assert (D2' : FR D <= bpow radix2 303).
    { destruct Wd as (_ & A). eapply Rle_trans; [exact A|]. change 303%Z with (302 + 1)%Z. rewrite bpow_plus. change (bpow radix2 1) with 2.
      apply Rmult_le_compat; [lra|apply pow_le; lra|apply Bd|]. unfold uro. cbn [pow]. lra. }
    assert (H := div_rounded N D (proj1 DN) Fd ltac:(lra)). rewrite EN in H.
    assert (Ax : Rabs (X / FR D) = Rabs X * / FR D) by (unfold Rdiv; rewrite Rabs_mult, (Rabs_pos_eq (/ FR D)) by (left; apply Rinv_0_lt_compat, D0); reflexivity).
    destruct (rel_of _ _ H) as (Fk & e & He & Ve).
    + destruct (dyadic_abs _ _ _ DN) as [Z|L]; rewrite EN in *; [left; rewrite Z; unfold Rdiv; ring|right]. rewrite Ax.
      apply Rle_trans with (bpow radix2 (-3) * / bpow radix2 303); [rewrite <- bpow_opp, <- bpow_plus; apply tiny_le; lia|].
      apply Rmult_le_compat; [apply bpow_ge_0|left; apply Rinv_0_lt_compat, bpow_gt_0|exact L|apply Rinv_le; [exact D0|exact D2']].
    + rewrite Ax. pose proof (dyadic_up _ _ _ DN) as Up. rewrite EN in Up.
      apply Rle_trans with (bpow radix2 53 * / bpow radix2 (-301)); [|rewrite <- bpow_opp, <- bpow_plus; apply huge_ge; lia].
      apply Rmult_le_compat; [apply Rabs_pos|left; apply Rinv_0_lt_compat, D0| |apply Rinv_le; [apply bpow_gt_0|exact D1']].
      eapply Rle_trans; [exact Up|]. rewrite (bpow_pos_Z 53) by lia. rewrite <- (Rmult_1_r (IZR (2 ^ 53))). apply Rmult_le_compat; [apply IZR_le; lia|apply bpow_ge_0|apply IZR_le; lia|]. change 1 with (bpow radix2 0). apply bpow_le. lia.
    + split; [exact Fk|]. rewrite Ve.
      pose proof (quot_core uro 0 X X (FR D) (q * sqrt q) e (Rabs X) U ltac:(lra) n0 Wd ltac:(rewrite Rminus_diag_eq by reflexivity; rewrite Rabs_R0; lra) (Rle_refl _) He) as Q.
      eapply Rle_trans; [exact Q|]. right. unfold Rdiv. rewrite Rabs_mult, (Rabs_pos_eq (/ (q * sqrt q))) by (left; apply Rinv_0_lt_compat, n0). ring.
  - intros Hq. assert (Zx : FR fx = 0 /\ FR fy = 0).
    { pose proof (Rle_0_sqr (FR fx)) as S1; pose proof (Rle_0_sqr (FR fy)) as S2; unfold Rsqr in *. unfold q in Hq. split; apply Rsqr_0_uniq; unfold Rsqr; lra. }
    destruct Zx as (Zx & Zy).
    destruct (mul_dyadic _ _ _ _ fx fx Dx Dx ltac:(lia) ltac:(lia)) as (Q1 & V1). destruct (mul_dyadic _ _ _ _ fy fy Dy Dy ltac:(lia) ltac:(lia)) as (Q2 & V2).
    destruct (add_dyadic _ _ _ _ Q1 Q2 ltac:(lia) ltac:(lia)) as (Q3 & V3).
    assert (Zq : FR (PrimFloat.add (PrimFloat.mul fx fx) (PrimFloat.mul fy fy)) = 0) by (rewrite V3, V1, V2, Zx, Zy; ring).
    destruct (sqrt_fin _ (proj1 Q3) ltac:(lra)) as (Fs & Vs).
    assert (Fd : rounded (FR (PrimFloat.add (PrimFloat.mul fx fx) (PrimFloat.mul fy fy)) * FR (PrimFloat.sqrt (PrimFloat.add (PrimFloat.mul fx fx) (PrimFloat.mul fy fy)))) D) by (apply mul_rounded; [exact (proj1 Q3)|exact Fs]).
    rewrite Zq, Rmult_0_l in Fd. assert (FD : ffin D) by (apply (rounded_huge _ _ Fd); rewrite Rabs_R0; apply bpow_ge_0).
    assert (VD : FR D = 0) by (rewrite (rounded_fin _ _ Fd FD); apply rnd_0).
    assert (VN : FR N = 0) by (rewrite EN; unfold X; rewrite Zx, Zy; ring).
    pose proof (proj1 DN) as FN. revert FN FD VD VN. unfold FR. rewrite !ffin_B, fnan_B, div_equiv.
    destruct (Prim2B N) as [s|s| |s m e E], (Prim2B D) as [s'|s'| |s' m' e' E']; cbn [is_finite]; try discriminate; intros _ _ A B; cbn [Bdiv is_nan]; try reflexivity; exfalso;
      match goal with H : B2R (B754_finite _ _ _ _) = 0 |- _ => cbn [B2R] in H; unfold F2R in H; cbn [Fnum Fexp] in H end;
      match goal with H : IZR (cond_Zopp ?s (Zpos ?m)) * bpow radix2 ?e = 0 |- _ => pose proof (bpow_gt_0 radix2 e); apply Rmult_integral in H as [H|H]; [|lra]; apply eq_IZR in H; destruct s; discriminate end.
Qed.

(** The norm of a vector with [n] finite coordinates is right up to (n + 2) / 2 roundings. *)
Lemma inner_self_sum (u : list float) : inner (map FR u) (map FR u) = Rsum (map (fun x => FR x * FR x) u).
Proof. induction u as [|a u IH]; [reflexivity|]. cbn [map inner Rsum fold_right]. rewrite IH. reflexivity. Qed.
Lemma vnorm_terms (u : list float) : vdot u u = fold_right PrimFloat.add PrimFloat.zero (map (fun x => PrimFloat.mul x x) u).
Proof. unfold vdot, vsum. replace (map2 nmul u u) with (map (fun x => PrimFloat.mul x x) u); [reflexivity|]. induction u as [|a u IH]; [reflexivity|]. cbn [map map2]. rewrite IH. reflexivity. Qed.
Lemma vnorm_within n k (u : list float) : length u = n -> (1 <= n)%nat -> (n + 2 <= 2 * k)%nat ->
  (forall x, In x u -> ffin x /\ (FR x = 0 \/ bpow radix2 (-511) <= Rabs (FR x))) -> ffin (vnorm u) -> within k (FR (vnorm u)) (norm (map FR u)).
Proof.
  intros Lu Hn Hk H F. change (vnorm u) with (PrimFloat.sqrt (vdot u u)) in *. rewrite vnorm_terms in *.
  set (l := map (fun x => (PrimFloat.mul x x, FR x * FR x)) u). set (s := fold_right _ _ _) in *.
  assert (S := fold_right_sums (map (fun x => PrimFloat.mul x x) u)). fold s in S.
  assert (Ns : PrimFloat.leb 0 s = true).
  { refine (proj1 (sums_nonneg _ _ S _)). intros x I. apply in_map_iff in I as (y & <- & I). apply mul_self_nonneg. apply ffin_num, (H y I). }
  pose proof (sqrt_fin_inv s Ns F) as Fs. assert (Ps : 0 <= FR s) by (apply (leb_R 0%float s ffin_0 Fs) in Ns; exact Ns).
  assert (Ll : length l = n) by (unfold l; rewrite map_length; exact Lu).
  replace (map _ u) with (map fst l) in S by (unfold l; rewrite map_map; reflexivity).
  destruct (sums_within 1 l s S Fs) as (_ & W & _).
  { intros x e I Fx. unfold l in I. apply in_map_iff in I as (a & E & I). injection E as <- <-. split; [apply Rle_0_sqr|].
    rewrite mul_R by exact Fx. destruct (H a I) as (_ & [Z|B]).
    - rewrite Z, Rmult_0_l, rnd_0. unfold within. rewrite !Rmult_0_l. lra.
    - destruct (rnd_rel (FR a * FR a)) as (e & He & ->); [|apply within1; [apply Rle_0_sqr|exact He]].
      rewrite Rabs_mult. change tiny with (bpow radix2 (-511 + -511)). rewrite bpow_plus. apply Rmult_le_compat; try apply bpow_ge_0; exact B. }
  specialize (W ltac:(intros E; rewrite E in Ll; cbn in Ll; lia)). rewrite Ll in W.
  replace (Rsum (map snd l)) with (inner (map FR u) (map FR u)) in W by (rewrite inner_self_sum; unfold l; rewrite map_map; reflexivity).
  set (D := norm (map FR u)). assert (HD : 0 <= D) by apply sqrt_pos.
  assert (ED : inner (map FR u) (map FR u) = D * D).
  { unfold D, norm. rewrite sqrt_sqrt; [reflexivity|]. rewrite inner_self_sum. apply Rsum_nonneg. intros y I. apply in_map_iff in I as (ab & <- & _). apply Rle_0_sqr. }
  rewrite ED in W. destruct (sqrt_fin s Fs Ps) as (_ & E).
  assert (Hr : exists e, Rabs e <= uro /\ rnd (sqrt (FR s)) = sqrt (FR s) * (1 + e)).
  { destruct (Req_dec (FR s) 0) as [Z|Z].
    - exists 0. rewrite Rabs_R0, Z, sqrt_0, rnd_0. pose proof uro_pos. split; lra.
    - apply rnd_rel. rewrite Rabs_right by (apply Rle_ge, sqrt_pos). pose proof (FR_pos_min s Fs ltac:(lra)) as M.
      apply Rle_trans with (sqrt (bpow radix2 (-1074))); [|apply sqrt_le_1_alt; exact M].
      change (-1074)%Z with (2 * (-537))%Z. rewrite sqrt_bpow. apply bpow_le. lia. }
  destruct Hr as (e & He & Er). rewrite Er in E.
  assert (Pe : 0 <= 1 + e) by (pose proof uro_pos; revert He; unfold Rabs; destruct (Rcase_abs e); unfold uro in *; lra).
  assert (HDD : 0 <= D * D) by apply Rle_0_sqr.
  apply within_unsq; [rewrite E; apply Rmult_le_pos; [apply sqrt_pos|exact Pe]|exact HD|].
  apply (within_weaken (n + 2)); [exact HDD|lia|].
  replace (FR (PrimFloat.sqrt s) * FR (PrimFloat.sqrt s)) with (FR s * (1 + e) * (1 + e)) by (rewrite E; rewrite <- (sqrt_sqrt (FR s)) at 1 by exact Ps; ring).
  replace (n + 2)%nat with (Datatypes.S (Datatypes.S (1 + (n - 1)))) by lia.
  apply within_step; [exact HDD| |exact He]. apply within_step; [exact HDD|exact W|exact He].
Qed.

(** The sign of the computed curvature. *)
Lemma curvature2_sign fx fy sx sy : ffin fx -> ffin fy -> moderate (FR fx) -> moderate (FR fy) -> 0 < FR fx * FR fx + FR fy * FR fy ->
  let k := curvature2 [fx; fy] [sx; sy] in ffin k ->
  (FR sx * FR fy <= FR sy * FR fx -> 0 <= FR k) /\ (FR sy * FR fx <= FR sx * FR fy -> FR k <= 0).
Proof.
  intros Fx Fy Mx My Hq k F. destruct (cube_computed fx fy Fx Fy Mx My Hq) as (Fd & Wd & Bd).
  unfold k, curvature2 in *. cbn [nth nmul nadd nsub ndiv nsqrt FNum FSqrt] in *.
  set (D := PrimFloat.mul (PrimFloat.add _ _) _) in *. set (N := PrimFloat.sub _ _) in *. pose proof (bpow_gt_0 radix2 (-300)) as b3.
  assert (D0 : 0 < FR D).
  { destruct Wd as (A & _). eapply Rlt_le_trans; [|exact A]. apply Rmult_lt_0_compat; [lra|]. apply pow_lt. pose proof uro_pos. unfold uro in *. lra. }
  assert (Fn : ffin N) by exact (proj1 (div_fin_inv N D F Fd)).
  destruct (cross_sign sy fx sx fy Fn) as (P & Q). fold N in P, Q.
  split; intros H.
  - apply curv_sign_div; auto.
  - specialize (Q H). rewrite div_R by (first [exact Fn|exact Fd|exact F|lra]). rewrite <- rnd_0. apply rnd_le. unfold Rdiv. pose proof (Rinv_0_lt_compat _ D0). nra.
Qed.
