(** The unit tangent vectors in binary64. *)
From Coq Require Import PrimFloat FloatOps FloatAxioms SpecFloat.
From Coq Require Import ZArith List Bool Arith Lia Reals Lra Psatz.
From Flocq Require Import Core BinarySingleNaN Relative.
From Flocq Require Import IEEE754.PrimFloat.
From Verif Require Import Num Py Numeric Curve Vec DiffGeom Spec GeomSpec ListFacts VecFacts.
From Verif Require Import FloatFacts FloatFacts2 FloatFacts3 FloatProofs FloatProofs2 FloatProofs3 FloatDerivProofs FloatCurvProofs.
Import ListNotations.
Local Open Scope R_scope.
Local Notation float := PrimFloat.float.

(** ** The norm *)

Lemma vnorm_sums (u : list float) : (forall x, In x u -> ffin x) ->
  exists s, vnorm u = PrimFloat.sqrt s /\ sums_to (map (fun x => PrimFloat.mul x x) u) s /\ PrimFloat.leb 0 s = true.
Proof.
  intros H. exists (vdot u u). split; [reflexivity|]. rewrite vnorm_terms. assert (S := fold_right_sums (map (fun x => PrimFloat.mul x x) u)). split; [exact S|].
  refine (proj1 (sums_nonneg _ _ S _)). intros x I. apply in_map_iff in I as (y & <- & I). apply mul_self_nonneg, ffin_num, H, I.
Qed.
Lemma vnorm_cases (u : list float) : (forall x, In x u -> ffin x) -> vnorm u = infinity \/ (ffin (vnorm u) /\ 0 <= FR (vnorm u)).
Proof. intros H. destruct (vnorm_sums u H) as (s & -> & _ & N). apply nonneg_cases, sqrt_nonneg, N. Qed.

Lemma frenet_norm_cases (u : list float) : (forall x, In x u -> ffin x) ->
  (ffin (vnorm u) /\ FR (vnorm u) <= FR (@atol_default float FNum) /\ frenet_norm u = PrimFloat.one) \/
  (ffin (vnorm u) /\ FR (@atol_default float FNum) < FR (vnorm u) /\ frenet_norm u = vnorm u) \/
  (vnorm u = infinity /\ frenet_norm u = infinity).
Proof.
  intros H. unfold frenet_norm. cbv zeta. destruct (vnorm_cases u H) as [E | (F & P)].
  - right. right. rewrite E. split; [reflexivity|]. vm_compute. reflexivity.
  - pose proof (isclose_zero (vnorm u) (ffin_num _ F)) as C. rewrite Rabs_pos_eq in C by exact P.
    destruct (isclose (vnorm u) n0) eqn:E.
    + left. split; [exact F|]. split; [apply C; reflexivity|reflexivity].
    + right. left. split; [exact F|]. split; [|reflexivity]. destruct (Rle_or_lt (FR (vnorm u)) (FR (@atol_default float FNum))) as [L|L]; [|exact L].
      assert (false = true) by (apply C; split; assumption). discriminate.
Qed.
Lemma atol_lower : bpow radix2 (-27) <= FR (@atol_default float FNum).
Proof.
  replace (bpow radix2 (-27)) with (FR 0x1p-27%float).
  - apply leb_R; [vm_compute; reflexivity|vm_compute; reflexivity|vm_compute; reflexivity].
  - rewrite FR_SF. replace (Prim2SF 0x1p-27%float) with (S754_finite false 4503599627370496 (-79)) by (vm_compute; reflexivity). cbn. unfold F2R. cbn. lra.
Qed.

(** ** Equal up to the sign of zero *)

Definition fsame (x y : float) : Prop := ffin x /\ ffin y /\ FR x = FR y.
Lemma zero_cases x : ffin x -> FR x = 0 -> x = PrimFloat.zero \/ x = PrimFloat.neg_zero.
Proof.
  intros F E. apply ffin_B in F. unfold FR in E. destruct (Prim2B x) as [s|s| |s m e He] eqn:Q; try discriminate.
  - destruct s; [right|left]; apply FR_ext; rewrite Q; reflexivity.
  - exfalso. cbn [B2R] in E. unfold F2R in E. cbn [Fnum Fexp] in E. pose proof (bpow_gt_0 radix2 e). apply Rmult_integral in E as [E|E]; [|lra]. apply eq_IZR in E. destruct s; discriminate.
Qed.
Lemma fsame_cases x y : fsame x y -> x = y \/ ((x = PrimFloat.zero \/ x = PrimFloat.neg_zero) /\ (y = PrimFloat.zero \/ y = PrimFloat.neg_zero)).
Proof.
  intros (Fx & Fy & E). destruct (Req_dec (FR x) 0) as [Z|Z]; [right|left; apply FR_inj_nz; assumption].
  split; apply zero_cases; congruence.
Qed.
Lemma fsame_sq x y : fsame x y -> PrimFloat.mul x x = PrimFloat.mul y y.
Proof. intros H. destruct (fsame_cases x y H) as [-> | ([-> | ->] & [-> | ->])]; reflexivity. Qed.
Lemma fsame_vnorm u v : Forall2 fsame u v -> vnorm u = vnorm v.
Proof.
  intros H. change (vnorm u) with (PrimFloat.sqrt (vdot u u)). change (vnorm v) with (PrimFloat.sqrt (vdot v v)). rewrite !vnorm_terms. f_equal. f_equal.
  induction H as [|x y u v Hxy _ IH]; [reflexivity|]. cbn [map]. rewrite IH, (fsame_sq x y Hxy). reflexivity.
Qed.
Lemma fsame_frenet u v : Forall2 fsame u v -> frenet_norm u = frenet_norm v.
Proof. intros H. unfold frenet_norm. rewrite (fsame_vnorm u v H). reflexivity. Qed.

(** The quotient of a finite number by a norm that is not close to zero. *)
Lemma div_inf x : ffin x -> ffin (PrimFloat.div x infinity) /\ FR (PrimFloat.div x infinity) = 0.
Proof.
  intros F. apply ffin_B in F. rewrite ffin_B. unfold FR. rewrite div_equiv. replace (Prim2B infinity) with (B754_infinity false : binary_float prec emax).
  - destruct (Prim2B x); try discriminate; cbn [Bdiv is_finite B2R]; auto.
  - rewrite <- (Prim2B_B2Prim (B754_infinity false)). reflexivity.
Qed.
Lemma div_norm x N : ffin x -> Rabs (FR x) <= bpow radix2 900 -> ffin N -> bpow radix2 (-27) <= FR N -> ffin (PrimFloat.div x N) /\ FR (PrimFloat.div x N) = rnd (FR x / FR N).
Proof.
  intros F B G L. pose proof (bpow_gt_0 radix2 (-27)). assert (R := div_rounded x N F G ltac:(lra)).
  assert (Fd : ffin (PrimFloat.div x N)); [|split; [exact Fd|apply rounded_fin; assumption]].
  apply (rounded_huge _ _ R). unfold Rdiv. rewrite Rabs_mult, (Rabs_pos_eq (/ FR N)) by (left; apply Rinv_0_lt_compat; lra).
  apply Rle_trans with (bpow radix2 900 * bpow radix2 27); [|rewrite <- bpow_plus; apply bpow_le; lia].
  apply Rmult_le_compat; [apply Rabs_pos|left; apply Rinv_0_lt_compat; lra|exact B|].
  change (bpow radix2 27) with (bpow radix2 (- (-27))). rewrite bpow_opp. apply Rinv_le_contravar; lra.
Qed.
Lemma one_R : ffin PrimFloat.one /\ FR PrimFloat.one = 1. Proof. split; [reflexivity|exact FR_1]. Qed.
Lemma unit_entry u x : (forall y, In y u -> ffin y) -> In x u -> Rabs (FR x) <= bpow radix2 900 ->
  ffin (PrimFloat.div x (frenet_norm u)) /\ (frenet_norm u = infinity -> FR (PrimFloat.div x (frenet_norm u)) = 0) /\
  (frenet_norm u <> infinity -> FR (PrimFloat.div x (frenet_norm u)) = rnd (FR x / FR (frenet_norm u))).
Proof.
  intros H I B. pose proof atol_lower as A. destruct (frenet_norm_cases u H) as [(F & L & E) | [(F & L & E) | (_ & E)]]; rewrite E.
  - destruct (div_norm x PrimFloat.one (H x I) B (proj1 one_R)) as (D & V); [rewrite FR_1; change 1 with (bpow radix2 0); apply bpow_le; lia|].
    split; [exact D|]. split; [|intros _; exact V]. intros Q. exfalso. assert (C : PrimFloat.is_finite PrimFloat.one = false) by (rewrite Q; reflexivity). vm_compute in C. discriminate.
  - destruct (div_norm x (vnorm u) (H x I) B F ltac:(lra)) as (D & V). split; [exact D|]. split; [|intros _; exact V].
    intros Q. exfalso. rewrite Q in F. destruct (inf_not_fin F).
  - destruct (div_inf x (H x I)) as (D & V). split; [exact D|]. split; [intros _; exact V|congruence].
Qed.
Lemma fsame_unit u v : Forall2 fsame u v -> (forall x, In x u -> Rabs (FR x) <= bpow radix2 900) -> Forall2 fsame (unit_row u) (unit_row v).
Proof.
  intros H B. unfold unit_row. rewrite <- (fsame_frenet u v H).
  assert (Fu : forall x, In x u -> ffin x). { clear B. induction H as [|x y u v Hxy _ IH]; [intros ? []|]. intros z [<-|I]; [apply Hxy|apply IH, I]. }
  set (N := frenet_norm u). assert (HN : forall x, In x u -> ffin (PrimFloat.div x N) /\ (N = infinity -> FR (PrimFloat.div x N) = 0) /\ (N <> infinity -> FR (PrimFloat.div x N) = rnd (FR x / FR N))).
  { intros x I. apply unit_entry; [exact Fu|exact I|apply B, I]. }
  assert (ZZ : forall z w, (z = PrimFloat.zero \/ z = PrimFloat.neg_zero) -> (w = PrimFloat.zero \/ w = PrimFloat.neg_zero) -> ffin (PrimFloat.div z N) -> fsame (PrimFloat.div z N) (PrimFloat.div w N)).
  { intros z w Hz Hw F. assert (G : forall t, t = PrimFloat.zero \/ t = PrimFloat.neg_zero -> ffin t /\ FR t = 0) by (intros t [-> | ->]; split; reflexivity).
    destruct (frenet_norm_cases u Fu) as [(_ & _ & E) | [(Fn & L & E) | (_ & E)]]; fold N in E.
    - rewrite E. destruct Hz as [-> | ->], Hw as [-> | ->]; (split; [reflexivity|split; reflexivity]).
    - rewrite E. pose proof atol_lower as A. assert (Q : forall t, ffin t /\ FR t = 0 -> ffin (PrimFloat.div t (vnorm u)) /\ FR (PrimFloat.div t (vnorm u)) = 0).
      { intros t (Ft & Et). destruct (div_norm t (vnorm u) Ft) as (D & V); [rewrite Et, Rabs_R0; apply bpow_ge_0|exact Fn|lra|]. split; [exact D|]. rewrite V, Et. unfold Rdiv. rewrite Rmult_0_l. apply rnd_0. }
      destruct (Q z (G z Hz)) as (D1 & V1). destruct (Q w (G w Hw)) as (D2 & V2). split; [exact D1|]. split; [exact D2|congruence].
    - rewrite E. destruct (div_inf z (proj1 (G z Hz))) as (D1 & V1). destruct (div_inf w (proj1 (G w Hw))) as (D2 & V2). split; [exact D1|]. split; [exact D2|congruence]. }
  clearbody N. clear B Fu. induction H as [|x y u v Hxy _ IH]; [constructor|]. cbn [map]. constructor; [|apply IH; intros z I; apply HN; right; exact I].
  destruct (HN x (or_introl eq_refl)) as (D & _). destruct (fsame_cases x y Hxy) as [<- | (Zx & Zy)]; [split; [exact D|split; [exact D|reflexivity]]|].
  apply ZZ; assumption.
Qed.

(** Vectors of zeros have the norm zero. *)
Lemma vnorm_zeros (g : list float) : (forall x, In x g -> ffin x /\ FR x = 0) -> vnorm g = PrimFloat.zero.
Proof.
  intros H. change (vnorm g) with (PrimFloat.sqrt (vdot g g)). rewrite vnorm_terms. replace (fold_right PrimFloat.add PrimFloat.zero (map (fun x => PrimFloat.mul x x) g)) with PrimFloat.zero; [reflexivity|].
  symmetry. induction g as [|x g IH]; [reflexivity|]. cbn [map fold_right]. rewrite IH by (intros y I; apply H; right; exact I).
  destruct (H x (or_introl eq_refl)) as (F & E). destruct (zero_cases x F E) as [-> | ->]; reflexivity.
Qed.
Lemma inner_zero m f i : (0 < i)%nat -> (S i < m)%nat -> fsame (f (i + 1)%nat) (f (i - 1)%nat) -> ffin (fslope m f i) /\ FR (fslope m f i) = 0.
Proof.
  intros H0 H1 (F1 & F2 & E). unfold fslope. destruct (Nat.eqb_spec m 2); [lia|]. destruct (Nat.eqb_spec i 0); [lia|]. destruct (Nat.eqb_spec i (m - 1)); [lia|].
  assert (R := sub_rounded _ _ F1 F2). rewrite E, Rminus_diag_eq in R by reflexivity.
  assert (Fs := rounded_huge _ _ R ltac:(rewrite Rabs_R0; apply bpow_ge_0)). assert (Es := rounded_fin _ _ R Fs). rewrite rnd_0 in Es.
  destruct (zero_cases _ Fs Es) as [-> | ->]; split; vm_compute; reflexivity.
Qed.

(** A vector with a coordinate of absolute value 1 or more has a norm that is not zero. *)
Lemma vnorm_ge_1 (u : list float) x : (forall y, In y u -> ffin y) -> In x u -> 1 <= Rabs (FR x) -> vnorm u = infinity \/ (ffin (vnorm u) /\ 1 <= FR (vnorm u)).
Proof.
  intros H I B. destruct (vnorm_sums u H) as (s & E & S & N). rewrite E.
  assert (L : PrimFloat.leb (PrimFloat.mul x x) s = true).
  { refine (proj2 (sums_nonneg _ _ S _) _ _); [|apply in_map_iff; exists x; auto]. intros y J. apply in_map_iff in J as (z & <- & J). apply mul_self_nonneg, ffin_num, H, J. }
  destruct (nonneg_cases s N) as [-> | (Fs & Ps)]; [left; reflexivity|right]. destruct (sqrt_fin s Fs Ps) as (F & V). split; [exact F|]. rewrite V.
  assert (L1 : 1 <= FR s).
  { destruct (nonneg_cases (PrimFloat.mul x x)) as [Q | (Fm & _)]; [apply mul_self_nonneg, ffin_num, H, I| |].
    - rewrite Q, (inf_leb_fin s Fs) in L. discriminate.
    - apply (leb_R _ _ Fm Fs) in L. eapply Rle_trans; [|exact L]. rewrite mul_R by exact Fm. apply Rle_trans with (rnd 1); [rewrite <- FR_1, rnd_FR; apply Rle_refl|]. apply rnd_le.
      rewrite <- (Rabs_pos_eq (FR x * FR x)) by apply Rle_0_sqr. rewrite Rabs_mult. nra. }
  apply Rle_trans with (rnd 1); [rewrite <- FR_1, rnd_FR; apply Rle_refl|]. apply rnd_le. rewrite <- sqrt_1. apply sqrt_le_1_alt, L1.
Qed.

(** ** The error of the unit tangent *)

Lemma pow_bounds k u : 0 <= u -> INR k * u <= / 1000 -> 1 - INR k * u <= (1 - u) ^ k /\ (1 + u) ^ k * (1 - INR k * u) <= 1.
Proof.
  intros U H. assert (L : u <= 1 \/ k = 0%nat).
  { destruct k; [right; reflexivity|left]. rewrite S_INR in H. pose proof (pos_INR k). nra. }
  destruct L as [L | ->]; [|cbn; lra].
  assert (A : forall n, 1 - INR n * u <= (1 - u) ^ n).
  { induction n as [|n IH]; [cbn; lra|]. rewrite S_INR. cbn [pow]. pose proof (pos_INR n). assert (Q := Rmult_le_compat_l (1 - u) _ _ ltac:(lra) IH). assert (0 <= INR n * u) by (apply Rmult_le_pos; assumption). nra. }
  split; [apply A|]. apply Rle_trans with ((1 + u) ^ k * (1 - u) ^ k).
  - apply Rmult_le_compat_l; [apply pow_le; lra|apply A].
  - rewrite <- Rpow_mult_distr. apply Rle_trans with (1 ^ k); [apply pow_incr; nra|rewrite pow1; lra].
Qed.
(** x / t against x / V (1 + e). *)
Lemma unit_core w u t V e : 0 <= u <= / 1000000 -> u <= w <= / 1000 -> 0 < t -> t * (1 - w) <= V -> V * (1 - w) <= t -> Rabs e <= u ->
  0 < V /\ Rabs (t / V * (1 + e) - 1) <= 101 / 100 * (w + u).
Proof.
  intros U W T L H E. assert (0 < V) by nra. split; [assumption|]. apply Rabs_bounds in E.
  assert (Q1 : 1 - w <= t / V) by (apply (Rmult_le_reg_r V); [assumption|]; unfold Rdiv; rewrite Rmult_assoc, Rinv_l by lra; lra).
  assert (Q2 : t / V * (1 - w) <= 1) by (apply (Rmult_le_reg_r V); [assumption|]; replace (t / V * (1 - w) * V) with (t * (1 - w)) by (field; lra); lra).
  set (r := t / V) in *. assert (Q3 : r <= 1 + (1 + 2 / 1000) * w) by nra.
  apply Rabs_of. assert (r * e <= (1 + / 500) * u) by nra. assert (- ((1 + / 500) * u) <= r * e) by nra. lra.
Qed.
Lemma unit_row_close k (u : list float) : (1 <= length u)%nat -> (length u + 2 <= 2 * k)%nat -> INR k <= bpow radix2 40 ->
  (forall x, In x u -> ffin x /\ (FR x = 0 \/ bpow radix2 (-500) <= Rabs (FR x))) -> ffin (vnorm u) -> FR (@atol_default float FNum) < FR (vnorm u) <= bpow radix2 500 ->
  let t := norm (map FR u) in 0 < t /\
  Forall2 (fun x y => ffin y /\ Rabs (FR y - FR x / t) <= 101 / 100 * (INR k + 1) * uro * Rabs (FR x / t)) u (unit_row u).
Proof.
  intros L1 Hk Hk2 H F (A & B) t. assert (Fu : forall x, In x u -> ffin x) by (intros x I; apply H, I).
  assert (W := vnorm_within (length u) k u eq_refl L1 Hk ltac:(intros x I; destruct (H x I) as (Fx & [Z|Q]); split; auto; right; eapply Rle_trans; [|exact Q]; apply bpow_le; lia) F). fold t in W.
  assert (U : 0 <= uro <= / 1000000) by (unfold uro; lra). assert (K0 := pos_INR k). assert (K1 : 1 <= INR k) by (change 1 with (INR 1); apply le_INR; lia).
  assert (Wk : uro <= INR k * uro <= / 1000).
  { split; [nra|]. apply Rle_trans with (bpow radix2 40 * uro); [apply Rmult_le_compat_r; lra|]. change (bpow radix2 40) with 1099511627776. unfold uro. lra. }
  destruct (pow_bounds k uro (proj1 U) (proj2 Wk)) as (P1 & P2). destruct W as (W1 & W2). set (V := FR (vnorm u)) in *. pose proof atol_lower as AL. pose proof (bpow_gt_0 radix2 (-27)) as b27.
  assert (T : 0 < t).
  { destruct (Rle_or_lt t 0) as [Q|Q]; [|exact Q]. exfalso. assert (0 <= (1 + uro) ^ k) by (apply pow_le; lra). nra. }
  split; [exact T|]. assert (V1 : t * (1 - INR k * uro) <= V) by (eapply Rle_trans; [|exact W1]; apply Rmult_le_compat_l; lra).
  assert (V2 : V * (1 - INR k * uro) <= t).
  { apply Rle_trans with (t * (1 + uro) ^ k * (1 - INR k * uro)); [apply Rmult_le_compat_r; lra|]. rewrite Rmult_assoc. rewrite <- (Rmult_1_r t) at 2. apply Rmult_le_compat_l; lra. }
  destruct (frenet_norm_cases u Fu) as [(_ & L & _) | [(_ & _ & E) | (E & _)]]; [unfold V in A; lra| |rewrite E in F; destruct (inf_not_fin F)].
  assert (Big : forall x, In x u -> ffin x /\ (FR x = 0 \/ bpow radix2 (-500) <= Rabs (FR x)) /\ Rabs (FR x) <= bpow radix2 502).
  { intros x I. destruct (H x I) as (Fx & Q). split; [exact Fx|]. split; [exact Q|]. apply Rle_trans with t.
    - unfold t, norm. rewrite inner_self_sum. rewrite <- (sqrt_square (Rabs (FR x))) by apply Rabs_pos. apply sqrt_le_1_alt. rewrite <- Rabs_mult, Rabs_pos_eq by apply Rle_0_sqr.
      clear -I. induction u as [|a u IH]; [destruct I|]. cbn [map Rsum fold_right]. assert (0 <= fold_right Rplus 0 (map (fun x => FR x * FR x) u)) by (apply Rsum_nonneg; intros y J; apply in_map_iff in J as (z & <- & _); apply Rle_0_sqr).
      pose proof (Rle_0_sqr (FR a)) as S0. unfold Rsqr in S0. destruct I as [<-|I]; [lra|]. specialize (IH I). unfold Rsum in IH. lra.
    - apply Rle_trans with (2 * V); [nra|]. change 502%Z with (2 + 500)%Z. rewrite bpow_plus. change (bpow radix2 2) with 4. pose proof (bpow_gt_0 radix2 500). lra. }
  unfold unit_row. rewrite E. clear H Fu L1 Hk W1 W2 E. clearbody t. revert Big. set (N := vnorm u) in *. clearbody N. induction u as [|x u IH]; intros Big; [constructor|].
  cbn [map]. constructor; [|apply IH; intros y I; apply Big; right; exact I].
  destruct (Big x (or_introl eq_refl)) as (Fx & Q & Bx).
  destruct (div_norm x N Fx) as (Fd & Vd); [eapply Rle_trans; [exact Bx|apply bpow_le; lia]|exact F|fold V; lra|]. split; [exact Fd|]. change (ndiv x N) with (PrimFloat.div x N). rewrite Vd. fold V.
  destruct Q as [Z|Q]; [rewrite Z; unfold Rdiv; rewrite !Rmult_0_l, rnd_0, Rminus_0_r, Rabs_R0; lra|].
  destruct (rnd_rel (FR x / V)) as (e & He & ->).
  { unfold Rdiv. rewrite Rabs_mult. assert (0 < / V) by (apply Rinv_0_lt_compat; lra). rewrite (Rabs_pos_eq (/ V)) by lra.
    apply Rle_trans with (bpow radix2 (-500) * bpow radix2 (-500)); [rewrite <- bpow_plus; apply bpow_le; lia|]. apply Rmult_le_compat; try apply bpow_ge_0; [exact Q|].
    change (-500)%Z with (- (500))%Z. rewrite bpow_opp. apply Rinv_le_contravar; [lra|exact B]. }
  destruct (unit_core _ _ t V e U Wk T V1 V2 He) as (V0 & C).
  replace (FR x / V * (1 + e) - FR x / t) with ((t / V * (1 + e) - 1) * (FR x / t)) by (field; lra).
  rewrite Rabs_mult. apply Rmult_le_compat_r; [apply Rabs_pos|]. eapply Rle_trans; [exact C|]. right. ring.
Qed.
(** The length of a vector each coordinate of which is right up to a relative error. *)
Lemma norm_close d (y e : list R) : 0 <= d <= 1 -> Forall2 (fun a b => Rabs (b - a) <= d * Rabs a) y e -> norm y * (1 - d) <= norm e <= norm y * (1 + d).
Proof.
  intros D H. assert (Q : inner y y * ((1 - d) * (1 - d)) <= inner e e <= inner y y * ((1 + d) * (1 + d))).
  { induction H as [|a b y e Hab _ IH]; [cbn; lra|]. cbn [inner]. apply Rabs_bounds in Hab.
    assert (a * a * ((1 - d) * (1 - d)) <= b * b <= a * a * ((1 + d) * (1 + d))); [|lra].
    unfold Rabs in Hab. destruct (Rcase_abs a).
    - assert (- a * (1 - d) <= - b <= - a * (1 + d)) by lra. assert (0 <= - a * (1 - d)) by (apply Rmult_le_pos; lra). split.
      + replace (a * a * ((1 - d) * (1 - d))) with ((- a * (1 - d)) * (- a * (1 - d))) by ring. replace (b * b) with (- b * - b) by ring. apply Rmult_le_compat; lra.
      + replace (a * a * ((1 + d) * (1 + d))) with ((- a * (1 + d)) * (- a * (1 + d))) by ring. replace (b * b) with (- b * - b) by ring. apply Rmult_le_compat; lra.
    - assert (a * (1 - d) <= b <= a * (1 + d)) by lra. assert (0 <= a * (1 - d)) by (apply Rmult_le_pos; lra). split.
      + replace (a * a * ((1 - d) * (1 - d))) with ((a * (1 - d)) * (a * (1 - d))) by ring. apply Rmult_le_compat; lra.
      + replace (a * a * ((1 + d) * (1 + d))) with ((a * (1 + d)) * (a * (1 + d))) by ring. apply Rmult_le_compat; lra. }
  unfold norm. assert (0 <= inner y y) by (clear; induction y as [|a y IH]; cbn [inner]; [lra|nra]).
  split.
  - rewrite <- (sqrt_square (1 - d)) by lra. rewrite <- sqrt_mult by (first [assumption|nra]). apply sqrt_le_1_alt, Q.
  - rewrite <- (sqrt_square (1 + d)) by lra. rewrite <- sqrt_mult by (first [assumption|nra]). apply sqrt_le_1_alt, Q.
Qed.
