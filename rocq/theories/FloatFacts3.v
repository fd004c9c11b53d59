(** IEEE binary64: absolute errors, and what a finite result says about the operands. *)
From Coq Require Import PrimFloat FloatOps FloatAxioms SpecFloat.
From Coq Require Import ZArith List Bool Arith Lia Reals Lra Psatz.
From Flocq Require Import Core BinarySingleNaN Relative.
From Flocq Require Import IEEE754.PrimFloat.
From Verif Require Import Num FloatFacts FloatFacts2.
Import ListNotations.
Local Open Scope R_scope.
Local Notation float := PrimFloat.float.

(** Half the smallest positive number, 2^-1075. *)
Definition eta : R := bpow radix2 (-1075).
Lemma eta_pos : 0 < eta. Proof. apply bpow_gt_0. Qed.

Lemma rnd_err z : exists e t, Rabs e <= uro /\ Rabs t <= eta /\ rnd z = z * (1 + e) + t.
Proof.
  destruct (error_N_FLT radix2 (3 - emax - prec) prec ltac:(reflexivity) (fun x => negb (Z.even x)) z) as (e & t & He & Ht & _ & E).
  exists e, t. split; [rewrite <- uro_eq; exact He|]. split; [|exact E].
  eapply Rle_trans; [exact Ht|]. change (3 - emax - prec)%Z with (-1074)%Z. unfold eta. change (-1074)%Z with (1 + -1075)%Z.
  rewrite bpow_plus. change (bpow radix2 1) with 2. lra.
Qed.

Lemma sub_fin_inv x y : ffin (PrimFloat.sub x y) -> ffin x /\ ffin y.
Proof.
  rewrite !ffin_B, sub_equiv. destruct (Prim2B x) as [s|s| |s m e E], (Prim2B y) as [s'|s'| |s' m' e' E']; cbn [Bminus is_finite]; try discriminate; auto.
  destruct (Bool.eqb s (negb s')); discriminate.
Qed.
Lemma mul_fin_inv x y : ffin (PrimFloat.mul x y) -> ffin x /\ ffin y.
Proof.
  rewrite !ffin_B, mul_equiv. destruct (Prim2B x) as [s|s| |s m e E], (Prim2B y) as [s'|s'| |s' m' e' E']; cbn [Bmult is_finite]; try discriminate; auto.
Qed.
Lemma div_fin_inv x y : ffin (PrimFloat.div x y) -> ffin y -> ffin x /\ FR y <> 0.
Proof.
  unfold FR. rewrite !ffin_B, div_equiv. destruct (Prim2B x) as [s|s| |s m e E], (Prim2B y) as [s'|s'| |s' m' e' E']; cbn [Bdiv is_finite]; try discriminate; intros H1 H2; (split; [reflexivity|]);
  cbn [B2R]; unfold F2R; cbn [Fnum Fexp]; pose proof (bpow_gt_0 radix2 e'); intros C; (apply Rmult_integral in C as [C|C]; [|lra]); apply eq_IZR in C; destruct s'; discriminate.
Qed.

Lemma add_R x y : ffin (PrimFloat.add x y) -> FR (PrimFloat.add x y) = rnd (FR x + FR y).
Proof. intros F. destruct (add_fin_inv _ _ F). apply rounded_fin; [apply add_rounded|]; assumption. Qed.
Lemma sub_R x y : ffin (PrimFloat.sub x y) -> FR (PrimFloat.sub x y) = rnd (FR x - FR y).
Proof. intros F. destruct (sub_fin_inv _ _ F). apply rounded_fin; [apply sub_rounded|]; assumption. Qed.
Lemma mul_R x y : ffin (PrimFloat.mul x y) -> FR (PrimFloat.mul x y) = rnd (FR x * FR y).
Proof. intros F. destruct (mul_fin_inv _ _ F). apply rounded_fin; [apply mul_rounded|]; assumption. Qed.
Lemma div_R x y : ffin (PrimFloat.div x y) -> ffin y -> FR (PrimFloat.div x y) = rnd (FR x / FR y).
Proof. intros F Fy. destruct (div_fin_inv _ _ F Fy). apply rounded_fin; [apply div_rounded|]; assumption. Qed.

Lemma Rabs_bounds e b : Rabs e <= b -> - b <= e <= b.
Proof. unfold Rabs. destruct (Rcase_abs e); lra. Qed.
Lemma Rabs_of a b : - b <= a <= b -> Rabs a <= b.
Proof. unfold Rabs. destruct (Rcase_abs a); lra. Qed.

(** Rounded differences of different numbers are not zero and have the right sign. *)
Lemma sub_pos x y : ffin (PrimFloat.sub x y) -> FR y < FR x -> 0 < FR (PrimFloat.sub x y).
Proof.
  intros F H. rewrite sub_R by exact F. destruct (rnd_sub_rel x y) as (e & He & ->). apply Rabs_bounds in He. pose proof uro_pos. nra.
Qed.
Lemma sub_sign x y : ffin (PrimFloat.sub x y) -> FR y <= FR x -> 0 <= FR (PrimFloat.sub x y).
Proof. intros F H. rewrite sub_R by exact F. rewrite <- rnd_0. apply rnd_le. lra. Qed.

(** ** The four-operation line y + (yh - yl)/(xh - xl) * (v - xl) *)
Section Line.
  Variables s w y : float.
  Hypothesis F : ffin (PrimFloat.add (PrimFloat.mul s w) y).
  Lemma line_fin : ffin (PrimFloat.mul s w) /\ ffin s /\ ffin w /\ ffin y.
  Proof. destruct (add_fin_inv _ _ F) as [Fm Fy]. destruct (mul_fin_inv _ _ Fm) as [Fs Fw]. auto. Qed.
  Lemma line_R : FR (PrimFloat.add (PrimFloat.mul s w) y) = rnd (rnd (FR s * FR w) + FR y).
  Proof. destruct line_fin as (Fm & Fs & Fw & Fy). rewrite add_R by exact F. rewrite mul_R by exact Fm. reflexivity. Qed.
End Line.

(** Rounding errors of the line, for numbers: [A] bounds the values, [h] the width. *)
Lemma line_error D h l yl e1 e2 e3 e4 e5 e6 t1 t2 A : Rabs e1 <= uro -> Rabs e2 <= uro -> Rabs e3 <= uro -> Rabs e4 <= uro -> Rabs e5 <= uro -> Rabs e6 <= uro ->
  Rabs t1 <= eta -> Rabs t2 <= eta -> 0 < h -> 0 <= l <= h -> Rabs D <= A -> Rabs (yl + l / h * D) <= A ->
  Rabs ((((D * (1 + e1)) / (h * (1 + e2)) * (1 + e3) + t1) * (l * (1 + e4)) * (1 + e5) + t2 + yl) * (1 + e6) - (yl + l / h * D))
    <= 8 * uro * A + 2 * eta * (1 + h).
Proof.
  intros H1 H2 H3 H4 H5 H6 HT1 HT2 Hh Hl HD HX. pose proof uro_pos as U. pose proof eta_pos as Et.
  assert (Us : uro <= / 1000) by (unfold uro; apply Rinv_le_contravar; lra).
  set (th := (1 + e1) * (1 + e3) * (1 + e4) * (1 + e5) / (1 + e2) - 1).
  apply Rabs_bounds in H1, H2, H3, H4, H5, H6, HT1, HT2.
  assert (T : Rabs th <= 6 * uro).
  { assert (P : exists a, (1 + e1) * (1 + e3) * (1 + e4) * (1 + e5) = 1 + a /\ - (4 * uro) <= a <= 4 * uro + 7 * (uro * uro)).
    { exists ((1 + e1) * (1 + e3) * (1 + e4) * (1 + e5) - 1). split; [ring|].
      assert (P1 : 1 - 2 * uro <= (1 + e1) * (1 + e3) <= 1 + 2 * uro + uro * uro) by nra.
      assert (P2 : 1 - 2 * uro <= (1 + e4) * (1 + e5) <= 1 + 2 * uro + uro * uro) by nra.
      replace ((1 + e1) * (1 + e3) * (1 + e4) * (1 + e5)) with (((1 + e1) * (1 + e3)) * ((1 + e4) * (1 + e5))) by ring.
      set (a := (1 + e1) * (1 + e3)) in *. set (b := (1 + e4) * (1 + e5)) in *. clearbody a b.
      assert (M : (1 - 2 * uro) * (1 - 2 * uro) <= a * b <= (1 + 2 * uro + uro * uro) * (1 + 2 * uro + uro * uro)) by (split; apply Rmult_le_compat; nra).
      assert (V : 0 < uro * uro) by nra. assert (V2 : uro * (uro * uro) <= / 1000 * (uro * uro)) by nra.
      assert (V3 : uro * uro * (uro * uro) <= / 1000 * (uro * uro)) by (apply Rmult_le_compat_r; [lra|]; assert (uro * uro <= uro * / 1000) by (apply Rmult_le_compat_l; lra); lra).
      replace ((1 - 2 * uro) * (1 - 2 * uro)) with (1 - 4 * uro + 4 * (uro * uro)) in M by ring.
      replace ((1 + 2 * uro + uro * uro) * (1 + 2 * uro + uro * uro)) with (1 + 4 * uro + 6 * (uro * uro) + 4 * (uro * (uro * uro)) + uro * uro * (uro * uro)) in M by ring. lra. }
    destruct P as (a & Ea & Ba). unfold th. rewrite Ea.
    replace ((1 + a) / (1 + e2) - 1) with ((a - e2) / (1 + e2)) by (field; lra).
    apply Rabs_of. assert (0 < 1 + e2) by lra. split.
    - apply Rmult_le_reg_r with (1 + e2); [lra|]. unfold Rdiv. rewrite Rmult_assoc, Rinv_l, Rmult_1_r by lra. nra.
    - apply Rmult_le_reg_r with (1 + e2); [lra|]. unfold Rdiv. rewrite Rmult_assoc, Rinv_l, Rmult_1_r by lra. nra. }
  set (q := l / h * D).
  assert (Hq : Rabs q <= A).
  { unfold q. rewrite Rabs_mult. assert (0 <= l / h <= 1). { split; [apply Rmult_le_pos; [lra|left; apply Rinv_0_lt_compat; lra]|]. apply Rmult_le_reg_r with h; [lra|]. unfold Rdiv. rewrite Rmult_assoc, Rinv_l by lra. lra. }
    rewrite (Rabs_pos_eq (l / h)) by lra. pose proof (Rabs_pos D). nra. }
  assert (E : ((D * (1 + e1)) / (h * (1 + e2)) * (1 + e3) + t1) * (l * (1 + e4)) * (1 + e5) = q * (1 + th) + t1 * l * ((1 + e4) * (1 + e5))).
  { unfold q, th. field. lra. }
  rewrite E. fold q in HX.
  replace ((q * (1 + th) + t1 * l * ((1 + e4) * (1 + e5)) + t2 + yl) * (1 + e6) - (yl + q))
    with ((q * th + t1 * l * ((1 + e4) * (1 + e5)) + t2) * (1 + e6) + (yl + q) * e6) by ring.
  assert (A0 : 0 <= A) by (pose proof (Rabs_pos q); lra).
  assert (B1 : Rabs (q * th) <= 6 * uro * A). { rewrite Rabs_mult. pose proof (Rabs_pos q). pose proof (Rabs_pos th). nra. }
  assert (B2 : Rabs (t1 * l * ((1 + e4) * (1 + e5))) <= 5 / 4 * eta * h).
  { rewrite !Rabs_mult. rewrite (Rabs_pos_eq l) by lra. rewrite (Rabs_pos_eq (1 + e4)), (Rabs_pos_eq (1 + e5)) by lra.
    assert (Rabs t1 <= eta) by (apply Rabs_of; lra). pose proof (Rabs_pos t1).
    assert (P2 : 0 <= (1 + e4) * (1 + e5) <= 5 / 4) by nra. assert (P3 : 0 <= Rabs t1 * l <= eta * h) by nra.
    set (a := Rabs t1 * l) in *. set (b := (1 + e4) * (1 + e5)) in *. clearbody a b. nra. }
  assert (B3 : Rabs ((q * th + t1 * l * ((1 + e4) * (1 + e5)) + t2) * (1 + e6)) <= (6 * uro * A + 5 / 4 * eta * h + eta) * (1 + uro)).
  { rewrite Rabs_mult. rewrite (Rabs_pos_eq (1 + e6)) by lra.
    assert (Rabs (q * th + t1 * l * ((1 + e4) * (1 + e5)) + t2) <= 6 * uro * A + 5 / 4 * eta * h + eta).
    { eapply Rle_trans; [apply Rabs_triang|]. apply Rplus_le_compat; [|apply Rabs_of; lra]. eapply Rle_trans; [apply Rabs_triang|]. lra. }
    pose proof (Rabs_pos (q * th + t1 * l * ((1 + e4) * (1 + e5)) + t2)).
    set (a := Rabs (q * th + t1 * l * ((1 + e4) * (1 + e5)) + t2)) in *. clearbody a.
    apply Rmult_le_compat; lra. }
  assert (B4 : Rabs ((yl + q) * e6) <= A * uro).
  { rewrite Rabs_mult. assert (Rabs e6 <= uro) by (apply Rabs_of; lra). pose proof (Rabs_pos e6). pose proof (Rabs_pos (yl + q)). nra. }
  eapply Rle_trans; [apply Rabs_triang|]. eapply Rle_trans; [apply Rplus_le_compat; [exact B3|exact B4]|].
  assert (0 <= uro * A) by nra. assert (0 <= eta * h) by nra. assert (uro * (uro * A) <= / 1000 * (uro * A)) by nra. assert (uro * (eta * h) <= / 1000 * (eta * h)) by nra.
  assert (uro * eta <= / 1000 * eta) by nra. lra.
Qed.
