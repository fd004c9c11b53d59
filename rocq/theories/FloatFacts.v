(** IEEE binary64: what the operations of the scalar instance [FNum] compute,
    in terms of real numbers (through the Flocq library, which adds no axiom
    of its own). *)
From Coq Require Import PrimFloat FloatOps FloatAxioms SpecFloat.
From Coq Require Import ZArith List Bool Arith Lia Reals Lra Psatz.
From Flocq Require Import Core BinarySingleNaN.
From Flocq Require Import IEEE754.PrimFloat.
From Verif Require Import Num.
Import ListNotations.
Local Open Scope R_scope.
Local Notation float := PrimFloat.float.

(** The real value of a finite float (0 for the others). *)
Definition FR (x : float) : R := B2R (Prim2B x).
Definition ffin (x : float) : Prop := PrimFloat.is_finite x = true.
(** Neither NaN. *)
Definition fnum (x : float) : Prop := PrimFloat.is_nan x = false.
(** Rounding to nearest, ties to even, without bound on the exponent. *)
Definition rnd (z : R) : R := round radix2 (SpecFloat.fexp prec emax) (round_mode mode_NE) z.
Definition big : R := bpow radix2 emax.

(** [r] is the float that IEEE 754 prescribes for the exact result [z]. *)
Definition rounded (z : R) (r : float) : Prop :=
  (ffin r /\ FR r = rnd z /\ Rabs (rnd z) < big) \/
  (r = infinity /\ big <= rnd z) \/ (r = neg_infinity /\ rnd z <= - big).

Lemma Hprec' : Prec_gt_0 prec. Proof. reflexivity. Qed.
Lemma Hemax' : Prec_lt_emax prec emax. Proof. reflexivity. Qed.
#[export] Existing Instance Hprec'.
#[export] Existing Instance Hemax'.
Lemma fexp_ok : Valid_exp (SpecFloat.fexp prec emax). Proof. apply fexp_correct. exact Hprec'. Qed.
Lemma rnd_ok : Valid_rnd (round_mode mode_NE). Proof. apply valid_rnd_round_mode. Qed.
#[export] Existing Instance fexp_ok.
#[export] Existing Instance rnd_ok.
Lemma big_pos : 0 < big. Proof. apply bpow_gt_0. Qed.

Lemma ffin_B x : ffin x <-> is_finite (Prim2B x) = true.
Proof. unfold ffin. rewrite is_finite_equiv. reflexivity. Qed.
Lemma fnan_B x : PrimFloat.is_nan x = is_nan (Prim2B x).
Proof. apply is_nan_equiv. Qed.

Lemma rnd_le a b : a <= b -> rnd a <= rnd b.
Proof. intros H. apply round_le; [exact fexp_ok|exact rnd_ok|exact H]. Qed.
Lemma rnd_0 : rnd 0 = 0.
Proof. apply round_0. exact rnd_ok. Qed.
Lemma rnd_opp z : rnd (- z) = - rnd z.
Proof. apply round_NE_opp. Qed.
Lemma rnd_FR x : rnd (FR x) = FR x.
Proof. apply round_generic; [exact rnd_ok|]. apply generic_format_B2R. Qed.
Lemma FR_big x : Rabs (FR x) < big.
Proof. apply abs_B2R_lt_emax. Qed.
Lemma FR_ext x y : Prim2B x = Prim2B y -> x = y.
Proof. apply Prim2B_inj. Qed.

Lemma SF_inf_B x s : B2SF (Prim2B x) = S754_infinity s -> x = if s then neg_infinity else infinity.
Proof.
  intros H. apply FR_ext. apply B2SF_inj. rewrite H. destruct s; reflexivity.
Qed.

(** Every float is NaN, an infinity, or finite. *)
Lemma fcases x : PrimFloat.is_nan x = true \/ x = infinity \/ x = neg_infinity \/ ffin x.
Proof.
  rewrite fnan_B, ffin_B. destruct (Prim2B x) as [s|s| |s m e H] eqn:E; cbn; auto.
  pose proof (SF_inf_B x s) as A. rewrite E in A. specialize (A eq_refl). destruct s; auto.
Qed.
Lemma ffin_num x : ffin x -> fnum x.
Proof. unfold fnum. rewrite fnan_B, ffin_B. destruct (Prim2B x); cbn; congruence. Qed.
Lemma fnum_cases x : fnum x -> x = infinity \/ x = neg_infinity \/ ffin x.
Proof. intros H. destruct (fcases x) as [A|A]; [unfold fnum in H; congruence|exact A]. Qed.
Lemma inf_not_fin : ~ ffin infinity. Proof. intros H. vm_compute in H. discriminate. Qed.
Lemma ninf_not_fin : ~ ffin neg_infinity. Proof. intros H. vm_compute in H. discriminate. Qed.

(** *** Comparisons *)

Lemma leb_B x y : PrimFloat.leb x y = SFleb (B2SF (Prim2B x)) (B2SF (Prim2B y)).
Proof. rewrite leb_equiv. reflexivity. Qed.
Lemma ltb_B x y : PrimFloat.ltb x y = SFltb (B2SF (Prim2B x)) (B2SF (Prim2B y)).
Proof. rewrite ltb_equiv. reflexivity. Qed.

Lemma leb_R x y : ffin x -> ffin y -> (PrimFloat.leb x y = true <-> FR x <= FR y).
Proof.
  rewrite !ffin_B. intros A B. rewrite leb_equiv, Bleb_correct by assumption.
  unfold FR. destruct (Rle_bool_spec (B2R (Prim2B x)) (B2R (Prim2B y))); split; intros; try lra; try discriminate; reflexivity.
Qed.
Lemma ltb_R x y : ffin x -> ffin y -> (PrimFloat.ltb x y = true <-> FR x < FR y).
Proof.
  rewrite !ffin_B. intros A B. rewrite ltb_equiv, Bltb_correct by assumption.
  unfold FR. destruct (Rlt_bool_spec (B2R (Prim2B x)) (B2R (Prim2B y))); split; intros; try lra; try discriminate; reflexivity.
Qed.
Lemma eqb_R x y : ffin x -> ffin y -> (PrimFloat.eqb x y = true <-> FR x = FR y).
Proof.
  rewrite !ffin_B. intros A B. rewrite eqb_equiv, Beqb_correct by assumption.
  unfold FR. destruct (Req_bool_spec (B2R (Prim2B x)) (B2R (Prim2B y))); split; intros; try lra; try discriminate; reflexivity.
Qed.

Lemma leb_num x y : PrimFloat.leb x y = true -> fnum x /\ fnum y.
Proof.
  rewrite leb_B. unfold fnum. rewrite !fnan_B. destruct (Prim2B x), (Prim2B y); cbn; try discriminate; auto.
  all: destruct s; cbn; try discriminate; auto.
Qed.
Lemma ltb_num x y : PrimFloat.ltb x y = true -> fnum x /\ fnum y.
Proof.
  rewrite ltb_B. unfold fnum. rewrite !fnan_B. destruct (Prim2B x), (Prim2B y); cbn; try discriminate; auto.
  all: destruct s; cbn; try discriminate; auto.
Qed.
Lemma eqb_num x y : PrimFloat.eqb x y = true -> fnum x /\ fnum y.
Proof.
  rewrite eqb_equiv. unfold fnum. rewrite !fnan_B. destruct (Prim2B x), (Prim2B y); cbn; try discriminate; auto.
  all: destruct s; cbn; try discriminate; auto.
Qed.
Lemma eqb_refl_num x : PrimFloat.eqb x x = negb (PrimFloat.is_nan x).
Proof. rewrite eqb_equiv, fnan_B. apply Beqb_refl. Qed.

Lemma leb_inf x : fnum x -> PrimFloat.leb x infinity = true.
Proof.
  unfold fnum. rewrite leb_B, fnan_B. change (B2SF (Prim2B infinity)) with (S754_infinity false).
  destruct (Prim2B x) as [s|[]| |[] m e H]; cbn; auto; discriminate.
Qed.
Lemma ninf_leb x : fnum x -> PrimFloat.leb neg_infinity x = true.
Proof.
  unfold fnum. rewrite leb_B, fnan_B. change (B2SF (Prim2B neg_infinity)) with (S754_infinity true).
  destruct (Prim2B x) as [s|[]| |[] m e H]; cbn; auto; discriminate.
Qed.
Lemma inf_leb_fin x : ffin x -> PrimFloat.leb infinity x = false.
Proof.
  rewrite ffin_B, leb_B. change (B2SF (Prim2B infinity)) with (S754_infinity false).
  destruct (Prim2B x) as [s|[]| |[] m e H]; cbn; auto; discriminate.
Qed.
Lemma fin_leb_ninf x : ffin x -> PrimFloat.leb x neg_infinity = false.
Proof.
  rewrite ffin_B, leb_B. change (B2SF (Prim2B neg_infinity)) with (S754_infinity true).
  destruct (Prim2B x) as [s|[]| |[] m e H]; cbn; auto; discriminate.
Qed.
Lemma inf_ltb x : PrimFloat.ltb infinity x = false.
Proof.
  rewrite ltb_B. change (B2SF (Prim2B infinity)) with (S754_infinity false).
  destruct (Prim2B x) as [s|[]| |[] m e H]; reflexivity.
Qed.
Lemma ltb_ninf x : PrimFloat.ltb x neg_infinity = false.
Proof.
  rewrite ltb_B. change (B2SF (Prim2B neg_infinity)) with (S754_infinity true).
  destruct (Prim2B x) as [s|[]| |[] m e H]; reflexivity.
Qed.
Lemma ltb_inf x : ffin x -> PrimFloat.ltb x infinity = true.
Proof.
  rewrite ffin_B, ltb_B. change (B2SF (Prim2B infinity)) with (S754_infinity false).
  destruct (Prim2B x) as [s|[]| |[] m e H]; cbn; auto; discriminate.
Qed.
Lemma ninf_ltb x : ffin x -> PrimFloat.ltb neg_infinity x = true.
Proof.
  rewrite ffin_B, ltb_B. change (B2SF (Prim2B neg_infinity)) with (S754_infinity true).
  destruct (Prim2B x) as [s|[]| |[] m e H]; cbn; auto; discriminate.
Qed.

Lemma leb_refl_num x : fnum x -> PrimFloat.leb x x = true.
Proof.
  intros H. destruct (fnum_cases x H) as [-> | [-> | F]]; [reflexivity|reflexivity|]. apply leb_R; [assumption..|lra].
Qed.
Lemma leb_trans x y z : PrimFloat.leb x y = true -> PrimFloat.leb y z = true -> PrimFloat.leb x z = true.
Proof.
  intros A B. destruct (leb_num _ _ A) as [Nx Ny], (leb_num _ _ B) as [_ Nz].
  destruct (fnum_cases x Nx) as [-> | [-> | Fx]], (fnum_cases z Nz) as [-> | [-> | Fz]];
    try (apply leb_inf; assumption); try (apply ninf_leb; assumption).
  - destruct (fnum_cases y Ny) as [-> | [-> | Fy]]; [assumption|vm_compute in A; discriminate|].
    rewrite inf_leb_fin in A by assumption. discriminate.
  - destruct (fnum_cases y Ny) as [-> | [-> | Fy]]; [rewrite inf_leb_fin in B by assumption; discriminate|vm_compute in A; discriminate|].
    rewrite inf_leb_fin in A by assumption. discriminate.
  - destruct (fnum_cases y Ny) as [-> | [-> | Fy]]; [vm_compute in B; discriminate|rewrite fin_leb_ninf in A by assumption; discriminate|].
    rewrite fin_leb_ninf in B by assumption. discriminate.
  - destruct (fnum_cases y Ny) as [-> | [-> | Fy]].
    + rewrite inf_leb_fin in B by assumption. discriminate.
    + rewrite fin_leb_ninf in A by assumption. discriminate.
    + apply leb_R; try assumption. apply leb_R in A; try assumption. apply leb_R in B; try assumption. lra.
Qed.
Lemma leb_ltb x y : fnum x -> fnum y -> PrimFloat.leb x y = negb (PrimFloat.ltb y x).
Proof.
  intros Nx Ny. destruct (fnum_cases x Nx) as [-> | [-> | Fx]], (fnum_cases y Ny) as [-> | [-> | Fy]]; try reflexivity.
  - rewrite inf_leb_fin, ltb_inf by assumption. reflexivity.
  - rewrite ninf_leb, ltb_ninf by assumption. reflexivity.
  - rewrite leb_inf, inf_ltb by assumption. reflexivity.
  - rewrite fin_leb_ninf, ninf_ltb by assumption. reflexivity.
  - destruct (PrimFloat.ltb y x) eqn:E; cbn [negb].
    + apply ltb_R in E; try assumption. destruct (PrimFloat.leb x y) eqn:L; [|reflexivity]. apply leb_R in L; try assumption. lra.
    + apply leb_R; try assumption. destruct (Rle_lt_dec (FR x) (FR y)) as [|C]; [assumption|]. apply (ltb_R y x) in C; try assumption. congruence.
Qed.
Lemma ltb_leb x y : PrimFloat.ltb x y = true -> PrimFloat.leb x y = true.
Proof.
  intros A. destruct (ltb_num _ _ A) as [Nx Ny]. rewrite leb_ltb by assumption.
  destruct (PrimFloat.ltb y x) eqn:E; [|reflexivity]. exfalso.
  destruct (fnum_cases x Nx) as [-> | [-> | Fx]]; [rewrite inf_ltb in A; discriminate|rewrite ltb_ninf in E; discriminate|].
  destruct (fnum_cases y Ny) as [-> | [-> | Fy]]; [rewrite inf_ltb in E; discriminate|rewrite ltb_ninf in A; discriminate|].
  apply ltb_R in A; try assumption. apply ltb_R in E; try assumption. lra.
Qed.
Lemma leb_antisym x y : PrimFloat.leb x y = true -> PrimFloat.leb y x = true -> PrimFloat.eqb x y = true.
Proof.
  intros A B. destruct (leb_num _ _ A) as [Nx Ny].
  destruct (fnum_cases x Nx) as [-> | [-> | Fx]], (fnum_cases y Ny) as [-> | [-> | Fy]]; try reflexivity; try (vm_compute in A; discriminate); try (vm_compute in B; discriminate).
  - rewrite inf_leb_fin in A by assumption. discriminate.
  - rewrite fin_leb_ninf in B by assumption. discriminate.
  - rewrite inf_leb_fin in B by assumption. discriminate.
  - rewrite fin_leb_ninf in A by assumption. discriminate.
  - apply eqb_R; try assumption. apply leb_R in A; try assumption. apply leb_R in B; try assumption. lra.
Qed.
Lemma eqb_leb x y : PrimFloat.eqb x y = true -> PrimFloat.leb x y = true /\ PrimFloat.leb y x = true.
Proof.
  rewrite eqb_equiv, !leb_equiv. unfold Beqb, Bleb, SFeqb, SFleb. 
  intros H. change (SFcompare (B2SF (Prim2B y)) (B2SF (Prim2B x))) with (Bcompare (Prim2B y) (Prim2B x)).
  change (SFcompare (B2SF (Prim2B x)) (B2SF (Prim2B y))) with (Bcompare (Prim2B x) (Prim2B y)) in *.
  rewrite (Bcompare_swap _ _ (Prim2B x) (Prim2B y)). destruct (Bcompare (Prim2B x) (Prim2B y)) as [[]|]; try discriminate. split; reflexivity.
Qed.

(** *** Arithmetic *)

Lemma overflow_inf s : binary_overflow prec emax mode_NE s = S754_infinity s.
Proof. reflexivity. Qed.
Lemma Rlt_bool_cases a b : (Rlt_bool a b = true /\ a < b) \/ (Rlt_bool a b = false /\ b <= a).
Proof. destruct (Rlt_bool_spec a b); auto. Qed.

(** Over- and underflow of the sign are consistent. *)
Lemma rounded_over z r s : B2SF (Prim2B r) = S754_infinity s -> big <= Rabs (rnd z) ->
  (s = true -> z <= 0) -> (s = false -> 0 <= z) -> rounded z r.
Proof.
  intros E B N P. apply SF_inf_B in E. destruct s; subst r.
  - right. right. split; [reflexivity|]. specialize (N eq_refl). apply rnd_le in N. rewrite rnd_0 in N. unfold Rabs in B. destruct (Rcase_abs (rnd z)); lra.
  - right. left. split; [reflexivity|]. specialize (P eq_refl). apply rnd_le in P. rewrite rnd_0 in P. unfold Rabs in B. destruct (Rcase_abs (rnd z)); lra.
Qed.

Lemma Bsign_R (b : binary_float prec emax) : is_finite b = true -> (Bsign b = true -> B2R b <= 0) /\ (Bsign b = false -> 0 <= B2R b).
Proof.
  destruct b as [s|s| |s m e H]; cbn; try discriminate; intros _; [split; intros; lra|].
  destruct s; split; intros E; try discriminate.
  - apply F2R_le_0. cbn. lia.
  - apply F2R_ge_0. cbn. lia.
Qed.

Lemma add_rounded x y : ffin x -> ffin y -> rounded (FR x + FR y) (PrimFloat.add x y).
Proof.
  intros Fx Fy. pose proof (proj1 (ffin_B x) Fx) as Bx. pose proof (proj1 (ffin_B y) Fy) as By.
  pose proof (Bplus_correct prec emax Hprec Hmax mode_NE _ _ Bx By) as C. fold (FR x) (FR y) in C. rewrite <- add_equiv in C.
  change (round radix2 (SpecFloat.fexp prec emax) (round_mode mode_NE) (FR x + FR y)) with (rnd (FR x + FR y)) in C. fold big in C.
  destruct (Rlt_bool_cases (Rabs (rnd (FR x + FR y))) big) as [(-> & L)|(-> & L)] in C.
  - destruct C as (C1 & C2 & _). left. split; [apply ffin_B; exact C2|]. split; [exact C1|exact L].
  - destruct C as (C1 & C2). rewrite overflow_inf in C1. pose proof (Bsign_R _ Bx) as (X1 & X2). pose proof (Bsign_R _ By) as (Y1 & Y2). fold (FR x) in *. fold (FR y) in *.
    rewrite <- C2 in *. apply (rounded_over _ _ _ C1 L); intros E; [specialize (X1 E); specialize (Y1 E); lra|specialize (X2 E); specialize (Y2 E); lra].
Qed.
Lemma sub_rounded x y : ffin x -> ffin y -> rounded (FR x - FR y) (PrimFloat.sub x y).
Proof.
  intros Fx Fy. pose proof (proj1 (ffin_B x) Fx) as Bx. pose proof (proj1 (ffin_B y) Fy) as By.
  pose proof (Bminus_correct prec emax Hprec Hmax mode_NE _ _ Bx By) as C. fold (FR x) (FR y) in C. rewrite <- sub_equiv in C.
  change (round radix2 (SpecFloat.fexp prec emax) (round_mode mode_NE) (FR x - FR y)) with (rnd (FR x - FR y)) in C. fold big in C.
  destruct (Rlt_bool_cases (Rabs (rnd (FR x - FR y))) big) as [(-> & L)|(-> & L)] in C.
  - destruct C as (C1 & C2 & _). left. split; [apply ffin_B; exact C2|]. split; [exact C1|exact L].
  - destruct C as (C1 & C2). rewrite overflow_inf in C1. pose proof (Bsign_R _ Bx) as (X1 & X2). pose proof (Bsign_R _ By) as (Y1 & Y2). fold (FR x) in *. fold (FR y) in *.
    apply (rounded_over _ _ _ C1 L); intros E; rewrite E in *.
    + specialize (X1 eq_refl). destruct (Bsign (Prim2B y)); [discriminate|]. specialize (Y2 eq_refl). lra.
    + specialize (X2 eq_refl). destruct (Bsign (Prim2B y)); [|discriminate]. specialize (Y1 eq_refl). lra.
Qed.
Lemma mul_rounded x y : ffin x -> ffin y -> rounded (FR x * FR y) (PrimFloat.mul x y).
Proof.
  intros Fx Fy. pose proof (proj1 (ffin_B x) Fx) as Bx. pose proof (proj1 (ffin_B y) Fy) as By.
  pose proof (Bmult_correct prec emax Hprec Hmax mode_NE (Prim2B x) (Prim2B y)) as C. fold (FR x) (FR y) in C. rewrite <- mul_equiv in C.
  change (round radix2 (SpecFloat.fexp prec emax) (round_mode mode_NE) (FR x * FR y)) with (rnd (FR x * FR y)) in C. fold big in C.
  destruct (Rlt_bool_cases (Rabs (rnd (FR x * FR y))) big) as [(-> & L)|(-> & L)] in C.
  - destruct C as (C1 & C2 & _). left. split; [apply ffin_B; rewrite C2, Bx, By; reflexivity|]. split; [exact C1|exact L].
  - rewrite overflow_inf in C. pose proof (Bsign_R _ Bx) as (X1 & X2). pose proof (Bsign_R _ By) as (Y1 & Y2). fold (FR x) in *. fold (FR y) in *.
    apply (rounded_over _ _ _ C L); intros E; destruct (Bsign (Prim2B x)), (Bsign (Prim2B y)); try discriminate;
      try specialize (X1 eq_refl); try specialize (X2 eq_refl); try specialize (Y1 eq_refl); try specialize (Y2 eq_refl); nra.
Qed.
Lemma Rdiv_sign a b : b <> 0 -> (0 <= a -> 0 <= b -> 0 <= a / b) /\ (a <= 0 -> b <= 0 -> 0 <= a / b) /\ (0 <= a -> b <= 0 -> a / b <= 0) /\ (a <= 0 -> 0 <= b -> a / b <= 0).
Proof.
  intros N. assert (D : b < 0 \/ 0 < b) by lra. unfold Rdiv. destruct D as [D|D].
  - pose proof (Rinv_lt_0_compat b D). repeat split; intros; nra.
  - pose proof (Rinv_0_lt_compat b D). repeat split; intros; nra.
Qed.
Lemma div_rounded x y : ffin x -> ffin y -> FR y <> 0 -> rounded (FR x / FR y) (PrimFloat.div x y).
Proof.
  intros Fx Fy Ny. pose proof (proj1 (ffin_B x) Fx) as Bx. pose proof (proj1 (ffin_B y) Fy) as By.
  pose proof (Bdiv_correct prec emax Hprec Hmax mode_NE (Prim2B x) (Prim2B y) Ny) as C. fold (FR x) (FR y) in C. rewrite <- div_equiv in C.
  change (round radix2 (SpecFloat.fexp prec emax) (round_mode mode_NE) (FR x / FR y)) with (rnd (FR x / FR y)) in C. fold big in C.
  destruct (Rlt_bool_cases (Rabs (rnd (FR x / FR y))) big) as [(-> & L)|(-> & L)] in C.
  - destruct C as (C1 & C2 & _). left. split; [apply ffin_B; rewrite C2; exact Bx|]. split; [exact C1|exact L].
  - rewrite overflow_inf in C. pose proof (Bsign_R _ Bx) as (X1 & X2). pose proof (Bsign_R _ By) as (Y1 & Y2). fold (FR x) in *. fold (FR y) in *.
    destruct (Rdiv_sign (FR x) (FR y) Ny) as (S1 & S2 & S3 & S4).
    apply (rounded_over _ _ _ C L); intros E; destruct (Bsign (Prim2B x)), (Bsign (Prim2B y)); try discriminate;
      try specialize (X1 eq_refl); try specialize (X2 eq_refl); try specialize (Y1 eq_refl); try specialize (Y2 eq_refl); auto.
Qed.

Lemma rounded_fin z r : rounded z r -> ffin r -> FR r = rnd z.
Proof. intros [(_ & E & _)|[(-> & _)|(-> & _)]] F; [exact E|destruct (inf_not_fin F)|destruct (ninf_not_fin F)]. Qed.
Lemma rounded_num z r : rounded z r -> fnum r.
Proof. intros [(F & _)|[(-> & _)|(-> & _)]]; [apply ffin_num; exact F|reflexivity|reflexivity]. Qed.
(** Rounding is monotone. *)
Lemma rounded_le z1 z2 r1 r2 : rounded z1 r1 -> rounded z2 r2 -> z1 <= z2 -> PrimFloat.leb r1 r2 = true.
Proof.
  intros A B L. pose proof (rounded_num _ _ A) as N1. pose proof (rounded_num _ _ B) as N2. pose proof (rnd_le _ _ L) as M. pose proof big_pos as P.
  destruct A as [(F1 & E1 & B1)|[(-> & E1)|(-> & E1)]]; [|destruct B as [(F2 & E2 & B2)|[(-> & E2)|(-> & E2)]]|apply ninf_leb; exact N2].
  - destruct B as [(F2 & E2 & B2)|[(-> & E2)|(-> & E2)]]; [apply leb_R; [assumption..|lra]|apply leb_inf; exact N1|].
    apply Rabs_def2 in B1. lra.
  - apply Rabs_def2 in B2. lra.
  - reflexivity.
  - lra.
Qed.
Lemma rounded_self x : ffin x -> rounded (FR x) x.
Proof. intros F. left. split; [exact F|]. rewrite rnd_FR. split; [reflexivity|apply FR_big]. Qed.
Lemma rounded_eq z r1 r2 : rounded z r1 -> rounded z r2 -> PrimFloat.eqb r1 r2 = true.
Proof. intros A B. apply leb_antisym; eapply rounded_le; eauto; lra. Qed.
(** A representable result is exact. *)
Lemma rounded_exact x r : ffin x -> rounded (FR x) r -> ffin r /\ FR r = FR x.
Proof.
  intros F [(Fr & E & _)|[(-> & E)|(-> & E)]]; rewrite rnd_FR in E; [auto| |]; pose proof (FR_big x) as B; apply Rabs_def2 in B; lra.
Qed.
Lemma rounded_between a b z r : ffin a -> ffin b -> rounded z r -> FR a <= z <= FR b -> ffin r /\ FR a <= FR r <= FR b.
Proof.
  intros Fa Fb Z [La Lb]. pose proof (rounded_le _ _ _ _ (rounded_self a Fa) Z La) as A. pose proof (rounded_le _ _ _ _ Z (rounded_self b Fb) Lb) as B.
  assert (F : ffin r).
  { destruct (fnum_cases r (rounded_num _ _ Z)) as [-> | [-> | F]]; [|  |exact F].
    - rewrite inf_leb_fin in B by assumption. discriminate.
    - rewrite fin_leb_ninf in A by assumption. discriminate. }
  split; [exact F|]. apply leb_R in A; try assumption. apply leb_R in B; try assumption. lra.
Qed.

Lemma FR_0 : FR PrimFloat.zero = 0. Proof. reflexivity. Qed.
Lemma ffin_0 : ffin PrimFloat.zero. Proof. reflexivity. Qed.
Lemma ffin_1 : ffin PrimFloat.one. Proof. reflexivity. Qed.
Lemma FR_SF x : FR x = SF2R radix2 (Prim2SF x).
Proof. unfold FR. rewrite <- SF2R_B2SF, B2SF_Prim2B. reflexivity. Qed.
Lemma FR_1 : FR PrimFloat.one = 1.
Proof. rewrite FR_SF. change (Prim2SF PrimFloat.one) with (S754_finite false 4503599627370496 (-52)). unfold SF2R, F2R. cbn. lra. Qed.
Lemma rounded_nonneg z r : rounded z r -> 0 <= z -> PrimFloat.leb 0 r = true.
Proof. intros A H. apply (rounded_le 0 z 0%float r); [|assumption|assumption]. rewrite <- FR_0. apply rounded_self. exact ffin_0. Qed.
Lemma rounded_nonpos z r : rounded z r -> z <= 0 -> PrimFloat.leb r 0 = true.
Proof. intros A H. apply (rounded_le z 0 r 0%float); [assumption| |assumption]. rewrite <- FR_0. apply rounded_self. exact ffin_0. Qed.

(** *** Sign and square root *)

Lemma ffin_opp x : ffin (PrimFloat.opp x) <-> ffin x.
Proof. rewrite !ffin_B, opp_equiv, is_finite_Bopp. reflexivity. Qed.
Lemma FR_opp x : FR (PrimFloat.opp x) = - FR x.
Proof. unfold FR. rewrite opp_equiv, B2R_Bopp. reflexivity. Qed.
Lemma ffin_abs x : ffin (PrimFloat.abs x) <-> ffin x.
Proof. rewrite !ffin_B, abs_equiv, is_finite_Babs. reflexivity. Qed.
Lemma FR_abs x : FR (PrimFloat.abs x) = Rabs (FR x).
Proof. unfold FR. rewrite abs_equiv, B2R_Babs. reflexivity. Qed.
Lemma opp_num x : fnum x -> fnum (PrimFloat.opp x).
Proof. unfold fnum. rewrite !fnan_B, opp_equiv, is_nan_Bopp. auto. Qed.

Lemma nonneg_cases x : PrimFloat.leb 0 x = true -> x = infinity \/ (ffin x /\ 0 <= FR x).
Proof.
  intros H. destruct (leb_num _ _ H) as [_ N]. destruct (fnum_cases x N) as [-> | [-> | F]]; [auto|vm_compute in H; discriminate|].
  right. split; [exact F|]. apply (leb_R 0%float x ffin_0 F) in H. change (FR 0%float) with 0 in H. exact H.
Qed.
Lemma nonneg_fin x : ffin x -> 0 <= FR x -> PrimFloat.leb 0 x = true.
Proof. intros F H. apply leb_R; [exact ffin_0|exact F|exact H]. Qed.

Lemma sqrt_fin x : ffin x -> 0 <= FR x -> ffin (PrimFloat.sqrt x) /\ FR (PrimFloat.sqrt x) = rnd (sqrt (FR x)).
Proof.
  intros F H. pose proof (proj1 (ffin_B x) F) as B. pose proof (Bsqrt_correct prec emax Hprec Hmax mode_NE (Prim2B x)) as (C1 & C2 & _).
  rewrite <- sqrt_equiv in C1, C2. split; [|exact C1]. apply ffin_B. rewrite C2. unfold FR in H.
  destruct (Prim2B x) as [s|s| |[] m e E]; try discriminate; try reflexivity.
  exfalso. cbn in H. pose proof (F2R_lt_0 radix2 (Defs.Float radix2 (Z.neg m) e) ltac:(cbn; lia)). lra.
Qed.
Lemma sqrt_nonneg x : PrimFloat.leb 0 x = true -> PrimFloat.leb 0 (PrimFloat.sqrt x) = true.
Proof.
  intros H. destruct (nonneg_cases x H) as [-> | (F & L)]; [reflexivity|].
  destruct (sqrt_fin x F L) as (F' & E). apply nonneg_fin; [exact F'|]. rewrite E, <- rnd_0. apply rnd_le. apply sqrt_pos.
Qed.
Lemma sqrt_mono x y : PrimFloat.leb 0 x = true -> PrimFloat.leb x y = true -> PrimFloat.leb (PrimFloat.sqrt x) (PrimFloat.sqrt y) = true.
Proof.
  intros H L. pose proof (leb_trans _ _ _ H L) as H'. destruct (nonneg_cases y H') as [-> | (Fy & Ly)].
  - apply leb_inf. exact (proj2 (leb_num _ _ (sqrt_nonneg x H))).
  - destruct (nonneg_cases x H) as [-> | (Fx & Lx)]; [rewrite inf_leb_fin in L by assumption; discriminate|].
    destruct (sqrt_fin x Fx Lx) as (F1 & E1). destruct (sqrt_fin y Fy Ly) as (F2 & E2).
    apply leb_R; [assumption..|]. rewrite E1, E2. apply rnd_le. apply sqrt_le_1_alt. apply leb_R in L; assumption.
Qed.

(** *** Sums of non-negative numbers, possibly infinite *)

Lemma inf_add x : fnum x -> x <> neg_infinity -> PrimFloat.add infinity x = infinity /\ PrimFloat.add x infinity = infinity.
Proof.
  intros N M. split; apply FR_ext; rewrite add_equiv; change (Prim2B infinity) with (@B754_infinity prec emax false) at 1 2 || idtac.
  - unfold fnum in N. rewrite fnan_B in N. change (Prim2B infinity) with (@B754_infinity prec emax false).
    destruct (Prim2B x) as [s|s| |s m e E] eqn:Q; try discriminate; try reflexivity. destruct s; [|reflexivity].
    exfalso. apply M. apply (SF_inf_B x true). rewrite Q. reflexivity.
  - unfold fnum in N. rewrite fnan_B in N. change (Prim2B infinity) with (@B754_infinity prec emax false).
    destruct (Prim2B x) as [s|s| |s m e E] eqn:Q; try discriminate; try reflexivity. destruct s; [|reflexivity].
    exfalso. apply M. apply (SF_inf_B x true). rewrite Q. reflexivity.
Qed.
Lemma nonneg_not_ninf x : PrimFloat.leb 0 x = true -> x <> neg_infinity.
Proof. intros H ->. vm_compute in H. discriminate. Qed.
Lemma add_nonneg x y : PrimFloat.leb 0 x = true -> PrimFloat.leb 0 y = true ->
  PrimFloat.leb 0 (PrimFloat.add x y) = true /\ PrimFloat.leb x (PrimFloat.add x y) = true /\ PrimFloat.leb y (PrimFloat.add x y) = true.
Proof.
  intros Hx Hy. pose proof (proj2 (leb_num _ _ Hx)) as Nx. pose proof (proj2 (leb_num _ _ Hy)) as Ny.
  assert (G : PrimFloat.leb x (PrimFloat.add x y) = true /\ PrimFloat.leb y (PrimFloat.add x y) = true).
  { destruct (nonneg_cases x Hx) as [-> | (Fx & Lx)].
    - rewrite (proj1 (inf_add y Ny (nonneg_not_ninf y Hy))). split; apply leb_inf; assumption.
    - destruct (nonneg_cases y Hy) as [-> | (Fy & Ly)].
      + rewrite (proj2 (inf_add x Nx (nonneg_not_ninf x Hx))). split; apply leb_inf; assumption.
      + pose proof (add_rounded x y Fx Fy) as A. split.
        * apply (rounded_le (FR x) _ x _ (rounded_self x Fx) A). lra.
        * apply (rounded_le (FR y) _ y _ (rounded_self y Fy) A). lra. }
  destruct G as (G1 & G2). split; [|split; assumption]. exact (leb_trans _ _ _ Hx G1).
Qed.
Lemma mul_self_nonneg x : fnum x -> PrimFloat.leb 0 (PrimFloat.mul x x) = true.
Proof.
  intros N. destruct (fnum_cases x N) as [-> | [-> | F]]; [reflexivity|reflexivity|].
  apply (rounded_nonneg _ _ (mul_rounded x x F F)). nra.
Qed.

(** Swapping the operands of a subtraction changes the sign only. *)
Lemma float_eq_abs x y : ffin x -> ffin y -> Rabs (FR x) = Rabs (FR y) -> PrimFloat.abs x = PrimFloat.abs y.
Proof.
  intros Fx Fy E. apply FR_ext. apply B2R_Bsign_inj.
  - apply ffin_B, ffin_abs; assumption.
  - apply ffin_B, ffin_abs; assumption.
  - change (FR (PrimFloat.abs x) = FR (PrimFloat.abs y)). rewrite !FR_abs. exact E.
  - rewrite !abs_equiv. apply ffin_B in Fx, Fy. destruct (Prim2B x), (Prim2B y); try discriminate; reflexivity.
Qed.
Lemma abs_sub_swap x y : PrimFloat.abs (PrimFloat.sub x y) = PrimFloat.abs (PrimFloat.sub y x).
Proof.
  destruct (is_finite (Prim2B x)) eqn:Fx, (is_finite (Prim2B y)) eqn:Fy.
  - apply ffin_B in Fx, Fy. pose proof (sub_rounded x y Fx Fy) as A. pose proof (sub_rounded y x Fy Fx) as B.
    replace (FR y - FR x) with (- (FR x - FR y)) in B by lra. unfold rounded in *. rewrite rnd_opp in B. rewrite Rabs_Ropp in B. pose proof big_pos as P.
    destruct A as [(F1 & E1 & B1)|[(E & E1)|(E & E1)]].
    + destruct B as [(F2 & E2 & B2)|[(E & E2)|(E & E2)]]; [|apply Rabs_def2 in B1; lra..].
      apply float_eq_abs; try assumption. rewrite E1, E2, Rabs_Ropp. reflexivity.
    + destruct B as [(F2 & E2 & B2)|[(E' & E2)|(E' & E2)]]; [apply Rabs_def2 in B2; lra|lra|]. rewrite E, E'. reflexivity.
    + destruct B as [(F2 & E2 & B2)|[(E' & E2)|(E' & E2)]]; [apply Rabs_def2 in B2; lra| |lra]. rewrite E, E'. reflexivity.
  - apply FR_ext. rewrite !abs_equiv, !sub_equiv. destruct (Prim2B x) as [s|s| |s m e E], (Prim2B y) as [s'|s'| |s' m' e' E']; try discriminate; try reflexivity.
  - apply FR_ext. rewrite !abs_equiv, !sub_equiv. destruct (Prim2B x) as [s|s| |s m e E], (Prim2B y) as [s'|s'| |s' m' e' E']; try discriminate; try reflexivity.
  - apply FR_ext. rewrite !abs_equiv, !sub_equiv. destruct (Prim2B x) as [s|s| |s m e E], (Prim2B y) as [s'|s'| |s' m' e' E']; try discriminate; try reflexivity.
    destruct s, s'; reflexivity.
Qed.
Lemma mul_abs x : PrimFloat.mul x x = PrimFloat.mul (PrimFloat.abs x) (PrimFloat.abs x).
Proof.
  apply FR_ext. rewrite !mul_equiv, !abs_equiv. destruct (Prim2B x) as [s|s| |s m e E]; try reflexivity.
  - destruct s; reflexivity.
  - destruct s; reflexivity.
  - apply B2SF_inj. cbn [Babs Bmult]. rewrite !B2SF_SF2B. destruct s; reflexivity.
Qed.
Lemma sub_swap_sq x y : PrimFloat.mul (PrimFloat.sub x y) (PrimFloat.sub x y) = PrimFloat.mul (PrimFloat.sub y x) (PrimFloat.sub y x).
Proof. rewrite mul_abs, abs_sub_swap, <- mul_abs. reflexivity. Qed.
