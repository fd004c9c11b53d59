(** C92, continued: assignment of a number to an int64 array and comparisons of
    its elements. *)
From Coq Require Import PrimFloat FloatOps SpecFloat FloatAxioms.
From Coq Require Import ZArith List Bool Arith Reals Lra Lia.
From Flocq Require Import Core.
From Verif Require Import Num Py FloatFacts FloatFacts2 Int64 Int64Proofs Int64Proofs2.
Import ListNotations.
Local Open Scope R_scope.

Lemma f_to_Z_spec x : ffin x ->
  Rabs (IZR (f_to_Z x)) <= Rabs (FR x) < Rabs (IZR (f_to_Z x)) + 1 /\ 0 <= IZR (f_to_Z x) * FR x.
Proof.
  intros F. destruct (SF_cases x) as [(_ & E)|[(s & _ & E)|[(s & E & _ & Z)|(s & m & e & E)]]].
  - exfalso. apply ffin_num in F. unfold fnum in F. congruence.
  - exfalso. destruct s; subst x; [exact (ninf_not_fin F)|exact (inf_not_fin F)].
  - unfold f_to_Z. rewrite E. rewrite Z, Rabs_R0. lra.
  - destruct (FR_finite x s m e E) as (_ & V & M). unfold f_to_Z. rewrite E. cbv zeta.
    set (k := if (0 <=? e)%Z then (Z.pos m * 2 ^ e)%Z else (Z.pos m / 2 ^ (- e))%Z).
    assert (K : 0 <= IZR k <= IZR (Z.pos m) * bpow radix2 e /\ IZR (Z.pos m) * bpow radix2 e < IZR k + 1).
    { unfold k. destruct (Z.leb_spec 0 e) as [L|L].
      - rewrite mult_IZR, bpow_pos_Z by exact L. pose proof (IZR_lt 0 (Z.pos m) ltac:(lia)). assert (0 < IZR (2 ^ e)) by (apply IZR_lt; apply Z.pow_pos_nonneg; lia). nra.
      - rewrite bpow_neg_Z by exact L. set (d := (2 ^ (- e))%Z). assert (Hd : (0 < d)%Z) by (apply Z.pow_pos_nonneg; lia).
        pose proof (Z_div_mod_eq_full (Z.pos m) d) as D. pose proof (Z.mod_pos_bound (Z.pos m) d Hd) as B. assert (Q : (0 <= Z.pos m / d)%Z) by (apply Z.div_pos; lia).
        set (q := (Z.pos m / d)%Z) in *. set (r := (Z.pos m mod d)%Z) in *.
        rewrite D, plus_IZR, mult_IZR. assert (Hd' : 0 < IZR d) by (apply IZR_lt; exact Hd). apply IZR_le in Q. destruct B as [B1 B2]. apply IZR_le in B1. apply IZR_lt in B2.
        replace ((IZR d * IZR q + IZR r) * / IZR d) with (IZR q + IZR r * / IZR d) by (field; lra).
        assert (0 <= IZR r * / IZR d < 1).
        { split; [apply Rmult_le_pos; [exact B1|left; apply Rinv_0_lt_compat; exact Hd']|]. apply (Rmult_lt_reg_r (IZR d)); [exact Hd'|]. rewrite Rmult_assoc, Rinv_l by lra. lra. }
        lra. }
    clearbody k. destruct K as (K1 & K2). set (w := IZR (Z.pos m) * bpow radix2 e) in *.
    rewrite V. destruct s; rewrite ?opp_IZR.
    + rewrite Rabs_Ropp, (Rabs_right (IZR k)), Rabs_left1 by lra. nra.
    + rewrite (Rabs_right (IZR k)), Rabs_right by lra. nra.
Qed.

Lemma trunc_unique a b v : Rabs (IZR a) <= Rabs v < Rabs (IZR a) + 1 -> 0 <= IZR a * v ->
  Rabs (IZR b) <= Rabs v < Rabs (IZR b) + 1 -> 0 <= IZR b * v -> a = b.
Proof.
  intros A A' B B'. rewrite <- !abs_IZR in A, B.
  assert (E : (Z.abs a = Z.abs b)%Z).
  { assert ((Z.abs a < Z.abs b + 1)%Z) by (apply lt_IZR; rewrite plus_IZR; lra). assert ((Z.abs b < Z.abs a + 1)%Z) by (apply lt_IZR; rewrite plus_IZR; lra). lia. }
  destruct (Z.eq_dec a b) as [|N]; [assumption|]. exfalso. assert (O : (b = - a /\ a <> 0)%Z) by lia. destruct O as [-> Na].
  rewrite opp_IZR in B'. assert (Q : IZR a * v = 0) by lra. apply Rmult_integral in Q. destruct Q as [Q|Q]; [apply eq_IZR in Q; lia|].
  rewrite Q, Rabs_R0 in A. assert ((Z.abs a <= 0)%Z) by (apply le_IZR; lra). lia.
Qed.

(** A finite number stored in an int64 array loses its fraction; if what is left
    does not fit, and for NaN and infinities, the least int64 is stored. *)
Theorem C92_truncate : forall x,
  (forall z, ffin x -> Rabs (IZR z) <= Rabs (FR x) < Rabs (IZR z) + 1 -> 0 <= IZR z * FR x ->
     ((- 2 ^ 63 <= z < 2 ^ 63)%Z -> ntrunc (NF x) = NI z) /\
     (~ (- 2 ^ 63 <= z < 2 ^ 63)%Z -> ntrunc (NF x) = NI (- 2 ^ 63))) /\
  (PrimFloat.is_nan x = true \/ x = infinity \/ x = neg_infinity -> ntrunc (NF x) = NI (- 2 ^ 63)) /\
  (exists k, ntrunc (NF x) = NI k /\ (- 2 ^ 63 <= k < 2 ^ 63)%Z) /\
  (ffin x -> exists z, Rabs (IZR z) <= Rabs (FR x) < Rabs (IZR z) + 1 /\ 0 <= IZR z * FR x).
Proof.
  intros x. split; [|split; [|split]].
  - intros z F A B. destruct (f_to_Z_spec x F) as (C & D). pose proof (trunc_unique _ _ _ C D A B) as E.
    change (((- 2 ^ 63 <= z < 2 ^ 63)%Z -> NI (to_int64 x) = NI z) /\ (~ (- 2 ^ 63 <= z < 2 ^ 63)%Z -> NI (to_int64 x) = NI (- 2 ^ 63))).
    unfold to_int64. cbv zeta. destruct (ffin_flags x F) as [-> ->]. rewrite E. cbn [orb].
    destruct (Z.ltb_spec z (- 2 ^ 63)) as [L|L]; destruct (Z.leb_spec (2 ^ 63) z) as [U|U]; cbn [orb]; split; intros H; try reflexivity; exfalso; lia.
  - intros H. change (NI (to_int64 x) = NI (- 2 ^ 63)). unfold to_int64. cbv zeta.
    destruct H as [->|[->| ->]]; reflexivity.
  - exists (to_int64 x). split; [reflexivity|]. unfold to_int64. cbv zeta. destruct (PrimFloat.is_nan x || PrimFloat.is_infinity x); cbn [orb]; [lia|].
    destruct (Z.ltb_spec (f_to_Z x) (- 2 ^ 63)); destruct (Z.leb_spec (2 ^ 63) (f_to_Z x)); cbn [orb]; lia.
  - intros F. exists (f_to_Z x). exact (f_to_Z_spec x F).
Qed.
Print Assumptions C92_truncate.
Example C92_truncate_ex : ntrunc (NF (-0x1.4p+1)%float) = NI (-2) /\ ntrunc (NF 0x1p62%float) = NI (2 ^ 62) /\
  ntrunc (NF 0x1p63%float) = NI (- 2 ^ 63) /\ ntrunc (NF nan) = NI (- 2 ^ 63) /\ ntrunc (NF (-0x1p63)%float) = NI (- 2 ^ 63).
Proof. repeat split; reflexivity. Qed.

(** Two integers compare exactly; an integer and a float compare after the integer
    is rounded, which is exact below 2^53. *)
Definition val (x : npnum) : R := match x with NI z => IZR z | NF f => FR f end.
Definition plain (x : npnum) : Prop := match x with NI z => (Z.abs z < 2 ^ 53)%Z | NF f => ffin f end.
Lemma plain_f x : plain x -> ffin (to_f x) /\ FR (to_f x) = val x.
Proof. destruct x as [z|f]; cbn [plain to_f val]; intros H; [apply f_of_Z_exact; exact H|auto]. Qed.

Theorem C92_compare :
  (forall a b, (nleb (NI a) (NI b) = true <-> (a <= b)%Z) /\ (nltb (NI a) (NI b) = true <-> (a < b)%Z) /\ (neqb (NI a) (NI b) = true <-> a = b)) /\
  (forall x y, plain x -> plain y ->
     (nleb x y = true <-> val x <= val y) /\ (nltb x y = true <-> val x < val y) /\ (neqb x y = true <-> val x = val y)).
Proof.
  assert (I : forall a b, (nleb (NI a) (NI b) = true <-> (a <= b)%Z) /\ (nltb (NI a) (NI b) = true <-> (a < b)%Z) /\ (neqb (NI a) (NI b) = true <-> a = b)).
  { intros a b. split; [exact (Z.leb_le a b)|]. split; [exact (Z.ltb_lt a b)|exact (Z.eqb_eq a b)]. }
  split; [exact I|]. intros x y X Y. destruct (plain_f x X) as (Fx & Ex), (plain_f y Y) as (Fy & Ey).
  assert (Fl : (PrimFloat.leb (to_f x) (to_f y) = true <-> val x <= val y) /\ (PrimFloat.ltb (to_f x) (to_f y) = true <-> val x < val y) /\ (PrimFloat.eqb (to_f x) (to_f y) = true <-> val x = val y)).
  { rewrite <- Ex, <- Ey. split; [apply leb_R; assumption|]. split; [apply ltb_R; assumption|apply eqb_R; assumption]. }
  destruct x as [a|f], y as [b|g]; try exact Fl.
  destruct (I a b) as (I1 & I2 & I3). cbn [val]. split; [|split].
  - rewrite I1. split; [apply IZR_le|apply le_IZR].
  - rewrite I2. split; [apply IZR_lt|apply lt_IZR].
  - rewrite I3. split; [intros ->; reflexivity|apply eq_IZR].
Qed.
Print Assumptions C92_compare.
(** 2^53 and 2^53 + 1 differ as integers, but not when one of them is a float. *)
Example C92_compare_ex : neqb (NI (2 ^ 53)) (NI (2 ^ 53 + 1)) = false /\ neqb (NF 0x1p53%float) (NI (2 ^ 53 + 1)) = true /\
  plain (NF 0x1.8p+0%float) /\ plain (NI (-3)) /\ nleb (NI (-3)) (NF 0x1.8p+0%float) = true.
Proof. repeat split; reflexivity. Qed.
