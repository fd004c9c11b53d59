(** IEEE binary64: relative errors, sums in any order, conversions. *)
From Coq Require Import PrimFloat FloatOps FloatAxioms SpecFloat.
From Coq Require Import ZArith List Bool Arith Lia Reals Lra Psatz Permutation.
From Flocq Require Import Core BinarySingleNaN Plus_error Relative.
From Flocq Require Import IEEE754.PrimFloat.
From Verif Require Import Num FloatFacts.
Import ListNotations.
Local Open Scope R_scope.
Local Notation float := PrimFloat.float.

(** The unit roundoff 2^-53. *)
Definition uro : R := / 9007199254740992.
Lemma uro_eq : / 2 * bpow radix2 (- prec + 1) = uro.
Proof. unfold uro. change (- prec + 1)%Z with (-52)%Z. cbn [bpow]. change (Z.pow_pos radix2 52) with 4503599627370496%Z. lra. Qed.
Lemma uro_pos : 0 < uro < 1. Proof. unfold uro. split; [apply Rinv_0_lt_compat; lra|]. lra. Qed.
(** The smallest normal number. *)
Definition tiny : R := bpow radix2 (-1022).

Lemma rnd_rel z : tiny <= Rabs z -> exists e, Rabs e <= uro /\ rnd z = z * (1 + e).
Proof.
  intros H. rewrite <- uro_eq. unfold rnd. cbn [round_mode].
  exact (relative_error_N_FLT_ex radix2 (3 - emax - prec) prec ltac:(reflexivity) (fun x => negb (Z.even x)) z H).
Qed.
Lemma FR_format x : generic_format radix2 (SpecFloat.fexp prec emax) (FR x).
Proof. apply generic_format_B2R. Qed.
Lemma rnd_add_rel x y : exists e, Rabs e <= uro /\ rnd (FR x + FR y) = (FR x + FR y) * (1 + e).
Proof.
  destruct (FLT_plus_error_N_ex radix2 (3 - emax - prec) prec (fun x => negb (Z.even x)) (FR x) (FR y) (FR_format x) (FR_format y)) as (e & He & E).
  exists e. split; [|exact E]. rewrite <- uro_eq. eapply Rle_trans; [exact He|]. apply u_rod1pu_ro_le_u_ro.
Qed.
Lemma rnd_sub_rel x y : exists e, Rabs e <= uro /\ rnd (FR x - FR y) = (FR x - FR y) * (1 + e).
Proof.
  destruct (rnd_add_rel x (PrimFloat.opp y)) as (e & He & E). rewrite FR_opp in E. exists e. split; [exact He|exact E].
Qed.

(** [a] approximates the non-negative [b] up to [k] roundings. *)
Definition within (k : nat) (a b : R) : Prop := b * (1 - uro) ^ k <= a <= b * (1 + uro) ^ k.

Lemma pow_lo_pos k : 0 < (1 - uro) ^ k <= 1.
Proof. pose proof uro_pos. induction k as [|k IH]; cbn [pow]; [lra|]. nra. Qed.
Lemma pow_hi_pos k : 1 <= (1 + uro) ^ k.
Proof. pose proof uro_pos. induction k as [|k IH]; cbn [pow]; [lra|]. nra. Qed.
Lemma within_refl b : within 0 b b.
Proof. unfold within. cbn. lra. Qed.
Lemma within_nonneg k a b : 0 <= b -> within k a b -> 0 <= a.
Proof. intros H [L _]. pose proof (pow_lo_pos k). nra. Qed.
Lemma within_weaken k m a b : 0 <= b -> (k <= m)%nat -> within k a b -> within m a b.
Proof.
  intros H L [A B]. replace m with (k + (m - k))%nat by lia. unfold within. rewrite !pow_add.
  pose proof (pow_lo_pos k). pose proof (pow_lo_pos (m - k)). pose proof (pow_hi_pos k). pose proof (pow_hi_pos (m - k)). split.
  - apply Rle_trans with (b * (1 - uro) ^ k); [|exact A]. apply Rmult_le_compat_l; [exact H|]. nra.
  - apply Rle_trans with (b * (1 + uro) ^ k); [exact B|]. apply Rmult_le_compat_l; [exact H|]. nra.
Qed.
Lemma within_step k a b e : 0 <= b -> within k a b -> Rabs e <= uro -> within (S k) (a * (1 + e)) b.
Proof.
  intros H W He. pose proof (within_nonneg k a b H W) as Na. destruct W as [A B]. apply Rabs_le in He || idtac.
  assert (E : - uro <= e <= uro) by (revert He; unfold Rabs; destruct (Rcase_abs e); lra).
  pose proof uro_pos. unfold within. cbn [pow]. split; nra.
Qed.
Lemma within_add k a b a' b' : within k a b -> within k a' b' -> within k (a + a') (b + b').
Proof. intros [A B] [C D]. unfold within. lra. Qed.
Lemma within_mul k m a b a' b' : 0 <= b -> 0 <= b' -> within k a b -> within m a' b' -> within (k + m) (a * a') (b * b').
Proof.
  intros H H' W W'. pose proof (within_nonneg _ _ _ H W). pose proof (within_nonneg _ _ _ H' W'). destruct W as [A B], W' as [C D].
  pose proof (pow_lo_pos k). pose proof (pow_lo_pos m). pose proof (pow_hi_pos k). pose proof (pow_hi_pos m).
  unfold within. rewrite !pow_add. split.
  - replace (b * b' * ((1 - uro) ^ k * (1 - uro) ^ m)) with ((b * (1 - uro) ^ k) * (b' * (1 - uro) ^ m)) by ring. apply Rmult_le_compat; try assumption; nra.
  - replace (b * b' * ((1 + uro) ^ k * (1 + uro) ^ m)) with ((b * (1 + uro) ^ k) * (b' * (1 + uro) ^ m)) by ring. apply Rmult_le_compat; assumption.
Qed.
(** The square root halves the number of roundings. *)
Lemma within_sqrt k a b : 0 <= b -> within (2 * k) a b -> within k (sqrt a) (sqrt b).
Proof.
  intros H W. pose proof (within_nonneg _ _ _ H W) as Na. destruct W as [A B]. pose proof (pow_lo_pos k) as L. pose proof (pow_hi_pos k) as U.
  assert (E : forall c, 0 <= c -> sqrt (b * c ^ (2 * k)) = sqrt b * c ^ k).
  { intros c Hc. rewrite sqrt_mult; [|exact H|apply pow_le; exact Hc]. f_equal. replace (2 * k)%nat with (k * 2)%nat by lia. rewrite pow_mult.
    rewrite <- Rsqr_pow2. apply sqrt_Rsqr. apply pow_le. exact Hc. }
  pose proof uro_pos. unfold within. split.
  - rewrite <- (E (1 - uro)) by lra. apply sqrt_le_1_alt. exact A.
  - rewrite <- (E (1 + uro)) by lra. apply sqrt_le_1_alt. exact B.
Qed.
Lemma within_unsq k a b : 0 <= a -> 0 <= b -> within (2 * k) (a * a) (b * b) -> within k a b.
Proof. intros Ha Hb W. apply within_sqrt in W; [|nra]. rewrite !sqrt_square in W by assumption. exact W. Qed.

(** *** Summation in any order *)

(** [s] is a possible result of summing the floats [l]: the terms are taken in
    any order and grouped in any way; zeros may be added. *)
Inductive sums_to : list float -> float -> Prop :=
| sums_zero : sums_to [] PrimFloat.zero
| sums_one x : sums_to [x] x
| sums_add l l1 l2 a b : Permutation l (l1 ++ l2) -> sums_to l1 a -> sums_to l2 b -> sums_to l (PrimFloat.add a b).

Definition Rsum (l : list R) : R := fold_right Rplus 0 l.
Lemma Rsum_app a b : Rsum (a ++ b) = Rsum a + Rsum b.
Proof. induction a as [|x a IH]; cbn [app Rsum fold_right]; [unfold Rsum; cbn; lra|]. fold (Rsum (a ++ b)) (Rsum a). rewrite IH. lra. Qed.
Lemma Rsum_perm a b : Permutation a b -> Rsum a = Rsum b.
Proof. induction 1; cbn [Rsum fold_right]; unfold Rsum in *; lra. Qed.
Lemma Rsum_nonneg l : (forall x, In x l -> 0 <= x) -> 0 <= Rsum l.
Proof. induction l as [|x l IH]; intros H; cbn [Rsum fold_right]; [lra|]. fold (Rsum l). specialize (H x (or_introl eq_refl)) as Hx. assert (0 <= Rsum l) by (apply IH; intros y I; apply H; right; exact I). lra. Qed.

Lemma add_fin_inv x y : ffin (PrimFloat.add x y) -> ffin x /\ ffin y.
Proof.
  rewrite !ffin_B, add_equiv. destruct (Prim2B x) as [s|s| |s m e E], (Prim2B y) as [s'|s'| |s' m' e' E']; cbn [Bplus is_finite]; try discriminate; auto.
  destruct (Bool.eqb s s'); discriminate.
Qed.

(** Non-negative terms: the sum is non-negative and not below any term. *)
Lemma sums_nonneg l s : sums_to l s -> (forall x, In x l -> PrimFloat.leb 0 x = true) ->
  PrimFloat.leb 0 s = true /\ forall x, In x l -> PrimFloat.leb x s = true.
Proof.
  induction 1 as [|x|l l1 l2 a b P _ IH1 _ IH2]; intros H.
  - split; [reflexivity|intros x []].
  - specialize (H x (or_introl eq_refl)). split; [exact H|]. intros y [<-|[]]. apply leb_refl_num. exact (proj2 (leb_num _ _ H)).
  - assert (I1 : forall x, In x l1 -> In x l) by (intros x I; apply (Permutation_in x (Permutation_sym P)); apply in_or_app; auto).
    assert (I2 : forall x, In x l2 -> In x l) by (intros x I; apply (Permutation_in x (Permutation_sym P)); apply in_or_app; auto).
    destruct (IH1 (fun x I => H x (I1 x I))) as (A1 & B1). destruct (IH2 (fun x I => H x (I2 x I))) as (A2 & B2).
    destruct (add_nonneg a b A1 A2) as (C & D1 & D2). split; [exact C|]. intros x I.
    apply (Permutation_in x P) in I. apply in_app_or in I. destruct I as [I|I]; [exact (leb_trans _ _ _ (B1 x I) D1)|exact (leb_trans _ _ _ (B2 x I) D2)].
Qed.

Lemma map_fst_split {B} (l : list (float * B)) l1 l2 : Permutation (map fst l) (l1 ++ l2) ->
  exists p1 p2, Permutation l (p1 ++ p2) /\ map fst p1 = l1 /\ map fst p2 = l2.
Proof.
  intros P. apply Permutation_sym, Permutation_map_inv in P as (l3 & E & P). symmetry in E. apply map_eq_app in E as (p1 & p2 & -> & E1 & E2). exists p1, p2. auto.
Qed.

(** A finite sum of [n] non-negative terms, each right up to [k] roundings, is
    right up to k + n - 1 roundings. *)
Lemma sums_within k (l : list (float * R)) s : sums_to (map fst l) s -> ffin s ->
  (forall x e, In (x, e) l -> ffin x -> 0 <= e /\ within k (FR x) e) ->
  (l = [] -> FR s = 0) /\ (l <> [] -> within (k + (length l - 1)) (FR s) (Rsum (map snd l))) /\ (forall x e, In (x, e) l -> ffin x).
Proof.
  intros S. remember (map fst l) as fl eqn:Efl. revert l Efl. induction S as [|x|fl l1 l2 a b P S1 IH1 S2 IH2]; intros l Efl F H.
  - destruct l; [|discriminate]. split; [reflexivity|]. split; [congruence|intros x e []].
  - destruct l as [|(y, e) [|? ?]]; try discriminate. injection Efl as ->. split; [discriminate|]. split; [|intros z e' [E|[]]; injection E as <- <-; exact F].
    intros _. destruct (H y e (or_introl eq_refl) F) as [He W].
    cbn [length map snd Rsum fold_right]. replace (k + (1 - 1))%nat with k by lia. rewrite Rplus_0_r. exact W.
  - subst fl. apply map_fst_split in P as (p1 & p2 & P & <- & <-). destruct (add_fin_inv a b F) as (Fa & Fb).
    assert (I1 : forall x e, In (x, e) p1 -> In (x, e) l) by (intros x e I; apply (Permutation_in _ (Permutation_sym P)); apply in_or_app; auto).
    assert (I2 : forall x e, In (x, e) p2 -> In (x, e) l) by (intros x e I; apply (Permutation_in _ (Permutation_sym P)); apply in_or_app; auto).
    destruct (IH1 p1 eq_refl Fa (fun x e I => H x e (I1 x e I))) as (Z1 & W1 & G1). destruct (IH2 p2 eq_refl Fb (fun x e I => H x e (I2 x e I))) as (Z2 & W2 & G2).
    assert (G : forall x e, In (x, e) l -> ffin x).
    { intros x e I. apply (Permutation_in _ P) in I. apply in_app_or in I. destruct I; eauto. }
    pose proof (rounded_fin _ _ (add_rounded a b Fa Fb) F) as E.
    assert (Es : Rsum (map snd l) = Rsum (map snd p1) + Rsum (map snd p2)) by (rewrite <- Rsum_app, <- map_app; apply Rsum_perm, Permutation_map; exact P).
    pose proof (Permutation_length P) as Len. rewrite app_length in Len.
    assert (N : forall l', (forall x e, In (x, e) l' -> In (x, e) l) -> 0 <= Rsum (map snd l')).
    { intros l' I. apply Rsum_nonneg. intros y Iy. apply in_map_iff in Iy as ((x, e) & <- & Ix). apply (H x e (I x e Ix) (G x e (I x e Ix))). }
    split; [intros ->; apply Permutation_nil in P; apply app_eq_nil in P as [-> ->]; rewrite E, Z1, Z2 by reflexivity; rewrite Rplus_0_r; apply rnd_0|].
    split; [|exact G]. intros NE.
    destruct p1 as [|x1 p1].
    + rewrite E, (Z1 eq_refl), Rplus_0_l, rnd_FR, Es. cbn [map Rsum fold_right] in *. rewrite Rplus_0_l. cbn [length] in Len. rewrite Len.
      apply W2. intros ->. apply NE. apply Permutation_nil. cbn in P. symmetry. exact P.
    + destruct p2 as [|x2 p2].
      * rewrite E, (Z2 eq_refl), Rplus_0_r, rnd_FR, Es. replace (Rsum (map snd [])) with 0 by reflexivity. rewrite Rplus_0_r. rewrite Len. cbn [length] in *. rewrite Nat.add_0_r. apply W1. discriminate.
      * specialize (W1 ltac:(discriminate)). specialize (W2 ltac:(discriminate)). destruct (rnd_add_rel a b) as (d & Hd & Ed). rewrite E, Ed, Es.
        apply (within_weaken (S (k + (length l - 2)))); [pose proof (N _ I1); pose proof (N _ I2); lra|cbn [length] in *; lia|].
        apply within_step; [pose proof (N _ I1); pose proof (N _ I2); lra| |exact Hd].
        apply within_add; (eapply within_weaken; [| |eassumption]); try (apply N; assumption); cbn [length] in *; lia.
Qed.

(** The right-to-left sum of the model is one of them. *)
Lemma fold_right_sums (l : list float) : sums_to l (fold_right PrimFloat.add PrimFloat.zero l).
Proof.
  induction l as [|x l IH]; [constructor|]. cbn [fold_right]. apply (sums_add (x :: l) [x] l); [apply Permutation_refl|constructor|exact IH].
Qed.

(** *** Conversions *)

Lemma f_of_Z_B z : Prim2B (f_of_Z z) = BinarySingleNaN.binary_normalize prec emax Hprec Hmax mode_NE z 0 false.
Proof. unfold f_of_Z. rewrite binary_normalize_equiv. apply Prim2B_B2Prim. Qed.
Lemma f_of_Z_rounded z : rounded (IZR z) (f_of_Z z).
Proof.
  pose proof (binary_normalize_correct prec emax Hprec Hmax mode_NE z 0 false) as C. cbv zeta in C. rewrite <- f_of_Z_B in C.
  assert (E : F2R (Defs.Float radix2 z 0) = IZR z) by (unfold F2R; cbn; lra). rewrite E in C.
  change (round radix2 (SpecFloat.fexp prec emax) (round_mode mode_NE) (IZR z)) with (rnd (IZR z)) in C. fold big in C.
  destruct (Rlt_bool_cases (Rabs (rnd (IZR z))) big) as [(-> & L)|(-> & L)] in C.
  - destruct C as (C1 & C2 & _). left. split; [apply ffin_B; exact C2|]. split; [exact C1|exact L].
  - rewrite overflow_inf in C. apply (rounded_over _ _ _ C L); intros S; destruct (Rlt_bool_spec (IZR z) 0); try discriminate; lra.
Qed.
(** Integers below 2^53 are exact. *)
Lemma f_of_Z_exact z : (Z.abs z < 2 ^ 53)%Z -> ffin (f_of_Z z) /\ FR (f_of_Z z) = IZR z.
Proof.
  intros H. pose proof (f_of_Z_rounded z) as R.
  assert (E : rnd (IZR z) = IZR z).
  { apply round_generic; [exact rnd_ok|]. apply (generic_format_FLT radix2 (3 - emax - prec) prec).
    exists (Defs.Float radix2 z 0); [unfold F2R; cbn; lra|exact H|vm_compute; discriminate]. }
  assert (B : Rabs (IZR z) < big).
  { rewrite <- abs_IZR. apply Rlt_trans with (IZR (2 ^ 53)); [apply IZR_lt; exact H|]. change (2 ^ 53)%Z with (Zpower radix2 53). rewrite IZR_Zpower by lia. apply bpow_lt. reflexivity. }
  unfold rounded in R. rewrite E in R. destruct R as [(F & E' & _)|[(-> & L)|(-> & L)]]; [auto| |]; apply Rabs_def2 in B; lra.
Qed.

(** The value of a finite float is its significand times a power of two. *)
Lemma FR_finite x s m e : Prim2SF x = S754_finite s m e -> ffin x /\ FR x = (if s then -1 else 1) * (IZR (Zpos m) * bpow radix2 e) /\ (Zpos m < 2 ^ 53)%Z.
Proof.
  intros E. assert (F : ffin x) by (apply ffin_B; rewrite <- is_finite_SF_B2SF, B2SF_Prim2B, E; reflexivity).
  split; [exact F|]. split; [rewrite FR_SF, E; unfold SF2R, F2R; cbn [Fnum Fexp]; destruct s; cbn [cond_Zopp]; [change (Z.opp (Z.pos m)) with (- Z.pos m)%Z; rewrite opp_IZR|]; ring|].
  pose proof (Prim2SF_valid x) as V. rewrite E in V. cbn in V. apply andb_prop in V as [V _]. unfold SpecFloat.canonical_mantissa in V.
  apply Zeq_bool_eq in V. rewrite digits2_pos_Zdigits in V || idtac. unfold SpecFloat.fexp, SpecFloat.emin in V.
  pose proof (Zdigits_correct radix2 (Zpos m)) as D.
  assert (L : (Zdigits radix2 (Zpos m) <= 53)%Z).
  { rewrite <- Zpos_digits2_pos. change prec with 53%Z in V. lia. }
  rewrite Z.abs_eq in D by lia. destruct D as [_ D]. eapply Z.lt_le_trans; [exact D|]. apply (Zpower_le radix2). exact L.
Qed.
Lemma SF_cases x : (Prim2SF x = S754_nan /\ PrimFloat.is_nan x = true) \/ (exists s, Prim2SF x = S754_infinity s /\ x = if s then neg_infinity else infinity) \/
  (exists s, Prim2SF x = S754_zero s /\ ffin x /\ FR x = 0) \/ (exists s m e, Prim2SF x = S754_finite s m e).
Proof.
  destruct (Prim2SF x) as [s|s| |s m e] eqn:E.
  - right. right. left. exists s. split; [reflexivity|]. split; [apply ffin_B; rewrite <- is_finite_SF_B2SF, B2SF_Prim2B, E; reflexivity|rewrite FR_SF, E; reflexivity].
  - right. left. exists s. split; [reflexivity|]. apply SF_inf_B. rewrite B2SF_Prim2B. exact E.
  - left. split; [reflexivity|]. rewrite fnan_B. rewrite <- is_nan_SF_B2SF, B2SF_Prim2B, E. reflexivity.
  - right. right. right. exists s, m, e. reflexivity.
Qed.

Lemma bpow_pos_Z e : (0 <= e)%Z -> bpow radix2 e = IZR (2 ^ e).
Proof. intros H. change (2 ^ e)%Z with (Zpower radix2 e). rewrite IZR_Zpower by exact H. reflexivity. Qed.
Lemma bpow_neg_Z e : (e < 0)%Z -> bpow radix2 e = / IZR (2 ^ (- e)).
Proof. intros H. rewrite <- bpow_pos_Z by lia. rewrite <- bpow_opp. f_equal. lia. Qed.

(** astype(int): the integer part, with the sign. *)
Lemma f_trunc_spec x : ffin x -> exists z, ffin (f_trunc x) /\ FR (f_trunc x) = IZR z /\
  Rabs (IZR z) <= Rabs (FR x) < Rabs (IZR z) + 1 /\ 0 <= IZR z * FR x.
Proof.
  intros F. destruct (SF_cases x) as [(_ & E)|[(s & _ & E)|[(s & E & _ & Z)|(s & m & e & E)]]].
  - exfalso. apply ffin_num in F. unfold fnum in F. congruence.
  - exfalso. destruct s; subst x; [exact (ninf_not_fin F)|exact (inf_not_fin F)].
  - exists 0%Z. unfold f_trunc. rewrite E. split; [exact F|]. split; [exact Z|]. rewrite Z, Rabs_R0. lra.
  - destruct (FR_finite x s m e E) as (_ & V & M). unfold f_trunc. rewrite E.
    set (k := if (0 <=? e)%Z then (Z.pos m * 2 ^ e)%Z else (Z.pos m / 2 ^ (- e))%Z).
    assert (K : 0 <= IZR k <= IZR (Z.pos m) * bpow radix2 e /\ IZR (Z.pos m) * bpow radix2 e < IZR k + 1 /\ ((Z.abs k < 2 ^ 53)%Z \/ IZR k = IZR (Z.pos m) * bpow radix2 e)).
    { unfold k. destruct (Z.leb_spec 0 e) as [L|L].
      - rewrite mult_IZR, bpow_pos_Z by exact L. pose proof (IZR_lt 0 (Z.pos m) ltac:(lia)). assert (0 < IZR (2 ^ e)) by (apply IZR_lt; apply Z.pow_pos_nonneg; lia). split; [|split; [lra|right; reflexivity]]. nra.
      - rewrite bpow_neg_Z by exact L. set (d := (2 ^ (- e))%Z). assert (Hd : (0 < d)%Z) by (apply Z.pow_pos_nonneg; lia).
        pose proof (Z_div_mod_eq_full (Z.pos m) d) as D. pose proof (Z.mod_pos_bound (Z.pos m) d Hd) as B. assert (Q : (0 <= Z.pos m / d)%Z) by (apply Z.div_pos; lia).
        set (q := (Z.pos m / d)%Z) in *. set (r := (Z.pos m mod d)%Z) in *. assert (Hq : (q <= Z.pos m)%Z) by nia.
        rewrite D, plus_IZR, mult_IZR. assert (Hd' : 0 < IZR d) by (apply IZR_lt; exact Hd). apply IZR_le in Q. destruct B as [B1 B2]. apply IZR_le in B1. apply IZR_lt in B2.
        replace ((IZR d * IZR q + IZR r) * / IZR d) with (IZR q + IZR r * / IZR d) by (field; lra).
        assert (0 <= IZR r * / IZR d < 1).
        { split; [apply Rmult_le_pos; [exact B1|left; apply Rinv_0_lt_compat; exact Hd']|]. apply (Rmult_lt_reg_r (IZR d)); [exact Hd'|]. rewrite Rmult_assoc, Rinv_l by lra. lra. }
        split; [lra|]. split; [lra|]. left. apply le_IZR in Q. lia. }
    destruct K as (K1 & K2 & K3). set (z := if s then (- k)%Z else k). exists z.
    assert (A : Rabs (IZR z) = IZR k) by (unfold z; destruct s; rewrite ?opp_IZR, ?Rabs_Ropp; apply Rabs_right; lra).
    assert (Ax : Rabs (FR x) = IZR (Z.pos m) * bpow radix2 e) by (rewrite V, Rabs_mult, (Rabs_right (IZR (Z.pos m) * bpow radix2 e)) by lra; destruct s; [rewrite Rabs_left by lra|rewrite Rabs_right by lra]; lra).
    assert (T : ffin (f_of_Z z) /\ FR (f_of_Z z) = IZR z).
    { destruct K3 as [K3|K3]; [apply f_of_Z_exact; unfold z; destruct s; [rewrite Z.abs_opp|]; exact K3|].
      assert (Ez : IZR z = FR x) by (unfold z; rewrite V; destruct s; rewrite ?opp_IZR; lra).
      pose proof (f_of_Z_rounded z) as R. rewrite Ez in R. destruct (rounded_exact x _ F R) as (F' & E'). split; [exact F'|]. rewrite E', Ez. reflexivity. }
    destruct T as (T1 & T2). split; [exact T1|]. split; [exact T2|]. rewrite A, Ax. split; [lra|]. rewrite V. unfold z. destruct s; rewrite ?opp_IZR; nra.
Qed.
