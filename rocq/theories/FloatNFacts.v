(** Floating-point arithmetic in any IEEE format: comparisons, rounding, relative
    errors, sums in any order (the binary64 counterparts are in FloatFacts.v and
    FloatFacts2.v, stated for Coq's primitive floats). *)
From Coq Require Import PrimFloat FloatOps SpecFloat.
From Coq Require Import ZArith List Bool Arith Lia Reals Lra Psatz Permutation.
From Flocq Require Import Core BinarySingleNaN Plus_error Relative.
From Verif Require Import Num FloatN.
Import ListNotations.
Local Open Scope R_scope.

(** Sums of real numbers. *)
Definition rsum (l : list R) : R := fold_right Rplus 0 l.
Lemma rsum_app a b : rsum (a ++ b) = rsum a + rsum b.
Proof. induction a as [|x a IH]; cbn [app rsum fold_right]; [unfold rsum; cbn; lra|]. fold (rsum (a ++ b)) (rsum a). rewrite IH. lra. Qed.
Lemma rsum_perm a b : Permutation a b -> rsum a = rsum b.
Proof. induction 1; cbn [rsum fold_right]; unfold rsum in *; lra. Qed.
Lemma rsum_nonneg l : (forall x, In x l -> 0 <= x) -> 0 <= rsum l.
Proof. induction l as [|x l IH]; intros H; cbn [rsum fold_right]; [lra|]. fold (rsum l). specialize (H x (or_introl eq_refl)) as Hx. assert (0 <= rsum l) by (apply IH; intros y I; apply H; right; exact I). lra. Qed.
Lemma map_fst_parts {A B} (l : list (A * B)) l1 l2 : Permutation (map fst l) (l1 ++ l2) ->
  exists p1 p2, Permutation l (p1 ++ p2) /\ map fst p1 = l1 /\ map fst p2 = l2.
Proof.
  intros P. apply Permutation_sym, Permutation_map_inv in P as (l3 & E & P). symmetry in E. apply map_eq_app in E as (p1 & p2 & -> & E1 & E2). exists p1, p2. auto.
Qed.

Section Facts.
  Context {prec emax : Z} {Hp : Prec_gt_0 prec} {Hm : Prec_lt_emax prec emax}.
  Notation bf := (binary_float prec emax).
  Notation zero := (@B754_zero prec emax false).
  Notation pinf := (@B754_infinity prec emax false).
  Notation ninf := (@B754_infinity prec emax true).
  Notation badd := (Bplus mode_NE).
  Notation bsub := (Bminus mode_NE).
  Notation bmul := (Bmult mode_NE).
  Notation bsqrt := (Bsqrt mode_NE).

  Definition bfin (x : bf) : Prop := is_finite x = true.
  Definition bnum (x : bf) : Prop := is_nan x = false.
  Definition brnd (z : R) : R := round radix2 (SpecFloat.fexp prec emax) (round_mode mode_NE) z.
  Definition bbig : R := bpow radix2 emax.
  Definition brounded (z : R) (r : bf) : Prop :=
    (bfin r /\ B2R r = brnd z /\ Rabs (brnd z) < bbig) \/ (r = pinf /\ bbig <= brnd z) \/ (r = ninf /\ brnd z <= - bbig).

  #[local] Instance vexp : Valid_exp (SpecFloat.fexp prec emax). Proof. apply fexp_correct. exact Hp. Qed.
  #[local] Instance vrnd : Valid_rnd (round_mode mode_NE). Proof. apply valid_rnd_round_mode. Qed.

  Lemma bbig_pos : 0 < bbig. Proof. apply bpow_gt_0. Qed.
  Lemma brnd_le a b : a <= b -> brnd a <= brnd b.
  Proof. intros H. apply round_le; [exact vexp|exact vrnd|exact H]. Qed.
  Lemma brnd_0 : brnd 0 = 0. Proof. apply round_0. exact vrnd. Qed.
  Lemma brnd_opp z : brnd (- z) = - brnd z. Proof. apply round_NE_opp. Qed.
  Lemma brnd_R (x : bf) : brnd (B2R x) = B2R x.
  Proof. apply round_generic; [exact vrnd|]. apply generic_format_B2R. Qed.
  Lemma bR_big (x : bf) : Rabs (B2R x) < bbig. Proof. apply abs_B2R_lt_emax. Qed.

  Lemma bnum_cases x : bnum x -> x = pinf \/ x = ninf \/ bfin x.
  Proof. destruct x as [s|[]| |s m e H]; intros N; unfold bfin; auto; discriminate. Qed.
  Lemma bfin_num x : bfin x -> bnum x. Proof. destruct x; unfold bfin, bnum; cbn; congruence. Qed.

  Lemma bleb_R (x y : bf) : bfin x -> bfin y -> (Bleb x y = true <-> B2R x <= B2R y).
  Proof. intros A B. rewrite Bleb_correct by assumption. destruct (Rle_bool_spec (B2R x) (B2R y)); split; intros; try lra; try discriminate; reflexivity. Qed.
  Lemma bleb_num (x y : bf) : Bleb x y = true -> bnum x /\ bnum y.
  Proof. unfold bnum, Bleb. destruct x as [s|[]| |[] m e H], y as [s'|[]| |[] m' e' H']; cbn; try discriminate; auto. Qed.
  Lemma bleb_inf (x : bf) : bnum x -> Bleb x pinf = true.
  Proof. destruct x as [s|[]| |[] m e H]; cbn; auto; discriminate. Qed.
  Lemma bninf_leb (x : bf) : bnum x -> Bleb ninf x = true.
  Proof. destruct x as [s|[]| |[] m e H]; cbn; auto; discriminate. Qed.
  Lemma binf_leb_fin (x : bf) : bfin x -> Bleb pinf x = false.
  Proof. destruct x as [s|[]| |[] m e H]; cbn; auto; discriminate. Qed.
  Lemma bfin_leb_ninf (x : bf) : bfin x -> Bleb x ninf = false.
  Proof. destruct x as [s|[]| |[] m e H]; cbn; auto; discriminate. Qed.
  Lemma bleb_refl (x : bf) : bnum x -> Bleb x x = true.
  Proof. intros H. destruct (bnum_cases x H) as [-> | [-> | F]]; [reflexivity|reflexivity|]. apply bleb_R; [assumption..|lra]. Qed.
  Lemma bleb_trans (x y z : bf) : Bleb x y = true -> Bleb y z = true -> Bleb x z = true.
  Proof.
    intros A B. destruct (bleb_num _ _ A) as [Nx Ny], (bleb_num _ _ B) as [_ Nz].
    destruct (bnum_cases x Nx) as [-> | [-> | Fx]]; [|apply bninf_leb; exact Nz|].
    - destruct (bnum_cases y Ny) as [-> | [-> | Fy]]; [exact B|discriminate|]. rewrite binf_leb_fin in A by assumption. discriminate.
    - destruct (bnum_cases z Nz) as [-> | [-> | Fz]]; [apply bleb_inf; exact Nx| |].
      + destruct (bnum_cases y Ny) as [-> | [-> | Fy]]; [discriminate|rewrite bfin_leb_ninf in A by assumption; discriminate|].
        rewrite bfin_leb_ninf in B by assumption. discriminate.
      + destruct (bnum_cases y Ny) as [-> | [-> | Fy]].
        * rewrite binf_leb_fin in B by assumption. discriminate.
        * rewrite bfin_leb_ninf in A by assumption. discriminate.
        * apply bleb_R; try assumption. apply bleb_R in A; try assumption. apply bleb_R in B; try assumption. lra.
  Qed.

  (** *** Arithmetic *)

  Lemma b_over z r s : B2SF r = S754_infinity s -> bbig <= Rabs (brnd z) -> (s = true -> z <= 0) -> (s = false -> 0 <= z) -> brounded z r.
  Proof.
    intros E B N P. destruct r as [s'|s'| |s' m e H]; try discriminate. injection E as ->. destruct s.
    - right. right. split; [reflexivity|]. specialize (N eq_refl). apply brnd_le in N. rewrite brnd_0 in N. unfold Rabs in B. destruct (Rcase_abs (brnd z)); lra.
    - right. left. split; [reflexivity|]. specialize (P eq_refl). apply brnd_le in P. rewrite brnd_0 in P. unfold Rabs in B. destruct (Rcase_abs (brnd z)); lra.
  Qed.
  Lemma b_sign (b : bf) : bfin b -> (Bsign b = true -> B2R b <= 0) /\ (Bsign b = false -> 0 <= B2R b).
  Proof.
    destruct b as [s|s| |s m e H]; unfold bfin; cbn; try discriminate; intros _; [split; intros; lra|].
    destruct s; split; intros E; try discriminate.
    - apply F2R_le_0. cbn. lia.
    - apply F2R_ge_0. cbn. lia.
  Qed.
  Lemma lt_cases a b : (Rlt_bool a b = true /\ a < b) \/ (Rlt_bool a b = false /\ b <= a).
  Proof. destruct (Rlt_bool_spec a b); auto. Qed.

  Lemma badd_rounded x y : bfin x -> bfin y -> brounded (B2R x + B2R y) (badd x y).
  Proof.
    intros Fx Fy. pose proof (Bplus_correct prec emax Hp Hm mode_NE x y Fx Fy) as C. fold (brnd (B2R x + B2R y)) in C. fold bbig in C.
    destruct (lt_cases (Rabs (brnd (B2R x + B2R y))) bbig) as [(E & L)|(E & L)]; rewrite E in C.
    - destruct C as (C1 & C2 & _). left. auto.
    - destruct C as (C1 & C2). pose proof (b_sign x Fx) as (X1 & X2). pose proof (b_sign y Fy) as (Y1 & Y2). rewrite <- C2 in *.
      apply (b_over _ _ _ C1 L); intros S; [specialize (X1 S); specialize (Y1 S); lra|specialize (X2 S); specialize (Y2 S); lra].
  Qed.
  Lemma bsub_rounded x y : bfin x -> bfin y -> brounded (B2R x - B2R y) (bsub x y).
  Proof.
    intros Fx Fy. pose proof (Bminus_correct prec emax Hp Hm mode_NE x y Fx Fy) as C. fold (brnd (B2R x - B2R y)) in C. fold bbig in C.
    destruct (lt_cases (Rabs (brnd (B2R x - B2R y))) bbig) as [(E & L)|(E & L)]; rewrite E in C.
    - destruct C as (C1 & C2 & _). left. auto.
    - destruct C as (C1 & C2). pose proof (b_sign x Fx) as (X1 & X2). pose proof (b_sign y Fy) as (Y1 & Y2).
      apply (b_over _ _ _ C1 L); intros S; rewrite S in *.
      + specialize (X1 eq_refl). destruct (Bsign y); [discriminate|]. specialize (Y2 eq_refl). lra.
      + specialize (X2 eq_refl). destruct (Bsign y); [|discriminate]. specialize (Y1 eq_refl). lra.
  Qed.
  Lemma bmul_rounded x y : bfin x -> bfin y -> brounded (B2R x * B2R y) (bmul x y).
  Proof.
    intros Fx Fy. pose proof (Bmult_correct prec emax Hp Hm mode_NE x y) as C. fold (brnd (B2R x * B2R y)) in C. fold bbig in C.
    destruct (lt_cases (Rabs (brnd (B2R x * B2R y))) bbig) as [(E & L)|(E & L)]; rewrite E in C.
    - destruct C as (C1 & C2 & _). left. split; [unfold bfin; rewrite C2, Fx, Fy; reflexivity|]. auto.
    - pose proof (b_sign x Fx) as (X1 & X2). pose proof (b_sign y Fy) as (Y1 & Y2).
      apply (b_over _ _ _ C L); intros S; destruct (Bsign x), (Bsign y); try discriminate;
        try specialize (X1 eq_refl); try specialize (X2 eq_refl); try specialize (Y1 eq_refl); try specialize (Y2 eq_refl); nra.
  Qed.

  Lemma binf_not_fin : ~ bfin pinf. Proof. discriminate. Qed.
  Lemma brounded_fin z r : brounded z r -> bfin r -> B2R r = brnd z.
  Proof. intros [(_ & E & _)|[(-> & _)|(-> & _)]] F; [exact E|discriminate|discriminate]. Qed.
  Lemma brounded_num z r : brounded z r -> bnum r.
  Proof. intros [(F & _)|[(-> & _)|(-> & _)]]; [apply bfin_num; exact F|reflexivity|reflexivity]. Qed.
  Lemma brounded_le z1 z2 r1 r2 : brounded z1 r1 -> brounded z2 r2 -> z1 <= z2 -> Bleb r1 r2 = true.
  Proof.
    intros A B L. pose proof (brounded_num _ _ A) as N1. pose proof (brounded_num _ _ B) as N2. pose proof (brnd_le _ _ L) as M. pose proof bbig_pos as P.
    destruct A as [(F1 & E1 & B1)|[(-> & E1)|(-> & E1)]]; [|destruct B as [(F2 & E2 & B2)|[(-> & E2)|(-> & E2)]]|apply bninf_leb; exact N2].
    - destruct B as [(F2 & E2 & B2)|[(-> & E2)|(-> & E2)]]; [apply bleb_R; [assumption..|lra]|apply bleb_inf; exact N1|].
      apply Rabs_def2 in B1. lra.
    - apply Rabs_def2 in B2. lra.
    - reflexivity.
    - lra.
  Qed.
  Lemma brounded_self x : bfin x -> brounded (B2R x) x.
  Proof. intros F. left. split; [exact F|]. rewrite brnd_R. split; [reflexivity|apply bR_big]. Qed.
  Lemma brounded_exact x r : bfin x -> brounded (B2R x) r -> bfin r /\ B2R r = B2R x.
  Proof. intros F [(Fr & E & _)|[(-> & E)|(-> & E)]]; rewrite brnd_R in E; [auto| |]; pose proof (bR_big x) as B; apply Rabs_def2 in B; lra. Qed.
  Lemma brounded_nonneg z r : brounded z r -> 0 <= z -> Bleb zero r = true.
  Proof. intros A H. apply (brounded_le 0 z zero r); [|assumption|assumption]. apply (brounded_self zero). reflexivity. Qed.

  Lemma b_nonneg_cases x : Bleb zero x = true -> x = pinf \/ (bfin x /\ 0 <= B2R x).
  Proof.
    intros H. destruct (bleb_num _ _ H) as [_ N]. destruct (bnum_cases x N) as [-> | [-> | F]]; [auto|discriminate|].
    right. split; [exact F|]. apply (bleb_R zero x eq_refl F) in H. exact H.
  Qed.
  Lemma b_nonneg_fin x : bfin x -> 0 <= B2R x -> Bleb zero x = true.
  Proof. intros F H. apply bleb_R; [reflexivity|exact F|exact H]. Qed.

  Lemma bsqrt_fin x : bfin x -> 0 <= B2R x -> bfin (bsqrt x) /\ B2R (bsqrt x) = brnd (sqrt (B2R x)).
  Proof.
    intros F H. pose proof (Bsqrt_correct prec emax Hp Hm mode_NE x) as (C1 & C2 & _). split; [|exact C1]. unfold bfin. rewrite C2.
    destruct x as [s|s| |[] m e E]; try discriminate; try reflexivity.
    exfalso. cbn in H. pose proof (F2R_lt_0 radix2 (Defs.Float radix2 (Z.neg m) e) ltac:(cbn; lia)). lra.
  Qed.
  Lemma bsqrt_nonneg x : Bleb zero x = true -> Bleb zero (bsqrt x) = true.
  Proof.
    intros H. destruct (b_nonneg_cases x H) as [-> | (F & L)]; [reflexivity|].
    destruct (bsqrt_fin x F L) as (F' & E). apply b_nonneg_fin; [exact F'|]. rewrite E, <- brnd_0. apply brnd_le. apply sqrt_pos.
  Qed.
  Lemma bsqrt_fin_inv s : Bleb zero s = true -> bfin (bsqrt s) -> bfin s.
  Proof. intros N F. destruct (b_nonneg_cases s N) as [-> | (Fs & _)]; [discriminate|exact Fs]. Qed.

  Lemma badd_nonneg x y : Bleb zero x = true -> Bleb zero y = true ->
    Bleb zero (badd x y) = true /\ Bleb x (badd x y) = true /\ Bleb y (badd x y) = true.
  Proof.
    intros Hx Hy. pose proof (proj2 (bleb_num _ _ Hx)) as Nx. pose proof (proj2 (bleb_num _ _ Hy)) as Ny.
    assert (G : Bleb x (badd x y) = true /\ Bleb y (badd x y) = true).
    { destruct (b_nonneg_cases x Hx) as [-> | (Fx & Lx)].
      - replace (badd pinf y) with pinf by (destruct (b_nonneg_cases y Hy) as [-> | (Fy & _)]; [reflexivity|destruct y; try discriminate; reflexivity]). split; apply bleb_inf; assumption.
      - destruct (b_nonneg_cases y Hy) as [-> | (Fy & Ly)].
        + replace (badd x pinf) with pinf by (destruct x; try discriminate; reflexivity). split; apply bleb_inf; assumption.
        + pose proof (badd_rounded x y Fx Fy) as A. split.
          * apply (brounded_le (B2R x) _ x _ (brounded_self x Fx) A). lra.
          * apply (brounded_le (B2R y) _ y _ (brounded_self y Fy) A). lra. }
    destruct G as (G1 & G2). split; [|split; assumption]. exact (bleb_trans _ _ _ Hx G1).
  Qed.
  Lemma bmul_self_nonneg x : bnum x -> Bleb zero (bmul x x) = true.
  Proof.
    intros N. destruct (bnum_cases x N) as [-> | [-> | F]]; [reflexivity|reflexivity|].
    apply (brounded_nonneg _ _ (bmul_rounded x x F F)). nra.
  Qed.
  Lemma badd_fin_inv x y : bfin (badd x y) -> bfin x /\ bfin y.
  Proof. unfold bfin. destruct x as [s|s| |s m e E], y as [s'|s'| |s' m' e' E']; cbn; auto; try discriminate. destruct (Bool.eqb s s'); discriminate. Qed.
  Lemma bmul_fin_inv x : bfin (bmul x x) -> bfin x.
  Proof. unfold bfin. destruct x; cbn; auto. Qed.

  (** Swapping the operands of a subtraction changes the sign only. *)
  Lemma b_eq_abs x y : bfin x -> bfin y -> Rabs (B2R x) = Rabs (B2R y) -> Babs x = Babs y.
  Proof.
    intros Fx Fy E. apply B2R_Bsign_inj.
    - rewrite is_finite_Babs. exact Fx.
    - rewrite is_finite_Babs. exact Fy.
    - rewrite !B2R_Babs. exact E.
    - destruct x, y; try discriminate; reflexivity.
  Qed.
  Lemma babs_sub_swap x y : Babs (bsub x y) = Babs (bsub y x).
  Proof.
    destruct (is_finite x) eqn:Fx, (is_finite y) eqn:Fy.
    - pose proof (bsub_rounded x y Fx Fy) as A. pose proof (bsub_rounded y x Fy Fx) as B.
      replace (B2R y - B2R x) with (- (B2R x - B2R y)) in B by lra. unfold brounded in *. rewrite brnd_opp in B. rewrite Rabs_Ropp in B. pose proof bbig_pos as P.
      destruct A as [(F1 & E1 & B1)|[(E & E1)|(E & E1)]].
      + destruct B as [(F2 & E2 & B2)|[(E & E2)|(E & E2)]]; [|apply Rabs_def2 in B1; lra..].
        apply b_eq_abs; try assumption. rewrite E1, E2, Rabs_Ropp. reflexivity.
      + destruct B as [(F2 & E2 & B2)|[(E' & E2)|(E' & E2)]]; [apply Rabs_def2 in B2; lra|lra|]. rewrite E, E'. reflexivity.
      + destruct B as [(F2 & E2 & B2)|[(E' & E2)|(E' & E2)]]; [apply Rabs_def2 in B2; lra| |lra]. rewrite E, E'. reflexivity.
    - destruct x as [s|s| |s m e E], y as [s'|s'| |s' m' e' E']; try discriminate; try reflexivity.
    - destruct x as [s|s| |s m e E], y as [s'|s'| |s' m' e' E']; try discriminate; try reflexivity.
    - destruct x as [s|s| |s m e E], y as [s'|s'| |s' m' e' E']; try discriminate; try reflexivity. destruct s, s'; reflexivity.
  Qed.
  Lemma bmul_abs x : bmul x x = bmul (Babs x) (Babs x).
  Proof.
    destruct x as [s|s| |s m e E]; try reflexivity.
    - destruct s; reflexivity.
    - destruct s; reflexivity.
    - apply B2SF_inj. cbn [Babs Bmult]. rewrite !B2SF_SF2B. destruct s; reflexivity.
  Qed.
  Lemma bsub_swap_sq x y : bmul (bsub x y) (bsub x y) = bmul (bsub y x) (bsub y x).
  Proof. rewrite bmul_abs, babs_sub_swap, <- bmul_abs. reflexivity. Qed.
  Lemma bsub_self x : bfin x -> bsub x x = zero.
  Proof.
    intros F. pose proof (bsub_rounded x x F F) as R. rewrite Rminus_diag_eq in R by reflexivity.
    destruct (brounded_exact zero _ eq_refl R) as (F' & E).
    apply B2R_Bsign_inj; [exact F'|reflexivity|exact E|].
    pose proof (Bminus_correct prec emax Hp Hm mode_NE x x F F) as C. rewrite (Rminus_diag_eq (B2R x)) in C by reflexivity.
    fold (brnd 0) in C. rewrite brnd_0, Rabs_R0 in C. rewrite Rlt_bool_true in C by apply bpow_gt_0. destruct C as (_ & _ & C).
    rewrite C. rewrite Rcompare_Eq by reflexivity. destruct (Bsign x); reflexivity.
  Qed.

  (** *** Relative errors *)

  (** The unit roundoff. *)
  Definition bu : R := bpow radix2 (- prec).
  Lemma bu_eq : / 2 * bpow radix2 (- prec + 1) = bu.
  Proof. unfold bu. rewrite bpow_plus. cbn. lra. Qed.
  Lemma bu_pos : 0 < bu <= / 2.
  Proof. unfold bu. split; [apply bpow_gt_0|]. change (/ 2) with (bpow radix2 (-1)). apply bpow_le. unfold Prec_gt_0 in Hp. lia. Qed.

  Lemma brnd_rel z : bpow radix2 (2 - emax) <= Rabs z -> exists e, Rabs e <= bu /\ brnd z = z * (1 + e).
  Proof.
    intros H. rewrite <- bu_eq. unfold brnd. cbn [round_mode].
    apply (relative_error_N_FLT_ex radix2 (3 - emax - prec) prec Hp (fun x => negb (Z.even x)) z).
    replace (3 - emax - prec + prec - 1)%Z with (2 - emax)%Z by lia. exact H.
  Qed.
  Lemma b_format (x : bf) : generic_format radix2 (SpecFloat.fexp prec emax) (B2R x).
  Proof. apply generic_format_B2R. Qed.
  Lemma brnd_add_rel (x y : bf) : exists e, Rabs e <= bu /\ brnd (B2R x + B2R y) = (B2R x + B2R y) * (1 + e).
  Proof.
    destruct (FLT_plus_error_N_ex radix2 (3 - emax - prec) prec (fun x => negb (Z.even x)) (B2R x) (B2R y) (b_format x) (b_format y)) as (e & He & E).
    exists e. split; [|exact E]. rewrite <- bu_eq. eapply Rle_trans; [exact He|]. apply u_rod1pu_ro_le_u_ro.
  Qed.
  Lemma brnd_sub_rel (x y : bf) : exists e, Rabs e <= bu /\ brnd (B2R x - B2R y) = (B2R x - B2R y) * (1 + e).
  Proof. destruct (brnd_add_rel x (Bopp y)) as (e & He & E). rewrite B2R_Bopp in E. exists e. split; [exact He|exact E]. Qed.

  (** [a] approximates the non-negative [b] up to [k] roundings. *)
  Definition bwithin (k : nat) (a b : R) : Prop := b * (1 - bu) ^ k <= a <= b * (1 + bu) ^ k.

  Lemma blo_pos k : 0 < (1 - bu) ^ k <= 1.
  Proof. pose proof bu_pos. induction k as [|k IH]; cbn [pow]; [lra|]. nra. Qed.
  Lemma bhi_pos k : 1 <= (1 + bu) ^ k.
  Proof. pose proof bu_pos. induction k as [|k IH]; cbn [pow]; [lra|]. nra. Qed.
  Lemma bwithin_refl b : bwithin 0 b b.
  Proof. unfold bwithin. cbn. lra. Qed.
  Lemma bwithin_nonneg k a b : 0 <= b -> bwithin k a b -> 0 <= a.
  Proof. intros H [L _]. pose proof (blo_pos k). nra. Qed.
  Lemma bwithin_weaken k m a b : 0 <= b -> (k <= m)%nat -> bwithin k a b -> bwithin m a b.
  Proof.
    intros H L [A B]. replace m with (k + (m - k))%nat by lia. unfold bwithin. rewrite !pow_add.
    pose proof (blo_pos k). pose proof (blo_pos (m - k)). pose proof (bhi_pos k). pose proof (bhi_pos (m - k)). split.
    - apply Rle_trans with (b * (1 - bu) ^ k); [|exact A]. apply Rmult_le_compat_l; [exact H|]. nra.
    - apply Rle_trans with (b * (1 + bu) ^ k); [exact B|]. apply Rmult_le_compat_l; [exact H|]. nra.
  Qed.
  Lemma bwithin_step k a b e : 0 <= b -> bwithin k a b -> Rabs e <= bu -> bwithin (S k) (a * (1 + e)) b.
  Proof.
    intros H W He. pose proof (bwithin_nonneg k a b H W) as Na. destruct W as [A B].
    assert (E : - bu <= e <= bu) by (revert He; unfold Rabs; destruct (Rcase_abs e); lra).
    pose proof bu_pos. unfold bwithin. cbn [pow]. split; nra.
  Qed.
  Lemma bwithin_add k a b a' b' : bwithin k a b -> bwithin k a' b' -> bwithin k (a + a') (b + b').
  Proof. intros [A B] [C D]. unfold bwithin. lra. Qed.
  Lemma bwithin_mul k m a b a' b' : 0 <= b -> 0 <= b' -> bwithin k a b -> bwithin m a' b' -> bwithin (k + m) (a * a') (b * b').
  Proof.
    intros H H' W W'. pose proof (bwithin_nonneg _ _ _ H W). pose proof (bwithin_nonneg _ _ _ H' W'). destruct W as [A B], W' as [C D].
    pose proof (blo_pos k). pose proof (blo_pos m). pose proof (bhi_pos k). pose proof (bhi_pos m).
    unfold bwithin. rewrite !pow_add. split.
    - replace (b * b' * ((1 - bu) ^ k * (1 - bu) ^ m)) with ((b * (1 - bu) ^ k) * (b' * (1 - bu) ^ m)) by ring. apply Rmult_le_compat; try assumption; nra.
    - replace (b * b' * ((1 + bu) ^ k * (1 + bu) ^ m)) with ((b * (1 + bu) ^ k) * (b' * (1 + bu) ^ m)) by ring. apply Rmult_le_compat; assumption.
  Qed.
  Lemma bwithin_sqrt k a b : 0 <= b -> bwithin (2 * k) a b -> bwithin k (sqrt a) (sqrt b).
  Proof.
    intros H W. destruct W as [A B].
    assert (E : forall c, 0 <= c -> sqrt (b * c ^ (2 * k)) = sqrt b * c ^ k).
    { intros c Hc. rewrite sqrt_mult; [|exact H|apply pow_le; exact Hc]. f_equal. replace (2 * k)%nat with (k * 2)%nat by lia. rewrite pow_mult.
      rewrite <- Rsqr_pow2. apply sqrt_Rsqr. apply pow_le. exact Hc. }
    pose proof bu_pos. unfold bwithin. split.
    - rewrite <- (E (1 - bu)) by lra. apply sqrt_le_1_alt. exact A.
    - rewrite <- (E (1 + bu)) by lra. apply sqrt_le_1_alt. exact B.
  Qed.
  Lemma bwithin_unsq k a b : 0 <= a -> 0 <= b -> bwithin (2 * k) (a * a) (b * b) -> bwithin k a b.
  Proof. intros Ha Hb W. apply bwithin_sqrt in W; [|nra]. rewrite !sqrt_square in W by assumption. exact W. Qed.

  (** *** Summation in any order *)

  (** [s] is a possible result of summing the numbers [l]: any order, any grouping. *)
  Inductive bsums : list bf -> bf -> Prop :=
  | bsums_zero : bsums [] zero
  | bsums_one x : bsums [x] x
  | bsums_add l l1 l2 a b : Permutation l (l1 ++ l2) -> bsums l1 a -> bsums l2 b -> bsums l (badd a b).

  Lemma bsums_nonneg l s : bsums l s -> (forall x, In x l -> Bleb zero x = true) ->
    Bleb zero s = true /\ forall x, In x l -> Bleb x s = true.
  Proof.
    induction 1 as [|x|l l1 l2 a b P _ IH1 _ IH2]; intros H.
    - split; [reflexivity|intros x []].
    - specialize (H x (or_introl eq_refl)). split; [exact H|]. intros y [<-|[]]. apply bleb_refl. exact (proj2 (bleb_num _ _ H)).
    - assert (I1 : forall x, In x l1 -> In x l) by (intros x I; apply (Permutation_in x (Permutation_sym P)); apply in_or_app; auto).
      assert (I2 : forall x, In x l2 -> In x l) by (intros x I; apply (Permutation_in x (Permutation_sym P)); apply in_or_app; auto).
      destruct (IH1 (fun x I => H x (I1 x I))) as (A1 & B1). destruct (IH2 (fun x I => H x (I2 x I))) as (A2 & B2).
      destruct (badd_nonneg a b A1 A2) as (C & D1 & D2). split; [exact C|]. intros x I.
      apply (Permutation_in x P) in I. apply in_app_or in I. destruct I as [I|I]; [exact (bleb_trans _ _ _ (B1 x I) D1)|exact (bleb_trans _ _ _ (B2 x I) D2)].
  Qed.
  Lemma bsums_zeros l s : bsums l s -> (forall x, In x l -> x = zero) -> s = zero.
  Proof.
    induction 1 as [|x|l l1 l2 a b P _ IH1 _ IH2]; intros H; [reflexivity|apply H; left; reflexivity|].
    rewrite IH1, IH2; [reflexivity| |]; intros x I; apply H; apply (Permutation_in x (Permutation_sym P)); apply in_or_app; auto.
  Qed.
  Lemma bsums_within k (l : list (bf * R)) s : bsums (map fst l) s -> bfin s ->
    (forall x e, In (x, e) l -> bfin x -> 0 <= e /\ bwithin k (B2R x) e) ->
    (l = [] -> B2R s = 0) /\ (l <> [] -> bwithin (k + (length l - 1)) (B2R s) (rsum (map snd l))) /\ (forall x e, In (x, e) l -> bfin x).
  Proof.
    intros S. remember (map fst l) as fl eqn:Efl. revert l Efl. induction S as [|x|fl l1 l2 a b P S1 IH1 S2 IH2]; intros l Efl F H.
    - destruct l; [|discriminate]. split; [reflexivity|]. split; [congruence|intros x e []].
    - destruct l as [|(y, e) [|? ?]]; try discriminate. injection Efl as ->. split; [discriminate|]. split; [|intros z e' [E|[]]; injection E as <- <-; exact F].
      intros _. destruct (H y e (or_introl eq_refl) F) as [He W].
      cbn [length map snd rsum fold_right]. replace (k + (1 - 1))%nat with k by lia. rewrite Rplus_0_r. exact W.
    - subst fl. apply map_fst_parts in P as (p1 & p2 & P & <- & <-). destruct (badd_fin_inv a b F) as (Fa & Fb).
      assert (I1 : forall x e, In (x, e) p1 -> In (x, e) l) by (intros x e I; apply (Permutation_in _ (Permutation_sym P)); apply in_or_app; auto).
      assert (I2 : forall x e, In (x, e) p2 -> In (x, e) l) by (intros x e I; apply (Permutation_in _ (Permutation_sym P)); apply in_or_app; auto).
      destruct (IH1 p1 eq_refl Fa (fun x e I => H x e (I1 x e I))) as (Z1 & W1 & G1). destruct (IH2 p2 eq_refl Fb (fun x e I => H x e (I2 x e I))) as (Z2 & W2 & G2).
      assert (G : forall x e, In (x, e) l -> bfin x).
      { intros x e I. apply (Permutation_in _ P) in I. apply in_app_or in I. destruct I; eauto. }
      pose proof (brounded_fin _ _ (badd_rounded a b Fa Fb) F) as E.
      assert (Es : rsum (map snd l) = rsum (map snd p1) + rsum (map snd p2)) by (rewrite <- rsum_app, <- map_app; apply rsum_perm, Permutation_map; exact P).
      pose proof (Permutation_length P) as Len. rewrite app_length in Len.
      assert (N : forall l', (forall x e, In (x, e) l' -> In (x, e) l) -> 0 <= rsum (map snd l')).
      { intros l' I. apply rsum_nonneg. intros y Iy. apply in_map_iff in Iy as ((x, e) & <- & Ix). apply (H x e (I x e Ix) (G x e (I x e Ix))). }
      split; [intros ->; apply Permutation_nil in P; apply app_eq_nil in P as [-> ->]; rewrite E, Z1, Z2 by reflexivity; rewrite Rplus_0_r; apply brnd_0|].
      split; [|exact G]. intros NE.
      destruct p1 as [|x1 p1].
      + rewrite E, (Z1 eq_refl), Rplus_0_l, brnd_R, Es. cbn [map rsum fold_right] in *. rewrite Rplus_0_l. cbn [length] in Len. rewrite Len.
        apply W2. intros ->. apply NE. apply Permutation_nil. cbn in P. symmetry. exact P.
      + destruct p2 as [|x2 p2].
        * rewrite E, (Z2 eq_refl), Rplus_0_r, brnd_R, Es. replace (rsum (map snd [])) with 0 by reflexivity. rewrite Rplus_0_r. rewrite Len. cbn [length] in *. rewrite Nat.add_0_r. apply W1. discriminate.
        * specialize (W1 ltac:(discriminate)). specialize (W2 ltac:(discriminate)). destruct (brnd_add_rel a b) as (d & Hd & Ed). rewrite E, Ed, Es.
          apply (bwithin_weaken (S (k + (length l - 2)))); [pose proof (N _ I1); pose proof (N _ I2); lra|cbn [length] in *; lia|].
          apply bwithin_step; [pose proof (N _ I1); pose proof (N _ I2); lra| |exact Hd].
          apply bwithin_add; (eapply bwithin_weaken; [| |eassumption]); try (apply N; assumption); cbn [length] in *; lia.
  Qed.
  Lemma fold_right_bsums (l : list bf) : bsums l (fold_right badd zero l).
  Proof. induction l as [|x l IH]; [constructor|]. cbn [fold_right]. apply (bsums_add (x :: l) [x] l); [apply Permutation_refl|constructor|exact IH]. Qed.

  Lemma b_pos_min x : bfin x -> 0 < B2R x -> bpow radix2 (3 - emax - prec) <= B2R x.
  Proof.
    intros F P. pose proof (abs_B2R_ge_emin prec emax x) as M. rewrite Rabs_right in M by lra. apply M.
    destruct x; try discriminate; [cbn in P; lra|reflexivity].
  Qed.
  (** A sum of two numbers is larger than the first if the second is at least
      2^(1-prec) times the first. *)
  Lemma badd_gt (a x : bf) : bfin (badd a x) -> 0 <= B2R a -> 0 < B2R x -> B2R a * bpow radix2 (1 - prec) <= B2R x -> B2R a < B2R (badd a x).
  Proof.
    intros F Ha Hx H. destruct (badd_fin_inv a x F) as (Fa & Fx). rewrite (brounded_fin _ _ (badd_rounded a x Fa Fx) F).
    assert (U : ulp radix2 (SpecFloat.fexp prec emax) (B2R a) <= B2R x).
    { destruct (Rle_lt_dec (bpow radix2 (2 - emax)) (B2R a)) as [L|L].
      - eapply Rle_trans; [|exact H]. rewrite <- (Rabs_pos_eq (B2R a)) at 2 by exact Ha.
        apply (ulp_FLT_le radix2 (3 - emax - prec) prec (B2R a)). rewrite Rabs_pos_eq by exact Ha. replace (3 - emax - prec + prec - 1)%Z with (2 - emax)%Z by lia. exact L.
      - pose proof (b_pos_min x Fx Hx) as M. eapply Rle_trans; [|exact M]. apply Req_le.
        apply (ulp_FLT_small radix2 (3 - emax - prec) prec). rewrite Rabs_pos_eq by exact Ha. eapply Rlt_le_trans; [exact L|]. apply bpow_le. lia. }
    apply Rlt_le_trans with (succ radix2 (SpecFloat.fexp prec emax) (B2R a)).
    - rewrite succ_eq_pos by exact Ha. assert (0 < ulp radix2 (SpecFloat.fexp prec emax) (B2R a)); [|lra].
      destruct (Req_dec (B2R a) 0) as [Z|Z]; [rewrite Z; rewrite (ulp_FLT_0 radix2 (3 - emax - prec) prec : ulp radix2 (SpecFloat.fexp prec emax) 0 = _); apply bpow_gt_0|].
      rewrite ulp_neq_0 by exact Z. apply bpow_gt_0.
    - apply round_ge_generic; [exact vexp|exact vrnd|apply generic_format_succ; [exact vexp|apply b_format]|].
      rewrite succ_eq_pos by exact Ha. lra.
  Qed.
End Facts.
