(** The model in IEEE binary64: closest point of a segment, grids. *)
From Coq Require Import PrimFloat FloatOps FloatAxioms SpecFloat.
From Coq Require Import ZArith List Bool Arith Lia Reals Lra Psatz.
From Flocq Require Import Core BinarySingleNaN.
From Flocq Require Import IEEE754.PrimFloat.
From Verif Require Import Num Py Numeric Curve Vec Geom DiffGeom Interp Spec GeomSpec ListFacts FloatFacts FloatFacts2 FloatProofs FloatProofs2.
Import ListNotations.
Local Open Scope R_scope.
Local Notation float := PrimFloat.float.

(** ** Closeness to zero *)

Lemma mul_zero_abs : PrimFloat.mul (@rtol_default float FNum) (PrimFloat.abs PrimFloat.zero) = PrimFloat.zero.
Proof. vm_compute. reflexivity. Qed.
Lemma atol_fin : ffin (@atol_default float FNum) /\ 0 < FR (@atol_default float FNum).
Proof.
  split; [vm_compute; reflexivity|]. change 0 with (FR 0%float). apply ltb_R; [exact ffin_0|vm_compute; reflexivity|vm_compute; reflexivity].
Qed.
Lemma sub_zero x : ffin x -> ffin (PrimFloat.sub x PrimFloat.zero) /\ FR (PrimFloat.sub x PrimFloat.zero) = FR x.
Proof.
  intros F. pose proof (sub_rounded x PrimFloat.zero F ffin_0) as R. rewrite FR_0, Rminus_0_r in R. apply rounded_exact; assumption.
Qed.
Lemma isclose_zero (d : float) : fnum d -> (isclose d n0 = true <-> ffin d /\ Rabs (FR d) <= FR (@atol_default float FNum)).
Proof.
  intros N. unfold isclose, isclose_tol. destruct (isfinite d) eqn:F; cbn [andb].
  - apply isfinite_fin in F. change (isfinite (n0 (T:=float))) with true. cbn [nleb nabs nsub nadd nmul n0 FNum]. rewrite mul_zero_abs.
    replace (PrimFloat.add (@atol_default float FNum) PrimFloat.zero) with (@atol_default float FNum) by (vm_compute; reflexivity).
    destruct (sub_zero d F) as (F' & E). rewrite (leb_R _ _ (proj2 (ffin_abs _) F') (proj1 atol_fin)), FR_abs, E. split; [intros H; split; assumption|intros [_ H]; exact H].
  - split; [|intros [H _]; apply isfinite_fin in H; congruence]. intros E. cbn [neqb n0 FNum] in E. apply eqb_leb in E as [E1 E2].
    destruct (fnum_cases d N) as [-> | [-> | G]]; [vm_compute in E1; discriminate|vm_compute in E2; discriminate|apply isfinite_fin in G; congruence].
Qed.
Lemma isclose_nan (a b : float) : PrimFloat.is_nan a = true \/ PrimFloat.is_nan b = true -> isclose a b = false.
Proof.
  intros H. unfold isclose, isclose_tol, isfinite. cbn [nisnan nisinf neqb FNum].
  assert (E : PrimFloat.eqb a b = false).
  { destruct (PrimFloat.eqb a b) eqn:E; [|reflexivity]. apply eqb_num in E as [Na Nb]. unfold fnum in *. destruct H; congruence. }
  rewrite E. destruct H as [-> | ->]; cbn [negb andb]; [reflexivity|]. rewrite andb_false_r. reflexivity.
Qed.

(** ** Closest point of a segment *)

Lemma segment_to_point_unit (s : segment float) p : unit_or_nan (segment_to_point s p).
Proof.
  unfold segment_to_point. set (c1 := vdot _ (sg_dir s)). set (c2 := vdot (sg_dir s) (sg_dir s)). cbn [nltb ndiv n0 n1 FNum].
  destruct (PrimFloat.ltb c1 PrimFloat.zero) eqn:N; cbn [orb]; [apply unit_0|].
  destruct (isclose c1 PrimFloat.zero) eqn:C; [apply unit_0|].
  destruct (PrimFloat.ltb c2 c1) eqn:L; cbn [orb]; [apply unit_1|].
  destruct (isclose c2 c1) eqn:C2; [apply unit_1|]. apply unit_div; [|exact L].
  destruct (not_lt0_cases c1 N) as [H|H]; [right; exact H|left]. destruct (leb_eq_or_lt _ _ H) as [P|E]; [exact P|].
  exfalso. assert (K : isclose c1 n0 = true); [|change (isclose c1 PrimFloat.zero = true) in K; congruence].
  apply isclose_zero; [exact (proj2 (leb_num _ _ H))|]. apply eqb_leb in E as [_ E].
  destruct (nonneg_cases c1 H) as [Ei | (F & P)]; [rewrite Ei in E; vm_compute in E; discriminate|]. split; [exact F|].
  apply (leb_R c1 0%float F ffin_0) in E. change (FR 0%float) with 0 in E. replace (FR c1) with 0 by lra. rewrite Rabs_R0. left. apply atol_fin.
Qed.

(** ** Validation of a grid *)

(** Neighbours of a grid are more than 1e-8 apart, as the computer subtracts. *)
Fixpoint spaced (l : list float) : bool :=
  match l with
  | a :: ((b :: _) as l') => PrimFloat.ltb (@atol_default float FNum) (PrimFloat.sub b a) && spaced l'
  | _ => true
  end.

Lemma gap_ok (d : float) : fnum d -> (PrimFloat.ltb d n0 || isclose d n0) = negb (PrimFloat.ltb (@atol_default float FNum) d).
Proof.
  intros N. destruct atol_fin as (Fa & Pa). destruct (fnum_cases d N) as [-> | [-> | F]].
  - change (isclose infinity (n0 (T:=float))) with false. reflexivity.
  - vm_compute. reflexivity.
  - destruct (PrimFloat.ltb (@atol_default float FNum) d) eqn:G; cbn [negb].
    + apply ltb_R in G; try assumption. apply orb_false_iff. split.
      * destruct (PrimFloat.ltb d n0) eqn:L; [|reflexivity]. apply (ltb_R d 0%float F ffin_0) in L. change (FR 0%float) with 0 in L. lra.
      * destruct (isclose d n0) eqn:L; [|reflexivity]. apply isclose_zero in L; [|exact N]. destruct L as [_ L]. rewrite Rabs_right in L by lra. lra.
    + assert (H : FR d <= FR (@atol_default float FNum)).
      { destruct (Rle_lt_dec (FR d) (FR (@atol_default float FNum))) as [|C]; [assumption|]. apply (ltb_R _ _ Fa F) in C. congruence. }
      destruct (Rlt_le_dec (FR d) 0) as [L|L].
      * change 0 with (FR 0%float) in L. apply (ltb_R d 0%float F ffin_0) in L. change (n0 (T:=float)) with 0%float. rewrite L. reflexivity.
      * replace (isclose d n0) with true; [apply orb_true_r|]. symmetry. apply isclose_zero; [exact N|]. split; [exact F|]. rewrite Rabs_right by lra. exact H.
Qed.
Lemma existsb_or {A} (f g : A -> bool) l : existsb f l || existsb g l = existsb (fun x => f x || g x) l.
Proof. induction l as [|x l IH]; [reflexivity|]. cbn. rewrite <- IH. destruct (f x), (g x), (existsb f l), (existsb g l); reflexivity. Qed.
Lemma diff_gaps (l : list float) : (forall x, In x l -> ffin x) ->
  existsb (fun d => PrimFloat.ltb d n0 || isclose d n0) (diff l) = negb (spaced l).
Proof.
  induction l as [|a [|b l] IH]; intros F; [reflexivity|reflexivity|]. change (diff (a :: b :: l)) with (PrimFloat.sub b a :: diff (b :: l)).
  cbn [existsb]. change (spaced (a :: b :: l)) with (PrimFloat.ltb (@atol_default float FNum) (PrimFloat.sub b a) && spaced (b :: l)).
  rewrite IH by (intros x I; apply F; right; exact I). rewrite gap_ok; [rewrite negb_andb; reflexivity|].
  apply (rounded_num (FR b - FR a)). apply sub_rounded; apply F; cbn; auto.
Qed.
Lemma check_grid_fin (l : list float) : l <> [] -> (forall x, In x l -> ffin x) ->
  check_grid l = if spaced l then Ok l else Raise ValueError.
Proof.
  intros N F. unfold check_grid. cbn [nltb FNum]. rewrite existsb_or. rewrite diff_gaps by exact F. destruct (spaced l); [|reflexivity].
  cbn [negb]. destruct l as [|x l]; [contradiction|reflexivity].
Qed.
Lemma spaced_increasing (l : list float) : (forall x, In x l -> ffin x) -> spaced l = true ->
  forall i j, (i < j)%nat -> (j < length l)%nat -> FR (nth i l 0%float) < FR (nth j l 0%float).
Proof.
  induction l as [|a [|b l] IH]; intros F S i j Hij Hj; [cbn in Hj; lia|cbn in Hj; lia|].
  change (spaced (a :: b :: l)) with (PrimFloat.ltb (@atol_default float FNum) (PrimFloat.sub b a) && spaced (b :: l)) in S. apply andb_prop in S as [S1 S2].
  specialize (IH (fun x I => F x (or_intror I)) S2).
  assert (Fa : ffin a) by (apply F; cbn; auto). assert (Fb : ffin b) by (apply F; cbn; auto).
  assert (Hab : FR a < FR b).
  { destruct (Rlt_le_dec (FR a) (FR b)) as [|C]; [assumption|]. exfalso. pose proof (sub_rounded b a Fb Fa) as R.
    pose proof (rounded_nonpos _ _ R ltac:(lra)) as L. destruct atol_fin as (Ft & Pt).
    assert (L2 : PrimFloat.leb (@atol_default float FNum) 0 = true) by (eapply leb_trans; [apply ltb_leb; exact S1|exact L]).
    apply (leb_R _ 0%float Ft ffin_0) in L2. change (FR 0%float) with 0 in L2. lra. }
  destruct j as [|j]; [lia|]. destruct i as [|i].
  - cbn [nth]. destruct j as [|j]; [exact Hab|]. apply Rlt_trans with (FR b); [exact Hab|]. exact (IH 0%nat (S j) ltac:(lia) ltac:(cbn in *; lia)).
  - exact (IH i j ltac:(lia) ltac:(cbn in *; lia)).
Qed.

(** ** numpy.linspace *)

Lemma of_nat_exact k : (Z.of_nat k < 2 ^ 53)%Z -> ffin (@of_nat float FNum k) /\ FR (@of_nat float FNum k) = INR k.
Proof.
  intros H. destruct (f_of_Z_exact (Z.of_nat k) ltac:(lia)) as (F & E). unfold of_nat. cbn [nlit FNum].
  assert (E1 : f_of_Z (Zpos 1) = PrimFloat.one) by (vm_compute; reflexivity). rewrite E1.
  pose proof (div_rounded (f_of_Z (Z.of_nat k)) PrimFloat.one F ffin_1 ltac:(rewrite FR_1; lra)) as R. rewrite FR_1 in R.
  replace (FR (f_of_Z (Z.of_nat k)) / 1) with (FR (f_of_Z (Z.of_nat k))) in R by field. destruct (rounded_exact _ _ F R) as (F' & E'). split; [exact F'|]. rewrite E', E. symmetry. apply INR_IZR_INZ.
Qed.

Section Linspace.
  Variables a b : float.
  Variable n : nat.
  Hypothesis Fa : ffin a.
  Hypothesis Fb : ffin b.
  Hypothesis Fd : ffin (PrimFloat.sub b a).
  Hypothesis Hn : (2 <= n)%nat.
  Hypothesis Hn53 : (Z.of_nat n <= 2 ^ 51)%Z.
  Let delta := PrimFloat.sub b a.
  Let N := @of_nat float FNum (n - 1).
  Let step := PrimFloat.div delta N.
  Let y k := if PrimFloat.eqb step PrimFloat.zero then PrimFloat.add (PrimFloat.mul (PrimFloat.div (@of_nat float FNum k) N) delta) a
             else PrimFloat.add (PrimFloat.mul (@of_nat float FNum k) step) a.

  Lemma linspace_eq : linspace_nat a b n = map y (seq 0 (n - 1)) ++ [b].
  Proof. unfold linspace_nat. destruct n as [|[|m]]; [lia|lia|]. reflexivity. Qed.
  Lemma N_exact : ffin N /\ FR N = INR (n - 1) /\ 1 <= FR N.
  Proof.
    destruct (of_nat_exact (n - 1)) as (F & E); [lia|]. split; [exact F|]. split; [exact E|]. fold N in E. rewrite E. change 1 with (INR 1). apply le_INR. lia.
  Qed.
  Lemma step_rounded : rounded (FR delta / FR N) step.
  Proof. destruct N_exact as (F & _ & P). apply div_rounded; [exact Fd|exact F|lra]. Qed.
  Lemma step_fin : ffin step.
  Proof.
    destruct N_exact as (F & _ & P). assert (Fo : ffin (PrimFloat.opp delta)) by (apply ffin_opp; exact Fd).
    assert (D : Rabs (FR delta / FR N) <= Rabs (FR delta)).
    { unfold Rdiv. rewrite Rabs_mult, Rabs_inv, (Rabs_right (FR N)) by lra. rewrite <- (Rmult_1_r (Rabs (FR delta))) at 2. apply Rmult_le_compat_l; [apply Rabs_pos|]. rewrite <- Rinv_1. apply Rinv_le_contravar; lra. }
    destruct (Rle_lt_dec 0 (FR delta)) as [L|L].
    - apply (rounded_between (PrimFloat.opp delta) delta _ _ Fo Fd step_rounded). rewrite FR_opp. rewrite (Rabs_right (FR delta)) in D by lra. unfold Rabs in D. destruct (Rcase_abs (FR delta / FR N)); lra.
    - apply (rounded_between delta (PrimFloat.opp delta) _ _ Fd Fo step_rounded). rewrite FR_opp. rewrite (Rabs_left (FR delta)) in D by lra. unfold Rabs in D. destruct (Rcase_abs (FR delta / FR N)); lra.
  Qed.

  (** The first point is a. *)
  Lemma linspace_first : ffin (y 0) /\ FR (y 0) = FR a.
  Proof.
    assert (Z : @of_nat float FNum 0 = PrimFloat.zero) by (vm_compute; reflexivity). unfold y. rewrite Z.
    assert (G : forall m, ffin m -> FR m = 0 -> ffin (PrimFloat.add m a) /\ FR (PrimFloat.add m a) = FR a).
    { intros m Fm Em. pose proof (add_rounded m a Fm Fa) as R. rewrite Em, Rplus_0_l in R. apply rounded_exact; assumption. }
    assert (M : forall x, ffin x -> ffin (PrimFloat.mul PrimFloat.zero x) /\ FR (PrimFloat.mul PrimFloat.zero x) = 0).
    { intros x Fx. pose proof (mul_rounded PrimFloat.zero x ffin_0 Fx) as R. rewrite FR_0, Rmult_0_l in R. rewrite <- FR_0 in R. apply (rounded_exact PrimFloat.zero _ ffin_0 R). }
    destruct (PrimFloat.eqb step PrimFloat.zero).
    - destruct N_exact as (FN & _ & P). pose proof (div_rounded PrimFloat.zero N ffin_0 FN ltac:(lra)) as R. rewrite FR_0 in R. replace (0 / FR N) with 0 in R by (field; lra).
      destruct (rounded_exact PrimFloat.zero _ ffin_0 R) as (Fq & Eq). rewrite FR_0 in Eq.
      pose proof (mul_rounded _ delta Fq Fd) as R2. rewrite Eq, Rmult_0_l in R2. destruct (rounded_exact PrimFloat.zero _ ffin_0 R2) as (F2 & E2). apply G; [exact F2|exact E2].
    - destruct (M step step_fin) as (F2 & E2). apply G; assumption.
  Qed.

  (** Ascending, if the step is a normal number. *)
  Hypothesis Hab : FR a < FR b.
  Hypothesis Hstep : INR n * tiny <= FR b - FR a.

  Lemma n_real : INR (n - 1) + 1 = INR n.
  Proof. rewrite <- S_INR. f_equal. lia. Qed.
  Lemma u_small : INR n * uro <= / 4.
  Proof.
    assert (E : INR n <= IZR (2 ^ 51)) by (rewrite INR_IZR_INZ; apply IZR_le; exact Hn53). unfold uro.
    change (2 ^ 51)%Z with 2251799813685248%Z in E. lra.
  Qed.
  Lemma tiny_pos : 0 < tiny. Proof. apply bpow_gt_0. Qed.

  Lemma delta_bounds : (FR b - FR a) * (1 - uro) <= FR delta <= (FR b - FR a) * (1 + uro).
  Proof.
    pose proof (rounded_fin _ _ (sub_rounded b a Fb Fa) Fd) as E. fold delta in E. destruct (rnd_sub_rel b a) as (e & He & E'). rewrite E, E'.
    assert (- uro <= e <= uro) by (revert He; unfold Rabs; destruct (Rcase_abs e); lra). split; apply Rmult_le_compat_l; lra.
  Qed.
  Lemma step_bounds : tiny <= FR delta / FR N /\ tiny * (1 - uro) <= FR step <= (FR b - FR a) / FR N * ((1 + uro) * (1 + uro)).
  Proof.
    destruct N_exact as (_ & EN & P). pose proof delta_bounds as D. pose proof uro_pos as U. pose proof tiny_pos as T. pose proof u_small as S. pose proof n_real as NR.
    assert (L : tiny <= FR delta / FR N).
    { apply (Rmult_le_reg_r (FR N)); [lra|]. unfold Rdiv. rewrite Rmult_assoc, Rinv_l, Rmult_1_r by lra. rewrite EN in *.
      apply Rle_trans with ((INR n * tiny) * (1 - uro)); [|apply Rle_trans with ((FR b - FR a) * (1 - uro)); [apply Rmult_le_compat_r; [lra|exact Hstep]|apply D]].
      rewrite (Rmult_comm tiny). replace (INR n * tiny * (1 - uro)) with (tiny * (INR n * (1 - uro))) by ring. rewrite (Rmult_comm _ tiny). apply Rmult_le_compat_l; [lra|]. lra. }
    split; [exact L|]. pose proof (rounded_fin _ _ step_rounded step_fin) as E. destruct (rnd_rel (FR delta / FR N)) as (e & He & E'); [rewrite Rabs_right by lra; exact L|].
    rewrite E, E'. assert (He' : - uro <= e <= uro) by (revert He; unfold Rabs; destruct (Rcase_abs e); lra).
    assert (H1 : FR delta / FR N <= (FR b - FR a) / FR N * (1 + uro)).
    { unfold Rdiv. rewrite (Rmult_comm (FR b - FR a)), Rmult_assoc, (Rmult_comm (FR delta)). apply Rmult_le_compat_l; [left; apply Rinv_0_lt_compat; lra|apply D]. }
    split.
    - apply Rmult_le_compat; lra.
    - rewrite <- Rmult_assoc. apply Rmult_le_compat; lra.
  Qed.
  Lemma step_nonzero : PrimFloat.eqb step PrimFloat.zero = false.
  Proof.
    destruct (PrimFloat.eqb step PrimFloat.zero) eqn:E; [|reflexivity]. apply (eqb_R step PrimFloat.zero step_fin ffin_0) in E. rewrite FR_0 in E.
    destruct step_bounds as (_ & L & _). pose proof tiny_pos. pose proof uro_pos. nra.
  Qed.
  Lemma step_pos : 0 < FR step.
  Proof. destruct step_bounds as (_ & L & _). pose proof tiny_pos. pose proof uro_pos. nra. Qed.

  (** k * step stays below b - a. *)
  Lemma multiple k : (k < n - 1)%nat -> exists m, m = PrimFloat.mul (@of_nat float FNum k) step /\ ffin m /\ FR m <= FR b - FR a /\ rounded (INR k * FR step) m.
  Proof.
    intros Hk. destruct (of_nat_exact k) as (Fk & Ek); [lia|]. exists (PrimFloat.mul (@of_nat float FNum k) step). split; [reflexivity|].
    pose proof (mul_rounded _ _ Fk step_fin) as R. rewrite Ek in R. destruct N_exact as (_ & EN & P). pose proof uro_pos as U. pose proof u_small as US. pose proof n_real as NR.
    pose proof step_pos as SP. destruct step_bounds as (_ & Ls & Us). pose proof (pos_INR k) as K0.
    assert (Kn : INR k + 1 <= INR (n - 1)) by (rewrite <- S_INR; apply le_INR; lia).
    set (D := FR b - FR a) in *. assert (HD : 0 < D) by (unfold D; lra).
    assert (V : INR k * FR step * (1 + uro) <= D).
    { apply Rle_trans with (INR k * (D / FR N * ((1 + uro) * (1 + uro))) * (1 + uro)); [apply Rmult_le_compat_r; [lra|]; apply Rmult_le_compat_l; lra|].
      rewrite EN in *. replace (INR k * (D / INR (n - 1) * ((1 + uro) * (1 + uro))) * (1 + uro)) with (D * ((INR k * ((1 + uro) * (1 + uro) * (1 + uro))) / INR (n - 1))) by (field; lra).
      rewrite <- (Rmult_1_r D) at 2. apply Rmult_le_compat_l; [lra|]. apply (Rmult_le_reg_r (INR (n - 1))); [lra|]. unfold Rdiv. rewrite Rmult_assoc, Rinv_l, Rmult_1_r, Rmult_1_l by lra.
      apply Rle_trans with ((INR (n - 1) - 1) * ((1 + uro) * (1 + uro) * (1 + uro))); [apply Rmult_le_compat_r; [|lra]; repeat apply Rmult_le_pos; lra|].
      assert (U3 : (1 + uro) * (1 + uro) * (1 + uro) <= 1 + 4 * uro) by (unfold uro; lra).
      apply Rle_trans with ((INR (n - 1) - 1) * (1 + 4 * uro)); [apply Rmult_le_compat_l; [lra|exact U3]|]. nra. }
    assert (Q : ffin (PrimFloat.mul (@of_nat float FNum k) step)).
    { (* the float next to the bound *)
      assert (B : INR k * FR step <= FR delta).
      { pose proof delta_bounds as DB. fold D in DB. assert (INR k * FR step <= D * (1 - uro)); [|lra].
        apply Rle_trans with (INR k * (D / FR N * ((1 + uro) * (1 + uro)))); [apply Rmult_le_compat_l; lra|].
        rewrite EN in *. replace (INR k * (D / INR (n - 1) * ((1 + uro) * (1 + uro)))) with (D * ((INR k * ((1 + uro) * (1 + uro))) / INR (n - 1))) by (field; lra).
        apply Rmult_le_compat_l; [lra|]. apply (Rmult_le_reg_r (INR (n - 1))); [lra|]. unfold Rdiv. rewrite Rmult_assoc, Rinv_l, Rmult_1_r by lra.
        assert (U2 : (1 + uro) * (1 + uro) <= 1 + 3 * uro) by (unfold uro; lra).
        apply Rle_trans with ((INR (n - 1) - 1) * (1 + 3 * uro)); [apply Rmult_le_compat; nra|]. nra. }
      apply (rounded_between PrimFloat.zero delta _ _ ffin_0 Fd R). rewrite FR_0. split; [apply Rmult_le_pos; lra|exact B]. }
    split; [exact Q|]. split; [|exact R]. rewrite (rounded_fin _ _ R Q).
    destruct k as [|k]; [cbn [INR]; rewrite Rmult_0_l, rnd_0; lra|].
    pose proof tiny_pos as TP. destruct step_bounds as (Lq & _).
    assert (Hs : tiny <= FR step).
    { (* step rounds a number >= tiny *)
      pose proof (rounded_fin _ _ step_rounded step_fin) as E. rewrite E. replace tiny with (rnd tiny); [apply rnd_le; exact Lq|].
      unfold tiny. apply round_generic; [exact rnd_ok|]. apply generic_format_bpow. vm_compute. discriminate. }
    assert (K1 : 1 <= INR (S k)) by (rewrite S_INR; pose proof (pos_INR k); lra).
    destruct (rnd_rel (INR (S k) * FR step)) as (e & He & E).
    { rewrite Rabs_right by nra. nra. }
    rewrite E. assert (- uro <= e <= uro) by (revert He; unfold Rabs; destruct (Rcase_abs e); lra).
    apply Rle_trans with (INR (S k) * FR step * (1 + uro)); [|exact V]. apply Rmult_le_compat_l; [nra|lra].
  Qed.

  Lemma y_le_b k : (k < n - 1)%nat -> PrimFloat.leb (y k) b = true.
  Proof.
    intros Hk. unfold y. rewrite step_nonzero. destruct (multiple k Hk) as (m & -> & Fm & Lm & _).
    apply (rounded_le _ (FR b) _ b (add_rounded _ a Fm Fa) (rounded_self b Fb)). lra.
  Qed.
  Lemma y_mono i j : (i <= j)%nat -> (j < n - 1)%nat -> PrimFloat.leb (y i) (y j) = true.
  Proof.
    intros Hij Hj. unfold y. rewrite step_nonzero. destruct (multiple i ltac:(lia)) as (m & -> & Fm & _ & Rm). destruct (multiple j Hj) as (m' & -> & Fm' & _ & Rm').
    apply (rounded_le _ _ _ _ (add_rounded _ a Fm Fa) (add_rounded _ a Fm' Fa)). apply Rplus_le_compat_r. apply leb_R; try assumption.
    apply (rounded_le _ _ _ _ Rm Rm'). apply Rmult_le_compat_r; [left; apply step_pos|]. apply le_INR. exact Hij.
  Qed.

  Lemma linspace_length : length (linspace_nat a b n) = n.
  Proof. rewrite linspace_eq, app_length, map_length, seq_length. cbn. lia. Qed.
  Lemma linspace_nth k : nth k (linspace_nat a b n) 0%float = if (k <? n - 1)%nat then y k else if (k =? n - 1)%nat then b else 0%float.
  Proof.
    rewrite linspace_eq. destruct (Nat.ltb_spec k (n - 1)) as [L|L].
    - rewrite app_nth1 by (rewrite map_length, seq_length; exact L). rewrite (nth_indep _ 0%float (y 0)) by (rewrite map_length, seq_length; exact L).
      rewrite map_nth, seq_nth by exact L. reflexivity.
    - rewrite app_nth2 by (rewrite map_length, seq_length; exact L). rewrite map_length, seq_length. destruct (Nat.eqb_spec k (n - 1)) as [->|E].
      + rewrite Nat.sub_diag. reflexivity.
      + destruct (k - (n - 1))%nat as [|[|m]] eqn:Q; try lia; reflexivity.
  Qed.
  Lemma linspace_mono i j : (i <= j)%nat -> (j < n)%nat -> PrimFloat.leb (nth i (linspace_nat a b n) 0%float) (nth j (linspace_nat a b n) 0%float) = true.
  Proof.
    intros Hij Hj. rewrite !linspace_nth. destruct (Nat.ltb_spec j (n - 1)) as [L|L].
    - destruct (Nat.ltb_spec i (n - 1)); [|lia]. apply y_mono; assumption.
    - replace j with (n - 1)%nat in * by lia. rewrite Nat.eqb_refl. destruct (Nat.ltb_spec i (n - 1)) as [L'|L']; [apply y_le_b; exact L'|].
      replace i with (n - 1)%nat by lia. rewrite Nat.eqb_refl. apply leb_refl_num, ffin_num, Fb.
  Qed.
End Linspace.

(** ** The vectorised closest points *)

Lemma add_opp_sub b d : PrimFloat.add (PrimFloat.opp d) b = PrimFloat.sub b d.
Proof.
  apply FloatAxioms.Prim2SF_inj. rewrite FloatAxioms.add_spec, FloatAxioms.sub_spec, FloatAxioms.opp_spec. unfold SF64add, SF64sub, SFadd, SFsub.
  destruct (Prim2SF b) as [sb|sb| |sb mb eb], (Prim2SF d) as [sd|sd| |sd md ed]; cbn [SFopp];
    try reflexivity; try (destruct sb, sd; reflexivity); try (destruct sd; reflexivity).
  cbv zeta. rewrite (Z.min_comm ed eb). f_equal. destruct sb, sd; cbn [negb cond_Zopp]; lia.
Qed.
Lemma ltb_false_trans a x : PrimFloat.ltb a 0 = false -> PrimFloat.ltb a x = true -> PrimFloat.ltb x 0 = false.
Proof.
  intros Ha Hx. destruct (PrimFloat.ltb x 0) eqn:E; [|reflexivity]. exfalso.
  destruct (ltb_num _ _ Hx) as (Na & Nx). destruct (not_lt0_cases a Ha) as [N|L]; [unfold fnum in Na; congruence|].
  pose proof (leb_trans _ _ _ L (ltb_leb _ _ Hx)) as K. rewrite leb_ltb in K; [|reflexivity|exact Nx]. rewrite E in K. discriminate.
Qed.

Definition fup (x : float) (m : bool) (y : float) : float := if m then y else x.
Definition fentry (a b c d e tol : float) : float * float :=
  let up := fup in
  let D := (a * c - b * b)%float in
  let lt := PrimFloat.ltb D tol in
  let nlt := negb lt in
  let sd := up D lt PrimFloat.one in
  let tn := up PrimFloat.zero lt e in
  let td := up D lt c in
  let sn := up PrimFloat.zero nlt (b * e - c * d)%float in
  let tn := up tn nlt (a * e - b * d)%float in
  let m1 := PrimFloat.ltb sn PrimFloat.zero && nlt in
  let sn := up sn m1 PrimFloat.zero in
  let tn := up tn m1 e in
  let td := up td m1 c in
  let m2 := PrimFloat.ltb sd sn && nlt in
  let sn := up sn m2 sd in
  let tn := up tn m2 (e + b)%float in
  let td := up td m2 c in
  let m3 := PrimFloat.ltb tn PrimFloat.zero in
  let tn := up tn m3 PrimFloat.zero in
  let k1 := PrimFloat.ltb (- d)%float PrimFloat.zero && m3 in
  let k2 := PrimFloat.ltb a (- d)%float && m3 in
  let k3 := (negb k1 && negb k2) && m3 in
  let sn := up sn k1 PrimFloat.zero in
  let sn := up sn k2 sd in
  let sn := up sn k3 (- d)%float in
  let sd := up sd k3 a in
  let m4 := PrimFloat.ltb td tn in
  let tn := up tn m4 td in
  let j1 := PrimFloat.ltb (b - d)%float PrimFloat.zero && m4 in
  let j2 := PrimFloat.ltb a (b - d)%float && m4 in
  let j3 := (negb j1 && negb j2) && m4 in
  let sn := up sn j1 PrimFloat.zero in
  let sn := up sn j2 sd in
  let sn := up sn j3 (b - d)%float in
  let sd := up sd j3 a in
  (up PrimFloat.zero (negb (PrimFloat.ltb (PrimFloat.abs sn) tol)) (sn / sd)%float, up PrimFloat.zero (negb (PrimFloat.ltb (PrimFloat.abs tn) tol)) (tn / td)%float).

Lemma fentry_eq a b c d e tol : PrimFloat.ltb 0 tol = true -> PrimFloat.ltb a 0 = false -> PrimFloat.ltb c 0 = false ->
  fentry a b c d e tol = closest_params a b c d e tol.
Proof.
  intros Ht Ha Hc. unfold closest_params. cbn [nltb nabs ndiv nopp nadd nsub nmul n0 n1 FNum]. rewrite add_opp_sub.
  cbv beta delta [fentry fup]. cbv zeta.
  set (D := (a * c - b * b)%float). set (x := (- d)%float). set (y := (b - d)%float). set (p := (b * e - c * d)%float). set (q := (a * e - b * d)%float). set (r := (e + b)%float).
  assert (HD : PrimFloat.ltb D tol = false -> PrimFloat.ltb D 0 = false) by (intros L; exact (ltb_trans_false D tol L Ht)).
  assert (Hx : PrimFloat.ltb a x = true -> PrimFloat.ltb x 0 = false) by (apply ltb_false_trans; exact Ha).
  assert (Hy : PrimFloat.ltb a y = true -> PrimFloat.ltb y 0 = false) by (apply ltb_false_trans; exact Ha).
  change 0%float with PrimFloat.zero in *. clearbody D x y p q r.
  assert (F : forall z v : float, (if negb (PrimFloat.ltb (PrimFloat.abs z) tol) then v else PrimFloat.zero) = (if PrimFloat.ltb (PrimFloat.abs z) tol then PrimFloat.zero else v))
    by (intros z v; destruct (PrimFloat.ltb (PrimFloat.abs z) tol); reflexivity).
  destruct (PrimFloat.ltb D tol) eqn:E1; cbn [negb andb].
  - rewrite !andb_false_r. destruct (PrimFloat.ltb e PrimFloat.zero) eqn:E2; cbn [negb andb].
    + rewrite Hc. rewrite !andb_false_r, !andb_true_r. cbn [andb negb].
      destruct (PrimFloat.ltb x PrimFloat.zero) eqn:X1, (PrimFloat.ltb a x) eqn:X2; cbn [andb negb]; rewrite ?F; try reflexivity. specialize (Hx eq_refl). discriminate.
    + rewrite !andb_false_r. destruct (PrimFloat.ltb c e) eqn:E3; rewrite ?andb_false_r, ?andb_true_r; [|rewrite ?F; reflexivity].
      destruct (PrimFloat.ltb y PrimFloat.zero) eqn:X1, (PrimFloat.ltb a y) eqn:X2; cbn [andb negb]; rewrite ?F; try reflexivity. specialize (Hy eq_refl). discriminate.
  - specialize (HD eq_refl). rewrite !andb_true_r.
    assert (T : forall sn sd tn td, PrimFloat.ltb td PrimFloat.zero = false ->
      (let m3 := PrimFloat.ltb tn PrimFloat.zero in
       let tn := if m3 then PrimFloat.zero else tn in
       let k1 := PrimFloat.ltb x PrimFloat.zero && m3 in
       let k2 := PrimFloat.ltb a x && m3 in
       let k3 := (negb k1 && negb k2) && m3 in
       let sn := if k1 then PrimFloat.zero else sn in
       let sn := if k2 then sd else sn in
       let sn := if k3 then x else sn in
       let sd := if k3 then a else sd in
       let m4 := PrimFloat.ltb td tn in
       let tn := if m4 then td else tn in
       let j1 := PrimFloat.ltb y PrimFloat.zero && m4 in
       let j2 := PrimFloat.ltb a y && m4 in
       let j3 := (negb j1 && negb j2) && m4 in
       let sn := if j1 then PrimFloat.zero else sn in
       let sn := if j2 then sd else sn in
       let sn := if j3 then y else sn in
       let sd := if j3 then a else sd in
       (if negb (PrimFloat.ltb (PrimFloat.abs sn) tol) then (sn / sd)%float else PrimFloat.zero, if negb (PrimFloat.ltb (PrimFloat.abs tn) tol) then (tn / td)%float else PrimFloat.zero)) =
      (let '(sn, sd, tn) := if PrimFloat.ltb tn PrimFloat.zero
          then if PrimFloat.ltb x PrimFloat.zero then (PrimFloat.zero, sd, PrimFloat.zero) else if PrimFloat.ltb a x then (sd, sd, PrimFloat.zero) else (x, a, PrimFloat.zero)
          else if PrimFloat.ltb td tn then if PrimFloat.ltb y PrimFloat.zero then (PrimFloat.zero, sd, td) else if PrimFloat.ltb a y then (sd, sd, td) else (y, a, td)
          else (sn, sd, tn) in
       (if PrimFloat.ltb (PrimFloat.abs sn) tol then PrimFloat.zero else (sn / sd)%float, if PrimFloat.ltb (PrimFloat.abs tn) tol then PrimFloat.zero else (tn / td)%float))).
    { intros sn sd tn td Htd. cbv zeta. destruct (PrimFloat.ltb tn PrimFloat.zero) eqn:E2; cbn [negb andb].
      - rewrite Htd. rewrite !andb_false_r, !andb_true_r. cbn [andb negb].
        destruct (PrimFloat.ltb x PrimFloat.zero) eqn:X1, (PrimFloat.ltb a x) eqn:X2; cbn [andb negb]; rewrite ?F; try reflexivity. specialize (Hx eq_refl). discriminate.
      - rewrite !andb_false_r. destruct (PrimFloat.ltb td tn) eqn:E3; rewrite ?andb_false_r, ?andb_true_r; [|rewrite ?F; reflexivity].
        destruct (PrimFloat.ltb y PrimFloat.zero) eqn:X1, (PrimFloat.ltb a y) eqn:X2; cbn [andb negb]; rewrite ?F; try reflexivity. specialize (Hy eq_refl). discriminate. }
    cbv zeta in T. destruct (PrimFloat.ltb p PrimFloat.zero) eqn:P0; cbn [andb].
    + rewrite HD. exact (T PrimFloat.zero D e c Hc).
    + destruct (PrimFloat.ltb D p) eqn:P1; cbn [andb]; [exact (T D D r c Hc)|exact (T p D q D HD)].
Qed.

Lemma segments_params_float (data1 data2 : list (list float)) tol i j : PrimFloat.ltb 0 tol = true ->
  let '(t1, t2) := segments_params data1 data2 tol in
  (t1 i j, t2 i j) = segment_to_segment (mkSeg (nth i data1 []) (nth (S i) data1 [])) (mkSeg (nth j data2 []) (nth (S j) data2 [])) tol.
Proof.
  intros Ht. unfold segment_to_segment.
  rewrite <- fentry_eq; [reflexivity|exact Ht|apply pos_or_nan_ltb, vdot_self_pos|apply pos_or_nan_ltb, vdot_self_pos].
Qed.

(** ** Truncation *)

Lemma FR_inj_nz x y : ffin x -> ffin y -> FR x = FR y -> FR x <> 0 -> x = y.
Proof.
  intros Fx Fy E N. apply FR_ext. apply B2R_inj; [| |exact E].
  - destruct (Prim2B x) eqn:Q; try reflexivity; apply ffin_B in Fx; rewrite ?Q in Fx; try discriminate. unfold FR in N. rewrite Q in N. cbn in N. lra.
  - destruct (Prim2B y) eqn:Q; try reflexivity; apply ffin_B in Fy; rewrite ?Q in Fy; try discriminate. unfold FR in E, N. rewrite Q in E. cbn in E. rewrite E in N. lra.
Qed.
