(** The model in IEEE binary64: rounding, closeness, lengths. *)
From Coq Require Import PrimFloat FloatOps FloatAxioms SpecFloat.
From Coq Require Import ZArith QArith Qround Qreals List Bool Arith Lia Reals Lra Psatz Permutation.
From Flocq Require Import Core BinarySingleNaN.
From Flocq Require Import IEEE754.PrimFloat.
From Verif Require Import Num Py Numeric Curve Vec Geom DiffGeom Interp Spec GeomSpec VecFacts CurveProofs DiffGeomProofs InterpProofs2 FloatFacts FloatFacts2.
Import ListNotations.
Local Open Scope R_scope.
Local Notation float := PrimFloat.float.

(** ** Rounding to an integer *)

Lemma half_even_nearest q f c : 0 <= f < 1 -> (c = Lt -> f < / 2) -> (c = Gt -> / 2 < f) -> (c = Eq -> f = / 2) ->
  nearest_even (IZR q + f) (half_even q c).
Proof.
  intros F L G E. unfold nearest_even, half_even. destruct c.
  - specialize (E eq_refl). destruct (Z.even q) eqn:Ev.
    + replace (IZR q + f - IZR q) with (/ 2) by lra. rewrite Rabs_right by lra. split; [lra|auto].
    + rewrite plus_IZR. replace (IZR q + f - (IZR q + 1)) with (- / 2) by lra. rewrite Rabs_Ropp, Rabs_right by lra. split; [lra|]. intros _. rewrite Z.even_add, Ev. reflexivity.
  - specialize (L eq_refl). replace (IZR q + f - IZR q) with f by lra. rewrite Rabs_right by lra. split; [lra|intros; lra].
  - specialize (G eq_refl). rewrite plus_IZR. replace (IZR q + f - (IZR q + 1)) with (- (1 - f)) by lra. rewrite Rabs_Ropp, Rabs_right by lra. split; [lra|intros; lra].
Qed.
Lemma nearest_even_int z : nearest_even (IZR z) z.
Proof. unfold nearest_even. rewrite Rminus_diag_eq, Rabs_R0 by reflexivity. split; intros; lra. Qed.
Lemma nearest_even_opp x k : nearest_even x k -> nearest_even (- x) (- k).
Proof. unfold nearest_even. rewrite opp_IZR. replace (- x - - IZR k) with (- (x - IZR k)) by lra. rewrite Rabs_Ropp, Z.even_opp. auto. Qed.

Lemma Fround_spec x : ffin x -> exists k, Fround x = Ok k /\ nearest_even (FR x) k.
Proof.
  intros F. destruct (SF_cases x) as [(_ & E)|[(s & _ & E)|[(s & E & _ & Z)|(s & m & e & E)]]].
  - exfalso. apply ffin_num in F. unfold fnum in F. congruence.
  - exfalso. destruct s; subst x; [exact (ninf_not_fin F)|exact (inf_not_fin F)].
  - exists 0%Z. unfold Fround. rewrite E, Z. split; [reflexivity|apply (nearest_even_int 0)].
  - destruct (FR_finite x s m e E) as (_ & V & M). unfold Fround. rewrite E. cbv zeta.
    set (k := if (0 <=? e)%Z then _ else _).
    assert (N : nearest_even (IZR (Z.pos m) * bpow radix2 e) k).
    { unfold k. destruct (Z.leb_spec 0 e) as [L|L].
      - rewrite bpow_pos_Z, <- mult_IZR by exact L. apply nearest_even_int.
      - rewrite bpow_neg_Z by exact L. set (d := (2 ^ (- e))%Z). assert (Hd : (0 < d)%Z) by (apply Z.pow_pos_nonneg; lia).
        pose proof (Z_div_mod_eq_full (Z.pos m) d) as D. pose proof (Z.mod_pos_bound (Z.pos m) d Hd) as B.
        set (q := (Z.pos m / d)%Z) in *. set (r := (Z.pos m mod d)%Z) in *.
        rewrite D, plus_IZR, mult_IZR. assert (Hd' : 0 < IZR d) by (apply IZR_lt; exact Hd). destruct B as [B1 B2]. apply IZR_le in B1. apply IZR_lt in B2.
        replace ((IZR d * IZR q + IZR r) * / IZR d) with (IZR q + IZR r / IZR d) by (field; lra).
        assert (I : forall c, IZR r / IZR d < c <-> IZR r < c * IZR d).
        { intros c. split; intros Hc; [apply (Rmult_lt_compat_r (IZR d)) in Hc; [|exact Hd']; unfold Rdiv in Hc; rewrite Rmult_assoc, Rinv_l in Hc by lra; lra|].
          apply (Rmult_lt_reg_r (IZR d)); [exact Hd'|]. unfold Rdiv. rewrite Rmult_assoc, Rinv_l by lra. lra. }
        assert (I' : forall c, c < IZR r / IZR d <-> c * IZR d < IZR r).
        { intros c. split; intros Hc; [apply (Rmult_lt_compat_r (IZR d)) in Hc; [|exact Hd']; unfold Rdiv in Hc; rewrite Rmult_assoc, Rinv_l in Hc by lra; lra|].
          apply (Rmult_lt_reg_r (IZR d)); [exact Hd'|]. unfold Rdiv. rewrite Rmult_assoc, Rinv_l by lra. lra. }
        apply half_even_nearest.
        + split; [unfold Rdiv; apply Rmult_le_pos; [exact B1|left; apply Rinv_0_lt_compat; exact Hd']|]. apply I. lra.
        + intros C. apply Z.compare_lt_iff in C. apply IZR_lt in C. rewrite mult_IZR in C. apply I. lra.
        + intros C. apply Z.compare_gt_iff in C. apply IZR_lt in C. rewrite mult_IZR in C. apply I'. lra.
        + intros C. apply Z.compare_eq_iff in C. apply (f_equal IZR) in C. rewrite mult_IZR in C. rewrite <- C. field. lra. }
    rewrite V. destruct s; eexists; (split; [reflexivity|]).
    + replace (-1 * (IZR (Z.pos m) * bpow radix2 e)) with (- (IZR (Z.pos m) * bpow radix2 e)) by ring. apply nearest_even_opp. exact N.
    + rewrite Rmult_1_l. exact N.
Qed.

Lemma Qround_he_nearest (x : Q) : nearest_even (Q2R x) (Qround_he x).
Proof.
  unfold Qround_he. pose proof (Qfloor_le x) as L. pose proof (Qlt_floor x) as U. set (k := Qfloor x) in *.
  assert (E : Q2R x = IZR k + Q2R (x - inject_Z k)) by (unfold Qminus; rewrite Q2R_plus, Q2R_opp; unfold inject_Z, Q2R at 3; cbn; lra).
  apply Qle_Rle in L. apply Qlt_Rlt in U. unfold inject_Z in L, U. unfold Q2R at 1 in L. unfold Q2R at 2 in U. cbn [Qnum Qden] in L, U. rewrite plus_IZR in U.
  set (f := Q2R (x - inject_Z k)) in *. rewrite E. apply half_even_nearest.
  - lra.
  - intros C. apply Qlt_alt in C. apply Qlt_Rlt in C. fold f in C. unfold Q2R in C. cbn in C. lra.
  - intros C. apply Qgt_alt in C. apply Qlt_Rlt in C. fold f in C. unfold Q2R in C. cbn in C. lra.
  - intros C. apply Qeq_alt in C. apply Qeq_eqR in C. fold f in C. rewrite C. unfold Q2R. cbn. lra.
Qed.

(** ** Closeness *)

Lemma isfinite_fin (x : float) : isfinite x = true <-> ffin x.
Proof.
  unfold isfinite. cbn [nisnan nisinf FNum]. unfold ffin. rewrite is_nan_equiv, is_infinity_equiv, is_finite_equiv.
  destruct (Prim2B x); cbn; split; congruence.
Qed.
Lemma isclose_refl (x : float) : isclose x x = negb (PrimFloat.is_nan x).
Proof.
  unfold isclose, isclose_tol. destruct (isfinite x) eqn:F; cbn [andb].
  - apply isfinite_fin in F. rewrite (ffin_num x F). cbn [negb nleb nabs nsub nadd nmul FNum].
    assert (Z : ffin (PrimFloat.sub x x) /\ FR (PrimFloat.sub x x) = 0).
    { pose proof (sub_rounded x x F F) as R. rewrite Rminus_diag_eq in R by reflexivity. apply (rounded_exact 0%float); [exact ffin_0|exact R]. }
    destruct Z as (Z1 & Z2).
    assert (A : PrimFloat.leb 0 (PrimFloat.mul rtol_default (PrimFloat.abs x)) = true).
    { assert (Fr : ffin rtol_default) by reflexivity. assert (Fa : ffin (PrimFloat.abs x)) by (apply ffin_abs; exact F).
      apply (rounded_nonneg _ _ (mul_rounded _ _ Fr Fa)). rewrite FR_abs. apply Rmult_le_pos; [|apply Rabs_pos].
      change 0 with (FR 0%float). apply leb_R; [exact ffin_0|exact Fr|reflexivity]. }
    destruct (add_nonneg (@atol_default float FNum) _ ltac:(vm_compute; reflexivity) A) as (B & _). eapply leb_trans; [|exact B].
    apply leb_R; [apply ffin_abs; exact Z1|exact ffin_0|]. rewrite FR_abs, Z2, Rabs_R0. change (FR 0%float) with 0. lra.
  - apply eqb_refl_num.
Qed.
Lemma isequal_refl d (x : float) : isequal d d x x = negb (PrimFloat.is_nan x).
Proof. unfold isequal. destruct d; cbn [is_int andb]; [apply eqb_refl_num|apply isclose_refl]. Qed.

(** ** Distances *)

(** A possible binary64 value of the Euclidean distance: the squares of the
    coordinate differences summed in some order, and the square root. *)
Definition chord_value (p q : list float) (r : float) : Prop :=
  exists s, sums_to (map (fun ab => PrimFloat.mul (PrimFloat.sub (snd ab) (fst ab)) (PrimFloat.sub (snd ab) (fst ab))) (combine p q)) s /\ r = PrimFloat.sqrt s.

Definition fin_point (p : list float) : Prop := forall x, In x p -> ffin x.

Lemma row_diff_sq (p q : list float) : map (fun x => PrimFloat.mul x x) (row_diff p q) =
  map (fun ab => PrimFloat.mul (PrimFloat.sub (snd ab) (fst ab)) (PrimFloat.sub (snd ab) (fst ab))) (combine p q).
Proof. revert q. induction p as [|a p IH]; intros [|b q]; cbn [row_diff combine map]; try reflexivity. rewrite IH. reflexivity. Qed.
Lemma chord_model (p q : list float) : chord_value p q (nsqrt (vsum (map (fun x => nmul x x) (row_diff p q)))).
Proof. unfold chord_value. eexists. split; [|reflexivity]. cbn [nmul FNum]. rewrite row_diff_sq. apply fold_right_sums. Qed.
Lemma chord_swap p q r : chord_value p q r <-> chord_value q p r.
Proof.
  assert (G : forall p q r, chord_value p q r -> chord_value q p r).
  { clear. intros p q r (s & S & E). exists s. split; [|exact E]. revert S. match goal with |- sums_to ?a _ -> sums_to ?b _ => replace b with a; [auto|] end. clear.
    revert q. induction p as [|a p IH]; intros [|b q]; cbn [combine map]; try reflexivity. cbn [fst snd]. rewrite IH. f_equal. apply sub_swap_sq. }
  split; apply G.
Qed.
Lemma vdist_sym (p q : list float) : vdist p q = vdist q p.
Proof.
  unfold vdist, vnorm, vdot. f_equal. f_equal. revert q. induction p as [|a p IH]; intros [|b q]; try reflexivity.
  cbn [vsub map2 nsub nmul FNum]. unfold vsub in IH. rewrite IH. f_equal. apply sub_swap_sq.
Qed.
Lemma vdist_chord (p q : list float) : vdist p q = nsqrt (vsum (map (fun x => nmul x x) (row_diff p q))).
Proof.
  unfold vdist, vnorm, vdot. f_equal. f_equal. revert q. induction p as [|a p IH]; intros [|b q]; try reflexivity.
  cbn [vsub map2 row_diff map nsub nmul FNum]. unfold vsub in IH. rewrite IH. f_equal. apply sub_swap_sq.
Qed.

Lemma terms_num p q x : fin_point p -> fin_point q ->
  In x (map (fun ab => PrimFloat.mul (PrimFloat.sub (snd ab) (fst ab)) (PrimFloat.sub (snd ab) (fst ab))) (combine p q)) ->
  PrimFloat.leb 0 x = true.
Proof.
  intros Hp Hq I. apply in_map_iff in I as ((a, b) & <- & I). cbn [fst snd]. apply mul_self_nonneg.
  apply (rounded_num (FR b - FR a)). apply sub_rounded; [apply Hq; exact (in_combine_r _ _ _ _ I)|apply Hp; exact (in_combine_l _ _ _ _ I)].
Qed.
Lemma chord_nonneg p q r : fin_point p -> fin_point q -> chord_value p q r -> PrimFloat.leb 0 r = true.
Proof.
  intros Hp Hq (s & S & ->). apply sqrt_nonneg. refine (proj1 (sums_nonneg _ _ S _)). intros x I. exact (terms_num p q x Hp Hq I).
Qed.

(** A point is at distance zero from itself. *)
Lemma sub_self_zero x : ffin x -> PrimFloat.sub x x = PrimFloat.zero.
Proof.
  intros F. pose proof (sub_rounded x x F F) as R. rewrite Rminus_diag_eq in R by reflexivity.
  destruct (rounded_exact 0%float _ ffin_0 R) as (F' & E).
  apply FR_ext. apply B2R_Bsign_inj; [apply ffin_B; exact F'|reflexivity|exact E|].
  pose proof (proj1 (ffin_B x) F) as Bx. pose proof (Bminus_correct prec emax Hprec Hmax mode_NE _ _ Bx Bx) as C.
  rewrite <- sub_equiv in C. rewrite (Rminus_diag_eq (B2R (Prim2B x))) in C by reflexivity.
  fold (rnd 0) in C. rewrite rnd_0, Rabs_R0 in C. rewrite Rlt_bool_true in C by apply bpow_gt_0. destruct C as (_ & _ & C).
  rewrite C. rewrite Rcompare_Eq by reflexivity. destruct (Bsign (Prim2B x)); reflexivity.
Qed.
Lemma sums_zeros l s : sums_to l s -> (forall x, In x l -> x = PrimFloat.zero) -> s = PrimFloat.zero.
Proof.
  induction 1 as [|x|l l1 l2 a b P _ IH1 _ IH2]; intros H; [reflexivity|apply H; left; reflexivity|].
  rewrite IH1, IH2; [reflexivity| |]; intros x I; apply H; apply (Permutation_in x (Permutation_sym P)); apply in_or_app; auto.
Qed.
Lemma in_combine_diag {A} (p : list A) a b : In (a, b) (combine p p) -> a = b /\ In a p.
Proof. induction p as [|x p IH]; intros []; [injection H as <- <-; split; [reflexivity|left; reflexivity]|]. destruct (IH H). split; [assumption|right; assumption]. Qed.
Lemma chord_self p r : fin_point p -> chord_value p p r -> r = PrimFloat.zero.
Proof.
  intros Hp (s & S & ->). rewrite (sums_zeros _ _ S); [reflexivity|]. intros x I. apply in_map_iff in I as ((a, b) & <- & I).
  apply in_combine_diag in I as (<- & I). cbn [fst snd]. rewrite sub_self_zero by (apply Hp; exact I). reflexivity.
Qed.

(** ** The rounding error of a distance *)

(** Squaring the coordinate differences does not underflow. *)
Definition scaled (p q : list float) : Prop :=
  forall a b, In (a, b) (combine p q) -> FR b - FR a = 0 \/ bpow radix2 (-510) <= Rabs (FR b - FR a).

Lemma mul_fin_inv x : ffin (PrimFloat.mul x x) -> ffin x.
Proof. rewrite !ffin_B, mul_equiv. destruct (Prim2B x); cbn [Bmult is_finite]; try discriminate; auto. Qed.

Lemma square_within a b : ffin a -> ffin b -> FR b - FR a = 0 \/ bpow radix2 (-510) <= Rabs (FR b - FR a) ->
  let d := PrimFloat.sub b a in ffin (PrimFloat.mul d d) -> within 3 (FR (PrimFloat.mul d d)) ((FR b - FR a) * (FR b - FR a)).
Proof.
  intros Fa Fb Sc d F. pose proof (mul_fin_inv d F) as Fd. pose proof (rounded_fin _ _ (sub_rounded b a Fb Fa) Fd) as Ed. fold d in Ed.
  destruct (rnd_sub_rel b a) as (e1 & H1 & E1). rewrite E1 in Ed. pose proof (rounded_fin _ _ (mul_rounded d d Fd Fd) F) as E.
  set (D := FR b - FR a) in *. assert (Hd : FR d * FR d = (D * D) * (1 + e1) * (1 + e1)) by (rewrite Ed; ring).
  assert (W2 : within 2 (FR d * FR d) (D * D)).
  { rewrite Hd. apply within_step; [nra| |exact H1]. apply within_step; [nra|apply within_refl|exact H1]. }
  rewrite E. destruct Sc as [Z|Sc].
  - rewrite Ed, Z, !Rmult_0_l, rnd_0. unfold within. rewrite !Rmult_0_l. lra.
  - assert (T : tiny <= Rabs (FR d * FR d)).
    { rewrite Rabs_mult. assert (L : bpow radix2 (-511) <= Rabs (FR d)).
      { rewrite Ed, Rabs_mult. assert (B : / 2 <= Rabs (1 + e1)).
        { pose proof uro_pos. assert (- uro <= e1 <= uro) by (revert H1; unfold Rabs; destruct (Rcase_abs e1); lra). unfold uro in *. rewrite Rabs_right by lra. lra. }
        replace (bpow radix2 (-511)) with (bpow radix2 (-510) * / 2) by (change (-511)%Z with (-510 + -1)%Z; rewrite bpow_plus; cbn; lra).
        apply Rmult_le_compat; [apply bpow_ge_0|lra|exact Sc|exact B]. }
      unfold tiny. change (-1022)%Z with (-511 + -511)%Z. rewrite bpow_plus. apply Rmult_le_compat; try apply bpow_ge_0; exact L. }
    destruct (rnd_rel _ T) as (e2 & H2 & E2). rewrite E2. apply within_step; [nra|exact W2|exact H2].
Qed.

Lemma FR_pos_min x : ffin x -> 0 < FR x -> bpow radix2 (-1074) <= FR x.
Proof.
  intros F P. pose proof (abs_B2R_ge_emin prec emax (Prim2B x)) as M. fold (FR x) in M. rewrite Rabs_right in M by lra. apply M.
  apply ffin_B in F. unfold FR in P. destruct (Prim2B x); try discriminate; [cbn in P; lra|reflexivity].
Qed.

Lemma inner_sum (p q : list float) : length p = length q ->
  inner (minus (map FR q) (map FR p)) (minus (map FR q) (map FR p)) = Rsum (map (fun ab => (FR (snd ab) - FR (fst ab)) * (FR (snd ab) - FR (fst ab))) (combine p q)).
Proof.
  revert q. induction p as [|a p IH]; intros [|b q] H; try discriminate; [reflexivity|].
  cbn [map minus inner combine Rsum fold_right fst snd]. rewrite IH by (cbn in H; lia). reflexivity.
Qed.

Lemma sqrt_fin_inv s : PrimFloat.leb 0 s = true -> ffin (PrimFloat.sqrt s) -> ffin s.
Proof. intros N F. destruct (nonneg_cases s N) as [-> | (Fs & _)]; [vm_compute in F; discriminate|exact Fs]. Qed.

Lemma chord_error n k p q r : length p = n -> length q = n -> (1 <= n)%nat -> (n + 4 <= 2 * k)%nat -> fin_point p -> fin_point q -> scaled p q ->
  chord_value p q r -> ffin r -> within k (FR r) (dist (map FR p) (map FR q)).
Proof.
  intros Lp Lq Hn Hk Hp Hq Sc (s & S & ->) F.
  assert (Ns : PrimFloat.leb 0 s = true) by (refine (proj1 (sums_nonneg _ _ S _)); intros x I; exact (terms_num p q x Hp Hq I)).
  pose proof (sqrt_fin_inv s Ns F) as Fs. assert (Ps : 0 <= FR s) by (apply (leb_R 0%float s ffin_0 Fs) in Ns; exact Ns).
  set (l := map (fun ab => (PrimFloat.mul (PrimFloat.sub (snd ab) (fst ab)) (PrimFloat.sub (snd ab) (fst ab)), (FR (snd ab) - FR (fst ab)) * (FR (snd ab) - FR (fst ab)))) (combine p q)).
  assert (Ll : length l = n) by (unfold l; rewrite map_length, combine_length; lia).
  replace (map _ (combine p q)) with (map fst l) in S by (unfold l; rewrite map_map; reflexivity).
  destruct (sums_within 3 l s S Fs) as (_ & W & _).
  { intros x e I Fx. unfold l in I. apply in_map_iff in I as ((a, b) & E & I). cbn [fst snd] in E. injection E as <- <-. split; [apply Rle_0_sqr|].
    apply square_within; [apply Hp; exact (in_combine_l _ _ _ _ I)|apply Hq; exact (in_combine_r _ _ _ _ I)|exact (Sc a b I)|exact Fx]. }
  specialize (W ltac:(intros ->; cbn in Ll; lia)). rewrite Ll in W.
  replace (Rsum (map snd l)) with (inner (minus (map FR q) (map FR p)) (minus (map FR q) (map FR p))) in W by (rewrite inner_sum by congruence; unfold l; rewrite map_map; reflexivity).
  set (D := dist (map FR p) (map FR q)). assert (HD : 0 <= D) by apply dist_nonneg.
  assert (ED : inner (minus (map FR q) (map FR p)) (minus (map FR q) (map FR p)) = D * D).
  { unfold D, dist, norm. rewrite sqrt_sqrt; [reflexivity|]. rewrite inner_sum by congruence. apply Rsum_nonneg. intros y I. apply in_map_iff in I as (ab & <- & _). apply Rle_0_sqr. }
  rewrite ED in W. destruct (sqrt_fin s Fs Ps) as (_ & E).
  assert (Hr : exists e, Rabs e <= uro /\ rnd (sqrt (FR s)) = sqrt (FR s) * (1 + e)).
  { destruct (Req_dec (FR s) 0) as [Z|Z].
    - exists 0. rewrite Rabs_R0, Z, sqrt_0, rnd_0. pose proof uro_pos. split; lra.
    - apply rnd_rel. rewrite Rabs_right by (apply Rle_ge, sqrt_pos). pose proof (FR_pos_min s Fs ltac:(lra)) as M.
      apply Rle_trans with (sqrt (bpow radix2 (-1074))); [|apply sqrt_le_1_alt; exact M].
      change (-1074)%Z with (2 * (-537))%Z. rewrite sqrt_bpow. apply bpow_le. lia. }
  destruct Hr as (e & He & Er). rewrite Er in E.
  assert (Pe : 0 <= 1 + e) by (pose proof uro_pos; revert He; unfold Rabs; destruct (Rcase_abs e); lra).
  assert (HDD : 0 <= D * D) by apply Rle_0_sqr.
  apply within_unsq; [rewrite E; apply Rmult_le_pos; [apply sqrt_pos|exact Pe]|exact HD|].
  apply (within_weaken (n + 4)); [exact HDD|lia|].
  replace (FR (PrimFloat.sqrt s) * FR (PrimFloat.sqrt s)) with (FR s * (1 + e) * (1 + e)) by (rewrite E; rewrite <- (sqrt_sqrt (FR s)) at 1 by exact Ps; ring).
  replace (n + 4)%nat with (Datatypes.S (Datatypes.S (3 + (n - 1)))) by lia.
  apply within_step; [exact HDD| |exact He]. apply within_step; [exact HDD|exact W|exact He].
Qed.
