(** Conversions between binary32 and binary64, and lengths across them. *)
From Coq Require Import PrimFloat FloatOps FloatAxioms SpecFloat.
From Coq Require Import ZArith List Bool Arith Lia Reals Lra Psatz Permutation.
From Flocq Require Import Core BinarySingleNaN Relative.
From Flocq Require Import IEEE754.PrimFloat.
From Verif Require Import Num Py Numeric Curve Vec DiffGeom Spec GeomSpec ListFacts VecFacts CurveProofs CurveProofs3 DiffGeomProofs.
From Verif Require Import FloatN FloatNFacts FloatNProofs FloatFacts FloatFacts2 FloatFacts3 FloatProofs FloatProofs2 FloatProofs3.
Import ListNotations.
Local Open Scope R_scope.
Local Notation float := PrimFloat.float.

Section Conv.
  Context {prec emax prec' emax' : Z} {Hp : Prec_gt_0 prec} {Hm : Prec_lt_emax prec emax} {Hp' : Prec_gt_0 prec'} {Hm' : Prec_lt_emax prec' emax'}.
  Notation conv := (b_conv (prec := prec) (emax := emax) prec' emax' Hp' Hm').

  Lemma bconv_rounded x : is_finite x = true -> brounded (prec := prec') (emax := emax') (B2R x) (conv x).
  Proof.
    destruct x as [s|s| |s m e B]; cbn [is_finite b_conv]; intros F; try discriminate.
    - left. cbn [B2R]. rewrite brnd_0, Rabs_R0. split; [reflexivity|]. split; [reflexivity|apply bbig_pos].
    - pose proof (binary_normalize_correct prec' emax' Hp' Hm' mode_NE (cond_Zopp s (Z.pos m)) e s) as C. cbv zeta in C.
      change (F2R {| Fnum := cond_Zopp s (Z.pos m); Fexp := e |}) with (B2R (B754_finite s m e B)) in C. set (z := B2R (B754_finite s m e B)) in *.
      fold (brnd (prec := prec') (emax := emax') z) in C. fold (bbig (emax := emax')) in C.
      destruct (FloatNFacts.lt_cases (Rabs (brnd (prec := prec') (emax := emax') z)) (bbig (emax := emax'))) as [(E & L)|(E & L)]; rewrite E in C.
      + destruct C as (C1 & C2 & _). left. split; [exact C2|]. split; [exact C1|exact L].
      + apply (b_over z _ (Rlt_bool z 0)); [exact C|exact L| |]; intros S; destruct (Rlt_bool_spec z 0); try discriminate; lra.
  Qed.
  (** A format with more bits and a larger exponent range. *)
  Lemma bconv_exact x : (prec <= prec')%Z -> (emax <= emax')%Z -> (3 - emax' - prec' <= 3 - emax - prec)%Z -> is_finite x = true -> is_finite (conv x) = true /\ B2R (conv x) = B2R x.
  Proof.
    intros P E M F. pose proof (bconv_rounded x F) as R.
    assert (G : brnd (prec := prec') (emax := emax') (B2R x) = B2R x).
    { apply round_generic; [apply valid_rnd_round_mode|]. apply (generic_inclusion_mag radix2 (SpecFloat.fexp prec emax)); [|apply generic_format_B2R].
      intros _. unfold SpecFloat.fexp, SpecFloat.emin. lia. }
    assert (B : Rabs (B2R x) < bbig (emax := emax')) by (eapply Rlt_le_trans; [apply abs_B2R_lt_emax|apply bpow_le; exact E]).
    unfold brounded in R. rewrite G in R. destruct R as [(A1 & A2 & _)|[(A1 & A2)|(A1 & A2)]]; [auto| |]; apply Rabs_def2 in B; lra.
  Qed.
  Lemma brnd_near z M : bpow radix2 (2 - emax) <= M -> Rabs z <= M -> Rabs (brnd (prec := prec) (emax := emax) z - z) <= bpow radix2 (- prec) * M.
  Proof.
    intros HM Hz. destruct (Rle_lt_dec (bpow radix2 (2 - emax)) (Rabs z)) as [L|L].
    - destruct (brnd_rel (Hp := Hp) z L) as (e & He & ->). replace (z * (1 + e) - z) with (e * z) by ring. rewrite Rabs_mult.
      unfold bu in He. apply Rmult_le_compat; try apply Rabs_pos; assumption.
    - eapply Rle_trans; [apply (error_le_half_ulp radix2 (SpecFloat.fexp prec emax) (valid_exp := fexp_correct _ _ Hp))|].
      rewrite (ulp_FLT_small radix2 (3 - emax - prec) prec) by (replace (3 - emax - prec + prec)%Z with (1 + (2 - emax))%Z by lia; rewrite bpow_plus; pose proof (bpow_gt_0 radix2 (2 - emax)); change (bpow radix2 1) with 2; lra).
      replace (3 - emax - prec)%Z with (1 + (- prec + (2 - emax)))%Z by lia. rewrite bpow_plus, bpow_plus. change (bpow radix2 1) with 2.
      pose proof (bpow_gt_0 radix2 (- prec)). pose proof (Rmult_le_compat_l _ _ _ (Rlt_le _ _ H) HM). lra.
  Qed.
End Conv.

(** ** binary32 in binary64 *)

Lemma widen_B x : Prim2B (widen x) = b_conv FloatOps.prec FloatOps.emax Hprec Hmax x.
Proof. apply Prim2B_B2Prim. Qed.
Lemma widen_fin x : is_finite x = true -> ffin (widen x) /\ FR (widen x) = B2R x.
Proof.
  intros F. unfold FR. rewrite ffin_B, widen_B. apply (bconv_exact (Hp' := Hprec) (Hm' := Hmax) x); [discriminate|discriminate|discriminate|exact F].
Qed.
Lemma widen_zero s : widen (B754_zero s) = if s then PrimFloat.neg_zero else PrimFloat.zero.
Proof. destruct s; reflexivity. Qed.
Lemma widen_inf s : widen (B754_infinity s) = if s then neg_infinity else infinity.
Proof. destruct s; reflexivity. Qed.
Lemma widen_nan : widen B754_nan = nan. Proof. reflexivity. Qed.
Lemma widen_is_nan x : PrimFloat.is_nan (widen x) = is_nan x.
Proof.
  destruct x as [s|s| |s m e B] eqn:E; [destruct s; reflexivity|destruct s; reflexivity|reflexivity|]. rewrite <- E.
  destruct (widen_fin x ltac:(subst; reflexivity)) as (F & _). rewrite (ffin_num _ F). subst. reflexivity.
Qed.
Lemma widen_leb x y : Bleb x y = PrimFloat.leb (widen x) (widen y).
Proof.
  destruct (is_nan x) eqn:Nx.
  { destruct x; try discriminate. symmetry. rewrite widen_nan. rewrite leb_B. reflexivity. }
  destruct (is_nan y) eqn:Ny.
  { destruct y; try discriminate. rewrite widen_nan. rewrite leb_B. destruct x as [s|s| |s m e B]; try discriminate; cbn [Bleb B2SF SFleb SFcompare]; try destruct s; try reflexivity;
    destruct (B2SF (Prim2B (widen _))); reflexivity. }
  destruct (bnum_cases x Nx) as [-> | [-> | Fx]].
  - rewrite (widen_inf false). destruct (bnum_cases y Ny) as [-> | [-> | Fy]]; [reflexivity|reflexivity|].
    rewrite (inf_leb_fin _ (proj1 (widen_fin y Fy))). apply binf_leb_fin. exact Fy.
  - rewrite (widen_inf true). rewrite (ninf_leb (widen y)) by (unfold fnum; rewrite widen_is_nan; exact Ny). apply bninf_leb. exact Ny.
  - destruct (widen_fin x Fx) as (Wx & Ex). destruct (bnum_cases y Ny) as [-> | [-> | Fy]].
    + rewrite (widen_inf false), (leb_inf (widen x)) by (unfold fnum; rewrite widen_is_nan; exact Nx). apply bleb_inf. exact Nx.
    + rewrite (widen_inf true), (fin_leb_ninf _ Wx). destruct x as [s|s| |s m e B]; try discriminate; try destruct s; reflexivity.
    + destruct (widen_fin y Fy) as (Wy & Ey). apply eq_true_iff_eq. rewrite (bleb_R x y Fx Fy), (leb_R _ _ Wx Wy), Ex, Ey. reflexivity.
Qed.
Lemma narrow_rounded (x : float) : ffin x -> brounded (prec := 24) (emax := 128) (FR x) (narrow x).
Proof. intros F. apply bconv_rounded. apply ffin_B. exact F. Qed.
Lemma narrow_widen x : narrow (widen x) = x.
Proof.
  destruct x as [s|s| |s m e B] eqn:E.
  - unfold narrow. rewrite widen_B. reflexivity.
  - unfold narrow. rewrite widen_B. reflexivity.
  - unfold narrow. rewrite widen_B. reflexivity.
  - rewrite <- E. assert (F : is_finite x = true) by (subst; reflexivity). destruct (widen_fin x F) as (Fw & Ew).
    pose proof (narrow_rounded _ Fw) as R. rewrite Ew in R. destruct (brounded_exact x _ F R) as (Fn & En).
    assert (Nz : B2R x <> 0) by (subst; cbn [B2R]; intros C; apply eq_0_F2R in C; destruct s; discriminate).
    apply B2R_inj; [|subst; reflexivity|exact En]. revert Fn En. destruct (narrow (widen x)); cbn; intros; try discriminate; [exfalso; apply Nz; congruence|reflexivity].
Qed.
Lemma widen_inj x y : widen x = widen y -> x = y.
Proof. intros E. rewrite <- (narrow_widen x), E. apply narrow_widen. Qed.

(** The largest binary32 number, (2^24 - 1) * 2^104. *)
Definition max32 : f32 := @B754_finite 24 128 false 16777215 104 eq_refl.
Lemma narrow_finite x : ffin x -> Rabs (FR x) <= B2R max32 -> is_finite (narrow x) = true.
Proof.
  intros F H. pose proof (narrow_rounded x F) as R. pose proof (abs_B2R_lt_emax _ _ max32) as L. fold (bbig (emax := 128)) in L.
  assert (B : Rabs (brnd (prec := 24) (emax := 128) (FR x)) < bbig (emax := 128)).
  { apply Rabs_def2 in L. apply Rabs_def1.
    - eapply Rle_lt_trans; [apply (brnd_le (Hp := Hp32) _ (B2R max32)); revert H; unfold Rabs; destruct (Rcase_abs (FR x)); lra|]. rewrite brnd_R. apply L.
    - eapply Rlt_le_trans; [|apply (brnd_le (Hp := Hp32) (- B2R max32)); revert H; unfold Rabs; destruct (Rcase_abs (FR x)); lra]. rewrite brnd_opp, brnd_R. lra. }
  destruct R as [(A1 & A2 & _)|[(A1 & A2)|(A1 & A2)]]; [exact A1| |]; apply Rabs_def2 in B; lra.
Qed.
Lemma narrow_overflow x : ffin x -> bpow radix2 128 <= Rabs (FR x) -> is_finite (narrow x) = false.
Proof.
  intros F H. pose proof (narrow_rounded x F) as R. destruct R as [(A1 & A2 & A3)|[(A1 & A2)|(A1 & A2)]]; [|rewrite A1; reflexivity|rewrite A1; reflexivity].
  exfalso. assert (G : brnd (prec := 24) (emax := 128) (bpow radix2 128) = bpow radix2 128).
  { apply round_generic; [apply valid_rnd_round_mode|]. apply generic_format_bpow. vm_compute. discriminate. }
  unfold bbig in A3. apply Rabs_def2 in A3. revert H. unfold Rabs. destruct (Rcase_abs (FR x)); intros H.
  - pose proof (brnd_le (Hp := Hp32) (prec := 24) (emax := 128) (FR x) (- bpow radix2 128) ltac:(lra)) as M. rewrite brnd_opp, G in M. lra.
  - pose proof (brnd_le (Hp := Hp32) (prec := 24) (emax := 128) (bpow radix2 128) (FR x) ltac:(lra)) as M. rewrite G in M. lra.
Qed.
Lemma narrow_near x M : ffin x -> bpow radix2 (-126) <= M -> Rabs (FR x) <= M -> is_finite (narrow x) = true ->
  Rabs (B2R (narrow x) - FR x) <= bpow radix2 (-24) * M.
Proof.
  intros F HM Hx Fn. rewrite (brounded_fin _ _ (narrow_rounded x F) Fn). apply (brnd_near (Hp := Hp32)); assumption.
Qed.

(** *** Distances *)

Lemma inner_minus_bound n d : 0 <= d -> forall p q : list R, length p = n -> length q = n -> (forall i, Rabs (nth i q 0 - nth i p 0) <= d) ->
  inner (minus q p) (minus q p) <= INR n * (d * d).
Proof.
  intros Hd. induction n as [|n IH]; intros p q Lp Lq H.
  - destruct p; [|discriminate]. destruct q; [|discriminate]. cbn. lra.
  - destruct p as [|a p]; [discriminate|]. destruct q as [|b q]; [discriminate|]. cbn [minus inner]. rewrite S_INR.
    assert (A := H 0%nat). cbn [nth] in A. specialize (IH p q ltac:(cbn in Lp; lia) ltac:(cbn in Lq; lia) (fun i => H (S i))).
    assert ((b - a) * (b - a) <= d * d) by (apply FloatFacts3.Rabs_bounds in A; nra). lra.
Qed.
Lemma dist_bound n d p q : 0 <= d -> length p = n -> length q = n -> (forall i, Rabs (nth i q 0 - nth i p 0) <= d) -> dist p q <= sqrt (INR n) * d.
Proof.
  intros Hd Lp Lq H. unfold dist, norm. replace d with (sqrt (d * d)) by (apply sqrt_square; exact Hd). rewrite <- sqrt_mult_alt by apply pos_INR.
  apply sqrt_le_1_alt. apply inner_minus_bound; assumption.
Qed.
Definition in_range (M : R) (p : list float) : Prop := forall x, In x p -> ffin x /\ Rabs (FR x) <= M.
Lemma narrow_point n M p : bpow radix2 (-126) <= M <= B2R max32 -> length p = n -> in_range M p ->
  (forall x, In x (map narrow p) -> is_finite x = true) /\ dist (map FR p) (map B2R (map narrow p)) <= sqrt (INR n) * (bpow radix2 (-24) * M).
Proof.
  intros HM L P. assert (Fn : forall x, In x p -> is_finite (narrow x) = true) by (intros x I; destruct (P x I) as (F & B); apply narrow_finite; [exact F|lra]).
  split; [intros x I; apply in_map_iff in I as (y & <- & I); exact (Fn y I)|].
  pose proof (bpow_gt_0 radix2 (-126)) as B0. pose proof (bpow_gt_0 radix2 (-24)) as B1. assert (0 <= bpow radix2 (-24) * M) by (apply Rmult_le_pos; lra).
  apply dist_bound; [assumption|rewrite map_length; exact L|rewrite !map_length; exact L|]. intros i.
  destruct (Nat.lt_ge_cases i n) as [Hi|Hi].
  - rewrite (nth_indep (map B2R _) 0 (B2R (narrow PrimFloat.zero))) by (rewrite !map_length; lia).
    rewrite map_map, (map_nth (fun x => B2R (narrow x))).
    rewrite (nth_indep (map FR p) 0 (FR PrimFloat.zero)) by (rewrite map_length; lia). rewrite map_nth.
    assert (I : In (nth i p PrimFloat.zero) p) by (apply nth_In; lia). destruct (P _ I) as (F & B).
    apply narrow_near; [exact F|lra|exact B|apply Fn; exact I].
  - rewrite !nth_overflow by (rewrite ?map_length; lia). rewrite Rminus_0_r, Rabs_R0. assumption.
Qed.
Lemma narrow_dist n M p q : bpow radix2 (-126) <= M <= B2R max32 -> length p = n -> length q = n -> in_range M p -> in_range M q ->
  Rabs (dist (map B2R (map narrow p)) (map B2R (map narrow q)) - dist (map FR p) (map FR q)) <= 2 * (sqrt (INR n) * (bpow radix2 (-24) * M)).
Proof.
  intros HM Lp Lq P Q. destruct (narrow_point n M p HM Lp P) as (_ & A). destruct (narrow_point n M q HM Lq Q) as (_ & B).
  set (p' := map B2R (map narrow p)) in *. set (q' := map B2R (map narrow q)) in *.
  assert (L1 : length p' = n) by (unfold p'; rewrite !map_length; exact Lp). assert (L2 : length q' = n) by (unfold q'; rewrite !map_length; exact Lq).
  assert (L3 : length (map FR p) = n) by (rewrite map_length; exact Lp). assert (L4 : length (map FR q) = n) by (rewrite map_length; exact Lq).
  pose proof (dist_triangle p' (map FR p) q' ltac:(congruence) ltac:(congruence)) as T1.
  pose proof (dist_triangle (map FR p) (map FR q) q' ltac:(congruence) ltac:(congruence)) as T2.
  pose proof (dist_triangle (map FR p) p' (map FR q) ltac:(congruence) ltac:(congruence)) as T3.
  pose proof (dist_triangle p' q' (map FR q) ltac:(congruence) ltac:(congruence)) as T4.
  rewrite (dist_sym p' (map FR p)) in T1 by congruence. rewrite (dist_sym q' (map FR q)) in T4 by congruence.
  apply FloatFacts3.Rabs_of. lra.
Qed.
Lemma narrow_polyline n M rows : bpow radix2 (-126) <= M <= B2R max32 -> (forall p, In p rows -> length p = n /\ in_range M p) ->
  Rabs (polyline (map (map B2R) (map (map narrow) rows)) - polyline (map (map FR) rows)) <= INR (length rows - 1) * (2 * (sqrt (INR n) * (bpow radix2 (-24) * M))).
Proof.
  intros HM. induction rows as [|a [|b r] IH]; intros H.
  - cbn [map polyline length Nat.sub INR]. rewrite Rminus_0_r, Rabs_R0. lra.
  - cbn [map polyline length Nat.sub INR]. rewrite Rminus_0_r, Rabs_R0. lra.
  - specialize (IH (fun p I => H p (or_intror I))). destruct (H a (or_introl eq_refl)) as (La & Ra). destruct (H b ltac:(cbn; auto)) as (Lb & Rb).
    pose proof (narrow_dist n M a b HM La Lb Ra Rb) as D. cbn [map] in *.
    change (polyline (?x :: ?y :: ?l)) with (dist x y + polyline (y :: l)).
    replace (length (a :: b :: r) - 1)%nat with (S (length (b :: r) - 1))%nat by (cbn [length]; lia). rewrite S_INR.
    apply FloatFacts3.Rabs_bounds in D. apply FloatFacts3.Rabs_bounds in IH. apply FloatFacts3.Rabs_of. lra.
Qed.
