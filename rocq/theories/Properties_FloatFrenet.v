(** Property C108: unit tangent vectors and the curvature of straight lines in binary64. *)
From Coq Require Import PrimFloat FloatOps FloatAxioms SpecFloat.
From Coq Require Import ZArith List Bool Arith Lia Reals Lra Psatz.
From Flocq Require Import Core BinarySingleNaN.
From Flocq Require Import IEEE754.PrimFloat.
From Verif Require Import Num Py Numeric Curve Vec DiffGeom Spec GeomSpec ListFacts VecFacts CurveProofs CurveProofs3 DiffGeomProofs DiffGeomProofs2 DiffGeomProofs3 DiffGeomProofs4 SampleProofs.
From Verif Require Import FloatFacts FloatFacts2 FloatFacts3 FloatProofs FloatProofs2 FloatProofs3 FloatDerivProofs FloatCurvProofs FloatFrenetProofs Properties_Container Properties_FloatDeriv Properties_FloatCurv.
Import ListNotations.
Local Open Scope R_scope.
Local Notation float := PrimFloat.float.

Lemma atol_lit : (1e-8)%float = @atol_default float FNum. Proof. vm_compute. reflexivity. Qed.
Lemma speed_nth (rows : list (list float)) i : (i < length rows)%nat -> nth i (speed_rows rows) 0%float = vnorm (nth i (deriv1 rows) []).
Proof. intros Hi. unfold speed_rows. rewrite (nth_indep _ _ (vnorm [])) by (rewrite map_length, fderiv1_len; exact Hi). apply map_nth. Qed.
Lemma frenet1_nth (rows : list (list float)) i : (i < length rows)%nat -> nth i (frenet1_rows rows) [] = unit_row (nth i (deriv1 rows) []).
Proof. intros Hi. unfold frenet1_rows. rewrite (nth_indep _ _ (unit_row [])) by (rewrite map_length, fderiv1_len; exact Hi). apply map_nth. Qed.
Lemma Forall2_at {A B} (P : A -> B -> Prop) l m a b j : Forall2 P l m -> (j < length l)%nat -> P (nth j l a) (nth j m b).
Proof. intros H. revert j. induction H as [|x y l m Hxy _ IH]; intros j Hj; [cbn in Hj; lia|]. destruct j; [exact Hxy|]. apply IH. cbn in Hj. lia. Qed.

Lemma Forall2_of_nth {A B} (P : A -> B -> Prop) l m a b : length l = length m -> (forall j, (j < length l)%nat -> P (nth j l a) (nth j m b)) -> Forall2 P l m.
Proof.
  revert m. induction l as [|x l IH]; intros [|y m] L H; try discriminate; [constructor|]. constructor; [apply (H 0%nat); cbn; lia|].
  apply IH; [cbn in L; lia|]. intros j Hj. apply (H (S j)). cbn. lia.
Qed.

(** ** C108 Unit tangents in binary64 *)

(** Where the computed speed is above 1e-8 the first Frenet vector is the unit
    vector along the computed derivative up to a few roundings, coordinate by
    coordinate, and its length is 1 up to as many. *)
Theorem C108_unit : forall junk (c : curve float) k, wf c -> (2 <= c_size c)%nat -> (c_ndim c + 2 <= 2 * k)%nat -> INR k <= 2 ^ 40 ->
  exists d v e, curve_prop junk c PFirst = Ok (AMat d) /\ curve_prop junk c PSpeed = Ok (AVec v) /\ curve_prop junk c PFrenet1 = Ok (AMat e) /\ length e = c_size c /\
    forall i, (i < c_size c)%nat ->
      (forall x, In x (nth i d []) -> PrimFloat.is_finite x = true /\ (FR x = 0 \/ bpow radix2 (-500) <= Rabs (FR x))) ->
      PrimFloat.ltb 1e-8 (nth i v 0%float) = true -> PrimFloat.leb (nth i v 0%float) 0x1p500 = true ->
      let t := norm (map FR (nth i d [])) in let del := 101 / 100 * (INR k + 1) / 2 ^ 53 in
      (forall j, (j < c_ndim c)%nat -> PrimFloat.is_finite (nth j (nth i e []) 0%float) = true /\
        Rabs (at_pt e i j - at_pt d i j / t) <= del * Rabs (at_pt d i j / t)) /\
      1 - del <= norm (map FR (nth i e [])) <= 1 + del.
Proof.
  intros junk c k W Hm Hk Hk2. exists (deriv1 (c_rows c)), (speed_rows (c_rows c)), (frenet1_rows (c_rows c)). rewrite !prop_nonempty by (apply fsize_bool; assumption).
  do 3 (split; [reflexivity|]). unfold c_size in *. split; [unfold frenet1_rows; rewrite map_length; apply fderiv1_len|].
  intros i Hi H L1 L2. cbv zeta. assert (D : forall p, In p (c_rows c) -> length p = c_ndim c) by apply W. assert (N1 : (1 <= c_ndim c)%nat) by (destruct W as (W2 & _); lia).
  rewrite speed_nth in L1, L2 by exact Hi. unfold at_pt. rewrite frenet1_nth by exact Hi.
  assert (Ln := proj1 (fgradient_nth (c_ndim c) (c_rows c) i D Hm Hi)). fold (deriv1 (c_rows c)) in Ln. set (u := nth i (deriv1 (c_rows c)) []) in *.
  assert (Fu : forall x, In x u -> ffin x) by (intros x I; apply H, I).
  assert (F5 : ffin 0x1p500%float /\ FR 0x1p500%float = bpow radix2 500).
  { split; [vm_compute; reflexivity|]. rewrite FR_SF. replace (Prim2SF 0x1p500%float) with (S754_finite false 4503599627370496 448) by (vm_compute; reflexivity). cbn [SF2R]. unfold F2R. cbn [Fnum Fexp cond_Zopp].
    replace (IZR 4503599627370496) with (bpow radix2 52) by (cbn; lra). rewrite <- bpow_plus. reflexivity. }
  destruct (vnorm_cases u Fu) as [Q | (Fn & Pn)]; [rewrite Q in L2; vm_compute in L2; discriminate|].
  rewrite atol_lit in L1. apply (ltb_R _ _ (proj1 atol_fin) Fn) in L1. apply (leb_R _ _ Fn (proj1 F5)) in L2. rewrite (proj2 F5) in L2.
  destruct (unit_row_close k u ltac:(lia) ltac:(lia) ltac:(change (bpow radix2 40) with 1099511627776; lra) H Fn (conj L1 L2)) as (T & C).
  set (t := norm (map FR u)) in *. rewrite uro_pow in C. set (del := 101 / 100 * (INR k + 1) / 2 ^ 53).
  assert (Ed : 101 / 100 * (INR k + 1) * / 2 ^ 53 = del) by (unfold del; field). 
  split.
  - intros j Hj. pose proof (Forall2_at _ _ _ 0%float 0%float j C ltac:(lia)) as (Fj & Ej). split; [exact Fj|]. rewrite <- Ed. exact Ej.
  - assert (Dl : 0 <= del <= 1).
    { unfold del. pose proof (pos_INR k). split; [apply Rmult_le_pos; lra|]. apply Rle_trans with (101 / 100 * (2 ^ 40 + 1) / 2 ^ 53); [|lra]. unfold Rdiv. apply Rmult_le_compat_r; lra. }
    assert (Ey : norm (map (fun x => FR x / t) u) = 1).
    { unfold norm. assert (E : forall r l, inner (map (fun x => FR x / r) l) (map (fun x => FR x / r) l) = inner (map FR l) (map FR l) * (/ r * / r)).
      { clear. intros r l. induction l as [|x l IH]; cbn [map inner]; [ring|]. rewrite IH. unfold Rdiv. ring. }
      rewrite E. assert (Q : inner (map FR u) (map FR u) = t * t) by (unfold t, norm; rewrite sqrt_sqrt; [reflexivity|rewrite inner_self_sum; apply Rsum_nonneg; intros y J; apply in_map_iff in J as (z & <- & _); apply Rle_0_sqr]).
      rewrite Q. replace (t * t * (/ t * / t)) with 1 by (field; lra). apply sqrt_1. }
    destruct (norm_close del (map (fun x => FR x / t) u) (map FR (unit_row u)) Dl) as (A & B); [|rewrite Ey in A, B; lra].
    rewrite Ed in C. clearbody t. clear -C. revert C. generalize (unit_row u). intros w C. induction C as [|x y l m (_ & Hxy) _ IH]; [constructor|]. cbn [map]. constructor; assumption.
Qed.
Print Assumptions C108_unit.

(** Where it is 1e-8 or less it is the derivative itself: not a unit vector. *)
Theorem C108_slow : forall junk (c : curve float), wf c -> (2 <= c_size c)%nat ->
  exists d v e, curve_prop junk c PFirst = Ok (AMat d) /\ curve_prop junk c PSpeed = Ok (AVec v) /\ curve_prop junk c PFrenet1 = Ok (AMat e) /\
    forall i, (i < c_size c)%nat -> (forall x, In x (nth i d []) -> PrimFloat.is_finite x = true) -> PrimFloat.leb (nth i v 0%float) 1e-8 = true ->
      map FR (nth i e []) = map FR (nth i d []) /\ forall x, In x (nth i e []) -> PrimFloat.is_finite x = true.
Proof.
  intros junk c W Hm. exists (deriv1 (c_rows c)), (speed_rows (c_rows c)), (frenet1_rows (c_rows c)). rewrite !prop_nonempty by (apply fsize_bool; assumption).
  do 3 (split; [reflexivity|]). unfold c_size in *. intros i Hi H L. rewrite speed_nth in L by exact Hi. rewrite frenet1_nth by exact Hi.
  set (u := nth i (deriv1 (c_rows c)) []) in *. rewrite atol_lit in L.
  destruct (frenet_norm_cases u H) as [(_ & _ & E) | [(F & G & _) | (E & _)]].
  - unfold unit_row. rewrite E. assert (Q : forall x, In x u -> ffin (PrimFloat.div x PrimFloat.one) /\ FR (PrimFloat.div x PrimFloat.one) = FR x).
    { intros x I. assert (R := div_rounded x PrimFloat.one (H x I) (proj1 one_R) ltac:(rewrite FR_1; lra)). rewrite FR_1 in R. unfold Rdiv in R. rewrite Rinv_1, Rmult_1_r in R. apply rounded_exact; [apply H, I|exact R]. }
    split; [rewrite map_map; apply map_ext_in; intros x I; apply Q, I|]. intros x I. apply in_map_iff in I as (y & <- & I). apply Q, I.
  - apply (leb_R _ _ F (proj1 atol_fin)) in L. lra.
  - rewrite E in L. vm_compute in L. discriminate.
Qed.
Print Assumptions C108_slow.

(** Evenly sampled straight lines with integer coordinates in three or more
    dimensions: the curvature is exactly zero between the ends. *)
Theorem C108_line : forall junk (c : curve float) (a b : nat -> Z), wf c -> (3 <= c_size c)%nat -> (3 <= c_ndim c)%nat ->
  (forall i j, (i < c_size c)%nat -> (j < c_ndim c)%nat -> let z := (a j + b j * Z.of_nat i)%Z in (Z.abs z < 2 ^ 44)%Z /\ nth j (nth i (c_rows c) []) 0%float = f_of_Z z) ->
  (exists j, (j < c_ndim c)%nat /\ b j <> 0%Z) ->
  exists k, curve_prop junk c PCurvature = Ok (AVec k) /\ forall i, (0 < i)%nat -> (S i < c_size c)%nat -> PrimFloat.eqb (nth i k 1%float) 0 = true.
Proof.
  intros junk c a b W Hm Hn H (j0 & Hj0 & Nz).
  destruct (C106_quadratic junk c a b (fun _ => 0%Z) W Hm) as (d1 & d2 & P1 & _ & V).
  { intros i j Hi Hj. destruct (H i j Hi Hj) as (Bz & E). cbv zeta. replace (a j + b j * Z.of_nat i + 0 * Z.of_nat i ^ 2)%Z with (a j + b j * Z.of_nat i)%Z by ring. split; assumption. }
  rewrite prop_nonempty in P1 by (apply fsize_bool; [exact W|lia]). injection P1 as P1. subst d1.
  rewrite prop_nonempty by (apply fsize_bool; [exact W|lia]). replace (c_ndim c =? 2)%nat with false by (symmetry; apply Nat.eqb_neq; lia).
  eexists. split; [reflexivity|]. intros i I0 I1. unfold c_size in *. assert (D : forall p, In p (c_rows c) -> length p = c_ndim c) by apply W.
  set (m := length (c_rows c)) in *. set (n := c_ndim c) in *. unfold curvature_space.
  assert (Lf : length (frenet1_rows (c_rows c)) = m) by (unfold frenet1_rows; rewrite map_length; apply fderiv1_len).
  rewrite (nth_map2_in _ _ _ _ [] []) by (rewrite ?fgradient_len, ?Lf, ?fderiv1_len; fold m; lia).
  assert (Ld : forall l, (l < m)%nat -> length (nth l (deriv1 (c_rows c)) []) = n) by (intros l Hl; apply (proj1 (fgradient_nth n (c_rows c) l D ltac:(fold m; lia) Hl))).
  assert (S1 : forall l l', (l < m)%nat -> (l' < m)%nat -> Forall2 fsame (nth l (deriv1 (c_rows c)) []) (nth l' (deriv1 (c_rows c)) [])).
  { intros l l' Hl Hl'. apply (Forall2_of_nth _ _ _ 0%float 0%float); [rewrite !Ld by assumption; reflexivity|]. intros j Hj. rewrite Ld in Hj by exact Hl.
    destruct (V l j Hl Hj) as (F1 & E1 & _). destruct (V l' j Hl' Hj) as (F2 & E2 & _). unfold at_pt in *. split; [exact F1|]. split; [exact F2|]. rewrite E1, E2. reflexivity. }
  assert (Fin : forall l x, (l < m)%nat -> In x (nth l (deriv1 (c_rows c)) []) -> ffin x /\ Rabs (FR x) <= bpow radix2 900).
  { intros l x Hl Ix. destruct (In_nth _ _ 0%float Ix) as (j & Hj & Ej). rewrite Ld in Hj by exact Hl. destruct (V l j Hl Hj) as (F1 & E1 & _). unfold at_pt in E1. rewrite Ej in F1, E1. split; [exact F1|]. rewrite E1, <- abs_IZR.
    destruct (H 0%nat j ltac:(lia) Hj) as (B0 & _). destruct (H 1%nat j ltac:(lia) Hj) as (B1 & _). apply Rle_trans with (IZR (2 ^ 45)); [apply IZR_le; lia|]. rewrite <- bpow_pos_Z by lia. apply bpow_le. lia. }
  assert (S2 : forall l l', (l < m)%nat -> (l' < m)%nat -> Forall2 fsame (nth l (frenet1_rows (c_rows c)) []) (nth l' (frenet1_rows (c_rows c)) [])).
  { intros l l' Hl Hl'. rewrite !frenet1_nth by assumption. apply fsame_unit; [apply S1; assumption|]. intros x Ix. apply (Fin l x Hl Ix). }
  assert (Df : forall p, In p (frenet1_rows (c_rows c)) -> length p = n).
  { intros p Ip. destruct (In_nth _ _ [] Ip) as (l & Hl & <-). rewrite Lf in Hl. rewrite frenet1_nth by exact Hl. unfold unit_row. rewrite map_length. apply Ld, Hl. }
  replace (vnorm (nth i (gradient (frenet1_rows (c_rows c))) [])) with PrimFloat.zero.
  - destruct (vnorm_ge_1 (nth i (deriv1 (c_rows c)) []) (nth j0 (nth i (deriv1 (c_rows c)) []) 0%float)) as [-> | (F & G)].
    + intros y Iy. apply (Fin i y ltac:(lia) Iy).
    + apply nth_In. rewrite Ld by lia. exact Hj0.
    + destruct (V i j0 ltac:(lia) Hj0) as (_ & E & _). unfold at_pt in E. rewrite E, <- abs_IZR. apply (IZR_le 1). lia.
    + vm_compute. reflexivity.
    + destruct (div_norm PrimFloat.zero _ ffin_0 ltac:(rewrite FR_0, Rabs_R0; apply bpow_ge_0) F ltac:(eapply Rle_trans; [|exact G]; change 1 with (bpow radix2 0); apply bpow_le; lia)) as (Fd & Ev).
      rewrite FR_0 in Ev. unfold Rdiv in Ev. rewrite Rmult_0_l, rnd_0 in Ev. apply eqb_R; [exact Fd|exact ffin_0|exact Ev].
  - symmetry. apply vnorm_zeros. intros x Ix. destruct (In_nth _ _ 0%float Ix) as (j & Hj & Ej).
    destruct (fgradient_nth n (frenet1_rows (c_rows c)) i Df ltac:(rewrite Lf; lia) ltac:(rewrite Lf; lia)) as (Lg & Eg). rewrite Lg in Hj. rewrite Eg in Ej by exact Hj. rewrite <- Ej. rewrite Lf.
    apply inner_zero; [exact I0|exact I1|]. apply Forall2_at; [apply S2; lia|]. rewrite (Df (nth (i + 1) (frenet1_rows (c_rows c)) [])); [exact Hj|apply nth_In; rewrite Lf; lia].
Qed.
Print Assumptions C108_line.

(** At the first point it need not be: the line through the origin along
    (1, 1, 1) has a positive curvature there and zero elsewhere. *)
Definition diag4 : curve float := mkCurve [[0; 0; 0]; [1; 1; 1]; [2; 2; 2]; [3; 3; 3]]%float 3 DFloat None.
Theorem C108_line_refuted : exists k, wf diag4 /\ curve_prop 0%float diag4 PCurvature = Ok (AVec k) /\
  PrimFloat.ltb 0 (nth 0 k 0%float) = true /\ PrimFloat.eqb (nth 3 k 1%float) 0 = true.
Proof.
  eexists. split; [split; [cbn; lia|split; [intros p [<-|[<-|[<-|[<-|[]]]]]; reflexivity|discriminate]]|].
  split; [vm_compute; reflexivity|]. split; vm_compute; reflexivity.
Qed.
Print Assumptions C108_line_refuted.

(** Beside them: the same line, a curve that nearly stands still. *)
Example C108_line_ex : wf diag4 /\ (3 <= c_size diag4)%nat /\ (3 <= c_ndim diag4)%nat /\
  (forall i j, (i < c_size diag4)%nat -> (j < c_ndim diag4)%nat -> let z := (0 + 1 * Z.of_nat i)%Z in (Z.abs z < 2 ^ 44)%Z /\ nth j (nth i (c_rows diag4) []) 0%float = f_of_Z z).
Proof.
  split; [split; [cbn; lia|split; [intros p [<-|[<-|[<-|[<-|[]]]]]; reflexivity|discriminate]]|]. split; [cbn; lia|]. split; [cbn; lia|].
  intros [|[|[|[|i]]]] [|[|[|j]]] Hi Hj; cbn in Hi, Hj; try lia; split; vm_compute; reflexivity.
Qed.
Example C108_unit_ex : exists v, curve_prop nan diag4 PSpeed = Ok (AVec v) /\ PrimFloat.ltb 1e-8 (nth 1 v 0%float) = true /\ PrimFloat.leb (nth 1 v 0%float) 0x1p500 = true /\ (c_ndim diag4 + 2 <= 2 * 3)%nat /\ INR 3 <= 2 ^ 40.
Proof. eexists. split; [vm_compute; reflexivity|]. split; [vm_compute; reflexivity|]. split; [vm_compute; reflexivity|]. split; [cbn; lia|]. cbn. lra. Qed.
Definition slow3 : curve float := mkCurve [[0; 0]; [0x1p-30; 0]; [0x1p-29; 0]]%float 2 DFloat None.
Example C108_slow_ex : exists v e, curve_prop nan slow3 PSpeed = Ok (AVec v) /\ PrimFloat.leb (nth 1 v 0%float) 1e-8 = true /\
  curve_prop nan slow3 PFrenet1 = Ok (AMat e) /\ nth 0 (nth 1 e []) 0%float = 0x1p-30%float.
Proof. do 2 eexists. split; [vm_compute; reflexivity|]. split; [vm_compute; reflexivity|]. split; [vm_compute; reflexivity|]. vm_compute. reflexivity. Qed.
