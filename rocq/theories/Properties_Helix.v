(** Property C64: curvature and torsion of the predefined helix. *)
From Coq Require Import ZArith List Bool Arith Lia Reals Lra Psatz.
From Verif Require Import Num Py Numeric Curve Vec DiffGeom Interp Curves Spec GeomSpec.
From Verif Require Import ListFacts ArrayProofs VecFacts CurveProofs CurveProofs2 CurveProofs3 DiffGeomProofs DiffGeomProofs2 DiffGeomProofs3 DiffGeomProofs4 InterpProofs CurvesProofs HelixProofs.
From Verif Require Import Properties_DiffGeom Properties_Interp Properties_Curves.
Import ListNotations.
Local Open Scope R_scope.

(** The points of a helix in the rotating frame. *)
Lemma helix_rows t0 t1 n a b cu : (2 <= n)%nat -> helix t0 t1 (Z.of_nat n) a b = Ok cu ->
  let h := (t1 - t0) / INR (n - 1) in
  wf cu /\ c_size cu = n /\ c_ndim cu = 3%nat /\ dims 3 (c_rows cu) /\
  forall k, (k < length (c_rows cu))%nat -> nth k (c_rows cu) [] = fr a 0 (b * (t0 + h * INR k)) (t0 + h * INR k).
Proof.
  intros Hn E h. destruct (C60_helix t0 t1 n a b ltac:(lia)) as (cu' & th & E' & W & Sz & Nd & _ & _ & Ev & H).
  rewrite E in E'. injection E' as <-. split; [assumption|]. split; [assumption|]. split; [assumption|].
  split; [pose proof (wf_dims cu W) as D; rewrite Nd in D; exact D|].
  unfold c_size in Sz. intros k Hk. rewrite Sz in Hk. destruct (H k Hk) as (x & y & -> & _ & -> & ->).
  destruct Ev as (_ & _ & K). destruct (K Hn) as (_ & _ & K'). rewrite K' by assumption. fold h. unfold fr.
  rewrite (Rmult_comm h). apply list3_eq; ring.
Qed.

Lemma helix_nonempty t0 t1 n a b cu : (2 <= n)%nat -> helix t0 t1 (Z.of_nat n) a b = Ok cu -> c_bool cu = true.
Proof.
  intros Hn E. destruct (helix_rows t0 t1 n a b cu Hn E) as (W & Sz & _). apply c_bool_wf; [assumption|].
  intros K. unfold c_size in Sz. rewrite K in Sz. cbn in Sz. lia.
Qed.

(** ** C64 *)

(** Away from the two points at either end the curvature is the same
    everywhere: |a| sin^2 h / (a^2 sin^2 h + b^2 h^2), h the parameter step. *)
Theorem C64_curvature : forall junk t0 t1 n a b cu, (2 <= n)%nat -> helix t0 t1 (Z.of_nat n) a b = Ok cu ->
  let h := (t1 - t0) / INR (n - 1) in
  / 100000000 < sqrt (a * a * (sin h * sin h) + b * b * (h * h)) ->
  exists k, curve_prop junk cu PCurvature = Ok (AVec k) /\ length k = n /\
    forall i, (1 < i)%nat -> (i < n - 2)%nat -> nth i k 0 = Rabs a * (sin h * sin h) / (a * a * (sin h * sin h) + b * b * (h * h)).
Proof.
  intros junk t0 t1 n a b cu Hn E h HN. destruct (helix_rows t0 t1 n a b cu Hn E) as (W & Sz & Nd & D & H). fold h in H.
  rewrite prop_nonempty by (apply (helix_nonempty t0 t1 n a b); assumption). rewrite Nd. cbn [Nat.eqb].
  unfold c_size in Sz. eexists. split; [reflexivity|]. split.
  - rewrite curvature_space_length. assumption.
  - intros i H1 H2. apply (helix_curvature (c_rows cu) t0 h a b D H); rewrite ?Sz; try assumption; lia.
Qed.
Print Assumptions C64_curvature.

(** Away from the three points at either end the torsion is the same
    everywhere, and it is never negative: the sign of b is lost. *)
Theorem C64_torsion : forall junk t0 t1 n a b cu, (2 <= n)%nat -> helix t0 t1 (Z.of_nat n) a b = Ok cu ->
  let h := (t1 - t0) / INR (n - 1) in
  let N := sqrt (a * a * (sin h * sin h) + b * b * (h * h)) in
  / 100000000 < N -> / 100000000 < Rabs a * (sin h * sin h) -> / 100000000 < Rabs (a * (sin h * sin h * sin h) * (b * h)) / N ->
  exists k, curve_prop junk cu PTorsion = Ok (AVec k) /\ length k = n /\
    forall i, (2 < i)%nat -> (i < n - 3)%nat -> nth i k 0 = Rabs (sin h * (b * h)) / (a * a * (sin h * sin h) + b * b * (h * h)).
Proof.
  intros junk t0 t1 n a b cu Hn E h N HN Ha Hq. destruct (helix_rows t0 t1 n a b cu Hn E) as (W & Sz & Nd & D & H). fold h in H.
  rewrite prop_nonempty by (apply (helix_nonempty t0 t1 n a b); assumption).
  unfold c_size in Sz. eexists. split; [reflexivity|]. split.
  - rewrite <- Sz. unfold torsion_rows. apply gen_map2_length; [|apply gen_d1]. apply gen_combine_length; [|apply gen_e3].
    rewrite gen_gradient_length. apply gen_e2.
  - intros i H1 H2. apply (helix_torsion (c_rows cu) t0 h a b D H); rewrite ?Sz; try assumption; lia.
Qed.
Print Assumptions C64_torsion.

(** Two full turns of the unit helix in quarter turns. *)
Example C64_ex : forall junk, exists cu k t, helix 0 (4 * PI) 9 1 1 = Ok cu /\
  curve_prop junk cu PCurvature = Ok (AVec k) /\ curve_prop junk cu PTorsion = Ok (AVec t) /\
  nth 4 k 0 = / (1 + PI * PI / 4) /\ nth 4 t 0 = (PI / 2) / (1 + PI * PI / 4).
Proof.
  intros junk. destruct (C60_helix 0 (4 * PI) 9 1 1 ltac:(lia)) as (cu & _ & E & _). change (Z.of_nat 9) with 9%Z in E. exists cu.
  pose proof (C64_curvature junk 0 (4 * PI) 9 1 1 cu ltac:(lia) E) as K. pose proof (C64_torsion junk 0 (4 * PI) 9 1 1 cu ltac:(lia) E) as T.
  cbv zeta in K, T. change (9 - 1)%nat with 8%nat in K, T.
  assert (Eh : (4 * PI - 0) / INR 8 = PI / 2) by (cbn; field). rewrite Eh, sin_PI2 in K, T.
  pose proof PI_RGT_0. pose proof PI2_3_2 as P3.
  assert (P4 : PI / 2 <= 2) by (pose proof PI_4; lra).
  assert (S : 1 < sqrt (1 * 1 * (1 * 1) + 1 * 1 * (PI / 2 * (PI / 2))) < 3).
  { split.
    - rewrite <- sqrt_1 at 1. apply sqrt_lt_1; nra.
    - replace 3 with (sqrt (3 * 3)) by (apply sqrt_square; lra). apply sqrt_lt_1; nra. }
  destruct (K ltac:(lra)) as (k & Ek & _ & K'). destruct T as (t & Et & _ & T').
  - lra.
  - rewrite Rabs_R1. lra.
  - set (r := sqrt _) in *. replace (1 * (1 * 1 * 1) * (1 * (PI / 2))) with (PI / 2) by ring. rewrite Rabs_right by lra.
    apply Rmult_lt_reg_r with r; [lra|]. unfold Rdiv at 1. rewrite Rmult_assoc, Rinv_l by lra. lra.
  - exists k, t. split; [exact E|]. split; [exact Ek|]. split; [exact Et|]. rewrite K', T' by lia. rewrite !Rabs_right by lra. split; field; nra.
Qed.

(** *** How far from the curvature and torsion of the smooth helix *)

Lemma sin_lower h : 0 <= h <= 1 -> h - h * h * h / 6 <= sin h.
Proof.
  intros H. pose proof (pre_sin_bound h 0 ltac:(lra) ltac:(lra)) as [B _]. unfold sin_approx, sin_term in B. cbn in B. lra.
Qed.

Lemma sin_bounds h : 0 < h <= 1 -> 0 < sin h <= h /\ h * (1 - h * h / 6) <= sin h.
Proof.
  intros H. pose proof (sin_lower h ltac:(lra)). pose proof (sin_lt_x h ltac:(lra)). split; [|lra]. split; [|lra]. nra.
Qed.

(** With a step of at most one radian the relative error is at most h^2 / 3. *)
Theorem C64_error : forall a b h, a <> 0 \/ b <> 0 -> 0 < h <= 1 ->
  let k := Rabs a / (a * a + b * b) in let t := Rabs b / (a * a + b * b) in
  let q := a * a * (sin h * sin h) + b * b * (h * h) in
  Rabs (Rabs a * (sin h * sin h) / q - k) <= k * (h * h / 3) /\ Rabs (Rabs (sin h * (b * h)) / q - t) <= t * (h * h / 3).
Proof.
  intros a b h Hab Hh. destruct (sin_bounds h Hh) as ([S0 S1] & S2). set (s := sin h) in *. cbv zeta.
  set (A := a * a). set (B := b * b). assert (HA : 0 <= A) by (unfold A; nra). assert (HB : 0 <= B) by (unfold B; nra).
  assert (P : 0 < A + B) by (unfold A, B; destruct Hab; nra).
  assert (Ss : 0 < s * s) by nra. assert (Sh : s * s <= h * h) by nra. assert (Hhh : 0 < h * h <= 1) by nra.
  assert (Q : 0 < A * (s * s) + B * (h * h)).
  { assert (A * (s * s) + B * (s * s) <= A * (s * s) + B * (h * h)) by nra. nra. }
  set (q := A * (s * s) + B * (h * h)) in *.
  assert (L : h * h * (1 - h * h / 3) <= s * s).
  { assert (0 <= h * (1 - h * h / 6)) by nra. assert (h * (1 - h * h / 6) * (h * (1 - h * h / 6)) <= s * s) by nra. nra. }
  pose proof (Rabs_pos a) as Ka. pose proof (Rabs_pos b) as Kb. pose proof (Rinv_0_lt_compat _ Q) as Iq. pose proof (Rinv_0_lt_compat _ P) as Ip.
  split.
  - replace (Rabs a * (s * s) / q - Rabs a / (A + B)) with (- (Rabs a / (A + B) * (B * (h * h - s * s) / q))).
    2:{ replace (B * (h * h - s * s)) with (q - (A + B) * (s * s)) by (unfold q; ring). field. lra. }
    rewrite Rabs_Ropp, Rabs_right.
    2:{ apply Rle_ge. unfold Rdiv. apply Rmult_le_pos; [apply Rmult_le_pos; lra|]. apply Rmult_le_pos; [|lra]. apply Rmult_le_pos; lra. }
    apply Rmult_le_compat_l; [unfold Rdiv; apply Rmult_le_pos; lra|].
    apply Rmult_le_reg_r with q; [assumption|]. unfold Rdiv at 1. rewrite Rmult_assoc, Rinv_l, Rmult_1_r by lra.
    unfold q. assert (B * (h * h - s * s) <= B * (h * h * (h * h / 3))) by (apply Rmult_le_compat_l; nra). 
    assert (0 <= h * h / 3 * (A * (s * s))) by (apply Rmult_le_pos; nra). nra.
  - rewrite !Rabs_mult, (Rabs_right s), (Rabs_right h) by lra.
    replace (s * (Rabs b * h) / q - Rabs b / (A + B)) with (Rabs b / (A + B) * (((A + B) * (s * h) - q) / q)) by (field; lra).
    rewrite Rabs_mult, (Rabs_right (Rabs b / (A + B))) by (apply Rle_ge; unfold Rdiv; apply Rmult_le_pos; lra).
    apply Rmult_le_compat_l; [unfold Rdiv; apply Rmult_le_pos; lra|].
    unfold Rdiv at 1. rewrite Rabs_mult, (Rabs_right (/ q)) by lra.
    apply Rmult_le_reg_r with q; [assumption|]. rewrite Rmult_assoc, Rinv_l, Rmult_1_r by lra.
    replace ((A + B) * (s * h) - q) with (A * (s * (h - s)) - B * (h * (h - s))) by (unfold q; ring).
    assert (E1 : h - s <= h * (h * h / 6)) by lra. 
    assert (E2 : h - s <= s * (h * h / 3)).
    { apply Rle_trans with (h * (h * h / 6)); [lra|]. assert (h / 2 <= s) by nra. nra. }
    assert (F1 : 0 <= A * (s * (h - s)) <= A * (s * s * (h * h / 3))).
    { split; [apply Rmult_le_pos; nra|]. apply Rmult_le_compat_l; [assumption|]. rewrite Rmult_assoc. apply Rmult_le_compat_l; lra. }
    assert (F2 : 0 <= B * (h * (h - s)) <= B * (h * h * (h * h / 3))).
    { split; [apply Rmult_le_pos; nra|]. apply Rmult_le_compat_l; [assumption|]. rewrite Rmult_assoc. apply Rmult_le_compat_l; [lra|]. nra. }
    unfold q. apply Rabs_le. nra.
Qed.
Print Assumptions C64_error.
(** One radian on the unit helix. *)
Example C64_error_ex : (1 <> 0 \/ 1 <> 0) /\ 0 < 1 <= 1.
Proof. lra. Qed.

(** A helix and its mirror image get the same torsion; the torsions of the
    smooth curves have opposite signs. *)
Theorem C64_handedness_refuted : forall junk, exists c1 c2 k1 k2,
  helix 0 (4 * PI) 9 1 1 = Ok c1 /\ helix 0 (4 * PI) 9 1 (- (1)) = Ok c2 /\
  map (fun p => [nth 0 p 0; nth 1 p 0; - nth 2 p 0]) (c_rows c1) = c_rows c2 /\
  curve_prop junk c1 PTorsion = Ok (AVec k1) /\ curve_prop junk c2 PTorsion = Ok (AVec k2) /\
  nth 4 k1 0 = nth 4 k2 0 /\ 0 < nth 4 k1 0.
Proof.
  intros junk. destruct (C60_helix 0 (4 * PI) 9 1 1 ltac:(lia)) as (c1 & _ & E1 & _). destruct (C60_helix 0 (4 * PI) 9 1 (- (1)) ltac:(lia)) as (c2 & _ & E2 & _).
  change (Z.of_nat 9) with 9%Z in E1, E2. exists c1, c2.
  destruct (helix_rows _ _ 9 _ _ c1 ltac:(lia) E1) as (_ & S1 & _ & _ & R1). destruct (helix_rows _ _ 9 _ _ c2 ltac:(lia) E2) as (_ & S2 & _ & _ & R2). unfold c_size in *.
  pose proof (C64_torsion junk 0 (4 * PI) 9 1 1 c1 ltac:(lia) E1) as T1. pose proof (C64_torsion junk 0 (4 * PI) 9 1 (- (1)) c2 ltac:(lia) E2) as T2.
  cbv zeta in T1, T2. change (9 - 1)%nat with 8%nat in T1, T2.
  assert (Eh : (4 * PI - 0) / INR 8 = PI / 2) by (cbn; field). rewrite Eh, sin_PI2 in T1, T2.
  pose proof PI_RGT_0. pose proof PI2_3_2 as P3.
  assert (P4 : PI / 2 <= 2) by (pose proof PI_4; lra).
  replace (- (1) * - (1)) with 1 in T2 by ring. replace (1 * 1) with 1 in T1, T2 by ring.
  assert (S : 1 < sqrt (1 * 1 + 1 * (PI / 2 * (PI / 2))) < 3).
  { split.
    - rewrite <- sqrt_1 at 1. apply sqrt_lt_1; nra.
    - replace 3 with (sqrt (3 * 3)) by (apply sqrt_square; lra). apply sqrt_lt_1; nra. }
  replace (1 * 1) with 1 in T1, T2, S by ring. set (r := sqrt _) in *.
  destruct T1 as (k1 & K1 & _ & T1); [lra|rewrite Rabs_R1; lra| |].
  { replace (1 * 1 * (1 * (PI / 2))) with (PI / 2) by ring. rewrite Rabs_right by lra.
    apply Rmult_lt_reg_r with r; [lra|]. unfold Rdiv at 1. rewrite Rmult_assoc, Rinv_l by lra. lra. }
  destruct T2 as (k2 & K2 & _ & T2); [lra|rewrite Rabs_R1; lra| |].
  { replace (1 * 1 * (- (1) * (PI / 2))) with (- (PI / 2)) by ring. rewrite Rabs_Ropp, Rabs_right by lra.
    apply Rmult_lt_reg_r with r; [lra|]. unfold Rdiv at 1. rewrite Rmult_assoc, Rinv_l by lra. lra. }
  exists k1, k2. split; [exact E1|]. split; [exact E2|]. split; [|split; [exact K1|split; [exact K2|]]].
  - apply (nth_ext _ _ [] []); [rewrite map_length; congruence|]. intros i Hi. rewrite map_length in Hi.
    set (f := fun p : list R => [nth 0 p 0; nth 1 p 0; - nth 2 p 0]). rewrite (nth_indep (map f (c_rows c1)) [] (f [])) by (rewrite map_length; assumption).
    rewrite map_nth, R1 by assumption. unfold f. rewrite R2 by congruence. unfold fr. cbn [nth]. apply list3_eq; ring.
  - rewrite T1, T2 by lia. replace (1 * (- (1) * (PI / 2))) with (- (1 * (1 * (PI / 2)))) by ring. rewrite Rabs_Ropp. split; [reflexivity|].
    rewrite Rabs_right by lra. unfold Rdiv. apply Rmult_lt_0_compat; [lra|]. apply Rinv_0_lt_compat. nra.
Qed.
Print Assumptions C64_handedness_refuted.
