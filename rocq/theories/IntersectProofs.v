(** Exact intersection of two segments. *)
From Coq Require Import ZArith List Bool Arith Lia Reals Lra Psatz.
From Verif Require Import Num Py Numeric Curve Vec Geom Intersect Spec GeomSpec.
From Verif Require Import ListFacts CurveProofs2 CurveProofs3 VecFacts RankProofs GeomProofs GeomProofs2 GeomProofs3 GeomProofs4.
Import ListNotations.
Local Open Scope R_scope.

(** ** Result objects *)

(** The data fits the type. *)
Definition info_ok {T} (i : info T) : Prop :=
  match i_type i with
  | INone => i_data i = IDNone
  | IExact => exists p, i_data i = IDPoint p
  | IOverlap | IAlmost => exists s, i_data i = IDSegment s
  end.

Lemma make_info_iff {T} (t : itype) (d : idata T) i :
  make_info t d = Ok i <-> t <> INone /\ i = mkInfo d t /\ info_ok i.
Proof.
  unfold make_info, info_ok. destruct t, d; cbn; split; intros H; try discriminate;
    try (destruct H as (N & -> & ? & X); discriminate);
    try (destruct H as (N & _); contradiction);
    try (injection H as <-; repeat split; try discriminate; eexists; reflexivity);
    try (destruct H as (_ & -> & _); reflexivity).
Qed.

Lemma make_info_else {T} (t : itype) (d : idata T) :
  make_info t d = Raise ValueError \/ exists i, make_info t d = Ok i.
Proof. unfold make_info. destruct t, d; cbn; eauto. Qed.

Lemma exact_result_ok {T} {NT : Num T} {ST : NumSqrt T} feps (s1 s2 : segment T) t1 t2 i :
  exact_result feps s1 s2 t1 t2 = Ok i -> info_ok i.
Proof.
  unfold exact_result. destruct (in_unit t1 && in_unit t2).
  - destruct (negb _ && _); [intros [= <-]; reflexivity|]. intros E. apply make_info_iff in E. tauto.
  - intros [= <-]. reflexivity.
Qed.

Lemma exact_segments_ok {T} {NT : Num T} {ST : NumSqrt T} feps (s1 s2 : segment T) i :
  exact_segments feps s1 s2 = Ok i -> info_ok i.
Proof.
  unfold exact_segments. destruct (sg_collinear s1 s2).
  { destruct (overlap_segments s1 s2 false); [|intros [= <-]; reflexivity].
    intros E. apply make_info_iff in E. tauto. }
  destruct (parallel_segments _ _ _); [intros [= <-]; reflexivity|].
  destruct (sg_coplanar s1 s2) as [cop|e]; [|discriminate]. cbn [rbind].
  destruct (negb cop); [intros [= <-]; reflexivity|].
  destruct (sg_singular s1 || sg_singular s2); [intros [= <-]; reflexivity|].
  destruct (Nat.eqb _ 2).
  - destruct (solve2 _ _ _) as [[t1 t2]|]; [|intros [= <-]; reflexivity]. apply exact_result_ok.
  - destruct (lstsq2 _ _ _) as [t1 t2]. apply exact_result_ok.
Qed.

Lemma correct_overlap_ok {T} {NT : Num T} {ST : NumSqrt T} (pr : almost_params T) x y :
  info_ok (in_info x) -> correct_overlap pr x = Ok y -> info_ok (in_info y) /\ in_seg1 y = in_seg1 x /\ in_seg2 y = in_seg2 x
    /\ (i_type (in_info x) <> INone -> i_type (in_info y) <> INone).
Proof.
  intros K. unfold correct_overlap. destruct (parallel_segments _ _ _); [|intros [= <-]; auto].
  destruct (overlap_segments _ _ _) as [q|]; [|intros [= <-]; auto].
  destruct (make_info IOverlap (IDSegment q)) as [i|e] eqn:E; [|discriminate].
  cbn. intros [= <-]. cbn. apply make_info_iff in E. destruct E as (N & -> & Hk). cbn. repeat split; auto.
Qed.

Lemma almost_segments_ok {T} {NT : Num T} {ST : NumSqrt T} (pr : almost_params T) (s1 s2 : segment T) i :
  almost_segments pr s1 s2 = Ok i -> info_ok i.
Proof.
  unfold almost_segments. destruct (nltb _ _); [|intros [= <-]; reflexivity].
  destruct (make_info IAlmost _) as [i0|e] eqn:E; [|discriminate]. cbn [rbind].
  apply make_info_iff in E. destruct E as (N & E & K).
  destruct (al_correct_overlap pr); [|intros [= <-]; assumption].
  destruct (correct_overlap pr _) as [y|e] eqn:C; [|discriminate]. cbn. intros [= <-].
  apply correct_overlap_ok in C; [tauto|assumption].
Qed.

(** ** The range test *)
Lemma in_unit_R (t : R) : in_unit t = true <-> - / 100000000 <= t <= 1 + / 100000000 + / 100000.
Proof.
  unfold in_unit. rewrite Bool.andb_true_iff, !Bool.orb_true_iff.
  cbn [nltb RNum n0 n1]. rewrite !Rltb_iff, !isclose_R. rewrite Rminus_0_r.
  rewrite (Rabs_right 1) by lra. rewrite Rabs_R0.
  unfold Rabs. destruct (Rcase_abs t), (Rcase_abs (t - 1)); lra.
Qed.

(** ** The linear system *)

(** A common plane and independent directions give a solution. *)
Lemma plane_solution n (s1 s2 : segment R) : seg_wf n s1 -> seg_wf n s2 ->
  area_sq (sg_dir s1) (sg_dir s2) <> 0 ->
  in_common_plane n [sg_p1 s1; sg_p2 s1; sg_p1 s2; sg_p2 s2] ->
  exists x y, sg_point s1 x = sg_point s2 y.
Proof.
  intros H1 H2 HA (p & a & c & Lp & La & Lc & HP).
  destruct (HP (sg_p1 s1)) as (i1 & j1 & E1); [cbn; auto|].
  destruct (HP (sg_p2 s1)) as (i2 & j2 & E2); [cbn; auto|].
  destruct (HP (sg_p1 s2)) as (i3 & j3 & E3); [cbn; auto|].
  destruct (HP (sg_p2 s2)) as (i4 & j4 & E4); [cbn; auto|].
  pose proof (sg_dir_length n s1 H1) as L1. pose proof (sg_dir_length n s2 H2) as L2.
  set (det := (i2 - i1) * (j4 - j3) - (i4 - i3) * (j2 - j1)).
  destruct (Req_dec det 0) as [Z|Z].
  - exfalso. apply HA.
    destruct (Req_dec (i2 - i1) 0) as [Zi|Zi]; [destruct (Req_dec (j2 - j1) 0) as [Zj|Zj]|].
    + (* first direction is zero *)
      apply proportional_area; [congruence|]. exists 1, 0. split; [lra|]. intros i.
      rewrite (nth_sg_dir n), E1, E2 by assumption.
      replace i2 with i1 by lra. replace j2 with j1 by lra. ring.
    + apply proportional_area; [congruence|]. exists (j4 - j3), (j2 - j1). split; [lra|]. intros i.
      rewrite !(nth_sg_dir n), E1, E2, E3, E4 by assumption.
      assert (Q : (i4 - i3) * (j2 - j1) = (i2 - i1) * (j4 - j3)) by (unfold det in Z; lra).
      replace ((j4 - j3) * _) with ((i2 - i1) * (j4 - j3) * nth i a 0 + (j4 - j3) * (j2 - j1) * nth i c 0) by ring.
      rewrite <- Q. ring.
    + apply proportional_area; [congruence|]. exists (i4 - i3), (i2 - i1). split; [lra|]. intros i.
      rewrite !(nth_sg_dir n), E1, E2, E3, E4 by assumption.
      assert (Q : (i4 - i3) * (j2 - j1) = (i2 - i1) * (j4 - j3)) by (unfold det in Z; lra).
      replace ((i4 - i3) * _) with ((i4 - i3) * (i2 - i1) * nth i a 0 + (i4 - i3) * (j2 - j1) * nth i c 0) by ring.
      rewrite Q. ring.
  - (* b = x u - y v *)
    set (bi := i3 - i1). set (bj := j3 - j1).
    exists ((bi * (j4 - j3) - (i4 - i3) * bj) / det), ((bi * (j2 - j1) - (i2 - i1) * bj) / det).
    apply vec_ext; [rewrite !(sg_point_length n) by assumption; reflexivity|].
    intros i. rewrite !(nth_sg_point n), E1, E2, E3, E4 by assumption.
    unfold bi, bj. unfold det in *. field. exact Z.
Qed.

(** Uniqueness: at most one pair of parameters if the directions are
    independent. *)
Lemma unique_solution n (s1 s2 : segment R) x y x' y' : seg_wf n s1 -> seg_wf n s2 ->
  area_sq (sg_dir s1) (sg_dir s2) <> 0 ->
  sg_point s1 x = sg_point s2 y -> sg_point s1 x' = sg_point s2 y' -> x = x' /\ y = y'.
Proof.
  intros H1 H2 HA E E'.
  pose proof (sg_dir_length n s1 H1) as L1. pose proof (sg_dir_length n s2 H2) as L2.
  assert (Q : forall i, (x - x') * nth i (sg_dir s1) 0 = (y - y') * nth i (sg_dir s2) 0).
  { intros i. pose proof (f_equal (fun l => nth i l 0) E) as A. pose proof (f_equal (fun l => nth i l 0) E') as B.
    cbn beta in A, B. rewrite !(nth_sg_point n) in A, B by assumption. rewrite !(nth_sg_dir n) by assumption. lra. }
  destruct (Req_dec (x - x') 0) as [Zx|Zx]; [destruct (Req_dec (y - y') 0) as [Zy|Zy]; [split; lra|]|];
    exfalso; apply HA, proportional_area; try congruence; exists (x - x'), (y - y'); auto.
Qed.

(** b = x u + y (-v) in terms of dot products. *)
Lemma solution_dots n (s1 s2 : segment R) x y w : seg_wf n s1 -> seg_wf n s2 -> length w = n ->
  sg_point s1 x = sg_point s2 y ->
  vdot (vsub (sg_p1 s2) (sg_p1 s1)) w = x * vdot (sg_dir s1) w - y * vdot (sg_dir s2) w.
Proof.
  intros H1 H2 Lw E.
  pose proof (sg_dir_length n s1 H1) as L1. pose proof (sg_dir_length n s2 H2) as L2.
  assert (V : vsub (sg_p1 s2) (sg_p1 s1) = vsub (vscale (sg_dir s1) x) (vscale (sg_dir s2) y)).
  { destruct (H1) as [A1 A2]. destruct (H2) as [B1 B2].
    apply vec_ext; [rewrite !vsub_length; rewrite ?vscale_length; congruence|].
    intros i. rewrite !nth_vsub by (rewrite ?vscale_length; congruence). rewrite !nth_vscale.
    pose proof (f_equal (fun l => nth i l 0) E) as A. cbn beta in A. rewrite !(nth_sg_point n) in A by assumption.
    rewrite !(nth_sg_dir n) by assumption. lra. }
  rewrite V, vdot_sub_l, !vdot_scale_l by (rewrite ?vscale_length; congruence). reflexivity.
Qed.

Lemma lstsq2_solution n (s1 s2 : segment R) x y : seg_wf n s1 -> seg_wf n s2 ->
  area_sq (sg_dir s1) (sg_dir s2) <> 0 -> sg_point s1 x = sg_point s2 y ->
  lstsq2 (sg_dir s1) (vopp (sg_dir s2)) (vsub (sg_p1 s2) (sg_p1 s1)) = (x, y).
Proof.
  intros H1 H2 HA E.
  pose proof (sg_dir_length n s1 H1) as L1. pose proof (sg_dir_length n s2 H2) as L2.
  pose proof (solution_dots n s1 s2 x y (sg_dir s1) H1 H2 L1 E) as D1.
  pose proof (solution_dots n s1 s2 x y (sg_dir s2) H1 H2 L2 E) as D2.
  rewrite area_sq_wedge, <- (lagrange (sg_dir s1) (sg_dir s2)) in HA by congruence.
  unfold lstsq2. rnum. rewrite !vdot_opp_l, !vdot_opp_r.
  rewrite (vdot_comm (sg_dir s1) (vsub _ _)), (vdot_comm (sg_dir s2) (vsub _ _)), D1, D2.
  rewrite (vdot_comm (sg_dir s2) (sg_dir s1)).
  set (a := vdot (sg_dir s1) (sg_dir s1)) in *. set (b := vdot (sg_dir s1) (sg_dir s2)) in *.
  set (c := vdot (sg_dir s2) (sg_dir s2)) in *.
  f_equal; field; lra.
Qed.

Lemma area_2 (u v : list R) : length u = 2%nat -> length v = 2%nat ->
  area_sq u v = (nth 0 u 0 * nth 1 v 0 - nth 1 u 0 * nth 0 v 0) * (nth 0 u 0 * nth 1 v 0 - nth 1 u 0 * nth 0 v 0).
Proof.
  intros Hu Hv. destruct u as [|a [|b [|]]]; try discriminate. destruct v as [|c [|d [|]]]; try discriminate.
  cbn. ring.
Qed.

Lemma solve2_solution (s1 s2 : segment R) x y : seg_wf 2 s1 -> seg_wf 2 s2 ->
  area_sq (sg_dir s1) (sg_dir s2) <> 0 -> sg_point s1 x = sg_point s2 y ->
  solve2 (sg_dir s1) (vopp (sg_dir s2)) (vsub (sg_p1 s2) (sg_p1 s1)) = Some (x, y).
Proof.
  intros H1 H2 HA E.
  pose proof (sg_dir_length 2 s1 H1) as L1. pose proof (sg_dir_length 2 s2 H2) as L2.
  rewrite area_2 in HA by assumption.
  assert (B : forall i, nth i (vsub (sg_p1 s2) (sg_p1 s1)) 0 = x * nth i (sg_dir s1) 0 - y * nth i (sg_dir s2) 0).
  { intros i. destruct (H1) as [A1 A2]. destruct (H2) as [B1 B2]. rewrite nth_vsub by congruence.
    pose proof (f_equal (fun l => nth i l 0) E) as A. cbn beta in A. rewrite !(nth_sg_point 2) in A by assumption.
    rewrite !(nth_sg_dir 2) by assumption. lra. }
  unfold solve2. rnum. rewrite !nth_vopp, !B.
  set (a := nth 0 (sg_dir s1) 0) in *. set (b := nth 1 (sg_dir s1) 0) in *.
  set (c := nth 0 (sg_dir s2) 0) in *. set (d := nth 1 (sg_dir s2) 0) in *.
  assert (N : a * d - b * c <> 0) by (intros Z; rewrite Z in HA; lra).
  assert (Q : Reqb (a * - d - - c * b) 0 = false).
  { destruct (Reqb _ 0) eqn:Q; [|reflexivity]. apply Reqb_iff in Q. exfalso. lra. }
  rewrite Q. do 2 f_equal; field; lra.
Qed.

(** ** The characterisation *)

Lemma area_dir (s1 s2 : segment R) :
  area_sq (minus (sg_p2 s1) (sg_p1 s1)) (minus (sg_p2 s2) (sg_p1 s2)) = area_sq (sg_dir s1) (sg_dir s2).
Proof. rewrite !minus_vsub. reflexivity. Qed.

Lemma pt_eqb_refl (p : list R) : pt_eqb p p = true.
Proof. apply pt_eqb_near. apply near_refl. Qed.

Lemma exact_result_point n feps (s1 s2 : segment R) x y : seg_wf n s1 -> seg_wf n s2 ->
  sg_point s1 x = sg_point s2 y ->
  exact_result feps s1 s2 x y =
    if in_unit x && in_unit y then Ok (mkInfo (IDPoint (sg_point s1 x)) IExact) else Ok not_intersected.
Proof.
  intros H1 H2 E. unfold exact_result. rewrite <- E, pt_eqb_refl. reflexivity.
Qed.

Lemma exact_segments_main n feps (s1 s2 : segment R) : seg_wf n s1 -> seg_wf n s2 ->
  sg_collinear s1 s2 = false ->
  let area := area_sq (minus (sg_p2 s1) (sg_p1 s1)) (minus (sg_p2 s2) (sg_p1 s2)) in
  (exact_segments feps s1 s2 = Ok not_intersected /\
     (area < f_eps \/ ~ in_common_plane n [sg_p1 s1; sg_p2 s1; sg_p1 s2; sg_p2 s2] \/
      near (sg_p1 s1) (sg_p2 s1) \/ near (sg_p1 s2) (sg_p2 s2))) \/
  (f_eps <= area /\ ~ near (sg_p1 s1) (sg_p2 s1) /\ ~ near (sg_p1 s2) (sg_p2 s2) /\
   exists x y, sg_point s1 x = sg_point s2 y /\
     exact_segments feps s1 s2 =
       if in_unit x && in_unit y then Ok (mkInfo (IDPoint (sg_point s1 x)) IExact) else Ok not_intersected).
Proof.
  intros H1 H2 NC area. unfold area. unfold exact_segments. rewrite NC.
  destruct (parallel_segments s1 s2 f_eps) eqn:EP.
  { apply (parallel_iff n s1 s2 _ H1 H2) in EP. left. auto. }
  assert (PA : f_eps <= area_sq (minus (sg_p2 s1) (sg_p1 s1)) (minus (sg_p2 s2) (sg_p1 s2))).
  { destruct (Rle_lt_dec f_eps (area_sq (minus (sg_p2 s1) (sg_p1 s1)) (minus (sg_p2 s2) (sg_p1 s2)))) as [L|L]; [assumption|].
    apply (parallel_iff n s1 s2 _ H1 H2) in L. congruence. }
  assert (NZ : area_sq (sg_dir s1) (sg_dir s2) <> 0).
  { rewrite <- area_dir. pose proof f_eps_R as FE. rewrite FE in PA. lra. }
  destruct (coplanar_points_iff n [sg_p1 s1; sg_p2 s1; sg_p1 s2; sg_p2 s2]) as (b & Eb & Ib).
  { cbn. lia. }
  { destruct H1, H2. apply dims4; assumption. }
  unfold sg_coplanar. rewrite Eb. cbn [rbind].
  destruct b; cbn [negb].
  2:{ left. split; [reflexivity|]. right. left. intros K. apply Ib in K. discriminate. }
  unfold sg_singular.
  destruct (pt_eqb (sg_p1 s1) (sg_p2 s1)) eqn:S1; cbn [orb].
  { apply pt_eqb_near in S1. left. auto. }
  destruct (pt_eqb (sg_p1 s2) (sg_p2 s2)) eqn:S2; cbn [orb].
  { apply pt_eqb_near in S2. left. auto. }
  right. split; [assumption|].
  split; [intros K; apply pt_eqb_near in K; congruence|].
  split; [intros K; apply pt_eqb_near in K; congruence|].
  destruct (plane_solution n s1 s2 H1 H2 NZ (proj1 Ib eq_refl)) as (x & y & E).
  exists x, y. split; [assumption|].
  destruct (Nat.eqb (sg_ndim s1) 2) eqn:N2.
  - apply Nat.eqb_eq in N2. unfold sg_ndim in N2. assert (n = 2%nat) by (destruct H1; congruence). subst n.
    rewrite (solve2_solution s1 s2 x y H1 H2 NZ E). apply (exact_result_point 2); assumption.
  - rewrite (lstsq2_solution n s1 s2 x y H1 H2 NZ E). apply (exact_result_point n); assumption.
Qed.

(** Collinear branch. *)
Lemma exact_segments_collinear {T} {NT : Num T} {ST : NumSqrt T} feps (s1 s2 : segment T) : sg_collinear s1 s2 = true ->
  exact_segments feps s1 s2 =
    match overlap_segments s1 s2 false with
    | None => Ok not_intersected
    | Some q => Ok (mkInfo (IDSegment q) IOverlap)
    end.
Proof. intros E. unfold exact_segments. rewrite E. destruct (overlap_segments s1 s2 false); reflexivity. Qed.

(** Boxes: overlap is None iff the boxes of the segments are disjoint. *)
Lemma overlap_box n (s1 s2 : segment R) x : seg_wf n s1 -> seg_wf n s2 ->
  on_segment (sg_p1 s1) (sg_p2 s1) x -> on_segment (sg_p1 s2) (sg_p2 s2) x ->
  exists q, overlap_segments s1 s2 false = Some q /\ seg_wf n q /\
    forall i, nth i (sg_p1 q) 0 <= nth i x 0 <= nth i (sg_p2 q) 0.
Proof.
  intros [A1 A2] [B1 B2] (t & Ht & Lx & Ex) (s & Hs & _ & Ey).
  unfold overlap_segments. cbn [andb].
  set (mn := map2 npmin (map2 npmax (sg_p1 s1) (sg_p2 s1)) (map2 npmax (sg_p1 s2) (sg_p2 s2))).
  set (mx := map2 npmax (map2 npmin (sg_p1 s1) (sg_p2 s1)) (map2 npmin (sg_p1 s2) (sg_p2 s2))).
  assert (Lmn : length mn = n) by (unfold mn; rewrite !map2_length; lia).
  assert (Lmx : length mx = n) by (unfold mx; rewrite !map2_length; lia).
  assert (B : forall i, nth i mx 0 <= nth i x 0 <= nth i mn 0).
  { intros i. destruct (Nat.lt_ge_cases i n) as [Hi|Hi].
    - unfold mx, mn.
      rewrite !(nth_map2 _ _ _ i 0 0 0) by (rewrite ?map2_length; lia).
      rewrite !npmin_R, !npmax_R. specialize (Ex i). specialize (Ey i).
      pose proof (param_interval (nth i (sg_p1 s1) 0) (nth i (sg_p2 s1) 0) t Ht).
      pose proof (param_interval (nth i (sg_p1 s2) 0) (nth i (sg_p2 s2) 0) s Hs).
      split; [apply Rmax_lub; lra|apply Rmin_glb; lra].
    - rewrite !(nth_overflow _ 0) by lia. lra. }
  destruct (existsb (fun b => b) _) eqn:E.
  - exfalso. apply existsb_map2_iff in E; [|congruence]. destruct E as (i & _ & E).
    cbn [nltb RNum] in E. apply Rltb_iff in E. specialize (B i). lra.
  - exists (mkSeg mx mn). split; [reflexivity|]. split; [split; assumption|]. exact B.
Qed.
