(** Completeness of exact intersection, candidate pairs, curves. *)
From Coq Require Import ZArith List Bool Arith Lia Reals Lra Sorting.Sorted.
From Verif Require Import Num Py Numeric Curve Vec Geom Intersect Spec GeomSpec.
From Verif Require Import ListFacts CurveProofs CurveProofs2 CurveProofs3 VecFacts RankProofs GeomProofs GeomProofs2 GeomProofs3 GeomProofs4 IntersectProofs.
Import ListNotations.
Local Open Scope R_scope.

(** ** Completeness for two segments *)

Lemma common_point_plane n (s1 s2 : segment R) x y : seg_wf n s1 -> seg_wf n s2 ->
  sg_point s1 x = sg_point s2 y -> in_common_plane n [sg_p1 s1; sg_p2 s1; sg_p1 s2; sg_p2 s2].
Proof.
  intros H1 H2 E. exists (sg_point s1 x), (sg_dir s1), (sg_dir s2).
  split; [apply sg_point_length; assumption|]. split; [apply sg_dir_length; assumption|].
  split; [apply sg_dir_length; assumption|].
  assert (P : forall i, nth i (sg_point s1 x) 0 = nth i (sg_p1 s1) 0 + x * (nth i (sg_p2 s1) 0 - nth i (sg_p1 s1) 0))
    by (intros i; apply (nth_sg_point n); assumption).
  assert (Q : forall i, nth i (sg_point s1 x) 0 = nth i (sg_p1 s2) 0 + y * (nth i (sg_p2 s2) 0 - nth i (sg_p1 s2) 0))
    by (intros i; rewrite E; apply (nth_sg_point n); assumption).
  intros z Hz. cbn [In] in Hz. destruct Hz as [<-|[<-|[<-|[<-|[]]]]].
  - exists (- x), 0. intros i. rewrite !(nth_sg_dir n), P by assumption. ring.
  - exists (1 - x), 0. intros i. rewrite !(nth_sg_dir n), P by assumption. ring.
  - exists 0, (- y). intros i. rewrite !(nth_sg_dir n), Q by assumption. ring.
  - exists 0, (1 - y). intros i. rewrite !(nth_sg_dir n), Q by assumption. ring.
Qed.

(** Any point of both lines within the accepted parameter range is found. *)
Lemma exact_segments_found n feps (s1 s2 : segment R) x y : seg_wf n s1 -> seg_wf n s2 ->
  sg_collinear s1 s2 = false ->
  f_eps <= area_sq (minus (sg_p2 s1) (sg_p1 s1)) (minus (sg_p2 s2) (sg_p1 s2)) ->
  ~ near (sg_p1 s1) (sg_p2 s1) -> ~ near (sg_p1 s2) (sg_p2 s2) ->
  sg_point s1 x = sg_point s2 y ->
  exact_segments feps s1 s2 =
    if in_unit x && in_unit y then Ok (mkInfo (IDPoint (sg_point s1 x)) IExact) else Ok not_intersected.
Proof.
  intros H1 H2 NC HA N1 N2 E.
  assert (NZ : area_sq (sg_dir s1) (sg_dir s2) <> 0).
  { rewrite area_dir in HA. pose proof f_eps_R as FE. rewrite FE in HA. lra. }
  destruct (exact_segments_main n feps s1 s2 H1 H2 NC) as [(_ & [L|[C|[K|K]]])|(_ & _ & _ & x' & y' & E' & R)];
    try contradiction.
  - lra.
  - exfalso. apply C. eapply common_point_plane; eassumption.
  - destruct (unique_solution n s1 s2 x y x' y' H1 H2 NZ E E') as [-> ->]. exact R.
Qed.

Lemma exact_segments_complete n feps (s1 s2 : segment R) p : seg_wf n s1 -> seg_wf n s2 ->
  f_eps <= area_sq (minus (sg_p2 s1) (sg_p1 s1)) (minus (sg_p2 s2) (sg_p1 s2)) ->
  ~ near (sg_p1 s1) (sg_p2 s1) -> ~ near (sg_p1 s2) (sg_p2 s2) ->
  on_segment (sg_p1 s1) (sg_p2 s1) p -> on_segment (sg_p1 s2) (sg_p2 s2) p ->
  exact_segments feps s1 s2 = Ok (mkInfo (IDPoint p) IExact) \/
  (sg_collinear s1 s2 = true /\
   exists q, exact_segments feps s1 s2 = Ok (mkInfo (IDSegment q) IOverlap) /\
     forall i, nth i (sg_p1 q) 0 <= nth i p 0 <= nth i (sg_p2 q) 0).
Proof.
  intros H1 H2 HA N1 N2 P1 P2. destruct (sg_collinear s1 s2) eqn:C.
  - right. split; [reflexivity|]. destruct (overlap_box n s1 s2 p H1 H2 P1 P2) as (q & E & _ & B).
    exists q. rewrite exact_segments_collinear, E by assumption. auto.
  - left. destruct P1 as (x & Hx & A1). destruct P2 as (y & Hy & A2).
    apply (affine_sg_point n) in A1; [|assumption]. apply (affine_sg_point n) in A2; [|assumption].
    rewrite (exact_segments_found n feps s1 s2 x y) by (try assumption; congruence).
    rewrite A1.
    assert (in_unit x = true) by (apply in_unit_R; lra). assert (in_unit y = true) by (apply in_unit_R; lra).
    rewrite H, H0. reflexivity.
Qed.

(** Independent directions and no pairwise equal ends: the collinearity test
    fails. *)
Lemma not_collinear n (s1 s2 : segment R) : seg_wf n s1 -> seg_wf n s2 ->
  area_sq (minus (sg_p2 s1) (sg_p1 s1)) (minus (sg_p2 s2) (sg_p1 s2)) <> 0 ->
  ~ (near (sg_p1 s2) (sg_p1 s1) /\ near (sg_p2 s2) (sg_p2 s1)) ->
  ~ (near (sg_p2 s2) (sg_p1 s1) /\ near (sg_p1 s2) (sg_p2 s1)) ->
  sg_collinear s1 s2 = false.
Proof.
  intros H1 H2 HA N1 N2. unfold sg_collinear, sg_eqb, sg_reverse. cbn [sg_p1 sg_p2].
  destruct (pt_eqb (sg_p1 s2) (sg_p1 s1) && pt_eqb (sg_p2 s2) (sg_p2 s1)) eqn:E1.
  { apply Bool.andb_true_iff in E1. destruct E1 as [A B]. apply pt_eqb_near in A, B. exfalso. apply N1. auto. }
  destruct (pt_eqb (sg_p2 s2) (sg_p1 s1) && pt_eqb (sg_p1 s2) (sg_p2 s1)) eqn:E2.
  { apply Bool.andb_true_iff in E2. destruct E2 as [A B]. apply pt_eqb_near in A, B. exfalso. apply N2. auto. }
  cbn [orb]. destruct (collinear_points _) eqn:C; [|reflexivity].
  apply (collinear_points_sound n) in C; [|destruct H1, H2; apply dims4; assumption].
  exfalso. apply HA. destruct C as (p & u & Lp & Lu & HL).
  destruct (HL (sg_p1 s1)) as (a1 & A1); [cbn; auto|]. destruct (HL (sg_p2 s1)) as (a2 & A2); [cbn; auto|].
  destruct (HL (sg_p1 s2)) as (b1 & B1); [cbn; auto|]. destruct (HL (sg_p2 s2)) as (b2 & B2); [cbn; auto|].
  rewrite area_dir. apply proportional_area; [rewrite !(sg_dir_length n) by assumption; reflexivity|].
  destruct (Req_dec (a2 - a1) 0) as [Z|Z].
  - exists 1, 0. split; [lra|]. intros i. rewrite !(nth_sg_dir n), A1, A2 by assumption. replace a2 with a1 by lra. ring.
  - exists (b2 - b1), (a2 - a1). split; [lra|]. intros i.
    rewrite !(nth_sg_dir n), A1, A2, B1, B2 by assumption. ring.
Qed.

(** ** The reported point *)

Lemma exact_point_params n feps (s1 s2 : segment R) p : seg_wf n s1 -> seg_wf n s2 ->
  exact_segments feps s1 s2 = Ok (mkInfo (IDPoint p) IExact) ->
  exists x y, - / 100000000 <= x <= 1 + / 100000000 + / 100000 /\
              - / 100000000 <= y <= 1 + / 100000000 + / 100000 /\
    affine_at (sg_p1 s1) (sg_p2 s1) x p /\ affine_at (sg_p1 s2) (sg_p2 s2) y p.
Proof.
  intros H1 H2 E. destruct (sg_collinear s1 s2) eqn:C.
  { rewrite exact_segments_collinear in E by assumption. destruct (overlap_segments _ _ _); discriminate. }
  destruct (exact_segments_main n feps s1 s2 H1 H2 C) as [(N & _)|(_ & _ & _ & x & y & EQ & R)].
  - rewrite N in E. discriminate.
  - rewrite R in E. destruct (in_unit x) eqn:Ux; [|discriminate]. destruct (in_unit y) eqn:Uy; [|discriminate].
    cbn [andb] in E. injection E as <-. apply in_unit_R in Ux, Uy. exists x, y.
    split; [assumption|]. split; [assumption|]. split; [apply (sg_point_affine n); assumption|].
    rewrite EQ. apply (sg_point_affine n); assumption.
Qed.

(** A point of the slightly extended segment is close to the segment. *)
Lemma extended_near n (s : segment R) x p tol : seg_wf n s -> 0 <= tol ->
  - tol <= x <= 1 + tol -> affine_at (sg_p1 s) (sg_p2 s) x p ->
  exists q, on_segment (sg_p1 s) (sg_p2 s) q /\ dist p q <= tol * dist (sg_p1 s) (sg_p2 s).
Proof.
  intros W Ht Hx A. apply (affine_sg_point n) in A; [|assumption]. subst p.
  set (x' := Rmax 0 (Rmin 1 x)).
  assert (B : 0 <= x' <= 1) by (unfold x', Rmax, Rmin; repeat destruct (Rle_dec _ _); lra).
  assert (D : Rabs (x' - x) <= tol)
    by (unfold x', Rmax, Rmin; repeat destruct (Rle_dec _ _); unfold Rabs; destruct (Rcase_abs _); lra).
  exists (sg_point s x'). split.
  { exists x'. split; [assumption|]. apply (sg_point_affine n); assumption. }
  destruct (W) as [W1 W2].
  rewrite !dist_vdist by (rewrite ?(sg_point_length n); congruence).
  rewrite (sg_point_move n) by assumption.
  assert (V : vdist (sg_p1 s) (sg_p2 s) = vnorm (sg_dir s)).
  { rewrite vdist_sym by congruence. reflexivity. }
  rewrite V. apply Rmult_le_compat_r; [apply vnorm_nonneg|]. rewrite Rabs_minus_sym. assumption.
Qed.
