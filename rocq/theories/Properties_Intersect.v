(** Properties C41-C48: intersection of segments and curves. *)
From Coq Require Import ZArith String List Bool Arith Lia PrimFloat Reals Lra Sorting.Sorted Permutation Relations.
From Verif Require Import Num Py Numeric Curve Vec Geom Intersect Registry Spec GeomSpec.
From Verif Require Import ListFacts CurveProofs CurveProofs2 CurveProofs3 VecFacts GeomProofs GeomProofs2 GeomProofs3 GeomProofs4.
From Verif Require Import IntersectProofs IntersectProofs2 IntersectProofs3 IntersectProofs4 RegistryProofs IntersectProofs5.
Import ListNotations.
Local Open Scope R_scope.

(** Points that are not close, on concrete coordinates. *)
Ltac notnear := intros K; repeat match goal with H : near _ _ |- _ => unfold near in H end;
  repeat match goal with H : Forall2 _ (_ :: _) (_ :: _) |- _ => inversion H; clear H; subst end;
  repeat match goal with H : context [Rabs ?x] |- _ => revert H; unfold Rabs at 1; destruct (Rcase_abs x); intros H end; lra.

(** Segments used in the examples. *)
Definition diag1 : segment R := mkSeg [0; 0] [2; 2].
Definition diag2 : segment R := mkSeg [0; 2] [2; 0].

(** ** C41 Result objects *)

Theorem C41_truthy : forall {T} (x : inter T), in_bool x = true <-> i_type (in_info x) <> INone.
Proof. intros T x. unfold in_bool. destruct (i_type (in_info x)); cbn; split; congruence. Qed.
Print Assumptions C41_truthy.

(** Constructing an info succeeds exactly for matching data, and otherwise
    raises ValueError. *)
Theorem C41_make_info : forall {T} (t : itype) (d : idata T),
  make_info t d =
    match t, d with
    | IExact, IDPoint _ | IOverlap, IDSegment _ | IAlmost, IDSegment _ => Ok (mkInfo d t)
    | _, _ => Raise ValueError
    end.
Proof. intros T [| | |] [|p|s]; reflexivity. Qed.
Print Assumptions C41_make_info.

(** The data of every result fits its type. *)
Theorem C41_segments : forall {T} {NT : Num T} {ST : NumSqrt T} feps pr (s1 s2 : segment T) i,
  exact_segments feps s1 s2 = Ok i \/ almost_segments pr s1 s2 = Ok i ->
  match i_type i, i_data i with
  | INone, IDNone | IExact, IDPoint _ | IOverlap, IDSegment _ | IAlmost, IDSegment _ => True
  | _, _ => False
  end.
Proof.
  intros T NT ST feps pr s1 s2 i H.
  assert (K : info_ok i) by (destruct H as [H|H]; [exact (exact_segments_ok _ _ _ _ H)|exact (almost_segments_ok _ _ _ _ H)]).
  unfold info_ok in K. destruct (i_type i); [rewrite K|destruct K as (x & ->)..]; exact I.
Qed.
Print Assumptions C41_segments.
Example C41_segments_ex :
  exact_segments (T := float) f_eps (mkSeg [fz 0; fz 0] [fz 2; fz 2]) (mkSeg [fz 0; fz 2] [fz 2; fz 0])
    = Ok (mkInfo (IDPoint [fz 1; fz 1]) IExact) /\
  exact_segments (T := float) f_eps (mkSeg [fz 0; fz 0] [fz 2; fz 2]) (mkSeg [fz 1; fz 1] [fz 4; fz 4])
    = Ok (mkInfo (IDSegment (mkSeg [fz 1; fz 1] [fz 2; fz 2])) IOverlap).
Proof. vm_compute. split; reflexivity. Qed.

Theorem C41_curves : forall {T} {NT : Num T} {ST : NumSqrt T} feps pr order (c1 c2 : curve T) same l x,
  exact_curves feps c1 c2 same = Ok l \/ almost_curves pr order c1 c2 same = Ok l -> In x l ->
  match i_type (in_info x), i_data (in_info x) with
  | IExact, IDPoint _ | IOverlap, IDSegment _ | IAlmost, IDSegment _ => True
  | _, _ => False
  end.
Proof.
  intros T NT ST feps pr order c1 c2 same l x H Hx.
  assert (K : info_ok (in_info x) /\ in_bool x = true)
    by (destruct H as [H|H]; [exact (exact_curves_ok _ _ _ _ _ _ H Hx)|exact (almost_curves_ok _ _ _ _ _ _ _ H Hx)]).
  destruct K as [K B]. unfold info_ok, in_bool in *.
  destruct (i_type (in_info x)); [discriminate|destruct K as (y & ->)..]; exact I.
Qed.
Print Assumptions C41_curves.

(** intersect_point and intersect_segment. *)
Theorem C41_accessors : forall (x : inter R),
  match i_type (in_info x), i_data (in_info x) with
  | INone, _ => in_point x = Ok IDNone /\ in_segment x = Ok IDNone
  | IExact, IDPoint p => in_point x = Ok (IDPoint p) /\
      in_segment x = match p with [] => Raise ValueError | _ => Ok (IDSegment (mkSeg p p)) end
  | IExact, d => in_point x = Ok d /\ in_segment x = Raise TypeError
  | IOverlap, IDSegment s | IAlmost, IDSegment s =>
      in_segment x = Ok (IDSegment s) /\
      forall n, seg_wf n s -> exists m, in_point x = Ok (IDPoint m) /\ affine_at (sg_p1 s) (sg_p2 s) (/ 2) m
  | _, d => in_segment x = Ok d /\ in_point x = Raise OtherError
  end.
Proof.
  intros x. unfold in_point, in_segment, in_bool.
  assert (H : (nlit 1 2 : R) = / 2) by (cbn; lra).
  destruct (i_type (in_info x)); cbn [itype_eqb negb]; [auto| | |]; destruct (i_data (in_info x)) as [|p|s]; try (split; reflexivity).
  - split; [reflexivity|]. unfold mk_segment. destruct p as [|a p]; [reflexivity|]. cbn [length].
    rewrite Nat.eqb_refl. reflexivity.
  - split; [reflexivity|]. intros n W. eexists. split; [reflexivity|]. rewrite H. apply (sg_point_affine n). assumption.
  - split; [reflexivity|]. intros n W. eexists. split; [reflexivity|]. rewrite H. apply (sg_point_affine n). assumption.
Qed.
Print Assumptions C41_accessors.

(** ** C42 Soundness of the exact method *)

(** The reported point lies on both lines, at parameters inside [0,1] up to
    the tolerance of the range test - in any dimension. *)
Theorem C42_on_both_lines : forall n feps (s1 s2 : segment R) p, seg_wf n s1 -> seg_wf n s2 ->
  exact_segments feps s1 s2 = Ok (mkInfo (IDPoint p) IExact) ->
  exists x y, - / 100000000 <= x <= 1 + / 100000000 + / 100000 /\
              - / 100000000 <= y <= 1 + / 100000000 + / 100000 /\
    affine_at (sg_p1 s1) (sg_p2 s1) x p /\ affine_at (sg_p1 s2) (sg_p2 s2) y p.
Proof. exact exact_point_params. Qed.
Print Assumptions C42_on_both_lines.

Theorem C42_near_both_segments : forall n feps (s1 s2 : segment R) p, seg_wf n s1 -> seg_wf n s2 ->
  exact_segments feps s1 s2 = Ok (mkInfo (IDPoint p) IExact) ->
  let tol := / 100000000 + / 100000 in
  exists q1 q2, on_segment (sg_p1 s1) (sg_p2 s1) q1 /\ on_segment (sg_p1 s2) (sg_p2 s2) q2 /\
    dist p q1 <= tol * dist (sg_p1 s1) (sg_p2 s1) /\ dist p q2 <= tol * dist (sg_p1 s2) (sg_p2 s2).
Proof.
  intros n feps s1 s2 p H1 H2 E tol. destruct (exact_point_params n feps s1 s2 p H1 H2 E) as (x & y & Hx & Hy & A1 & A2).
  destruct (extended_near n s1 x p tol H1) as (q1 & Q1 & D1); [unfold tol; lra|unfold tol; lra|assumption|].
  destruct (extended_near n s2 y p tol H2) as (q2 & Q2 & D2); [unfold tol; lra|unfold tol; lra|assumption|].
  exists q1, q2. auto.
Qed.
Print Assumptions C42_near_both_segments.

(** Segments farther apart than the tolerance are never reported as EXACT. *)
Theorem C42_far_segments : forall n feps (s1 s2 : segment R), seg_wf n s1 -> seg_wf n s2 ->
  (forall q1 q2, on_segment (sg_p1 s1) (sg_p2 s1) q1 -> on_segment (sg_p1 s2) (sg_p2 s2) q2 ->
     (/ 100000000 + / 100000) * (dist (sg_p1 s1) (sg_p2 s1) + dist (sg_p1 s2) (sg_p2 s2)) < dist q1 q2) ->
  forall p, exact_segments feps s1 s2 <> Ok (mkInfo (IDPoint p) IExact).
Proof.
  intros n feps s1 s2 H1 H2 F p E.
  destruct (C42_near_both_segments n feps s1 s2 p H1 H2 E) as (q1 & q2 & Q1 & Q2 & D1 & D2). cbv zeta in *.
  specialize (F q1 q2 Q1 Q2).
  assert (L1 : length q1 = n) by (destruct Q1 as (t & _ & L & _); destruct H1; congruence).
  assert (L2 : length q2 = n) by (destruct Q2 as (t & _ & L & _); destruct H2; congruence).
  assert (Lp : length p = n).
  { destruct (exact_point_params n feps s1 s2 p H1 H2 E) as (x & y & _ & _ & (L & _) & _). destruct H1; congruence. }
  rewrite (dist_vdist p q1), (dist_vdist p q2), (dist_vdist q1 q2) in * by congruence.
  pose proof (vdist_triangle q1 p q2 ltac:(congruence) ltac:(congruence)) as Tr.
  rewrite (vdist_sym q1 p) in Tr by congruence. lra.
Qed.
Print Assumptions C42_far_segments.

Example C42_ex : exact_segments f_eps diag1 diag2 = Ok (mkInfo (IDPoint [1; 1]) IExact).
Proof.
  destruct (exact_segments_complete 2 f_eps diag1 diag2 [1; 1]) as [E|(C & _)].
  - split; reflexivity.
  - split; reflexivity.
  - rewrite f_eps_R. cbn. lra.
  - cbn. notnear.
  - cbn. notnear.
  - exists (/ 2). split; [lra|]. split; [reflexivity|]. intros [|[|[|i]]]; cbn; lra.
  - exists (/ 2). split; [lra|]. split; [reflexivity|]. intros [|[|[|i]]]; cbn; lra.
  - exact E.
  - rewrite (not_collinear 2) in C; [discriminate|split; reflexivity|split; reflexivity|cbn; lra| |].
    + intros (K & _). revert K. cbn. notnear.
    + intros (K & _). revert K. cbn. notnear.
Qed.
Example C42_far_ex : forall p, exact_segments f_eps (mkSeg [0; 0] [1; 0]) (mkSeg [0; 1] [1; 1]) <> Ok (mkInfo (IDPoint p) IExact).
Proof.
  apply (C42_far_segments 2); [split; reflexivity|split; reflexivity|]. intros q1 q2 (t & Ht & L1 & A) (s & Hs & L2 & B).
  assert (E1 : dist [0; 0] [1; 0] = 1) by (unfold dist, norm; cbn; transitivity (sqrt 1); [f_equal; lra|apply sqrt_1]).
  assert (E2 : dist [0; 1] [1; 1] = 1) by (unfold dist, norm; cbn; transitivity (sqrt 1); [f_equal; lra|apply sqrt_1]).
  cbn [sg_p1 sg_p2] in *. rewrite E1, E2.
  destruct q1 as [|a [|b [|]]]; try discriminate. destruct q2 as [|c [|d [|]]]; try discriminate.
  pose proof (A 1%nat) as A1. pose proof (B 1%nat) as B1. cbn in A1, B1.
  apply Rlt_le_trans with 1; [lra|].
  unfold dist, norm. cbn [minus inner]. rewrite <- sqrt_1 at 1. apply sqrt_le_1_alt.
  replace (d - b) with 1 by lra. pose proof (Rle_0_sqr (c - a)) as Q. unfold Rsqr in Q. lra.
Qed.

(** ** C43 Completeness of the exact method *)

(** Common points of properly crossing segments are reported: as EXACT with
    exactly this point, or inside the box of an OVERLAP (only for segments
    whose ends are pairwise close). *)
Theorem C43_complete : forall n feps (s1 s2 : segment R) p, seg_wf n s1 -> seg_wf n s2 ->
  / 4503599627370496 <= area_sq (minus (sg_p2 s1) (sg_p1 s1)) (minus (sg_p2 s2) (sg_p1 s2)) ->
  ~ near (sg_p1 s1) (sg_p2 s1) -> ~ near (sg_p1 s2) (sg_p2 s2) ->
  on_segment (sg_p1 s1) (sg_p2 s1) p -> on_segment (sg_p1 s2) (sg_p2 s2) p ->
  exact_segments feps s1 s2 = Ok (mkInfo (IDPoint p) IExact) \/
  exists q, exact_segments feps s1 s2 = Ok (mkInfo (IDSegment q) IOverlap) /\
     forall i, nth i (sg_p1 q) 0 <= nth i p 0 <= nth i (sg_p2 q) 0.
Proof.
  intros n feps s1 s2 p H1 H2 HA N1 N2 P1 P2. rewrite <- f_eps_R in HA.
  destruct (exact_segments_complete n feps s1 s2 p H1 H2 HA N1 N2 P1 P2) as [E|(_ & E)]; auto.
Qed.
Print Assumptions C43_complete.

(** If moreover the ends are not pairwise close the result is EXACT. *)
Theorem C43_exact : forall n feps (s1 s2 : segment R) p, seg_wf n s1 -> seg_wf n s2 ->
  / 4503599627370496 <= area_sq (minus (sg_p2 s1) (sg_p1 s1)) (minus (sg_p2 s2) (sg_p1 s2)) ->
  ~ near (sg_p1 s1) (sg_p2 s1) -> ~ near (sg_p1 s2) (sg_p2 s2) ->
  ~ (near (sg_p1 s2) (sg_p1 s1) /\ near (sg_p2 s2) (sg_p2 s1)) ->
  ~ (near (sg_p2 s2) (sg_p1 s1) /\ near (sg_p1 s2) (sg_p2 s1)) ->
  on_segment (sg_p1 s1) (sg_p2 s1) p -> on_segment (sg_p1 s2) (sg_p2 s2) p ->
  exact_segments feps s1 s2 = Ok (mkInfo (IDPoint p) IExact).
Proof.
  intros n feps s1 s2 p H1 H2 HA N1 N2 M1 M2 P1 P2.
  assert (NZ : area_sq (minus (sg_p2 s1) (sg_p1 s1)) (minus (sg_p2 s2) (sg_p1 s2)) <> 0) by lra.
  rewrite <- f_eps_R in HA.
  destruct (exact_segments_complete n feps s1 s2 p H1 H2 HA N1 N2 P1 P2) as [E|(C & _)]; [assumption|].
  rewrite (not_collinear n s1 s2 H1 H2 NZ M1 M2) in C. discriminate.
Qed.
Print Assumptions C43_exact.
Example C43_ex : exact_segments f_eps diag1 diag2 = Ok (mkInfo (IDPoint [1; 1]) IExact).
Proof.
  apply (C43_exact 2).
  - split; reflexivity.
  - split; reflexivity.
  - cbn. lra.
  - cbn. notnear.
  - cbn. notnear.
  - intros (K & _). revert K. cbn. notnear.
  - intros (K & _). revert K. cbn. notnear.
  - exists (/ 2). split; [lra|]. split; [reflexivity|]. intros [|[|[|i]]]; cbn; lra.
  - exists (/ 2). split; [lra|]. split; [reflexivity|]. intros [|[|[|i]]]; cbn; lra.
Qed.
(** Three dimensions, by running the model on floats. *)
Example C43_ex3 : exact_segments (T := float) f_eps (mkSeg [fz 0; fz 0; fz 1] [fz 2; fz 2; fz 1]) (mkSeg [fz 0; fz 2; fz 0] [fz 2; fz 0; fz 2])
  = Ok (mkInfo (IDPoint [fz 1; fz 1; fz 1]) IExact).
Proof. vm_compute. reflexivity. Qed.

(** Short segments: a proper crossing that is not reported. *)
Theorem C43_short_refuted : exists (s1 s2 : segment R) p, seg_wf 2 s1 /\ seg_wf 2 s2 /\
  on_segment (sg_p1 s1) (sg_p2 s1) p /\ on_segment (sg_p1 s2) (sg_p2 s2) p /\
  0 < area_sq (minus (sg_p2 s1) (sg_p1 s1)) (minus (sg_p2 s2) (sg_p1 s2)) /\
  ~ near (sg_p1 s1) (sg_p2 s1) /\ ~ near (sg_p1 s2) (sg_p2 s2) /\
  forall feps, exact_segments feps s1 s2 = Ok not_intersected.
Proof.
  exists (mkSeg [0; 0] [/ 20000; / 20000]), (mkSeg [0; / 20000] [/ 20000; 0]), [/ 40000; / 40000].
  assert (W1 : seg_wf 2 (mkSeg [0; 0] [/ 20000; / 20000])) by (split; reflexivity).
  assert (W2 : seg_wf 2 (mkSeg [0; / 20000] [/ 20000; 0])) by (split; reflexivity).
  split; [assumption|]. split; [assumption|].
  split; [exists (/ 2); split; [lra|]; split; [reflexivity|]; intros [|[|[|i]]]; cbn; lra|].
  split; [exists (/ 2); split; [lra|]; split; [reflexivity|]; intros [|[|[|i]]]; cbn; lra|].
  split; [cbn; lra|]. split; [cbn; notnear|]. split; [cbn; notnear|].
  intros feps.
  assert (NC : sg_collinear (mkSeg [0; 0] [/ 20000; / 20000]) (mkSeg [0; / 20000] [/ 20000; 0]) = false).
  { apply (not_collinear 2); try assumption; [cbn; lra| |]; intros (K & _); revert K; cbn; notnear. }
  destruct (exact_segments_main 2 feps _ _ W1 W2 NC) as [(E & _)|(F & _)]; [assumption|].
  exfalso. rewrite f_eps_R in F. cbn in F. lra.
Qed.
Print Assumptions C43_short_refuted.

(** A short segment far from the origin counts as a point: not reported. *)
Theorem C43_far_from_origin_refuted : exists (s1 s2 : segment R) p, seg_wf 2 s1 /\ seg_wf 2 s2 /\
  on_segment (sg_p1 s1) (sg_p2 s1) p /\ on_segment (sg_p1 s2) (sg_p2 s2) p /\
  / 4503599627370496 <= area_sq (minus (sg_p2 s1) (sg_p1 s1)) (minus (sg_p2 s2) (sg_p1 s2)) /\
  forall feps, exact_segments feps s1 s2 = Ok not_intersected.
Proof.
  exists (mkSeg [1000; 1000] [1000 + / 200; 1000]), (mkSeg [1000 + / 400; 0] [1000 + / 400; 2000]), [1000 + / 400; 1000].
  assert (W1 : seg_wf 2 (mkSeg [1000; 1000] [1000 + / 200; 1000])) by (split; reflexivity).
  assert (W2 : seg_wf 2 (mkSeg [1000 + / 400; 0] [1000 + / 400; 2000])) by (split; reflexivity).
  split; [assumption|]. split; [assumption|].
  split; [exists (/ 2); split; [lra|]; split; [reflexivity|]; intros [|[|[|i]]]; cbn; lra|].
  split; [exists (/ 2); split; [lra|]; split; [reflexivity|]; intros [|[|[|i]]]; cbn; lra|].
  split; [cbn; lra|]. intros feps.
  assert (NC : sg_collinear (mkSeg [1000; 1000] [1000 + / 200; 1000]) (mkSeg [1000 + / 400; 0] [1000 + / 400; 2000]) = false).
  { apply (not_collinear 2); try assumption; [cbn; lra| |]; intros (K & _); revert K; cbn; notnear. }
  destruct (exact_segments_main 2 feps _ _ W1 W2 NC) as [(E & _)|(_ & F & _)]; [assumption|].
  exfalso. apply F. unfold near. cbn.
  repeat constructor; rewrite (Rabs_right (_ + _)) || rewrite (Rabs_right 1000); try lra;
    unfold Rabs; destruct (Rcase_abs _); lra.
Qed.
Print Assumptions C43_far_from_origin_refuted.

(** Overlapping collinear segments off the origin are missed. *)
Theorem C43_overlap_refuted : exists (s1 s2 : segment R) p, seg_wf 2 s1 /\ seg_wf 2 s2 /\
  on_common_line 2 [sg_p1 s1; sg_p2 s1; sg_p1 s2; sg_p2 s2] /\
  on_segment (sg_p1 s1) (sg_p2 s1) p /\ on_segment (sg_p1 s2) (sg_p2 s2) p /\
  forall feps, exact_segments feps s1 s2 = Ok not_intersected.
Proof.
  exists (mkSeg [0; 1] [2; 1]), (mkSeg [1; 1] [3; 1]), [1; 1].
  assert (W1 : seg_wf 2 (mkSeg [0; 1] [2; 1])) by (split; reflexivity).
  assert (W2 : seg_wf 2 (mkSeg [1; 1] [3; 1])) by (split; reflexivity).
  split; [assumption|]. split; [assumption|].
  split.
  { exists [0; 1], [1; 0]. split; [reflexivity|]. split; [reflexivity|].
    intros x [<-|[<-|[<-|[<-|[]]]]]; [exists 0|exists 2|exists 1|exists 3]; intros [|[|[|i]]]; cbn; lra. }
  split; [exists (/ 2); split; [lra|]; split; [reflexivity|]; intros [|[|[|i]]]; cbn; lra|].
  split; [exists 0; split; [lra|]; split; [reflexivity|]; intros [|[|[|i]]]; cbn; lra|].
  intros feps.
  assert (NC : sg_collinear (mkSeg [0; 1] [2; 1]) (mkSeg [1; 1] [3; 1]) = false).
  { unfold sg_collinear, sg_eqb, sg_reverse. cbn [sg_p1 sg_p2].
    destruct (pt_eqb [1; 1] [0; 1]) eqn:E1; [apply pt_eqb_near in E1; exfalso; revert E1; notnear|].
    destruct (pt_eqb [3; 1] [0; 1]) eqn:E2; [apply pt_eqb_near in E2; exfalso; revert E2; notnear|].
    cbn [andb orb]. destruct (collinear_points _) eqn:C; [|reflexivity].
    apply (collinear_points_iff 2) in C; [|apply dims4; reflexivity].
    exfalso. destruct C as [(a & b & C)|(u & Lu & C)].
    - destruct (C [0; 1]) as [X|X]; [cbn; auto|..]; destruct (C [2; 1]) as [Y|Y]; try (cbn; auto);
      destruct (C [1; 1]) as [Z|Z]; try (cbn; auto); assert (Q : [0; 1] = [2; 1] \/ [0; 1] = [1; 1] \/ [2; 1] = [1; 1]) by (intuition congruence);
      destruct Q as [Q|[Q|Q]]; injection Q; lra.
    - destruct (C [0; 1]) as (t & Ht); [cbn; auto|]. destruct (C [2; 1]) as (r & Hr); [cbn; auto|].
      pose proof (Ht 0%nat). pose proof (Ht 1%nat). pose proof (Hr 0%nat). pose proof (Hr 1%nat). cbn in *.
      destruct (Req_dec (nth 0 u 0) 0) as [Z|Z]; [rewrite Z in *; lra|].
      assert (t = 0). { destruct (Req_dec t 0) as [Q|Q]; [assumption|]. exfalso. symmetry in H. apply Rmult_integral in H. tauto. }
      subst t. lra. }
  destruct (exact_segments_main 2 feps _ _ W1 W2 NC) as [(E & _)|(F & _)]; [assumption|].
  exfalso. rewrite f_eps_R in F. cbn in F. lra.
Qed.
Print Assumptions C43_overlap_refuted.

(** ** C44 Candidate pairs *)

Theorem C44_members : forall m1 m2 (m : nat -> nat -> bool) self i j,
  In (i, j) (curves_intersect_indices m1 m2 m self) <->
  (i < m1)%nat /\ (j < m2)%nat /\ m i j = true /\ (self = true -> (i + 2 <= j)%nat).
Proof. exact indices_In. Qed.
Print Assumptions C44_members.

(** Row-major order, without repetition. *)
Theorem C44_order : forall m1 m2 m self,
  StronglySorted (fun p q : nat * nat => (fst p < fst q \/ fst p = fst q /\ snd p < snd q)%nat)
    (curves_intersect_indices m1 m2 m self).
Proof. exact indices_sorted. Qed.
Print Assumptions C44_order.

(** Each unordered pair at most once in a self-intersection. *)
Theorem C44_once : forall m1 m2 m i j,
  In (i, j) (curves_intersect_indices m1 m2 m true) -> ~ In (j, i) (curves_intersect_indices m1 m2 m true).
Proof.
  intros m1 m2 m i j H K. apply indices_In in H. apply indices_In in K.
  destruct H as (_ & _ & _ & H). destruct K as (_ & _ & _ & K). specialize (H eq_refl). specialize (K eq_refl). lia.
Qed.
Print Assumptions C44_once.
Example C44_ex : curves_intersect_indices 4 4 (fun i j => Nat.eqb ((i + j) mod 2) 1 || Nat.eqb i 0) true = [(0, 2); (0, 3)]%nat
  /\ curves_intersect_indices 2 3 (fun i j => Nat.ltb i j) false = [(0, 1); (0, 2); (1, 2)]%nat.
Proof. split; reflexivity. Qed.

(** ** C45 Exact intersection of curves *)

(** The result is the list of the non-empty segment results over the pairs
    (i, j) whose boxes meet, in row-major order; for a curve with itself only
    the pairs with j >= i + 2. *)
Theorem C45_curves : forall n feps (c1 c2 : curve R) same,
  dims n (c_rows c1) -> dims n (c_rows c2) -> (same = true -> c2 = c1) ->
  let seg (c : curve R) i := mkSeg (nth i (c_rows c) []) (nth (S i) (c_rows c) []) in
  exists ps l, exact_curves feps c1 c2 same = Ok l /\
    StronglySorted (fun p q : nat * nat => (fst p < fst q \/ fst p = fst q /\ snd p < snd q)%nat) ps /\
    Forall2 (fun '(i, j) x =>
      in_seg1 x = SegOf true (Z.of_nat i) (seg c1 i) /\ in_seg2 x = SegOf false (Z.of_nat j) (seg c2 j) /\
      exact_segments feps (seg c1 i) (seg c2 j) = Ok (in_info x)) ps l /\
    forall i j, In (i, j) ps <->
      (S i < c_size c1)%nat /\ (S j < c_size c2)%nat /\ (same = true -> (i + 2 <= j)%nat) /\
      boxes_meet (nth i (c_rows c1) []) (nth (S i) (c_rows c1) []) (nth j (c_rows c2) []) (nth (S j) (c_rows c2) []) /\
      exists y, exact_segments feps (seg c1 i) (seg c2 j) = Ok y /\ i_type y <> INone.
Proof. exact exact_curves_spec. Qed.
Print Assumptions C45_curves.

(** The box test loses no pair of segments with a common point. *)
Theorem C45_boxes : forall p1 p2 q1 q2 x : list R, length q1 = length p1 ->
  on_segment p1 p2 x -> on_segment q1 q2 x -> boxes_meet p1 p2 q1 q2.
Proof. exact common_point_boxes. Qed.
Print Assumptions C45_boxes.

(** So every crossing of the two curves is reported. *)
Theorem C45_complete : forall n feps (c1 c2 : curve R) same i j p l,
  dims n (c_rows c1) -> dims n (c_rows c2) -> (same = true -> c2 = c1) ->
  (S i < c_size c1)%nat -> (S j < c_size c2)%nat -> (same = true -> (i + 2 <= j)%nat) ->
  let s1 := mkSeg (nth i (c_rows c1) []) (nth (S i) (c_rows c1) []) in
  let s2 := mkSeg (nth j (c_rows c2) []) (nth (S j) (c_rows c2) []) in
  / 4503599627370496 <= area_sq (minus (sg_p2 s1) (sg_p1 s1)) (minus (sg_p2 s2) (sg_p1 s2)) ->
  ~ near (sg_p1 s1) (sg_p2 s1) -> ~ near (sg_p1 s2) (sg_p2 s2) ->
  on_segment (sg_p1 s1) (sg_p2 s1) p -> on_segment (sg_p1 s2) (sg_p2 s2) p ->
  exact_curves feps c1 c2 same = Ok l ->
  exists x, In x l /\ in_seg1 x = SegOf true (Z.of_nat i) s1 /\ in_seg2 x = SegOf false (Z.of_nat j) s2 /\
    (in_info x = mkInfo (IDPoint p) IExact \/
     exists q, in_info x = mkInfo (IDSegment q) IOverlap /\ forall k, nth k (sg_p1 q) 0 <= nth k p 0 <= nth k (sg_p2 q) 0).
Proof.
  intros n feps c1 c2 same i j p l D1 D2 Hs Hi Hj Hij s1 s2 HA N1 N2 P1 P2 E.
  assert (W1 : seg_wf n s1) by (apply (seg_at_wf n); assumption).
  assert (W2 : seg_wf n s2) by (apply (seg_at_wf n); assumption).
  destruct (exact_curves_spec n feps c1 c2 same D1 D2 Hs) as (ps & l' & E' & _ & F & I).
  rewrite E in E'. injection E' as <-.
  assert (R : exists y, exact_segments feps s1 s2 = Ok y /\ i_type y <> INone /\
     (y = mkInfo (IDPoint p) IExact \/
      exists q, y = mkInfo (IDSegment q) IOverlap /\ forall k, nth k (sg_p1 q) 0 <= nth k p 0 <= nth k (sg_p2 q) 0)).
  { destruct (C43_complete n feps s1 s2 p W1 W2 HA N1 N2 P1 P2) as [Q|(q & Q & B)]; rewrite Q; eexists; (split; [reflexivity|]);
      (split; [discriminate|]); [left; reflexivity|right; exists q; auto]. }
  destruct R as (y & Ey & Ty & Dy).
  assert (K : In (i, j) ps).
  { apply I. repeat (split; [assumption|]). split; [|exists y; auto].
    apply common_point_boxes with p; [|assumption|assumption]. destruct W1, W2. cbn in *. congruence. }
  clear I. apply In_nth_error in K. destruct K as (k & Ek).
  assert (G : exists x, nth_error l k = Some x /\ in_seg1 x = SegOf true (Z.of_nat i) s1 /\
     in_seg2 x = SegOf false (Z.of_nat j) s2 /\ exact_segments feps s1 s2 = Ok (in_info x)).
  { clear - F Ek. revert k Ek. induction F as [|(a & b) x ps l H F IH]; intros [|k] Ek; try discriminate.
    - injection Ek as -> ->. exists x. split; [reflexivity|]. exact H.
    - exact (IH k Ek). }
  destruct G as (x & Ex & S1 & S2 & Q). exists x. split; [eapply nth_error_In; eassumption|].
  split; [assumption|]. split; [assumption|]. rewrite Ey in Q. injection Q as <-. assumption.
Qed.
Print Assumptions C45_complete.

(** A run on floats: two crossings of a zig-zag with a line, in order. *)
Example C45_ex :
  exists x y, exact_curves (T := float) f_eps
    (mkCurve [[fz 0; fz 0]; [fz 2; fz 2]; [fz 4; fz 0]] 2 DFloat None)
    (mkCurve [[fz 0; fz 1]; [fz 4; fz 1]] 2 DFloat None) false = Ok [x; y] /\
    in_info x = mkInfo (IDPoint [fz 1; fz 1]) IExact /\ in_info y = mkInfo (IDPoint [fz 3; fz 1]) IExact.
Proof. vm_compute. do 2 eexists. repeat split. Qed.

(** The curve result is not the list of all non-empty segment results: a pair
    that segment intersection reports may fail the box test. *)
Theorem C45_all_pairs_refuted : exists (s1 s2 : segment R) p, seg_wf 2 s1 /\ seg_wf 2 s2 /\
  (forall feps, exact_segments feps s1 s2 = Ok (mkInfo (IDPoint p) IExact)) /\
  forall feps, exact_curves feps (mkCurve [sg_p1 s1; sg_p2 s1] 2 DFloat None) (mkCurve [sg_p1 s2; sg_p2 s2] 2 DFloat None) false = Ok [].
Proof.
  exists (mkSeg [-1000; 0] [0; 0]), (mkSeg [/ 200; -1] [/ 200; 1]), [/ 200; 0].
  assert (W1 : seg_wf 2 (mkSeg [-1000; 0] [0; 0])) by (split; reflexivity).
  assert (W2 : seg_wf 2 (mkSeg [/ 200; -1] [/ 200; 1])) by (split; reflexivity).
  split; [assumption|]. split; [assumption|]. split.
  - intros feps.
    assert (P : sg_point (mkSeg [-1000; 0] [0; 0]) (1 + / 200000) = [/ 200; 0]).
    { apply vec_ext; [reflexivity|]. intros i. rewrite (nth_sg_point 2) by assumption. destruct i as [|[|[|i]]]; cbn; lra. }
    assert (Q : sg_point (mkSeg [/ 200; -1] [/ 200; 1]) (/ 2) = [/ 200; 0]).
    { apply vec_ext; [reflexivity|]. intros i. rewrite (nth_sg_point 2) by assumption. destruct i as [|[|[|i]]]; cbn; lra. }
    rewrite (exact_segments_found 2 feps _ _ (1 + / 200000) (/ 2)); try assumption.
    + rewrite P. assert (U1 : in_unit (1 + / 200000) = true) by (apply in_unit_R; lra).
      assert (U2 : in_unit (/ 2) = true) by (apply in_unit_R; lra). rewrite U1, U2. reflexivity.
    + apply (not_collinear 2); try assumption; [cbn; lra| |]; intros (K & _); revert K; cbn; notnear.
    + rewrite f_eps_R. cbn. lra.
    + cbn. notnear.
    + cbn. notnear.
    + congruence.
  - intros feps.
    destruct (exact_curves_spec 2 feps (mkCurve [[-1000; 0]; [0; 0]] 2 DFloat None) (mkCurve [[/ 200; -1]; [/ 200; 1]] 2 DFloat None) false)
      as (ps & l & E & _ & F & I).
    + intros x [<-|[<-|[]]]; reflexivity.
    + intros x [<-|[<-|[]]]; reflexivity.
    + discriminate.
    + cbn [sg_p1 sg_p2]. rewrite E. f_equal. destruct ps as [|(i & j) ps]; [inversion F; reflexivity|].
      exfalso. destruct (proj1 (I i j)) as (Hi & Hj & _ & B & _); [left; reflexivity|].
      cbn [c_size c_rows length] in *. unfold c_size in *. cbn [length c_rows] in *.
      assert (i = 0%nat) as -> by lia. assert (j = 0%nat) as -> by lia.
      destruct (B 0%nat ltac:(cbn; lia)) as [_ [K|K]]; cbn in K; revert K; unfold Rmin, Rmax;
        repeat destruct (Rle_dec _ _); unfold Rabs; repeat destruct (Rcase_abs _); lra.
Qed.
Print Assumptions C45_all_pairs_refuted.

(** ** C46 Curve-segment intersection *)

(** For every method: the intersections of the two-point curve, with the
    caller's segment in its slot. *)
Theorem C46_segment_curve : forall {T} {NT : Num T} (m : imethod T) (s : segment T) (c : curve T) same,
  length (sg_p1 s) = length (sg_p2 s) -> (2 <= sg_ndim s)%nat -> c_ndim c = sg_ndim s ->
  let sc := mkCurve [sg_p1 s; sg_p2 s] (sg_ndim s) DFloat None in
  method_call m (OSeg s) (OCurve c) same =
    match method_call m (OCurve sc) (OCurve c) false with
    | Ok (inr l) => Ok (inr (map (fun x => mkInter (SegObj s) (in_seg2 x) (in_info x)) l))
    | Ok (inl x) => Ok (inl x)
    | Raise e => Raise e
    end /\
  method_call m (OCurve c) (OSeg s) same =
    match method_call m (OCurve c) (OCurve sc) false with
    | Ok (inr l) => Ok (inr (map (fun x => mkInter (in_seg1 x) (SegObj s) (in_info x)) l))
    | Ok (inl x) => Ok (inl x)
    | Raise e => Raise e
    end.
Proof.
  intros T NT m s c same L H2 Hd sc. cbn [method_call]. rewrite sg_to_curve_ok by assumption. cbn [rbind]. fold sc.
  change (c_ndim sc) with (sg_ndim s). rewrite Hd, Nat.eqb_refl. cbn [negb]. split.
  - destruct (_ || _); [reflexivity|]. destruct (im_curves m sc c false); reflexivity.
  - destruct (_ || _); [reflexivity|]. destruct (im_curves m c sc false); reflexivity.
Qed.
Print Assumptions C46_segment_curve.

Theorem C46_empty : forall {T} {NT : Num T} (m : imethod T) (s : segment T) (c : curve T) same,
  length (sg_p1 s) = length (sg_p2 s) -> (2 <= sg_ndim s)%nat -> c_ndim c = sg_ndim s -> c_rows c = [] ->
  method_call m (OSeg s) (OCurve c) same = Ok (inr []) /\ method_call m (OCurve c) (OSeg s) same = Ok (inr []).
Proof.
  intros T NT m s c same L H2 Hd Hz. cbn [method_call]. rewrite sg_to_curve_ok by assumption. cbn [rbind].
  rewrite Hd, Nat.eqb_refl. unfold c_size. rewrite Hz. cbn. auto.
Qed.
Print Assumptions C46_empty.
Example C46_ex : exists x, method_call (exact_method (T := float) f_eps) (OSeg (mkSeg [fz 0; fz 1] [fz 2; fz 1]))
    (OCurve (mkCurve [[fz 0; fz 0]; [fz 2; fz 2]; [fz 4; fz 0]] 2 DFloat None)) false = Ok (inr [x])
  /\ in_seg1 x = SegObj (mkSeg [fz 0; fz 1] [fz 2; fz 1]) /\ in_info x = mkInfo (IDPoint [fz 1; fz 1]) IExact.
Proof. vm_compute. eexists. repeat split. Qed.

(** ** C47 Almost intersection *)

Theorem C47_segments : forall (pr : almost_params R) (s1 s2 : segment R), al_correct_overlap pr = false ->
  (sg_distance s1 s2 < al_dist_tol pr ->
     almost_segments pr s1 s2 = Ok (mkInfo (IDSegment (sg_shortest s1 s2)) IAlmost)) /\
  (al_dist_tol pr <= sg_distance s1 s2 -> almost_segments pr s1 s2 = Ok not_intersected).
Proof.
  intros pr s1 s2 H. rewrite almost_segments_simple by assumption. split; intros L.
  - apply Rltb_iff in L. rewrite L. reflexivity.
  - destruct (Rltb _ _) eqn:E; [apply Rltb_iff in E; lra|reflexivity].
Qed.
Print Assumptions C47_segments.

(** Curves: exactly the pairs that segment intersection would report, with the
    same connecting segment. *)
Theorem C47_curves : forall n (pr : almost_params R) order (c1 c2 : curve R) same, (0 < n)%nat ->
  c_dtype c1 = DFloat \/ c_dtype c2 = DFloat ->
  dims n (c_rows c1) -> dims n (c_rows c2) ->
  al_remove_extra pr = false -> al_correct_overlap pr = false ->
  let seg (c : curve R) i := mkSeg (nth i (c_rows c) []) (nth (S i) (c_rows c) []) in
  exists ps l, almost_curves pr order c1 c2 same = Ok l /\
    StronglySorted (fun p q : nat * nat => (fst p < fst q \/ fst p = fst q /\ snd p < snd q)%nat) ps /\
    Forall2 (fun '(i, j) x =>
      in_seg1 x = SegOf true (Z.of_nat i) (seg c1 i) /\ in_seg2 x = SegOf false (Z.of_nat j) (seg c2 j) /\
      almost_segments pr (seg c1 i) (seg c2 j) = Ok (in_info x) /\
      in_info x = mkInfo (IDSegment (sg_shortest (seg c1 i) (seg c2 j))) IAlmost) ps l /\
    forall i j, In (i, j) ps <->
      (S i < c_size c1)%nat /\ (S j < c_size c2)%nat /\ (same = true -> (i + 2 <= j)%nat) /\
      sg_distance (seg c1 i) (seg c2 j) < al_dist_tol pr.
Proof.
  intros n pr order c1 c2 same Hn FT D1 D2 ER EC seg.
  destruct (almost_list n pr c1 c2 same Hn FT D1 D2) as (ps & S & E & I). exists ps. eexists.
  split; [rewrite E; cbv zeta; rewrite ER, EC; reflexivity|]. split; [assumption|]. split; [|exact I].
  assert (Q : forall i j, In (i, j) ps -> sg_distance (seg c1 i) (seg c2 j) < al_dist_tol pr)
    by (intros i j H; apply I in H; tauto).
  clear E I S. induction ps as [|(i & j) ps IH]; cbn [map]; constructor.
  - cbn [fst snd pair_inter in_seg1 in_seg2 in_info]. split; [reflexivity|]. split; [reflexivity|]. split; [|reflexivity].
    apply C47_segments; [assumption|]. apply Q. left. reflexivity.
  - apply IH. intros a b H. apply Q. right. assumption.
Qed.
Print Assumptions C47_curves.

(** With correct_overlap a reported pair becomes OVERLAP exactly if the
    segments are parallel (in the sense of Segment.parallel) and their boxes
    overlap; nothing appears or disappears. *)
Theorem C47_correct_overlap : forall (pr : almost_params R) n (s1 s2 : segment R),
  seg_wf n s1 -> seg_wf n s2 -> al_correct_overlap pr = true ->
  almost_segments pr s1 s2 =
    if Rltb (sg_distance s1 s2) (al_dist_tol pr) then
      if Rltb (area_sq (minus (sg_p2 s1) (sg_p1 s1)) (minus (sg_p2 s2) (sg_p1 s2))) (al_parallel_tol pr) then
        match overlap_segments s1 s2 false with
        | Some q => Ok (mkInfo (IDSegment q) IOverlap)
        | None => Ok (mkInfo (IDSegment (sg_shortest s1 s2)) IAlmost)
        end
      else Ok (mkInfo (IDSegment (sg_shortest s1 s2)) IAlmost)
    else Ok not_intersected.
Proof.
  intros pr n s1 s2 H1 H2 E. unfold almost_segments, sg_distance. cbv zeta. rewrite E. cbn [nltb RNum].
  destruct (Rltb (sg_len (sg_shortest s1 s2)) (al_dist_tol pr)); [|reflexivity]. cbn [make_info itype_eqb negb andb orb rbind].
  unfold correct_overlap. cbn [in_seg1 in_seg2 sr_seg].
  destruct (parallel_segments s1 s2 (al_parallel_tol pr)) eqn:P.
  - apply (parallel_iff n s1 s2 _ H1 H2) in P. apply Rltb_iff in P. rewrite P.
    destruct (overlap_segments s1 s2 false); reflexivity.
  - destruct (Rltb (area_sq _ _) _) eqn:Q; [|reflexivity].
    apply Rltb_iff in Q. apply (parallel_iff n s1 s2 _ H1 H2) in Q. congruence.
Qed.
Print Assumptions C47_correct_overlap.

(** A run on floats: two skew segments at distance 1/4. *)
Example C47_ex :
  let s1 := mkSeg [fz (-1); fz 0; fz 0] [fz 1; fz 0; fz 0] in
  let s2 := mkSeg [fz 0; fz (-1); fq 1 4] [fz 0; fz 1; fq 1 4] in
  almost_segments (T := float) (mkAlmost (fq 1 2) false (fz 0) false f_eps) s1 s2
    = Ok (mkInfo (IDSegment (mkSeg [fz 0; fz 0; fz 0] [fz 0; fz 0; fq 1 4])) IAlmost) /\
  almost_segments (T := float) (mkAlmost (fq 1 8) false (fz 0) false f_eps) s1 s2 = Ok not_intersected.
Proof. vm_compute. split; reflexivity. Qed.

(** ** C48 Removing extra intersections *)

(** pts and segs are the points and segments of the intersections; [connected]
    is the reflexive-transitive closure of "closer than tol". *)
Theorem C48_remove_extra : forall n tol order (l : list (inter R)) pts segs,
  (forall c, Permutation (order c) c) -> dims n pts ->
  Forall2 (fun x p => in_point x = Ok (IDPoint p)) l pts ->
  Forall2 (fun x s => in_segment x = Ok (IDSegment s)) l segs ->
  exists K l', remove_extra tol order l = Ok l' /\
    StronglySorted lt K /\ Forall2 (fun k x => nth_error l k = Some x) K l' /\
    (forall i, (i < length l)%nat -> exists k, In k K /\ connected tol pts i k /\
       (forall j s s', connected tol pts i j -> nth_error segs k = Some s -> nth_error segs j = Some s' ->
                       sg_len s <= sg_len s') /\
       (forall k', In k' K -> connected tol pts i k' -> k' = k)).
Proof. exact remove_extra_spec. Qed.
Print Assumptions C48_remove_extra.

(** Kept points are at least tol apart; isolated intersections are kept. *)
Theorem C48_separated : forall n tol order (pts : list (list R)) (lens : list R),
  dims n pts -> (forall c, Permutation (order c) c) ->
  let K := kept_positions tol order pts lens in
  (forall k k', In k K -> In k' K -> k <> k' -> tol <= dist (nth k pts []) (nth k' pts [])) /\
  (forall i, (i < length pts)%nat ->
     (forall j, (j < length pts)%nat -> j <> i -> tol <= dist (nth i pts []) (nth j pts [])) -> In i K).
Proof.
  intros n tol order pts lens D HO K. destruct (kept_positions_spec n tol order pts lens D HO) as (_ & B & C). fold K in B, C. split.
  - intros k k' Hk Hk' NE. destruct (Rle_lt_dec tol (dist (nth k pts []) (nth k' pts []))) as [L|L]; [assumption|].
    exfalso. apply NE. destruct (C k (B k Hk)) as (h & _ & _ & _ & U).
    transitivity h; [apply U; [assumption|apply rt_refl]|]. symmetry. apply U; [assumption|]. apply rt_step.
    repeat split; auto.
  - intros i Hi ISO. destruct (C i Hi) as (h & Hh & Hc & _). apply clos_rt_rt1n in Hc. destruct Hc as [|y z (_ & Hy & N & L) _]; [assumption|].
    specialize (ISO y Hy). lra || (exfalso; assert (tol <= dist (nth i pts []) (nth y pts [])) by (apply ISO; congruence); lra).
Qed.
Print Assumptions C48_separated.

(** A whole run of the almost method with remove_extra. *)
Theorem C48_run : forall n (pr : almost_params R) order (c1 c2 : curve R) same, (0 < n)%nat ->
  c_dtype c1 = DFloat \/ c_dtype c2 = DFloat ->
  dims n (c_rows c1) -> dims n (c_rows c2) -> (forall c, Permutation (order c) c) ->
  al_remove_extra pr = true -> al_correct_overlap pr = false ->
  exists ps K l,
    let seg ij := sg_shortest (seg_at (c_rows c1) (fst ij)) (seg_at (c_rows c2) (snd ij)) in
    let pts := map (fun ij => sg_point (seg ij) (/ 2)) ps in
    almost_curves pr order c1 c2 same = Ok l /\
    StronglySorted before ps /\
    (forall i j, In (i, j) ps <->
      (S i < c_size c1)%nat /\ (S j < c_size c2)%nat /\ (same = true -> (i + 2 <= j)%nat) /\
      sg_distance (seg_at (c_rows c1) i) (seg_at (c_rows c2) j) < al_dist_tol pr) /\
    StronglySorted lt K /\
    Forall2 (fun k x => exists ij, nth_error ps k = Some ij /\
       in_seg1 x = SegOf true (Z.of_nat (fst ij)) (seg_at (c_rows c1) (fst ij)) /\
       in_seg2 x = SegOf false (Z.of_nat (snd ij)) (seg_at (c_rows c2) (snd ij)) /\
       in_info x = mkInfo (IDSegment (seg ij)) IAlmost) K l /\
    (forall i, (i < length ps)%nat -> exists k, In k K /\ connected (al_extra_tol pr) pts i k /\
       (forall j ij ij', connected (al_extra_tol pr) pts i j -> nth_error ps k = Some ij -> nth_error ps j = Some ij' ->
          sg_len (seg ij) <= sg_len (seg ij')) /\
       (forall k', In k' K -> connected (al_extra_tol pr) pts i k' -> k' = k)).
Proof. exact almost_remove_run. Qed.
Print Assumptions C48_run.

(** Four points on a line at 0, 0.5, 1, 5 with tolerance 0.6 (floats): the
    first three form one cluster although 0 and 1 are farther apart than the
    tolerance; the one of length 1 is kept, whatever the order. *)
Example C48_ex :
  let pts := [[fz 0]; [fq 1 2]; [fz 1]; [fz 5]] in
  kept_positions (T := float) (fq 3 5) (fun c => c) pts [fz 3; fz 2; fz 1; fz 7] = [2; 3]%nat /\
  kept_positions (T := float) (fq 3 5) (@rev nat) pts [fz 3; fz 2; fz 1; fz 7] = [2; 3]%nat.
Proof. vm_compute. split; reflexivity. Qed.
Example C48_order_ex : forall c : list nat, Permutation (rev c) c.
Proof. intros c. apply Permutation_sym, Permutation_rev. Qed.

(** Which element of minimal length is kept may depend on the set order. *)
Theorem C48_order_dependent_refuted : exists (pts : list (list float)) lens,
  kept_positions (fq 3 5) (fun c => c) pts lens <> kept_positions (fq 3 5) (@rev nat) pts lens.
Proof. exists [[fz 0]; [fq 1 2]], [fz 1; fz 1]. vm_compute. discriminate. Qed.
Print Assumptions C48_order_dependent_refuted.
