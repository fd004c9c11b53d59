(** Property C85: swapping the two arguments of the segment and curve functions,
    and turning a segment round. *)
From Coq Require Import ZArith List Bool Arith Lia PrimFloat Reals Lra Sorting.Sorted.
From Verif Require Import Num Py Numeric Curve Vec Geom Angle Intersect Spec GeomSpec.
From Verif Require Import ListFacts CurveProofs CurveProofs2 CurveProofs3 VecFacts GeomProofs GeomProofs2 GeomProofs3 GeomProofs4.
From Verif Require Import IntersectProofs IntersectProofs2 IntersectProofs3 SwapProofs Fixtures.
From Verif Require Import Properties_Geom Properties_Intersect.
Import ListNotations.
Local Open Scope R_scope.

(** ** Predicates that do not see the order *)

Theorem C85_predicates : forall n (s1 s2 : segment R), seg_wf n s1 -> seg_wf n s2 ->
  (forall tol, parallel_segments s2 s1 tol = parallel_segments s1 s2 tol) /\
  sg_coplanar s2 s1 = sg_coplanar s1 s2 /\
  overlap_segments s2 s1 false = overlap_segments s1 s2 false /\
  forall rnd, segments_angle s2 s1 rnd = segments_angle s1 s2 rnd.
Proof.
  intros n s1 s2 H1 H2. split; [intros tol; apply (parallel_swap n); assumption|].
  split; [apply (coplanar_swap n); assumption|]. split; [apply overlap_swap|]. intros rnd. apply angle_swap.
Qed.
Print Assumptions C85_predicates.
Example C85_predicates_ex : seg_wf 2 diag1 /\ seg_wf 2 diag2 /\
  overlap_segments diag1 diag2 false = Some (mkSeg [0; 0] [2; 2]).
Proof.
  split; [wf2|]. split; [wf2|]. unfold overlap_segments, diag1, diag2. cbn [andb sg_p1 sg_p2 map2].
  rewrite !npmin_R, !npmax_R. cbn [nltb RNum].
  replace (Rmax (Rmin 0 2) (Rmin 0 2)) with 0 by (unfold Rmin, Rmax; repeat destruct (Rle_dec _ _); lra).
  replace (Rmax (Rmin 0 2) (Rmin 2 0)) with 0 by (unfold Rmin, Rmax; repeat destruct (Rle_dec _ _); lra).
  replace (Rmin (Rmax 0 2) (Rmax 0 2)) with 2 by (unfold Rmin, Rmax; repeat destruct (Rle_dec _ _); lra).
  replace (Rmin (Rmax 0 2) (Rmax 2 0)) with 2 by (unfold Rmin, Rmax; repeat destruct (Rle_dec _ _); lra).
  destruct (Rltb 2 0) eqn:E; [apply Rltb_iff in E; lra|]. reflexivity.
Qed.

(** In binary64 too, for all coordinates including NaN and the infinities. *)
Theorem C85_parallel_float : forall (s1 s2 : segment float) tol, parallel_segments s2 s1 tol = parallel_segments s1 s2 tol.
Proof. exact parallel_swap_float. Qed.
Print Assumptions C85_parallel_float.
Example C85_parallel_float_ex :
  let s := mkSeg [fz 0; fq 1 10] [fz 3; fq 7 10] in let o := mkSeg [fz 1; fz 1] [fz 2; fq 12 10] in
  parallel_segments s o f_eps = true /\ parallel_segments o s f_eps = true /\
  parallel_segments s (mkSeg [fz 0; nan] [fz 1; fz 1]) f_eps = false.
Proof. vm_compute. auto. Qed.

(** Collinearity starts with a test whether the segments are equal, which uses
    a one-sided tolerance; if that test does not see the order, the whole
    predicate does not. *)
Theorem C85_collinear : forall n (s1 s2 : segment R), seg_wf n s1 -> seg_wf n s2 ->
  let same (s o : segment R) :=
    (near (sg_p1 o) (sg_p1 s) /\ near (sg_p2 o) (sg_p2 s)) \/ (near (sg_p2 o) (sg_p1 s) /\ near (sg_p1 o) (sg_p2 s)) in
  (same s1 s2 <-> same s2 s1) -> sg_collinear s2 s1 = sg_collinear s1 s2.
Proof. intros n s1 s2 H1 H2 same S. exact (collinear_swap n s1 s2 H1 H2 S). Qed.
Print Assumptions C85_collinear.

(** The result of the exact method is then the same too: type and data. *)
Theorem C85_exact : forall n feps (s1 s2 : segment R), seg_wf n s1 -> seg_wf n s2 ->
  let same (s o : segment R) :=
    (near (sg_p1 o) (sg_p1 s) /\ near (sg_p2 o) (sg_p2 s)) \/ (near (sg_p2 o) (sg_p1 s) /\ near (sg_p1 o) (sg_p2 s)) in
  (same s1 s2 <-> same s2 s1) -> exact_segments feps s2 s1 = exact_segments feps s1 s2.
Proof. intros n feps s1 s2 H1 H2 same S. exact (exact_swap n feps s1 s2 H1 H2 S). Qed.
Print Assumptions C85_exact.
Example C85_exact_ex : exact_segments f_eps diag2 diag1 = Ok (mkInfo (IDPoint [1; 1]) IExact).
Proof.
  rewrite (C85_exact 2 f_eps diag1 diag2); [exact C42_ex|wf2|wf2|].
  split; intros [(A & B)|(A & B)]; exfalso; revert A; cbn; notnear.
Qed.

(** Without the hypothesis the order matters: of the segments (0,1)-(1,1) and
    (x,1)-(1,1) with x slightly above 1e-8 the second finds the overlap with
    the first, but the first does not find any intersection with the second. *)
Theorem C85_exact_refuted : exists s1 s2 : segment R, seg_wf 2 s1 /\ seg_wf 2 s2 /\
  sg_collinear s1 s2 = false /\ sg_collinear s2 s1 = true /\
  forall feps, exact_segments feps s1 s2 = Ok not_intersected /\
    exists q, exact_segments feps s2 s1 = Ok (mkInfo (IDSegment q) IOverlap).
Proof.
  set (x := 1000005 / 100000000000000).
  exists (mkSeg [0; 1] [1; 1]), (mkSeg [x; 1] [1; 1]).
  assert (W1 : seg_wf 2 (mkSeg [0; 1] [1; 1])) by wf2. assert (W2 : seg_wf 2 (mkSeg [x; 1] [1; 1])) by wf2.
  split; [assumption|]. split; [assumption|].
  assert (C1 : sg_collinear (mkSeg [0; 1] [1; 1]) (mkSeg [x; 1] [1; 1]) = false).
  { destruct (sg_collinear _ _) eqn:E; [|reflexivity]. exfalso. apply (C33_segment_segment 2) in E; [|assumption|assumption].
    cbn [sg_p1 sg_p2] in E. destruct E as [(A & B)|[(A & B)|[(a & b & K)|(u & Lu & K)]]].
    - revert A. unfold x. notnear.
    - revert A. notnear.
    - destruct (K [0; 1]) as [<-|<-]; [left; reflexivity| |].
      + destruct (K [1; 1]) as [Q|<-]; [right; left; reflexivity|injection Q; intros; lra|].
        destruct (K [x; 1]) as [Q|Q]; [right; right; left; reflexivity| |]; injection Q; unfold x; intros; lra.
      + destruct (K [1; 1]) as [<-|Q]; [right; left; reflexivity| |injection Q; intros; lra].
        destruct (K [x; 1]) as [Q|Q]; [right; right; left; reflexivity| |]; injection Q; unfold x; intros; lra.
    - destruct (K [0; 1]) as (t & Et); [left; reflexivity|]. destruct (K [1; 1]) as (s & Es); [right; left; reflexivity|].
      pose proof (Et 0%nat) as A0. pose proof (Et 1%nat) as A1. pose proof (Es 0%nat) as B0. pose proof (Es 1%nat) as B1.
      cbn in A0, A1, B0, B1. destruct (Rmult_integral _ _ (eq_sym A0)) as [Z|Z]; rewrite Z in *; lra. }
  assert (C2 : sg_collinear (mkSeg [x; 1] [1; 1]) (mkSeg [0; 1] [1; 1]) = true).
  { apply (C33_segment_segment 2); [assumption|assumption|]. left. cbn [sg_p1 sg_p2].
    split; repeat constructor; unfold x, Rabs; repeat destruct (Rcase_abs _); lra. }
  split; [assumption|]. split; [assumption|]. intros feps. split.
  - unfold exact_segments. rewrite C1.
    replace (parallel_segments _ _ _) with true; [reflexivity|]. symmetry. apply (parallel_iff 2); [assumption|assumption|].
    rewrite f_eps_R. cbn. lra.
  - rewrite exact_segments_collinear by assumption.
    destruct (overlap_box 2 (mkSeg [x; 1] [1; 1]) (mkSeg [0; 1] [1; 1]) [1; 1]) as (q & -> & _); [assumption|assumption| | |].
    + exists 1. split; [lra|]. split; [reflexivity|]. intros [|[|[|i]]]; cbn; lra.
    + exists 1. split; [lra|]. split; [reflexivity|]. intros [|[|[|i]]]; cbn; lra.
    + exists q. reflexivity.
Qed.
Print Assumptions C85_exact_refuted.

(** ** Curves *)

(** Which intersection a pair of segments contributes to the result does not
    depend on the order of the two curves, if the two one-sided tests (equality
    of segments, and meeting of their boxes) do not see the order. *)
Theorem C85_curves : forall n feps (c1 c2 : curve R) l12 l21 i j,
  dims n (c_rows c1) -> dims n (c_rows c2) -> (S i < c_size c1)%nat -> (S j < c_size c2)%nat ->
  exact_curves feps c1 c2 false = Ok l12 -> exact_curves feps c2 c1 false = Ok l21 ->
  let seg (c : curve R) k := mkSeg (nth k (c_rows c) []) (nth (S k) (c_rows c) []) in
  let same (s o : segment R) :=
    (near (sg_p1 o) (sg_p1 s) /\ near (sg_p2 o) (sg_p2 s)) \/ (near (sg_p2 o) (sg_p1 s) /\ near (sg_p1 o) (sg_p2 s)) in
  let meet (s o : segment R) := boxes_meet (sg_p1 s) (sg_p2 s) (sg_p1 o) (sg_p2 o) in
  (same (seg c1 i) (seg c2 j) <-> same (seg c2 j) (seg c1 i)) ->
  (meet (seg c1 i) (seg c2 j) <-> meet (seg c2 j) (seg c1 i)) ->
  forall y,
    (exists x, In x l12 /\ in_seg1 x = SegOf true (Z.of_nat i) (seg c1 i) /\ in_seg2 x = SegOf false (Z.of_nat j) (seg c2 j) /\ in_info x = y) <->
    (exists x, In x l21 /\ in_seg1 x = SegOf true (Z.of_nat j) (seg c2 j) /\ in_seg2 x = SegOf false (Z.of_nat i) (seg c1 i) /\ in_info x = y).
Proof.
  intros n feps c1 c2 l12 l21 i j D1 D2 Hi Hj E12 E21 seg same meet S M y.
  assert (W1 : seg_wf n (seg c1 i)) by (apply (seg_at_wf n); assumption).
  assert (W2 : seg_wf n (seg c2 j)) by (apply (seg_at_wf n); assumption).
  pose proof (C85_exact n feps (seg c1 i) (seg c2 j) W1 W2 S) as EX.
  assert (G : forall (a b : curve R) l p q, dims n (c_rows a) -> dims n (c_rows b) -> (Datatypes.S p < c_size a)%nat -> (Datatypes.S q < c_size b)%nat ->
     exact_curves feps a b false = Ok l ->
     ((exists x, In x l /\ in_seg1 x = SegOf true (Z.of_nat p) (seg a p) /\ in_seg2 x = SegOf false (Z.of_nat q) (seg b q) /\ in_info x = y) <->
      meet (seg a p) (seg b q) /\ exact_segments feps (seg a p) (seg b q) = Ok y /\ i_type y <> INone)).
  { intros a b l p q Da Db Hp Hq El. destruct (exact_curves_spec n feps a b false Da Db) as (ps & l' & El' & _ & F & I); [discriminate|].
    rewrite El in El'. injection El' as <-. split.
    - intros (x & Hx & X1 & X2 & <-). apply In_nth_error in Hx. destruct Hx as (k & Ek).
      assert (Q : exists p' q', nth_error ps k = Some (p', q') /\ in_seg1 x = SegOf true (Z.of_nat p') (seg a p') /\
         in_seg2 x = SegOf false (Z.of_nat q') (seg b q') /\ exact_segments feps (seg a p') (seg b q') = Ok (in_info x)).
      { clear - F Ek. revert k Ek. induction F as [|(p' & q') z ps l H F IH]; intros [|k] Ek; try discriminate.
        - injection Ek as ->. exists p', q'. split; [reflexivity|]. exact H.
        - exact (IH k Ek). }
      destruct Q as (p' & q' & Q & Y1 & Y2 & Y3). rewrite X1 in Y1. rewrite X2 in Y2.
      injection Y1 as P _. injection Y2 as P2 _. apply Nat2Z.inj in P, P2. subst p' q'.
      apply nth_error_In in Q. apply I in Q. destruct Q as (_ & _ & _ & B & z & Ez & Tz).
      split; [exact B|]. split; [exact Y3|]. assert (Z : Ok z = Ok (in_info x)) by (rewrite <- Ez; exact Y3). injection Z as ->. exact Tz.
    - intros (B & Ey & Ty). assert (K : In (p, q) ps).
      { apply I. split; [assumption|]. split; [assumption|]. split; [discriminate|]. split; [exact B|]. exists y. split; assumption. }
      apply In_nth_error in K. destruct K as (k & Ek).
      assert (Q : exists x, nth_error l k = Some x /\ in_seg1 x = SegOf true (Z.of_nat p) (seg a p) /\
         in_seg2 x = SegOf false (Z.of_nat q) (seg b q) /\ exact_segments feps (seg a p) (seg b q) = Ok (in_info x)).
      { clear - F Ek. revert k Ek. induction F as [|(p' & q') z ps l H F IH]; intros [|k] Ek; try discriminate.
        - injection Ek as -> ->. exists z. split; [reflexivity|]. exact H.
        - exact (IH k Ek). }
      destruct Q as (x & Q & Y1 & Y2 & Y3). exists x. split; [eapply nth_error_In; exact Q|]. split; [exact Y1|]. split; [exact Y2|].
      rewrite Ey in Y3. injection Y3 as <-. reflexivity. }
  rewrite (G c1 c2 l12 i j), (G c2 c1 l21 j i) by assumption. rewrite EX, M. reflexivity.
Qed.
Print Assumptions C85_curves.

(** The box hypothesis holds for segments with a common point. *)
Theorem C85_boxes : forall (s o : segment R) p n, seg_wf n s -> seg_wf n o ->
  on_segment (sg_p1 s) (sg_p2 s) p -> on_segment (sg_p1 o) (sg_p2 o) p ->
  boxes_meet (sg_p1 s) (sg_p2 s) (sg_p1 o) (sg_p2 o) /\ boxes_meet (sg_p1 o) (sg_p2 o) (sg_p1 s) (sg_p2 s).
Proof.
  intros s o p n [A B] [C D] P Q. split; apply common_point_boxes with p; congruence || assumption.
Qed.
Print Assumptions C85_boxes.
Example C85_curves_ex : exists x y,
  let a := mkCurve [[fz 0; fz 0]; [fz 2; fz 2]; [fz 4; fz 0]] 2 DFloat None in
  let b := mkCurve [[fz 4; fz 1]; [fz 0; fz 1]] 2 DFloat None in
  exact_curves (T := float) f_eps a b false = Ok [x; y] /\
  in_info x = mkInfo (IDPoint [fz 1; fz 1]) IExact /\ in_info y = mkInfo (IDPoint [fz 3; fz 1]) IExact /\
  exists x' y', exact_curves (T := float) f_eps b a false = Ok [x'; y'] /\ in_info x' = in_info x /\ in_info y' = in_info y.
Proof. vm_compute. do 2 eexists. repeat split. do 2 eexists. repeat split. Qed.

(** The box hypothesis is needed: one order reports a crossing, the other
    nothing. *)
Theorem C85_curves_refuted : exists c1 c2 : curve R, wf c1 /\ wf c2 /\ c_ndim c1 = 2%nat /\ c_ndim c2 = 2%nat /\
  forall feps, exact_curves feps c2 c1 false = Ok [] /\ exists x, exact_curves feps c1 c2 false = Ok [x].
Proof.
  set (x := 1000005 / 100000000000000).
  set (s1 := mkSeg [0; 0] [2; 0]). set (s2 := mkSeg [- x; -1] [- x; 1]).
  exists (mkCurve [sg_p1 s1; sg_p2 s1] 2 DFloat None), (mkCurve [sg_p1 s2; sg_p2 s2] 2 DFloat None).
  assert (W1 : seg_wf 2 s1) by wf2. assert (W2 : seg_wf 2 s2) by wf2.
  assert (D1 : dims 2 (c_rows (mkCurve [sg_p1 s1; sg_p2 s1] 2 DFloat None))) by (intros z [<-|[<-|[]]]; reflexivity).
  assert (D2 : dims 2 (c_rows (mkCurve [sg_p1 s2; sg_p2 s2] 2 DFloat None))) by (intros z [<-|[<-|[]]]; reflexivity).
  assert (Wf1 : wf (mkCurve [sg_p1 s1; sg_p2 s1] 2 DFloat None)).
  { split; [cbn; lia|]. split; [exact D1|]. intros t Ht. discriminate. }
  assert (Wf2 : wf (mkCurve [sg_p1 s2; sg_p2 s2] 2 DFloat None)).
  { split; [cbn; lia|]. split; [exact D2|]. intros t Ht. discriminate. }
  split; [assumption|]. split; [assumption|]. split; [reflexivity|]. split; [reflexivity|]. intros feps.
  assert (P : sg_point s1 (- x / 2) = [- x; 0]).
  { apply vec_ext; [reflexivity|]. intros i. rewrite (nth_sg_point 2) by assumption. destruct i as [|[|[|i]]]; cbn; lra. }
  assert (Q : sg_point s2 (/ 2) = [- x; 0]).
  { apply vec_ext; [reflexivity|]. intros i. rewrite (nth_sg_point 2) by assumption. destruct i as [|[|[|i]]]; cbn; lra. }
  assert (EX : exact_segments feps s1 s2 = Ok (mkInfo (IDPoint [- x; 0]) IExact)).
  { rewrite (exact_segments_found 2 feps s1 s2 (- x / 2) (/ 2)); try assumption.
    + rewrite P. assert (U1 : in_unit (- x / 2) = true) by (apply in_unit_R; unfold x; lra).
      assert (U2 : in_unit (/ 2) = true) by (apply in_unit_R; lra). rewrite U1, U2. reflexivity.
    + apply (not_collinear 2); try assumption; [cbn; lra| |]; intros (K & _); revert K; unfold s1, s2, x; cbn; notnear.
    + rewrite f_eps_R. cbn. lra.
    + unfold s1. cbn. notnear.
    + unfold s2. cbn. notnear.
    + congruence. }
  split.
  - destruct (exact_curves_spec 2 feps _ _ false D2 D1) as (ps & l & E & _ & F & I); [discriminate|].
    rewrite E. f_equal. destruct ps as [|(i & j) ps]; [inversion F; reflexivity|].
    exfalso. destruct (proj1 (I i j)) as (Hi & Hj & _ & B & _); [left; reflexivity|].
    unfold c_size in *. cbn [length c_rows] in *.
    assert (i = 0%nat) as -> by lia. assert (j = 0%nat) as -> by lia.
    destruct (B 0%nat ltac:(cbn; lia)) as [_ [K|K]]; cbn in K; revert K; unfold Rmin, Rmax, x;
      repeat destruct (Rle_dec _ _); unfold Rabs; repeat destruct (Rcase_abs _); lra.
  - destruct (exact_curves_spec 2 feps _ _ false D1 D2) as (ps & l & E & St & F & I); [discriminate|].
    assert (K : In (0%nat, 0%nat) ps).
    { apply I. unfold c_size. cbn [length c_rows]. split; [lia|]. split; [lia|]. split; [discriminate|]. split.
      - intros [|[|k]] Hk; cbn in Hk; try lia; cbn; unfold Rmin, Rmax, x; repeat destruct (Rle_dec _ _); (split; [|left; lra]);
          first [left; lra|right; unfold Rabs; repeat destruct (Rcase_abs _); lra].
      - exists (mkInfo (IDPoint [- x; 0]) IExact). split; [exact EX|discriminate]. }
    assert (U : forall p, In p ps -> p = (0%nat, 0%nat)).
    { intros (i & j) H. apply I in H. unfold c_size in H. cbn [length c_rows] in H. destruct H as (A & B & _). f_equal; lia. }
    destruct ps as [|p [|q ps]]; [destruct K| |].
    + inversion F as [|? z ? ? _ F']. subst. inversion F'. subst. exists z. exact E.
    + exfalso. rewrite (U p), (U q) in St by (cbn; auto). apply StronglySorted_inv in St. destruct St as [_ A]. apply Forall_inv in A. unfold before in A. cbn in A. lia.
Qed.
Print Assumptions C85_curves_refuted.

(** ** Distance of segments *)

(** The two orders agree up to the error bound of the closest points (C39). *)
Theorem C85_distance : forall n (s1 s2 : segment R), seg_wf n s1 -> seg_wf n s2 ->
  sg_p1 s1 <> sg_p2 s1 -> sg_p1 s2 <> sg_p2 s2 ->
  let area := area_sq (minus (sg_p2 s1) (sg_p1 s1)) (minus (sg_p2 s2) (sg_p1 s2)) in
  let eps := / 4503599627370496 in
  area = 0 \/ eps <= area ->
  Rabs (sg_distance s1 s2 - sg_distance s2 s1) <= 2 * sqrt eps
    + (if Rlt_dec area eps then 0 else eps * (dist (sg_p1 s1) (sg_p2 s1) + dist (sg_p1 s2) (sg_p2 s2)) / area).
Proof.
  intros n s1 s2 H1 H2 N1 N2 area eps HA.
  assert (G : forall a b : segment R, seg_wf n a -> seg_wf n b -> sg_p1 b <> sg_p2 b ->
     area_sq (minus (sg_p2 a) (sg_p1 a)) (minus (sg_p2 b) (sg_p1 b)) = area ->
     forall x y, on_segment (sg_p1 a) (sg_p2 a) x -> on_segment (sg_p1 b) (sg_p2 b) y ->
     sg_distance a b <= dist x y + 2 * sqrt eps
       + (if Rlt_dec area eps then 0 else eps * (dist (sg_p1 a) (sg_p2 a) + dist (sg_p1 b) (sg_p2 b)) / area)).
  { intros a b Ha Hb Nb EA x y Hx Hy.
    pose proof (C39_distance_bound n a b eps x y Ha Hb ltac:(unfold eps; lra) Nb ltac:(rewrite EA; exact HA) Hx Hy) as B.
    rewrite EA in B. unfold sg_distance, sg_shortest. rewrite f_eps_R. fold eps.
    destruct (segment_to_segment a b eps) as [t1 t2]. unfold sg_len. cbn [sg_p1 sg_p2].
    rewrite dist_vdist in B by (rewrite !(sg_point_length n) by assumption; reflexivity). exact B. }
  assert (AS : area_sq (minus (sg_p2 s2) (sg_p1 s2)) (minus (sg_p2 s1) (sg_p1 s1)) = area).
  { unfold area. apply area_sym. rewrite !minus_vsub.
    change (length (sg_dir s2) = length (sg_dir s1)). rewrite !(sg_dir_length n) by assumption. reflexivity. }
  destruct (C39_on_segments n s1 s2 H1 H2) as [A1 A2]. destruct (C39_on_segments n s2 s1 H2 H1) as [B1 B2].
  pose proof (G s1 s2 H1 H2 N2 eq_refl _ _ B2 B1) as U. pose proof (G s2 s1 H2 H1 N1 AS _ _ A2 A1) as V.
  assert (D : forall a b : segment R, seg_wf n a -> seg_wf n b ->
     dist (sg_p2 (sg_shortest a b)) (sg_p1 (sg_shortest a b)) = sg_distance a b).
  { intros a b Ha Hb. pose proof (C39_on_segments n a b Ha Hb) as [(t & _ & L1 & _) (u & _ & L2 & _)].
    destruct Ha, Hb. unfold sg_distance, sg_len. rewrite dist_vdist by congruence. apply vdist_sym. congruence. }
  rewrite D in U, V by assumption.
  rewrite (Rplus_comm (dist (sg_p1 s2) _)) in V.
  apply Rabs_le. split; lra.
Qed.
Print Assumptions C85_distance.
Example C85_distance_ex :
  let s1 := mkSeg [0; 0] [2; 0] in let s2 := mkSeg [1; 1] [1; 3] in
  area_sq (minus (sg_p2 s1) (sg_p1 s1)) (minus (sg_p2 s2) (sg_p1 s2)) = 16 /\ sg_p1 s1 <> sg_p2 s1 /\ sg_p1 s2 <> sg_p2 s2.
Proof. split; [cbn; lra|]. split; intros E; inversion E; lra. Qed.

(** A degenerate segment is treated differently in the two places: from the
    point (1,1) the distance to (0,0)-(2,0) is 1, in the other order it is
    sqrt 2. *)
Theorem C85_distance_refuted : exists s1 s2 : segment R, seg_wf 2 s1 /\ seg_wf 2 s2 /\
  sg_distance s1 s2 = sqrt 2 /\ sg_distance s2 s1 = 1.
Proof.
  exists (mkSeg [0; 0] [2; 0]), (mkSeg [1; 1] [1; 1]). split; [wf2|]. split; [wf2|]. split.
  - unfold sg_distance, sg_shortest, segment_to_segment. rvec.
    unfold closest_params. rnum. rewrite f_eps_R. repeat dec_lt; cbn [sg_len sg_p1 sg_p2];
      try (exfalso; repeat match goal with H : context [Rabs ?x] |- _ => revert H; unfold Rabs; destruct (Rcase_abs x); intros H end; lra).
    unfold sg_len, vdist, vnorm. rvec. cbn [nsqrt RSqrt]. f_equal. lra.
  - unfold sg_distance, sg_shortest, segment_to_segment. rvec.
    unfold closest_params. rnum. rewrite f_eps_R. repeat dec_lt; cbn [sg_len sg_p1 sg_p2];
      try (exfalso; repeat match goal with H : context [Rabs ?x] |- _ => revert H; unfold Rabs; destruct (Rcase_abs x); intros H end; lra).
    unfold sg_len, vdist, vnorm. rvec. cbn [nsqrt RSqrt]. transitivity (sqrt 1); [f_equal; lra|apply sqrt_1].
Qed.
Print Assumptions C85_distance_refuted.

(** ** Turning a segment round *)

Theorem C85_reverse : forall n (s o : segment R), seg_wf n s -> seg_wf n o ->
  (forall tol, parallel_segments (sg_reverse s) o tol = parallel_segments s o tol) /\
  sg_coplanar (sg_reverse s) o = sg_coplanar s o /\
  sg_collinear (sg_reverse s) o = sg_collinear s o /\
  overlap_segments (sg_reverse s) o false = overlap_segments s o false /\
  forall a, segments_angle s o None = Some a -> segments_angle (sg_reverse s) o None = Some (PI - a).
Proof.
  intros n s o H1 H2. split; [intros tol; apply (parallel_reverse n); assumption|].
  split; [apply (coplanar_reverse n); assumption|]. split; [apply (collinear_reverse n); assumption|].
  split; [apply overlap_reverse; reflexivity|]. intros a. apply angle_reverse.
Qed.
Print Assumptions C85_reverse.
Example C85_reverse_ex : segments_angle diag1 (mkSeg [0; 0] [0; 3]) None <> None.
Proof.
  unfold segments_angle, diag1. rvec. unfold vnorm. rvec. cbn [nsqrt RSqrt].
  destruct (isclose _ _) eqn:E; [|discriminate]. exfalso. apply isclose_R in E. revert E. rewrite Rabs_R0, Rminus_0_r, <- sqrt_mult by lra.
  rewrite Rabs_right by (apply Rle_ge, sqrt_pos). intros E.
  assert (K : sqrt 1 <= sqrt (((2 - 0) * (2 - 0) + ((2 - 0) * (2 - 0) + 0)) * ((0 - 0) * (0 - 0) + ((3 - 0) * (3 - 0) + 0)))) by (apply sqrt_le_1_alt; lra).
  rewrite sqrt_1 in K. lra.
Qed.

(** The range test of the parameters is one-sided, so the exact method may see
    the direction: (0,0)-(2,0) and the same segment turned round against a
    vertical segment at x = 2 + 1e-5. *)
Theorem C85_reverse_exact_refuted : exists s o : segment R, seg_wf 2 s /\ seg_wf 2 o /\
  forall feps, exact_segments feps (sg_reverse s) o = Ok not_intersected /\
    exists p, exact_segments feps s o = Ok (mkInfo (IDPoint p) IExact).
Proof.
  set (x := 1 / 100000). set (s := mkSeg [0; 0] [2; 0]). set (o := mkSeg [2 + x; -1] [2 + x; 1]).
  exists s, o. assert (W1 : seg_wf 2 s) by wf2. assert (W2 : seg_wf 2 o) by wf2.
  split; [assumption|]. split; [assumption|]. intros feps.
  assert (Q : sg_point o (/ 2) = [2 + x; 0]).
  { apply vec_ext; [reflexivity|]. intros i. rewrite (nth_sg_point 2) by assumption. destruct i as [|[|[|i]]]; cbn; lra. }
  assert (U2 : in_unit (/ 2) = true) by (apply in_unit_R; lra).
  assert (C : sg_collinear s o = false).
  { apply (not_collinear 2); try assumption; [cbn; lra| |]; intros (K & _); revert K; unfold s, o, x; cbn; notnear. }
  split.
  - assert (P : sg_point (sg_reverse s) (- x / 2) = [2 + x; 0]).
    { apply vec_ext; [reflexivity|]. intros i. rewrite (nth_sg_point 2 (sg_reverse s)) by wf2. destruct i as [|[|[|i]]]; cbn; lra. }
    rewrite (exact_segments_found 2 feps (sg_reverse s) o (- x / 2) (/ 2)); try assumption.
    + destruct (in_unit (- x / 2)) eqn:E; [|reflexivity]. apply in_unit_R in E. unfold x in E. lra.
    + rewrite (collinear_reverse 2); assumption.
    + rewrite f_eps_R. cbn. lra.
    + unfold s. cbn. notnear.
    + unfold o. cbn. notnear.
    + congruence.
  - assert (P : sg_point s (1 + x / 2) = [2 + x; 0]).
    { apply vec_ext; [reflexivity|]. intros i. rewrite (nth_sg_point 2) by assumption. destruct i as [|[|[|i]]]; cbn; lra. }
    exists [2 + x; 0]. rewrite (exact_segments_found 2 feps s o (1 + x / 2) (/ 2)); try assumption.
    + assert (U1 : in_unit (1 + x / 2) = true) by (apply in_unit_R; unfold x; lra). rewrite U1, U2, P. reflexivity.
    + rewrite f_eps_R. cbn. lra.
    + unfold s. cbn. notnear.
    + unfold o. cbn. notnear.
    + congruence.
Qed.
Print Assumptions C85_reverse_exact_refuted.

(** Segment.dot does not depend on the direction of the segment, and with the
    norms of the end points it determines the length. *)
Theorem C85_dot : forall n (s : segment R), seg_wf n s ->
  sg_dot (sg_reverse s) = sg_dot s /\
  sg_len s * sg_len s = vnorm (sg_p1 s) * vnorm (sg_p1 s) + vnorm (sg_p2 s) * vnorm (sg_p2 s) - 2 * sg_dot s.
Proof.
  intros n s W. destruct W as (L1 & L2). split; [apply vdot_comm|]. unfold sg_len, sg_dot. rewrite vdist_sq.
  rewrite vdot_sub_l, !vdot_sub_r by (unfold vsub; rewrite ?map2_length; lia). rewrite !vnorm_sq, (vdot_comm (sg_p2 s) (sg_p1 s)). ring.
Qed.
Print Assumptions C85_dot.
Example C85_dot_ex : sg_dot (mkSeg [1; 2] [3; 4]) = 11.
Proof. cbn. lra. Qed.
