(** C95: the exact intersection method with the rank tolerance of numpy. *)
From Coq Require Import ZArith List Bool Arith Lia Reals Lra Psatz Sorting.Sorted.
From Verif Require Import Num Py Numeric Curve Vec Geom Intersect Spec GeomSpec SvdRank SvdSpec IntersectTol.
From Verif Require Import CurveProofs3 VecFacts GeomProofs GeomProofs2 GeomProofs3 GeomProofs4 SvdProofs4 SvdProofs5 SvdProofs6
  IntersectProofs IntersectProofs2 IntersectProofs3 Properties_Svd IntersectTolProofs.
Import ListNotations.
Local Open Scope R_scope.

Ltac notnear := unfold near; intros K; repeat match goal with H : Forall2 _ (_ :: _) _ |- _ => inversion_clear H end;
  repeat match goal with H : context [Rabs _] |- _ => revert H end; unfold Rabs; repeat destruct (Rcase_abs _); intros; lra.

(** No exception, and the data fits the type. *)
Theorem C95_total : forall svd n feps (s1 s2 : segment R), correct_svd svd -> seg_wf n s1 -> seg_wf n s2 ->
  exists i, exact_segments_tol svd feps s1 s2 = Ok i /\
    match i_type i, i_data i with
    | INone, IDNone | IExact, IDPoint _ | IOverlap, IDSegment _ => True
    | _, _ => False
    end.
Proof.
  intros svd n feps s1 s2 C H1 H2. destruct (exact_tol_total svd n feps s1 s2 C H1 H2) as (i & E & K). exists i. split; [exact E|].
  unfold info_ok in K. destruct (i_type i) eqn:Ti; [rewrite K; exact Logic.I|destruct K as (x & ->); exact Logic.I..|].
  exfalso. revert E. unfold exact_segments_tol. destruct (sg_collinear_tol svd None s1 s2) as [[|]|]; cbn [rbind]; [| |discriminate].
  { destruct (overlap_segments s1 s2 false); intros [= <-]; discriminate. }
  destruct (parallel_segments s1 s2 f_eps); [intros [= <-]; discriminate|].
  destruct (sg_coplanar_tol svd None s1 s2) as [[|]|]; cbn [rbind negb]; [|intros [= <-]; discriminate|discriminate].
  destruct (sg_singular s1 || sg_singular s2); [intros [= <-]; discriminate|].
  assert (X : forall x y, exact_result feps s1 s2 x y <> Ok i).
  { intros x y. unfold exact_result. destruct (_ && _); [|intros [= <-]; discriminate]. destruct (_ && _); intros [= <-]; discriminate. }
  destruct (Nat.eqb _ 2); [destruct (solve2 _ _ _) as [(x & y)|]; [apply X|intros [= <-]; discriminate]|].
  destruct (lstsq2 _ _ _) as (x & y). apply X.
Qed.
Print Assumptions C95_total.

(** An EXACT point p lies on the line of the first segment, within the accepted
    parameter range; a point q of the second line in that range is near p by
    numpy's closeness or at most feps away; no two points of the two lines are
    closer than p and q, and in the plane p = q. *)
Theorem C95_point : forall svd n feps (s1 s2 : segment R) p, correct_svd svd -> seg_wf n s1 -> seg_wf n s2 ->
  exact_segments_tol svd feps s1 s2 = Ok (mkInfo (IDPoint p) IExact) ->
  exists x y q, - / 100000000 <= x <= 1 + / 100000000 + / 100000 /\
                - / 100000000 <= y <= 1 + / 100000000 + / 100000 /\
    affine_at (sg_p1 s1) (sg_p2 s1) x p /\ affine_at (sg_p1 s2) (sg_p2 s2) y q /\
    (near p q \/ dist p q <= feps) /\ (n = 2%nat -> p = q) /\
    forall x' y' a b, affine_at (sg_p1 s1) (sg_p2 s1) x' a -> affine_at (sg_p1 s2) (sg_p2 s2) y' b -> dist p q <= dist a b.
Proof.
  intros svd n feps s1 s2 p C H1 H2 E.
  destruct (exact_tol_point svd n feps s1 s2 p C H1 H2 E) as (x & y & Ux & Uy & -> & G & M & P & _).
  apply in_unit_R in Ux, Uy. exists x, y, (sg_point s2 y). split; [exact Ux|]. split; [exact Uy|].
  split; [apply (sg_point_affine n); assumption|]. split; [apply (sg_point_affine n); assumption|].
  assert (L : length (sg_point s1 x) = length (sg_point s2 y)) by (rewrite !(sg_point_length n) by assumption; reflexivity).
  rewrite dist_vdist by exact L. split; [exact G|]. split; [exact P|].
  intros x' y' a b A B. apply (affine_sg_point n) in A; [|assumption]. apply (affine_sg_point n) in B; [|assumption]. subst a b.
  rewrite dist_vdist by (rewrite !(sg_point_length n) by assumption; reflexivity). apply M.
Qed.
Print Assumptions C95_point.

(** So both segments have a point near the reported one. *)
Theorem C95_near_both_segments : forall svd n feps (s1 s2 : segment R) p, correct_svd svd -> seg_wf n s1 -> seg_wf n s2 ->
  exact_segments_tol svd feps s1 s2 = Ok (mkInfo (IDPoint p) IExact) ->
  let tol := / 100000000 + / 100000 in
  exists q q1 q2, on_segment (sg_p1 s1) (sg_p2 s1) q1 /\ on_segment (sg_p1 s2) (sg_p2 s2) q2 /\
    (near p q \/ dist p q <= feps) /\ (n = 2%nat -> p = q) /\
    dist p q1 <= tol * dist (sg_p1 s1) (sg_p2 s1) /\ dist q q2 <= tol * dist (sg_p1 s2) (sg_p2 s2).
Proof.
  intros svd n feps s1 s2 p C H1 H2 E tol.
  destruct (C95_point svd n feps s1 s2 p C H1 H2 E) as (x & y & q & Hx & Hy & A1 & A2 & G & P & _).
  destruct (extended_near n s1 x p tol H1) as (q1 & Q1 & D1); [unfold tol; lra|unfold tol; lra|assumption|].
  destruct (extended_near n s2 y q tol H2) as (q2 & Q2 & D2); [unfold tol; lra|unfold tol; lra|assumption|].
  exists q, q1, q2. auto 10.
Qed.
Print Assumptions C95_near_both_segments.

(** Where the exact tests find something, the tests with the tolerance find the
    same, unless they take the segments for collinear. *)
Theorem C95_keeps : forall svd n feps (s1 s2 : segment R) i, correct_svd svd -> seg_wf n s1 -> seg_wf n s2 ->
  exact_segments feps s1 s2 = Ok i -> i_type i <> INone ->
  exact_segments_tol svd feps s1 s2 = Ok i \/
  (sg_collinear s1 s2 = false /\ sg_collinear_tol svd None s1 s2 = Ok true).
Proof. exact exact_tol_keeps. Qed.
Print Assumptions C95_keeps.

(** In the plane the tolerance matters in the collinearity test only. *)
Theorem C95_plane : forall svd feps (s1 s2 : segment R), correct_svd svd -> seg_wf 2 s1 -> seg_wf 2 s2 ->
  exact_segments_tol svd feps s1 s2 = exact_segments feps s1 s2 \/
  (sg_collinear s1 s2 = false /\ sg_collinear_tol svd None s1 s2 = Ok true).
Proof.
  intros svd feps s1 s2 C H1 H2.
  assert (Q : sg_coplanar_tol svd None s1 s2 = sg_coplanar s1 s2).
  { unfold sg_coplanar_tol, sg_coplanar, coplanar_points_tol, coplanar_points.
    destruct H1 as [-> _]. reflexivity. }
  destruct (sg_collinear s1 s2) eqn:NC.
  - left. apply exact_tol_agree; [rewrite NC; apply (collinear_exact_tol svd 2); assumption|auto].
  - destruct (collinear_tol_total svd 2 s1 s2 C H1 H2) as ([|] & Et); [right; auto|left].
    apply exact_tol_agree; [congruence|auto].
Qed.
Print Assumptions C95_plane.

(** Taken for collinear: the ends are close in pairs, or there are at most two
    different points, or all four points lie near one line through the origin. *)
Theorem C95_collinear : forall svd n (s1 s2 : segment R) r, correct_svd svd -> seg_wf n s1 -> seg_wf n s2 -> (0 < n)%nat ->
  (forall p, In p [sg_p1 s1; sg_p2 s1; sg_p1 s2; sg_p2 s2] -> norm p <= r) ->
  sg_collinear_tol svd None s1 s2 = Ok true ->
  (near (sg_p1 s2) (sg_p1 s1) /\ near (sg_p2 s2) (sg_p2 s1)) \/
  (near (sg_p2 s2) (sg_p1 s1) /\ near (sg_p1 s2) (sg_p2 s1)) \/
  (exists a b, forall p, In p [sg_p1 s1; sg_p2 s1; sg_p1 s2; sg_p2 s2] -> p = a \/ p = b) \/
  exists w, length w = n /\ forall p, In p [sg_p1 s1; sg_p2 s1; sg_p1 s2; sg_p2 s2] ->
    exists t, dist p (times t w) <= r * INR (Nat.max 4 n) / 2 ^ 51.
Proof. exact collinear_tol_near. Qed.
Print Assumptions C95_collinear.

(** An OVERLAP segment is the common part of the bounding boxes of two segments
    taken for collinear. *)
Theorem C95_overlap : forall svd n feps (s1 s2 q : segment R), correct_svd svd -> seg_wf n s1 -> seg_wf n s2 ->
  exact_segments_tol svd feps s1 s2 = Ok (mkInfo (IDSegment q) IOverlap) ->
  sg_collinear_tol svd None s1 s2 = Ok true /\ length (sg_p1 q) = n /\ length (sg_p2 q) = n /\
  forall i, (i < n)%nat ->
    nth i (sg_p1 q) 0 = Rmax (Rmin (nth i (sg_p1 s1) 0) (nth i (sg_p2 s1) 0)) (Rmin (nth i (sg_p1 s2) 0) (nth i (sg_p2 s2) 0)) /\
    nth i (sg_p2 q) 0 = Rmin (Rmax (nth i (sg_p1 s1) 0) (nth i (sg_p2 s1) 0)) (Rmax (nth i (sg_p1 s2) 0) (nth i (sg_p2 s2) 0)) /\
    nth i (sg_p1 q) 0 <= nth i (sg_p2 q) 0.
Proof.
  intros svd n feps s1 s2 q C H1 H2 E.
  destruct (collinear_tol_total svd n s1 s2 C H1 H2) as ([|] & Et).
  2:{ exfalso. revert E. unfold exact_segments_tol. rewrite Et. cbn [rbind].
      destruct (parallel_segments s1 s2 f_eps); [discriminate|].
      destruct (sg_coplanar_tol svd None s1 s2) as [[|]|]; cbn [rbind negb]; try discriminate.
      destruct (sg_singular s1 || sg_singular s2); [discriminate|].
      assert (X : forall x y, exact_result feps s1 s2 x y <> Ok (mkInfo (IDSegment q) IOverlap)).
      { intros x y. unfold exact_result. destruct (_ && _); [|discriminate]. destruct (_ && _); discriminate. }
      destruct (Nat.eqb _ 2); [destruct (solve2 _ _ _) as [(x & y)|]; [apply X|discriminate]|].
      destruct (lstsq2 _ _ _) as (x & y). apply X. }
  split; [exact Et|]. rewrite exact_tol_collinear in E by exact Et.
  destruct (overlap_segments s1 s2 false) as [q'|] eqn:O; [|discriminate]. injection E as ->.
  destruct H1 as [A1 A2], H2 as [B1 B2].
  unfold overlap_segments in O. cbn [andb] in O.
  destruct (existsb _ _) eqn:X; [discriminate|]. injection O as <-. cbn [sg_p1 sg_p2].
  rewrite !map2_length. split; [lia|]. split; [lia|]. intros i Hi.
  rewrite !(nth_map2 npmax _ _ i 0 0 0), !(nth_map2 npmin _ _ i 0 0 0) by (rewrite ?map2_length; lia).
  rewrite ?(nth_map2 npmax _ _ i 0 0 0), ?(nth_map2 npmin _ _ i 0 0 0) by lia.
  rewrite !npmin_R, !npmax_R. split; [reflexivity|]. split; [reflexivity|].
  match goal with |- ?a <= ?b => destruct (Rle_lt_dec a b) as [L|L]; [exact L|exfalso] end.
  assert (K : existsb (fun b => b)
      (map2 (fun x y : R => nltb y x)
         (map2 npmax (map2 npmin (sg_p1 s1) (sg_p2 s1)) (map2 npmin (sg_p1 s2) (sg_p2 s2)))
         (map2 npmin (map2 npmax (sg_p1 s1) (sg_p2 s1)) (map2 npmax (sg_p1 s2) (sg_p2 s2)))) = true); [|congruence].
  apply existsb_exists. exists true. split; [|reflexivity].
  match goal with |- In true ?l => replace true with (nth i l false); [apply nth_In; rewrite !map2_length; lia|] end.
  rewrite !(nth_map2 _ _ _ i 0 0 false) by (rewrite !map2_length; lia).
  rewrite !(nth_map2 npmax _ _ i 0 0 0), !(nth_map2 npmin _ _ i 0 0 0) by (rewrite ?map2_length; lia).
  rewrite ?(nth_map2 npmax _ _ i 0 0 0), ?(nth_map2 npmin _ _ i 0 0 0) by lia.
  rewrite !npmin_R, !npmax_R. cbn [nltb RNum]. apply Rltb_iff. exact L.
Qed.
Print Assumptions C95_overlap.

(** Crossing segments are found as EXACT if the shorter segment's length times the
    sine of the angle exceeds the coordinates' size times max(4, n) * 2^-49 (here
    squared, and multiplied by the square of the longer length). *)
Theorem C95_exact : forall svd n feps (s1 s2 : segment R) p r, correct_svd svd -> seg_wf n s1 -> seg_wf n s2 ->
  (forall p, In p [sg_p1 s1; sg_p2 s1; sg_p1 s2; sg_p2 s2] -> norm p <= r) ->
  let u := minus (sg_p2 s1) (sg_p1 s1) in
  let v := minus (sg_p2 s2) (sg_p1 s2) in
  (r * INR (Nat.max 4 n) / 2 ^ 49) ^ 2 * Rmax (inner u u) (inner v v) < area_sq u v ->
  / 4503599627370496 <= area_sq u v ->
  ~ near (sg_p1 s1) (sg_p2 s1) -> ~ near (sg_p1 s2) (sg_p2 s2) ->
  ~ (near (sg_p1 s2) (sg_p1 s1) /\ near (sg_p2 s2) (sg_p2 s1)) ->
  ~ (near (sg_p2 s2) (sg_p1 s1) /\ near (sg_p1 s2) (sg_p2 s1)) ->
  on_segment (sg_p1 s1) (sg_p2 s1) p -> on_segment (sg_p1 s2) (sg_p2 s2) p ->
  exact_segments_tol svd feps s1 s2 = Ok (mkInfo (IDPoint p) IExact).
Proof.
  intros svd n feps s1 s2 p r C H1 H2 HR u v HA FE. unfold u, v in *. rewrite !minus_vsub in *.
  intros. apply (exact_tol_complete svd n feps s1 s2 p r); try assumption. rewrite f_eps_R. exact FE.
Qed.
Print Assumptions C95_exact.

(** The diagonals of a square in three dimensions. *)
Example C95_exact_ex : forall svd, correct_svd svd ->
  exact_segments_tol svd f_eps (mkSeg [0; 0; 1] [2; 2; 1]) (mkSeg [0; 2; 1] [2; 0; 1]) = Ok (mkInfo (IDPoint [1; 1; 1]) IExact).
Proof.
  intros svd C. apply (C95_exact svd 3 _ _ _ _ 3 C).
  - split; reflexivity.
  - split; reflexivity.
  - intros p Hp. unfold norm. rewrite <- (sqrt_square 3) by lra. apply sqrt_le_1_alt.
    cbn [In sg_p1 sg_p2] in Hp. destruct Hp as [<-|[<-|[<-|[<-|[]]]]]; cbn; lra.
  - cbn [sg_p1 sg_p2 minus inner area_sq minors_with Nat.max INR]. rewrite Rmax_left by lra.
    assert (P : 3 * (1 + 1 + 1 + 1) / 2 ^ 49 <= / 100).
    { apply Rmult_le_reg_r with (2 ^ 49); [apply pow_lt; lra|]. unfold Rdiv. rewrite Rmult_assoc, Rinv_l by (apply pow_nonzero; lra).
      assert (2 ^ 12 <= 2 ^ 49) by (apply Rle_pow; [lra|lia]). cbn [pow] in *. lra. }
    assert (Q : 0 <= 3 * (1 + 1 + 1 + 1) / 2 ^ 49) by (apply Rmult_le_pos; [lra|apply Rlt_le, Rinv_0_lt_compat, pow_lt; lra]).
    set (z := 3 * (1 + 1 + 1 + 1) / 2 ^ 49) in *. assert (z ^ 2 <= / 100 * / 100) by (cbn [pow]; rewrite Rmult_1_r; apply Rmult_le_compat; assumption). lra.
  - cbn. lra.
  - cbn. notnear.
  - cbn. notnear.
  - intros [K _]. revert K. cbn. notnear.
  - intros [K _]. revert K. cbn. notnear.
  - exists (/ 2). split; [lra|]. split; [reflexivity|]. intros [|[|[|[|i]]]]; cbn; lra.
  - exists (/ 2). split; [lra|]. split; [reflexivity|]. intros [|[|[|[|i]]]]; cbn; lra.
Qed.

(** Two curves: the pairs of segments with meeting boxes and a result other than
    NONE, in row-major order. *)
Theorem C95_curves : forall svd n feps (c1 c2 : curve R) same, correct_svd svd ->
  dims n (c_rows c1) -> dims n (c_rows c2) -> (same = true -> c2 = c1) ->
  let seg (c : curve R) i := mkSeg (nth i (c_rows c) []) (nth (S i) (c_rows c) []) in
  exists ps l, exact_curves_tol svd feps c1 c2 same = Ok l /\
    StronglySorted (fun p q : nat * nat => (fst p < fst q \/ fst p = fst q /\ snd p < snd q)%nat) ps /\
    Forall2 (fun '(i, j) x =>
      in_seg1 x = SegOf true (Z.of_nat i) (seg c1 i) /\ in_seg2 x = SegOf false (Z.of_nat j) (seg c2 j) /\
      exact_segments_tol svd feps (seg c1 i) (seg c2 j) = Ok (in_info x)) ps l /\
    forall i j, In (i, j) ps <->
      (S i < c_size c1)%nat /\ (S j < c_size c2)%nat /\ (same = true -> (i + 2 <= j)%nat) /\
      boxes_meet (nth i (c_rows c1) []) (nth (S i) (c_rows c1) []) (nth j (c_rows c2) []) (nth (S j) (c_rows c2) []) /\
      exists y, exact_segments_tol svd feps (seg c1 i) (seg c2 j) = Ok y /\ i_type y <> INone.
Proof. exact exact_curves_tol_spec. Qed.
Print Assumptions C95_curves.

(** So a clear crossing of two curves is in the list. *)
Theorem C95_curves_exact : forall svd n feps (c1 c2 : curve R) same i j p r l, correct_svd svd ->
  dims n (c_rows c1) -> dims n (c_rows c2) -> (same = true -> c2 = c1) ->
  (S i < c_size c1)%nat -> (S j < c_size c2)%nat -> (same = true -> (i + 2 <= j)%nat) ->
  let s1 := mkSeg (nth i (c_rows c1) []) (nth (S i) (c_rows c1) []) in
  let s2 := mkSeg (nth j (c_rows c2) []) (nth (S j) (c_rows c2) []) in
  let u := minus (sg_p2 s1) (sg_p1 s1) in
  let v := minus (sg_p2 s2) (sg_p1 s2) in
  (forall p, In p (c_rows c1) \/ In p (c_rows c2) -> norm p <= r) ->
  (r * INR (Nat.max 4 n) / 2 ^ 49) ^ 2 * Rmax (inner u u) (inner v v) < area_sq u v ->
  / 4503599627370496 <= area_sq u v ->
  ~ near (sg_p1 s1) (sg_p2 s1) -> ~ near (sg_p1 s2) (sg_p2 s2) ->
  ~ (near (sg_p1 s2) (sg_p1 s1) /\ near (sg_p2 s2) (sg_p2 s1)) ->
  ~ (near (sg_p2 s2) (sg_p1 s1) /\ near (sg_p1 s2) (sg_p2 s1)) ->
  on_segment (sg_p1 s1) (sg_p2 s1) p -> on_segment (sg_p1 s2) (sg_p2 s2) p ->
  exact_curves_tol svd feps c1 c2 same = Ok l ->
  exists x, In x l /\ in_seg1 x = SegOf true (Z.of_nat i) s1 /\ in_seg2 x = SegOf false (Z.of_nat j) s2 /\
    in_info x = mkInfo (IDPoint p) IExact.
Proof.
  intros svd n feps c1 c2 same i j p r l C D1 D2 Hs Hi Hj Hij s1 s2 u v HR HA FE N1 N2 M1 M2 P1 P2 E.
  assert (W1 : seg_wf n s1) by (apply (seg_at_wf n); assumption).
  assert (W2 : seg_wf n s2) by (apply (seg_at_wf n); assumption).
  destruct (exact_curves_tol_spec svd n feps c1 c2 same C D1 D2 Hs) as (ps & l' & E' & _ & F & I).
  rewrite E in E'. injection E' as <-.
  assert (Ey : exact_segments_tol svd feps s1 s2 = Ok (mkInfo (IDPoint p) IExact)).
  { apply (C95_exact svd n feps s1 s2 p r); try assumption.
    intros z [<-|[<-|[<-|[<-|[]]]]]; apply HR; [left|left|right|right]; apply nth_In; unfold c_size in *; lia. }
  assert (K : In (i, j) ps).
  { apply I. repeat (split; [assumption|]). split; [|eexists; split; [exact Ey|discriminate]].
    apply common_point_boxes with p; [|assumption|assumption]. destruct W1, W2. cbn in *. congruence. }
  clear I. apply In_nth_error in K. destruct K as (k & Ek).
  assert (G : exists x, nth_error l k = Some x /\ in_seg1 x = SegOf true (Z.of_nat i) s1 /\
     in_seg2 x = SegOf false (Z.of_nat j) s2 /\ exact_segments_tol svd feps s1 s2 = Ok (in_info x)).
  { clear - F Ek. revert k Ek. induction F as [|(a & b) x ps l H F IH]; intros [|k] Ek; try discriminate.
    - injection Ek as -> ->. exists x. split; [reflexivity|]. exact H.
    - exact (IH k Ek). }
  destruct G as (x & Ex & S1 & S2 & Q). exists x. split; [eapply nth_error_In; eassumption|].
  split; [assumption|]. split; [assumption|]. rewrite Ey in Q. injection Q as <-. reflexivity.
Qed.
Print Assumptions C95_curves_exact.

(** Not every crossing the exact rank finds: two long segments that cross in the
    origin at a small angle and span a parallelogram of area 4 are reported as
    OVERLAP. *)
Definition long1 : segment R := mkSeg [-33554432; - / 67108864] [33554432; / 67108864].
Definition long2 : segment R := mkSeg [-33554432; / 67108864] [33554432; - / 67108864].

Theorem C95_crossing_refuted : 
  on_segment (sg_p1 long1) (sg_p2 long1) [0; 0] /\ on_segment (sg_p1 long2) (sg_p2 long2) [0; 0] /\
  area_sq (minus (sg_p2 long1) (sg_p1 long1)) (minus (sg_p2 long2) (sg_p1 long2)) = 16 /\
  forall svd feps, correct_svd svd ->
    exact_segments feps long1 long2 = Ok (mkInfo (IDPoint [0; 0]) IExact) /\
    exists q, exact_segments_tol svd feps long1 long2 = Ok (mkInfo (IDSegment q) IOverlap) /\
      q <> mkSeg [0; 0] [0; 0].
Proof.
  assert (W1 : seg_wf 2 long1) by (split; reflexivity). assert (W2 : seg_wf 2 long2) by (split; reflexivity).
  assert (P1 : on_segment (sg_p1 long1) (sg_p2 long1) [0; 0]).
  { exists (/ 2). split; [lra|]. split; [reflexivity|]. intros [|[|[|i]]]; cbn; lra. }
  assert (P2 : on_segment (sg_p1 long2) (sg_p2 long2) [0; 0]).
  { exists (/ 2). split; [lra|]. split; [reflexivity|]. intros [|[|[|i]]]; cbn; lra. }
  assert (HA : area_sq (minus (sg_p2 long1) (sg_p1 long1)) (minus (sg_p2 long2) (sg_p1 long2)) = 16) by (cbn; lra).
  assert (N1 : ~ near (sg_p1 long1) (sg_p2 long1)) by (cbn; notnear).
  assert (N2 : ~ near (sg_p1 long2) (sg_p2 long2)) by (cbn; notnear).
  assert (M1 : ~ near (sg_p1 long2) (sg_p1 long1)) by (cbn; notnear).
  assert (M2 : ~ near (sg_p2 long2) (sg_p1 long1)) by (cbn; notnear).
  split; [exact P1|]. split; [exact P2|]. split; [exact HA|]. intros svd feps C. split.
  - assert (FE : f_eps <= area_sq (minus (sg_p2 long1) (sg_p1 long1)) (minus (sg_p2 long2) (sg_p1 long2))) by (rewrite HA, f_eps_R; lra).
    destruct (exact_segments_complete 2 feps long1 long2 [0; 0] W1 W2 FE N1 N2 P1 P2) as [E|(K & _)]; [exact E|].
    rewrite (not_collinear 2) in K; try assumption; [discriminate|rewrite HA; lra|tauto|tauto].
  - set (pts := [sg_p1 long1; sg_p2 long1; sg_p1 long2; sg_p2 long2]).
    assert (N : NoDup pts).
    { repeat constructor; cbn; intros K; repeat destruct K as [K|K]; try contradiction; injection K; intros; lra. }
    assert (Ex : extension 2 pts 67108864).
    { split; [lra|]. split.
      - intros x Lx. destruct x as [|a [|b [|]]]; try discriminate. cbn. 
        pose proof (Rle_0_sqr a). pose proof (Rle_0_sqr b). unfold Rsqr in *. nra.
      - exists [1; 0]. split; [reflexivity|]. cbn. split; lra. }
    assert (T : tolerance 2 pts None (67108864 * INR 4 / 2 ^ 52)) by (exists 67108864; split; [exact Ex|reflexivity]).
    assert (V : 67108864 * INR 4 / 2 ^ 52 = / 16777216) by (cbn; lra). rewrite V in T.
    assert (Ct : sg_collinear_tol svd None long1 long2 = Ok true).
    { unfold sg_collinear_tol. destruct (_ || _); [reflexivity|].
      apply (proj2 (C89_near_line svd 2 pts pts None (/ 16777216) C ltac:(discriminate) ltac:(apply four_dims; assumption) N ltac:(tauto) T ltac:(lra)) [1; 0] [-33554432; 33554432; -33554432; 33554432]);
        [reflexivity|reflexivity|].
      unfold pts. cbn [combine map fst snd long1 long2 sg_p1 sg_p2 fold_right].
      unfold dist, norm. cbn [times map minus inner].
      rewrite !(fun x (H : 0 <= x) => pow2_sqrt x H); try lra. }
    rewrite exact_tol_collinear by exact Ct.
    destruct (overlap_box 2 long1 long2 [0; 0] W1 W2 P1 P2) as (q & E & _). rewrite E. exists q. split; [reflexivity|].
    intros ->. unfold overlap_segments in E. cbn [andb] in E. destruct (existsb _ _); [discriminate|].
    injection E as E1 _ _ _. revert E1. cbn [long1 long2 sg_p1 sg_p2 map2]. rewrite ?npmin_R, ?npmax_R.
    unfold Rmin, Rmax. repeat destruct (Rle_dec _ _); lra.
Qed.
Print Assumptions C95_crossing_refuted.
