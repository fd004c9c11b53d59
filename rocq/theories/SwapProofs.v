(** Swapping the two arguments of the segment functions, and the two ends of a
    segment. *)
From Coq Require Import ZArith List Bool Arith Lia PrimFloat FloatAxioms FloatLemmas SpecFloat Reals Lra.
From Verif Require Import Num Py Numeric Curve Vec Geom Angle Intersect Spec GeomSpec.
From Verif Require Import ListFacts CurveProofs CurveProofs2 CurveProofs3 VecFacts RankProofs GeomProofs GeomProofs2 GeomProofs3 GeomProofs4.
From Verif Require Import IntersectProofs IntersectProofs2 IntersectProofs3.
Import ListNotations.
Local Open Scope R_scope.

Lemma bool_iff_eq (a b : bool) : (a = true <-> b = true) -> a = b.
Proof. destruct a, b; intros [H K]; try reflexivity; [symmetry; apply H|apply K]; reflexivity. Qed.

Lemma map2_comm {A B} (f : A -> A -> B) : (forall x y, f x y = f y x) -> forall l m, map2 f l m = map2 f m l.
Proof. intros H. induction l as [|a l IH]; intros [|b m]; cbn; try reflexivity. rewrite H, IH. reflexivity. Qed.

Lemma inner_sym x : forall y, inner x y = inner y x.
Proof. induction x as [|a x IH]; intros [|b y]; cbn; try reflexivity. rewrite IH. ring. Qed.

Lemma area_sym (u v : list R) : length u = length v -> area_sq u v = area_sq v u.
Proof. intros H. rewrite !area_sq_wedge, <- !lagrange by congruence. rewrite <- !inner_vdot, (inner_sym v u). ring. Qed.

Lemma inner_opp_l x : forall y, inner (map Ropp x) y = - inner x y.
Proof. induction x as [|a x IH]; intros [|b y]; cbn; try lra. rewrite IH. ring. Qed.

Lemma minus_opp q : forall p, minus q p = map Ropp (minus p q).
Proof. induction q as [|a q IH]; intros [|b p]; cbn; try reflexivity. rewrite <- IH. f_equal. ring. Qed.

Lemma dir_reverse (s : segment R) : sg_dir (sg_reverse s) = map Ropp (sg_dir s).
Proof. unfold sg_dir, sg_reverse. cbn [sg_p1 sg_p2]. rewrite <- !minus_vsub. apply minus_opp. Qed.

Lemma wf_reverse n (s : segment R) : seg_wf n s -> seg_wf n (sg_reverse s).
Proof. intros [A B]. split; assumption. Qed.

Lemma area_reverse n (s1 s2 : segment R) : seg_wf n s1 -> seg_wf n s2 ->
  area_sq (sg_dir (sg_reverse s1)) (sg_dir s2) = area_sq (sg_dir s1) (sg_dir s2).
Proof.
  intros H1 H2. rewrite dir_reverse.
  rewrite !area_sq_wedge, <- !lagrange by (rewrite ?map_length, !(sg_dir_length n) by assumption; reflexivity).
  rewrite <- !inner_vdot, !inner_opp_l, (inner_sym _ (map Ropp _)), inner_opp_l. ring.
Qed.

(** ** The four predicates *)

Lemma parallel_swap n (s1 s2 : segment R) tol : seg_wf n s1 -> seg_wf n s2 ->
  parallel_segments s2 s1 tol = parallel_segments s1 s2 tol.
Proof.
  intros H1 H2. apply bool_iff_eq. rewrite !(parallel_iff n) by assumption. rewrite !area_dir.
  rewrite area_sym by (rewrite !(sg_dir_length n) by assumption; reflexivity). reflexivity.
Qed.

Lemma parallel_reverse n (s1 s2 : segment R) tol : seg_wf n s1 -> seg_wf n s2 ->
  parallel_segments (sg_reverse s1) s2 tol = parallel_segments s1 s2 tol.
Proof.
  intros H1 H2. apply bool_iff_eq. rewrite !(parallel_iff n) by (try apply wf_reverse; assumption).
  rewrite !area_dir, (area_reverse n) by assumption. reflexivity.
Qed.

Lemma plane_incl n (l m : list (list R)) : (forall x, In x m -> In x l) -> in_common_plane n l -> in_common_plane n m.
Proof. intros H (p & u & v & A & B & C & D). exists p, u, v. repeat (split; [assumption|]). intros x Hx. apply D, H, Hx. Qed.

Lemma coplanar_points_same n (l m : list (list R)) : (2 <= length l)%nat -> (2 <= length m)%nat -> dims n l ->
  (forall x, In x m <-> In x l) -> coplanar_points m = coplanar_points l.
Proof.
  intros Nl Nm D H. assert (D' : dims n m) by (intros x Hx; apply D, H, Hx).
  destruct (coplanar_points_iff n l Nl D) as (b & Eb & Ib). destruct (coplanar_points_iff n m Nm D') as (c & Ec & Ic).
  rewrite Eb, Ec. f_equal. apply bool_iff_eq. rewrite Ib, Ic. split; apply plane_incl; intros x Hx; apply H, Hx.
Qed.

Lemma in4_swap {A} (a b c d x : A) : In x [c; d; a; b] <-> In x [a; b; c; d].
Proof. cbn. tauto. Qed.
Lemma in4_rev {A} (a b c d x : A) : In x [b; a; c; d] <-> In x [a; b; c; d].
Proof. cbn. tauto. Qed.

Lemma coplanar_swap n (s1 s2 : segment R) : seg_wf n s1 -> seg_wf n s2 -> sg_coplanar s2 s1 = sg_coplanar s1 s2.
Proof.
  intros [A B] [C D]. apply (coplanar_points_same n); [cbn; lia|cbn; lia|apply dims4; assumption|].
  intros x. apply in4_swap.
Qed.
Lemma coplanar_reverse n (s1 s2 : segment R) : seg_wf n s1 -> seg_wf n s2 -> sg_coplanar (sg_reverse s1) s2 = sg_coplanar s1 s2.
Proof.
  intros [A B] [C D]. apply (coplanar_points_same n); [cbn; lia|cbn; lia|apply dims4; assumption|].
  intros x. apply in4_rev.
Qed.

Lemma collinear_points_same n (l m : list (list R)) : dims n l -> (forall x, In x m <-> In x l) ->
  collinear_points m = collinear_points l.
Proof.
  intros D H. assert (D' : dims n m) by (intros x Hx; apply D, H, Hx).
  apply bool_iff_eq. rewrite !(collinear_points_iff n) by assumption. split.
  - intros [(a & b & K)|(u & L & K)]; [left; exists a, b|right; exists u; split; [assumption|]]; intros x Hx; apply K, H, Hx.
  - intros [(a & b & K)|(u & L & K)]; [left; exists a, b|right; exists u; split; [assumption|]]; intros x Hx; apply K, H, Hx.
Qed.

(** The two segments pass for the same one, seen from the first argument of
    Segment.__eq__ being [o]. *)
Definition taken_same (s o : segment R) : Prop :=
  (near (sg_p1 o) (sg_p1 s) /\ near (sg_p2 o) (sg_p2 s)) \/ (near (sg_p2 o) (sg_p1 s) /\ near (sg_p1 o) (sg_p2 s)).

Lemma collinear_eq n (s o : segment R) : seg_wf n s -> seg_wf n o ->
  (sg_collinear s o = true <-> taken_same s o \/ collinear_points [sg_p1 s; sg_p2 s; sg_p1 o; sg_p2 o] = true).
Proof.
  intros H1 H2. unfold sg_collinear, sg_eqb, sg_reverse, taken_same. cbn [sg_p1 sg_p2].
  rewrite <- !pt_eqb_near, <- !andb_true_iff, <- orb_true_iff. destruct (_ || _); intuition congruence.
Qed.

Lemma collinear_swap n (s1 s2 : segment R) : seg_wf n s1 -> seg_wf n s2 ->
  (taken_same s1 s2 <-> taken_same s2 s1) -> sg_collinear s2 s1 = sg_collinear s1 s2.
Proof.
  intros H1 H2 S. apply bool_iff_eq. rewrite !(collinear_eq n) by assumption. rewrite S.
  destruct H1, H2.
  rewrite (collinear_points_same n [sg_p1 s1; sg_p2 s1; sg_p1 s2; sg_p2 s2] [sg_p1 s2; sg_p2 s2; sg_p1 s1; sg_p2 s1]);
    [reflexivity|apply dims4; assumption|intros x; apply in4_swap].
Qed.

Lemma collinear_reverse n (s1 s2 : segment R) : seg_wf n s1 -> seg_wf n s2 ->
  sg_collinear (sg_reverse s1) s2 = sg_collinear s1 s2.
Proof.
  intros H1 H2. apply bool_iff_eq. rewrite !(collinear_eq n) by (try apply wf_reverse; assumption).
  destruct H1, H2. unfold taken_same, sg_reverse. cbn [sg_p1 sg_p2].
  rewrite (collinear_points_same n [sg_p1 s1; sg_p2 s1; sg_p1 s2; sg_p2 s2] [sg_p2 s1; sg_p1 s1; sg_p1 s2; sg_p2 s2]);
    [tauto|apply dims4; assumption|intros x; apply in4_rev].
Qed.

Lemma npmin_comm (a b : R) : npmin a b = npmin b a.
Proof. rewrite !npmin_R. apply Rmin_comm. Qed.
Lemma npmax_comm (a b : R) : npmax a b = npmax b a.
Proof. rewrite !npmax_R. apply Rmax_comm. Qed.

Lemma overlap_swap (s1 s2 : segment R) : overlap_segments s2 s1 false = overlap_segments s1 s2 false.
Proof.
  unfold overlap_segments. cbn [andb].
  rewrite (map2_comm npmin npmin_comm (map2 npmax (sg_p1 s2) (sg_p2 s2))), (map2_comm npmax npmax_comm (map2 npmin (sg_p1 s2) (sg_p2 s2))).
  reflexivity.
Qed.
Lemma overlap_reverse (s1 s2 : segment R) c : overlap_segments s1 s2 false = c -> overlap_segments (sg_reverse s1) s2 false = c.
Proof.
  intros <-. unfold overlap_segments, sg_reverse. cbn [andb sg_p1 sg_p2].
  rewrite (map2_comm npmax npmax_comm (sg_p2 s1)), (map2_comm npmin npmin_comm (sg_p2 s1)). reflexivity.
Qed.

Lemma angle_swap (s1 s2 : segment R) rnd : segments_angle s2 s1 rnd = segments_angle s1 s2 rnd.
Proof.
  unfold segments_angle. rewrite <- !inner_vdot, (inner_sym (sg_dir s2)), (Rmult_comm (vnorm (sg_dir s2))). reflexivity.
Qed.

(** ** The exact method *)

Lemma exact_swap n feps (s1 s2 : segment R) : seg_wf n s1 -> seg_wf n s2 ->
  (taken_same s1 s2 <-> taken_same s2 s1) -> exact_segments feps s2 s1 = exact_segments feps s1 s2.
Proof.
  intros H1 H2 S. pose proof (collinear_swap n s1 s2 H1 H2 S) as C.
  destruct (sg_collinear s1 s2) eqn:E.
  { rewrite !exact_segments_collinear by assumption. rewrite overlap_swap. reflexivity. }
  destruct (exact_segments_main n feps s1 s2 H1 H2 E) as [(X & W)|(A & N1 & N2 & x & y & P & X)].
  - rewrite X. destruct (exact_segments_main n feps s2 s1 H2 H1 C) as [(Y & _)|(A & N1 & N2 & x & y & P & Y)]; [exact Y|].
    exfalso. rewrite area_dir, area_sym, <- area_dir in A by (rewrite !(sg_dir_length n) by assumption; reflexivity).
    destruct W as [W|[W|[W|W]]]; [lra| |contradiction|contradiction].
    apply W. exact (common_point_plane n s1 s2 y x H1 H2 (eq_sym P)).
  - rewrite X. rewrite area_dir, area_sym, <- area_dir in A by (rewrite !(sg_dir_length n) by assumption; reflexivity).
    rewrite (exact_segments_found n feps s2 s1 y x H2 H1 C A N2 N1 (eq_sym P)). rewrite P, andb_comm. reflexivity.
Qed.

(** ** Angle of a reversed segment *)

Lemma norm_map_opp (v : list R) : vnorm (map Ropp v) = vnorm v.
Proof.
  rewrite <- !norm_vnorm. unfold norm. f_equal. rewrite inner_opp_l, inner_sym, inner_opp_l. ring.
Qed.

Lemma angle_reverse (s1 s2 : segment R) a : segments_angle s1 s2 None = Some a ->
  segments_angle (sg_reverse s1) s2 None = Some (PI - a).
Proof.
  unfold segments_angle. rewrite dir_reverse, norm_map_opp, <- !inner_vdot, inner_opp_l.
  destruct (isclose _ _); [discriminate|]. cbv zeta. intros E. assert (K : forall z w : R, Some z = Some w -> w = z) by congruence. apply K in E. subst a. f_equal.
  set (c := inner (sg_dir s1) (sg_dir s2) / (vnorm (sg_dir s1) * vnorm (sg_dir s2))).
  replace (- inner (sg_dir s1) (sg_dir s2) / (vnorm (sg_dir s1) * vnorm (sg_dir s2))) with (- c) by (unfold c, Rdiv; ring).
  assert (G : forall z, (if Rltb (if Rltb 1 z then 1 else z) (-1) then -1 else (if Rltb 1 z then 1 else z)) = Rmax (-1) (Rmin 1 z)).
  { intros z. unfold Rmax, Rmin. destruct (Rltb 1 z) eqn:E1; [apply Rltb_iff in E1|apply Rltb_false in E1].
    - destruct (Rle_dec 1 z); [|lra]. destruct (Rle_dec (-1) 1); [|lra]. destruct (Rltb 1 (-1)) eqn:E2; [apply Rltb_iff in E2; lra|reflexivity].
    - destruct (Rle_dec 1 z); [replace z with 1 by lra|];
        (destruct (Rltb _ (-1)) eqn:E2; [apply Rltb_iff in E2|apply Rltb_false in E2]); destruct (Rle_dec _ _); lra. }
  clearbody c. rewrite !G, <- acos_opp. f_equal. unfold Rmax, Rmin.
  repeat destruct (Rle_dec _ _); lra.
Qed.

(** ** Binary64: multiplication commutes, NaN included *)

Lemma SFmul_comm (x y : spec_float) p e : SFmul p e x y = SFmul p e y x.
Proof.
  destruct x as [sx|sx| |sx mx ex], y as [sy|sy| |sy my ey]; cbn [SFmul]; try reflexivity; try (rewrite xorb_comm; reflexivity).
  rewrite (xorb_comm sx), (Pos.mul_comm mx), (Z.add_comm ex). reflexivity.
Qed.
Lemma fmul_comm (x y : float) : (x * y = y * x)%float.
Proof. apply Prim2SF_inj. rewrite !mul_spec. apply SFmul_comm. Qed.
Lemma parallel_swap_float (s1 s2 : segment float) tol : parallel_segments s2 s1 tol = parallel_segments s1 s2 tol.
Proof.
  unfold parallel_segments, vdot. cbn [nmul nsub nltb FNum].
  rewrite (map2_comm PrimFloat.mul fmul_comm (sg_dir s2) (sg_dir s1)), (fmul_comm (vsum (map2 PrimFloat.mul (sg_dir s2) (sg_dir s2)))). reflexivity.
Qed.
