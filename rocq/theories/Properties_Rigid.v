(** Property C80: moving a curve by a map that preserves distances. *)
From Coq Require Import ZArith List Bool Arith Lia Reals Lra Psatz.
From Verif Require Import Num Py Numeric Curve Vec DiffGeom Geom Angle Intersect Spec GeomSpec.
From Verif Require Import ListFacts VecFacts CurveProofs CurveProofs2 CurveProofs3 RankProofs GeomProofs DiffGeomProofs DiffGeomProofs2 DiffGeomProofs3 DiffGeomProofs4 DiffGeomProofs5.
From Verif Require Import IntersectProofs IntersectProofs2 IntersectProofs3 RigidProofs Properties_Container Properties_DiffGeom.
Import ListNotations.
Local Open Scope R_scope.

(** A rotation of the plane by the angle with cosine 3/5, followed by a
    translation; the same with values in space; a mirror image; a rotation of
    space. *)
Definition turn (p : list R) : list R :=
  let x := nth 0 p 0 in let y := nth 1 p 0 in [3 / 5 * x - 4 / 5 * y + 1; 4 / 5 * x + 3 / 5 * y - 2].
Definition lift (p : list R) : list R := turn p ++ [7].
Definition mirror (p : list R) : list R := [nth 1 p 0; nth 0 p 0].
Definition turn3 (p : list R) : list R :=
  let x := nth 0 p 0 in let y := nth 1 p 0 in let w := nth 2 p 0 in
  [3 / 5 * x - 4 / 5 * y + 1; 4 / 5 * x + 3 / 5 * y; w - 2].

Ltac len2 p := destruct p as [|? [|? [|? p]]]; try discriminate.
Ltac len3 p := destruct p as [|? [|? [|? [|? p]]]]; try discriminate.
Example turn_isometry : isometry 2 2 turn.
Proof. split; [intros p _; reflexivity|]. intros p q Hp Hq. len2 p. len2 q. unfold dist, norm. f_equal. cbn. field. Qed.
Example lift_isometry : isometry 2 3 lift.
Proof. split; [intros p _; reflexivity|]. intros p q Hp Hq. len2 p. len2 q. unfold dist, norm. f_equal. cbn. field. Qed.
Example mirror_isometry : isometry 2 2 mirror.
Proof. split; [intros p _; reflexivity|]. intros p q Hp Hq. len2 p. len2 q. unfold dist, norm. f_equal. cbn. field. Qed.
Example turn3_isometry : isometry 3 3 turn3.
Proof. split; [intros p _; reflexivity|]. intros p q Hp Hq. len3 p. len3 q. unfold dist, norm. f_equal. cbn. field. Qed.

(** ** C80 Distance-preserving maps *)

(** Such a map carries the point with parameter t of a segment to the point
    with parameter t of the moved segment, and acts on vectors linearly,
    keeping inner products. *)
Theorem C80_affine : forall n m g, isometry n m g -> forall p q x t, length p = n -> length q = n ->
  affine_at p q t x -> affine_at (g p) (g q) t (g x).
Proof.
  intros n m g I p q x t Hp Hq Hx.
  apply (affine_sg_point n (mkSeg p q) t x (conj Hp Hq)) in Hx. subst x.
  apply (affine_sg_point m (mkSeg (g p) (g q)) t); [split; apply I; assumption|].
  symmetry. apply (sg_point_g n m g I (mkSeg p q) t). split; assumption.
Qed.
Print Assumptions C80_affine.

Theorem C80_inner : forall n m g, isometry n m g -> forall p q p' q',
  length p = n -> length q = n -> length p' = n -> length q' = n ->
  inner (minus (g q) (g p)) (minus (g q') (g p')) = inner (minus q p) (minus q' p').
Proof.
  intros n m g I p q p' q' H1 H2 H3 H4. rewrite !inner_vdot, !minus_vsub.
  rewrite !(g_minus n m) by assumption. apply (L_dot n m); [exact I|rewrite vsub_length; congruence|rewrite vsub_length; congruence].
Qed.
Print Assumptions C80_inner.

Theorem C80_vector_linear : forall n m g, isometry n m g ->
  (forall v, length v = n -> length (vector_of n g v) = m) /\
  (forall u v i, length u = n -> length v = n ->
     nth i (vector_of n g (vadd u v)) 0 = nth i (vector_of n g u) 0 + nth i (vector_of n g v) 0) /\
  (forall v s i, length v = n -> nth i (vector_of n g (vscale v s)) 0 = s * nth i (vector_of n g v) 0) /\
  (forall u v, length u = n -> length v = n -> inner (vector_of n g u) (vector_of n g v) = inner u v) /\
  (forall p q, length p = n -> length q = n -> minus (g q) (g p) = vector_of n g (minus q p)).
Proof.
  intros n m g I. assert (LL := L_length n m g I). split; [exact LL|]. split; [|split; [|split]].
  - intros u v i Hu Hv. rewrite (L_add n m), nth_vadd by (try assumption; rewrite !LL; congruence). reflexivity.
  - intros v s i Hv. rewrite (L_scale n m), nth_vscale by assumption. ring.
  - intros u v Hu Hv. rewrite !inner_vdot. apply (L_dot n m); assumption.
  - intros p q Hp Hq. rewrite !minus_vsub. apply (g_minus n m); assumption.
Qed.
Print Assumptions C80_vector_linear.
Example C80_vector_ex : forall x y, vector_of 2 turn [x; y] = [3 / 5 * x - 4 / 5 * y; 4 / 5 * x + 3 / 5 * y].
Proof. intros x y. unfold vector_of, turn. cbn. f_equal; [field|]. f_equal. field. Qed.

(** [c'] is [c] moved by [g]. *)
Definition moved_curve (g : list R -> list R) (c c' : curve R) : Prop :=
  wf c /\ wf c' /\ c_rows c' = map g (c_rows c) /\ c_t c' = c_t c.

Lemma moved_ne g (c c' : curve R) : moved_curve g c c' -> c_rows c <> [] -> c_rows c' <> [].
Proof. intros (_ & _ & E & _) N. rewrite E. destruct (c_rows c); [contradiction|discriminate]. Qed.

(** Lengths and the parameter. *)
Theorem C80_lengths : forall junk (c c' : curve R) g, isometry (c_ndim c) (c_ndim c') g -> moved_curve g c c' -> c_rows c <> [] ->
  c_size c' = c_size c /\ c_chordlen junk c' = c_chordlen junk c /\ c_arclen junk c' = c_arclen junk c /\
  c_cumarclen junk c' = c_cumarclen junk c /\ c_tval junk c' = c_tval junk c.
Proof.
  intros junk c c' g I M N. assert (N' := moved_ne g c c' M N). destruct M as (W & W' & E & Et).
  assert (Q : c_chordlen junk c' = c_chordlen junk c).
  { destruct (C24_chordlen junk c W N) as (L1 & H1). destruct (C24_chordlen junk c' W' N') as (L2 & H2).
    assert (S0 : c_size c' = c_size c) by (unfold c_size; rewrite E, map_length; reflexivity).
    apply (nth_ext _ _ 0 0); [lia|]. intros i Hi. rewrite H1, H2 by lia. rewrite E.
    assert (Nf : forall k, (k < c_size c)%nat -> nth k (map g (c_rows c)) [] = g (nth k (c_rows c) [])).
    { intros k Hk. rewrite (nth_indep _ [] (g [])) by (rewrite map_length; exact Hk). apply map_nth. }
    rewrite !Nf by lia. apply I; apply (wf_dims c W), nth_In; unfold c_size in *; lia. }
  split; [unfold c_size; rewrite E, map_length; reflexivity|].
  unfold c_arclen, c_tval, c_cumarclen. rewrite Q, Et. repeat split.
Qed.
Print Assumptions C80_lengths.

(** The derivatives and the Frenet vectors turn with the curve. *)
Theorem C80_vectors : forall junk (c c' : curve R) g q, isometry (c_ndim c) (c_ndim c') g -> moved_curve g c c' -> (2 <= c_size c)%nat ->
  In q [PFirst; PSecond; PThird; PTangent; PNormal; PBinormal; PFrenet1; PFrenet2; PFrenet3] ->
  exists rows, curve_prop junk c q = Ok (AMat rows) /\ curve_prop junk c' q = Ok (AMat (map (vector_of (c_ndim c) g) rows)).
Proof.
  intros junk c c' g q I M H2 Hq. assert (N : c_rows c <> []) by (unfold c_size in H2; destruct (c_rows c); [cbn in H2; lia|discriminate]).
  assert (N' := moved_ne g c c' M N). destruct M as (W & W' & E & Et).
  assert (D := wf_dims c W). unfold c_size in H2.
  rewrite !prop_nonempty by (apply c_bool_wf; assumption). rewrite E.
  cbn in Hq. repeat (destruct Hq as [<- |Hq]); [..|destruct Hq]; eexists; (split; [reflexivity|]).
  - rewrite (deriv1_g _ _ _ I) by assumption. reflexivity.
  - rewrite (deriv2_g _ _ _ I) by assumption. reflexivity.
  - rewrite (deriv3_g _ _ _ I) by assumption. reflexivity.
  - rewrite (deriv1_g _ _ _ I) by assumption. reflexivity.
  - rewrite (normal_g _ _ _ I) by assumption. reflexivity.
  - rewrite (binormal_g _ _ _ I) by assumption. reflexivity.
  - rewrite (frenet1_g _ _ _ I) by assumption. reflexivity.
  - rewrite (frenet2_g _ _ _ I) by assumption. reflexivity.
  - rewrite (frenet3_g _ _ _ I) by assumption. reflexivity.
Qed.
Print Assumptions C80_vectors.

(** The scalar properties do not change; the curvature if the curve and its
    image have three or more dimensions. *)
Theorem C80_scalars : forall junk (c c' : curve R) g q, isometry (c_ndim c) (c_ndim c') g -> moved_curve g c c' -> (2 <= c_size c)%nat ->
  In q [PT; PCumarclen; PSpeed; PTorsion] \/ (q = PCurvature /\ c_ndim c <> 2%nat /\ c_ndim c' <> 2%nat) ->
  curve_prop junk c' q = curve_prop junk c q.
Proof.
  intros junk c c' g q I M H2 Hq. assert (N : c_rows c <> []) by (unfold c_size in H2; destruct (c_rows c); [cbn in H2; lia|discriminate]).
  assert (N' := moved_ne g c c' M N). destruct (C80_lengths junk c c' g I M N) as (_ & _ & _ & Ec & Et'). destruct M as (W & W' & E & Et).
  assert (D := wf_dims c W). unfold c_size in H2.
  rewrite !prop_nonempty by (apply c_bool_wf; assumption). rewrite E.
  destruct Hq as [Hq|(-> & Hn & Hn')].
  - cbn in Hq. repeat (destruct Hq as [<- |Hq]); [..|destruct Hq]; try congruence.
    + rewrite (speed_g _ _ _ I) by assumption. reflexivity.
    + rewrite (torsion_g _ _ _ I) by assumption. reflexivity.
  - apply Nat.eqb_neq in Hn. apply Nat.eqb_neq in Hn'. rewrite Hn, Hn', (curvature_g _ _ _ I) by assumption. reflexivity.
Qed.
Print Assumptions C80_scalars.

Definition rtwisted_turned : curve R := mkCurve (map turn3 (c_rows rtwisted)) 3 DFloat None.
Lemma rtwisted_turned_wf : wf rtwisted_turned. Proof. wfr. Qed.
Example C80_curve_ex : moved_curve turn3 rtwisted rtwisted_turned /\ isometry (c_ndim rtwisted) (c_ndim rtwisted_turned) turn3 /\
  (2 <= c_size rtwisted)%nat /\ c_rows rtwisted_turned <> c_rows rtwisted.
Proof.
  split; [split; [apply rtwisted_wf|split; [apply rtwisted_turned_wf|split; reflexivity]]|]. split; [exact turn3_isometry|].
  split; [cbn; lia|]. cbn. intros E. injection E. intros. lra.
Qed.

(** In the plane the curvature keeps its value (rotations) or changes its sign
    (mirror images), the same at all points. *)
Theorem C80_plane_curvature : forall junk (c c' : curve R) g, isometry 2 2 g -> moved_curve g c c' ->
  c_ndim c = 2%nat -> c_ndim c' = 2%nat -> (2 <= c_size c)%nat ->
  exists k, curve_prop junk c PCurvature = Ok (AVec k) /\
    (curve_prop junk c' PCurvature = Ok (AVec k) \/ curve_prop junk c' PCurvature = Ok (AVec (map Ropp k))).
Proof.
  intros junk c c' g I M E2 E2' H2. assert (N : c_rows c <> []) by (unfold c_size in H2; destruct (c_rows c); [cbn in H2; lia|discriminate]).
  assert (N' := moved_ne g c c' M N). destruct M as (W & W' & E & Et).
  assert (D := wf_dims c W). rewrite E2 in D. unfold c_size in H2.
  rewrite !prop_nonempty by (apply c_bool_wf; assumption). rewrite E2, E2', E. cbn [Nat.eqb]. unfold curvature_plane.
  rewrite map_length. destruct (Nat.eqb_spec (length (c_rows c)) 1); [lia|]. cbn [rmap].
  rewrite (deriv1_g _ _ _ I), (deriv2_g _ _ _ I) by assumption.
  eexists. split; [reflexivity|].
  set (V := vector_of 2 g).
  assert (LV : forall v, length v = 2%nat -> length (V v) = 2%nat) by (apply L_length; exact I).
  remember (V [1; 0]) as e1 eqn:Q1. remember (V [0; 1]) as e2 eqn:Q2.
  assert (L1 : length e1 = 2%nat) by (subst; apply LV; reflexivity).
  assert (L2 : length e2 = 2%nat) by (subst; apply LV; reflexivity).
  assert (B : forall a b, V [a; b] = vadd (vscale e1 a) (vscale e2 b)).
  { intros a b. subst e1 e2. unfold V. rewrite <- !(L_scale 2 2), <- (L_add 2 2) by (exact I || reflexivity).
    f_equal. cbn. f_equal; [ring|]. f_equal. ring. }
  assert (G11 : vdot e1 e1 = 1) by (subst e1; unfold V; rewrite (L_dot 2 2) by (exact I || reflexivity); cbn; ring).
  assert (G22 : vdot e2 e2 = 1) by (subst e2; unfold V; rewrite (L_dot 2 2) by (exact I || reflexivity); cbn; ring).
  assert (G12 : vdot e1 e2 = 0) by (subst e1 e2; unfold V; rewrite (L_dot 2 2) by (exact I || reflexivity); cbn; ring).
  clear Q1 Q2. len2 e1. len2 e2. cbn in G11, G22, G12.
  assert (S : r * r2 - r0 * r1 = 1 \/ r * r2 - r0 * r1 = -1).
  { assert (Q : (r * r2 - r0 * r1 - 1) * (r * r2 - r0 * r1 + 1) = 0).
    { replace ((r * r2 - r0 * r1 - 1) * (r * r2 - r0 * r1 + 1)) with
        ((r * r + r0 * r0) * (r1 * r1 + r2 * r2) - (r * r1 + r0 * r2) * (r * r1 + r0 * r2) - 1) by ring.
      replace (r * r + r0 * r0) with 1 by lra. replace (r1 * r1 + r2 * r2) with 1 by lra. replace (r * r1 + r0 * r2) with 0 by lra. ring. }
    apply Rmult_integral in Q. destruct Q; [left|right]; lra. }
  assert (K : forall fd sd, In fd (deriv1 (c_rows c)) -> In sd (deriv2 (c_rows c)) ->
     curvature2 (V fd) (V sd) = (r * r2 - r0 * r1) * curvature2 fd sd).
  { intros fd sd Hf Hs. apply (d1_dims 2 _ H2 D) in Hf. apply (d2_dims 2 _ H2 D) in Hs. len2 fd. len2 sd. rewrite !B.
    unfold curvature2. cbn.
    assert (Eq : (r * r3 + r1 * r4) * (r * r3 + r1 * r4) + (r0 * r3 + r2 * r4) * (r0 * r3 + r2 * r4) = r3 * r3 + r4 * r4).
    { transitivity ((r * r + r0 * r0) * (r3 * r3) + 2 * (r * r1 + r0 * r2) * (r3 * r4) + (r1 * r1 + r2 * r2) * (r4 * r4)); [ring|].
      replace (r * r + r0 * r0) with 1 by lra. replace (r1 * r1 + r2 * r2) with 1 by lra. replace (r * r1 + r0 * r2) with 0 by lra. ring. }
    match goal with |- ?a / (?q * sqrt ?q) = _ => replace q with (r3 * r3 + r4 * r4) by (rewrite <- Eq; ring) end.
    unfold Rdiv. rewrite <- Rmult_assoc. f_equal. ring. }
  destruct S as [S|S].
  - left. f_equal. f_equal. rewrite <- (map_id (map2 curvature2 (deriv1 (c_rows c)) _)). apply map2_L. intros a b Ha Hb. rewrite K, S by assumption. ring.
  - right. f_equal. f_equal. apply map2_L. intros a b Ha Hb. rewrite K, S by assumption. ring.
Qed.
Print Assumptions C80_plane_curvature.
Definition rparabola_turned : curve R := mkCurve (map turn (c_rows rparabola)) 2 DFloat None.
Definition rparabola_mirror : curve R := mkCurve (map mirror (c_rows rparabola)) 2 DFloat None.
Lemma rparabola_turned_wf : wf rparabola_turned. Proof. wfr. Qed.
Lemma rparabola_mirror_wf : wf rparabola_mirror. Proof. wfr. Qed.
Example C80_plane_ex : moved_curve turn rparabola rparabola_turned /\ moved_curve mirror rparabola rparabola_mirror /\
  (2 <= c_size rparabola)%nat.
Proof.
  split; [split; [apply rparabola_wf|split; [apply rparabola_turned_wf|split; reflexivity]]|].
  split; [split; [apply rparabola_wf|split; [apply rparabola_mirror_wf|split; reflexivity]]|]. cbn; lia.
Qed.

(** Being plane does not depend on the position, nor on the number of
    dimensions around the curve. *)
Lemma in_plane_moved n m g pts : isometry n m g -> dims n pts -> in_common_plane m (map g pts) <-> in_common_plane n pts.
Proof.
  intros I D. assert (LL := L_length n m g I). split.
  - intros (p & u & v & Lp & Lu & Lv & H). destruct pts as [|x0 pts].
    + exists (repeat 0 n), (repeat 0 n), (repeat 0 n). rewrite repeat_length. repeat split; auto. intros x [].
    + assert (L0 : length x0 = n) by (apply D; left; reflexivity). assert (Lg0 : length (g x0) = m) by (apply I; assumption).
      destruct (H (g x0)) as (s0 & t0 & H0); [left; reflexivity|].
      exists x0, (adj n g u), (adj n g v). rewrite !adj_length. repeat split; auto.
      intros x Hx. assert (Lx : length x = n) by (apply D; assumption). destruct (H (g x)) as (s & t & Hst); [apply in_map; assumption|].
      exists (s - s0), (t - t0). intros i.
      assert (Lgx : length (g x) = m) by (apply I; assumption).
      assert (Q : nth i (adj n g (vector_of n g (vsub x x0))) 0 = (s - s0) * nth i (adj n g u) 0 + (t - t0) * nth i (adj n g v) 0).
      { assert (Ld : length (vsub x x0) = n) by (rewrite vsub_length; congruence).
        apply (nth_adj_comb n m); [apply LL, Ld|assumption|assumption|].
        intros k. rewrite <- (g_minus n m) by assumption. rewrite nth_vsub by congruence. rewrite Hst, H0. ring. }
      rewrite (adj_L n m) in Q by (try exact I; rewrite vsub_length; congruence). rewrite nth_vsub in Q by congruence. lra.
  - intros (p & u & v & Lp & Lu & Lv & H). exists (g p), (vector_of n g u), (vector_of n g v).
    split; [apply I; assumption|]. split; [apply LL; assumption|]. split; [apply LL; assumption|].
    intros y Hy. apply in_map_iff in Hy. destruct Hy as (x & <- & Hx). assert (Lx : length x = n) by (apply D; assumption).
    destruct (H x Hx) as (s & t & Hst). exists s, t. intros i.
    assert (E : x = vadd p (vadd (vscale u s) (vscale v t))).
    { apply vec_ext; [rewrite vadd_length; rewrite ?vadd_length; rewrite ?vscale_length; congruence|].
      intros k. rewrite nth_vadd, nth_vadd, !nth_vscale by (rewrite ?vadd_length; rewrite ?vscale_length; congruence). rewrite Hst. ring. }
    assert (Lw : length (vadd (vscale u s) (vscale v t)) = n) by (rewrite vadd_length; rewrite ?vscale_length; congruence).
    rewrite E, (g_plus n m) by assumption.
    assert (length (g p) = m) by (apply I; assumption).
    rewrite nth_vadd by (rewrite LL; congruence).
    rewrite (L_add n m), !(L_scale n m), nth_vadd, !nth_vscale by (try exact I; rewrite ?vscale_length; rewrite ?LL; congruence). ring.
Qed.

Lemma isplane_points (c : curve R) : wf c -> c_rows c <> [] -> c_isplane c = coplanar_points (c_rows c).
Proof.
  intros W N. unfold c_isplane, coplanar_array. assert (D := wf_dims c W). destruct (c_rows c) as [|p rows] eqn:E; [contradiction|].
  assert (Lp : length p = c_ndim c) by (apply D; left; reflexivity).
  destruct (Nat.ltb (c_ndim c) 3) eqn:E3; [|reflexivity]. unfold coplanar_points. rewrite Lp, E3. reflexivity.
Qed.

Theorem C80_coplanar : forall n m g pts, isometry n m g -> dims n pts -> (2 <= length pts)%nat ->
  coplanar_points (map g pts) = coplanar_points pts.
Proof.
  intros n m g l I D L2.
  assert (D' : dims m (map g l)).
  { intros x Hx. apply in_map_iff in Hx. destruct Hx as (y & <- & Hy). apply I, D, Hy. }
  destruct (coplanar_points_iff n l L2 D) as (b & E & Hb).
  destruct (coplanar_points_iff m (map g l) ltac:(rewrite map_length; exact L2) D') as (b' & E' & Hb').
  rewrite E, E'. f_equal. rewrite (in_plane_moved n m g l I D) in Hb'. destruct b, b'; try reflexivity; exfalso; intuition discriminate.
Qed.
Print Assumptions C80_coplanar.

Theorem C80_isplane : forall (c c' : curve R) g, isometry (c_ndim c) (c_ndim c') g -> moved_curve g c c' -> (2 <= length (c_rows c))%nat ->
  c_isplane c' = c_isplane c.
Proof.
  intros c c' g I M N2. assert (N : c_rows c <> []) by (intros N; rewrite N in N2; cbn in N2; lia). assert (N' := moved_ne g c c' M N). destruct M as (W & W' & E & Et).
  rewrite !isplane_points by assumption. rewrite E. apply (C80_coplanar (c_ndim c) (c_ndim c')); [exact I|apply wf_dims, W|exact N2].
Qed.
Print Assumptions C80_isplane.
(** A plane curve put into space is still plane. *)
Definition rparabola_lifted : curve R := mkCurve (map lift (c_rows rparabola)) 3 DFloat None.
Example C80_isplane_ex : isometry (c_ndim rparabola) (c_ndim rparabola_lifted) lift /\ moved_curve lift rparabola rparabola_lifted /\
  c_isplane rparabola_lifted = Ok true.
Proof.
  assert (M : moved_curve lift rparabola rparabola_lifted).
  { split; [apply rparabola_wf|]. split; [wfr|]. split; reflexivity. }
  split; [exact lift_isometry|]. split; [exact M|].
  rewrite (C80_isplane rparabola rparabola_lifted lift lift_isometry M) by (cbn; lia). reflexivity.
Qed.

(** Segments: length, points, parallelism, angle, nearest points, distances. *)
Theorem C80_segments : forall n m g (s o : segment R), isometry n m g -> seg_wf n s -> seg_wf n o ->
  let s' := mkSeg (g (sg_p1 s)) (g (sg_p2 s)) in
  let o' := mkSeg (g (sg_p1 o)) (g (sg_p2 o)) in
  sg_len s' = sg_len s /\
  (forall t, sg_point s' t = g (sg_point s t)) /\
  (forall tol, parallel_segments s' o' tol = parallel_segments s o tol) /\
  (forall rnd, segments_angle s' o' rnd = segments_angle s o rnd) /\
  (forall tol, segment_to_segment s' o' tol = segment_to_segment s o tol) /\
  sg_shortest s' o' = mkSeg (g (sg_p1 (sg_shortest s o))) (g (sg_p2 (sg_shortest s o))) /\
  sg_distance s' o' = sg_distance s o /\
  sg_coplanar s' o' = sg_coplanar s o.
Proof.
  intros n m g s o I Hs Ho s' o'. change s' with (moved g s). change o' with (moved g o). clear s' o'.
  assert (P : forall s t, seg_wf n s -> sg_point (moved g s) t = g (sg_point s t)) by (intros; apply (sg_point_g n m); assumption).
  assert (Sh : sg_shortest (moved g s) (moved g o) = moved g (sg_shortest s o)).
  { unfold sg_shortest. rewrite (to_segment_g n m) by assumption. destruct (segment_to_segment s o f_eps) as [t1 t2].
    unfold moved at 3. cbn [sg_p1 sg_p2]. rewrite !P by assumption. reflexivity. }
  split; [apply (sg_len_g n m); assumption|]. split; [intros; apply P; assumption|].
  split; [intros; apply (parallel_g n m); assumption|]. split; [|split; [intros; apply (to_segment_g n m); assumption|]].
  - intros rnd. unfold segments_angle. rewrite !(sg_dir_g n m) by assumption.
    pose proof (sg_dir_length n s Hs). pose proof (sg_dir_length n o Ho).
    rewrite !(L_norm n m), !(L_dot n m) by assumption. reflexivity.
  - split; [exact Sh|]. split.
    + unfold sg_distance. rewrite Sh. apply (sg_len_g n m); [exact I|].
      unfold sg_shortest. destruct (segment_to_segment s o f_eps) as [t1 t2]. split; cbn [sg_p1 sg_p2]; apply sg_point_length; assumption.
    + destruct Hs as [S1 S2], Ho as [O1 O2]. unfold sg_coplanar.
      change [sg_p1 (moved g s); sg_p2 (moved g s); sg_p1 (moved g o); sg_p2 (moved g o)] with (map g [sg_p1 s; sg_p2 s; sg_p1 o; sg_p2 o]).
      apply (C80_coplanar n m); [exact I| |cbn; lia]. intros x [<-|[<-|[<-|[<-|[]]]]]; assumption.
Qed.
Print Assumptions C80_segments.

Theorem C80_segment_point : forall n m g (s : segment R) p, isometry n m g -> seg_wf n s -> length p = n ->
  let s' := mkSeg (g (sg_p1 s)) (g (sg_p2 s)) in
  segment_to_point s' (g p) = segment_to_point s p /\ sg_distance_point s' (g p) = sg_distance_point s p /\
  sg_coplanar_point s' (g p) = sg_coplanar_point s p.
Proof.
  intros n m g s p I Hs Hp s'. change s' with (moved g s). clear s'.
  assert (E := to_point_g n m g I s p Hs Hp). split; [exact E|]. split.
  - unfold sg_distance_point, sg_shortest_point. rewrite E, (sg_point_g n m) by assumption.
    apply (sg_len_g n m g I (mkSeg (sg_point s (segment_to_point s p)) p)). split; [apply sg_point_length; assumption|exact Hp].
  - destruct Hs as [S1 S2]. unfold sg_coplanar_point. change [sg_p1 (moved g s); sg_p2 (moved g s); g p] with (map g [sg_p1 s; sg_p2 s; p]).
    apply (C80_coplanar n m); [exact I| |cbn; lia]. intros x [<-|[<-|[<-|[]]]]; assumption.
Qed.
Print Assumptions C80_segment_point.
Example C80_segments_ex : seg_wf 2 (mkSeg [0; 0] [3; 4]) /\ isometry 2 3 lift /\
  sg_len (mkSeg (lift [0; 0]) (lift [3; 4])) = 5.
Proof.
  split; [split; reflexivity|]. split; [exact lift_isometry|].
  destruct (C80_segments 2 3 lift (mkSeg [0; 0] [3; 4]) (mkSeg [0; 0] [3; 4]) lift_isometry) as (E & _); [split; reflexivity|split; reflexivity|].
  cbn [sg_p1 sg_p2] in E. rewrite E. unfold sg_len, vdist, vnorm. cbn. apply sqrt_of; lra.
Qed.

(** Approximate intersections of segments are found at the moved places. *)
Theorem C80_almost : forall n m g (pr : almost_params R) (s o : segment R), isometry n m g -> seg_wf n s -> seg_wf n o ->
  al_correct_overlap pr = false ->
  let s' := mkSeg (g (sg_p1 s)) (g (sg_p2 s)) in
  let o' := mkSeg (g (sg_p1 o)) (g (sg_p2 o)) in
  (almost_segments pr s o = Ok not_intersected /\ almost_segments pr s' o' = Ok not_intersected) \/
  (exists x, almost_segments pr s o = Ok (mkInfo (IDSegment x) IAlmost) /\
     almost_segments pr s' o' = Ok (mkInfo (IDSegment (mkSeg (g (sg_p1 x)) (g (sg_p2 x)))) IAlmost)).
Proof.
  intros n m g pr s o I Hs Ho Hc s' o'. destruct (C80_segments n m g s o I Hs Ho) as (_ & _ & _ & _ & _ & Sh & Ds & _).
  fold s' o' in Sh, Ds. rewrite !almost_segments_simple by assumption. rewrite Ds, Sh.
  destruct (Rltb _ _); [right|left; split; reflexivity]. eexists. split; reflexivity.
Qed.
Print Assumptions C80_almost.

(** What does not follow the motion: the test for collinear points measures
    rank from the origin, so a translation changes it. *)
Theorem C80_collinear_refuted : ~ (forall n g pts, isometry n n g -> dims n pts -> collinear_points (map g pts) = collinear_points pts).
Proof.
  intros H. specialize (H 2%nat (fun p => [nth 0 p 0; nth 1 p 0 + 1]) [[1; 0]; [2; 0]; [3; 0]]).
  assert (I : isometry 2 2 (fun p => [nth 0 p 0; nth 1 p 0 + 1])).
  { split; [intros p _; reflexivity|]. intros p q Hp Hq. len2 p. len2 q. unfold dist, norm. f_equal. cbn. ring. }
  specialize (H I). assert (D : dims 2 [[1; 0]; [2; 0]; [3; 0]]) by (intros p [<-|[<-|[<-|[]]]]; reflexivity). specialize (H D).
  assert (A : collinear_points [[1; 0]; [2; 0]; [3; 0]] = true).
  { apply (collinear_points_iff 2); [exact D|]. right. exists [1; 0]. split; [reflexivity|]. intros x [<-|[<-|[<-|[]]]]; [exists 1|exists 2|exists 3]; intros [|[|[|i]]]; cbn; lra. }
  rewrite A in H. apply (collinear_points_iff 2) in H; [|intros p [<-|[<-|[<-|[]]]]; reflexivity].
  cbn [map nth] in H. destruct H as [(a & b & H)|(u & Lu & H)].
  - assert (X1 := H [1; 0 + 1] (or_introl eq_refl)). assert (X2 := H [2; 0 + 1] (or_intror (or_introl eq_refl))).
    assert (X3 := H [3; 0 + 1] (or_intror (or_intror (or_introl eq_refl)))).
    destruct X1 as [X1|X1], X2 as [X2|X2], X3 as [X3|X3]; subst; congruence || (injection X2; intros; lra) || (injection X3; intros; lra).
  - destruct (H [1; 0 + 1] (or_introl eq_refl)) as (t1 & H1). destruct (H [2; 0 + 1] (or_intror (or_introl eq_refl))) as (t2 & H2).
    pose proof (H1 0%nat) as A1. pose proof (H1 1%nat) as A2. pose proof (H2 0%nat) as A3. pose proof (H2 1%nat) as A4. cbn in A1, A2, A3, A4. nra.
Qed.
Print Assumptions C80_collinear_refuted.
