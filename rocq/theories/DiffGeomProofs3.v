(** Curvature and torsion: proofs over the reals. *)
From Coq Require Import ZArith List Bool Arith Lia Reals Lra.
From Verif Require Import Num Py Numeric Curve Vec DiffGeom Spec GeomSpec ListFacts CurveProofs3 VecFacts GeomProofs DiffGeomProofs DiffGeomProofs2.
Import ListNotations.
Local Open Scope R_scope.

(** ** Gradient of transformed rows *)

Lemma rows_ext n (a b : list (list R)) : dims n a -> dims n b -> length a = length b ->
  (forall k j, (k < length a)%nat -> coord a j k = coord b j k) -> a = b.
Proof.
  intros Da Db L H. apply (nth_ext _ _ [] []); [assumption|]. intros k Hk. apply vec_ext.
  - rewrite (dims_nth n a k Da Hk), (dims_nth n b k Db) by congruence. reflexivity.
  - intros j. apply H. assumption.
Qed.

Lemma dims_map n m (f : list R -> list R) rows : dims n rows -> (forall p, length p = n -> length (f p) = m) -> dims m (map f rows).
Proof. intros D H q Hq. apply in_map_iff in Hq. destruct Hq as (p & <- & Hp). apply H, D, Hp. Qed.

Lemma coord_map (f : list R -> list R) rows j k : (k < length rows)%nat -> coord (map f rows) j k = nth j (f (nth k rows [])) 0.
Proof. intros H. unfold coord. rewrite (nth_indep _ [] (f [])) by (rewrite map_length; assumption). rewrite map_nth. reflexivity. Qed.

Lemma gradient_translate n w rows : dims n rows -> length w = n -> gradient (map (fun r => vadd r w) rows) = gradient rows.
Proof.
  intros D Lw. destruct (Nat.le_gt_cases 2 (length rows)) as [Hm|Hm].
  - assert (D' : dims n (map (fun r => vadd r w) rows)).
    { apply (dims_map n n _ _ D). intros p Hp. rewrite vadd_length; congruence. }
    apply (rows_ext n).
    + apply gradient_dims; [assumption|rewrite map_length; assumption].
    + apply gradient_dims; assumption.
    + rewrite !gradient_length, map_length. reflexivity.
    + intros k j Hk. rewrite gradient_length, map_length in Hk. unfold coord.
      rewrite (proj2 (gradient_nth n _ k D' ltac:(rewrite map_length; assumption) ltac:(rewrite map_length; assumption))).
      rewrite (proj2 (gradient_nth n _ k D Hm Hk)). rewrite map_length.
      rewrite (slope_ext _ _ (fun i => 1 * coord rows j i + nth j w 0 * 1)); [rewrite slope_linear, slope_const; lra|assumption|assumption|].
      intros i Hi. rewrite coord_map by assumption. rewrite nth_vadd by (rewrite (dims_nth n) by assumption; congruence). unfold coord. lra.
  - destruct rows as [|a [|b r]]; try reflexivity. cbn in Hm. lia.
Qed.

Lemma gradient_scale n c rows : dims n rows -> gradient (map (fun r => vscale r c) rows) = map (fun r => vscale r c) (gradient rows).
Proof.
  intros D. destruct (Nat.le_gt_cases 2 (length rows)) as [Hm|Hm].
  - assert (D' : dims n (map (fun r => vscale r c) rows)).
    { apply (dims_map n n _ _ D). intros p Hp. rewrite vscale_length; congruence. }
    apply (rows_ext n).
    + apply gradient_dims; [assumption|rewrite map_length; assumption].
    + apply (dims_map n n); [apply gradient_dims; assumption|]. intros p Hp. rewrite vscale_length; congruence.
    + rewrite map_length, !gradient_length, map_length. reflexivity.
    + intros k j Hk. rewrite gradient_length, map_length in Hk. rewrite coord_map by (rewrite gradient_length; assumption).
      unfold coord. rewrite nth_vscale.
      rewrite (proj2 (gradient_nth n _ k D' ltac:(rewrite map_length; assumption) ltac:(rewrite map_length; assumption))).
      rewrite (proj2 (gradient_nth n _ k D Hm Hk)). rewrite map_length.
      rewrite (slope_ext _ _ (fun i => c * coord rows j i + 0 * 1)); [rewrite slope_linear, slope_const; lra|assumption|assumption|].
      intros i Hi. rewrite coord_map by assumption. rewrite nth_vscale. unfold coord. lra.
  - destruct rows as [|a [|b r]]; try reflexivity; [|cbn in Hm; lia]. cbn. rewrite Rmult_0_l. reflexivity.
Qed.

Lemma gradient_rev n rows : dims n rows -> gradient (rev rows) = map vopp (rev (gradient rows)).
Proof.
  intros D. destruct (Nat.le_gt_cases 2 (length rows)) as [Hm|Hm].
  - assert (D' : dims n (rev rows)) by (intros p Hp; apply D; apply in_rev; assumption).
    apply (rows_ext n).
    + apply gradient_dims; [assumption|rewrite rev_length; assumption].
    + apply (dims_map n n); [|intros p Hp; rewrite vopp_length; assumption].
      intros p Hp. apply in_rev in Hp. revert p Hp. apply gradient_dims; assumption.
    + rewrite map_length, rev_length, !gradient_length, rev_length. reflexivity.
    + intros k j Hk. rewrite gradient_length, rev_length in Hk. rewrite coord_map by (rewrite rev_length, gradient_length; assumption).
      rewrite nth_vopp. rewrite rev_nth by (rewrite gradient_length; assumption). rewrite gradient_length. unfold coord at 1.
      rewrite (proj2 (gradient_nth n _ k D' ltac:(rewrite rev_length; assumption) ltac:(rewrite rev_length; assumption))).
      rewrite (proj2 (gradient_nth n _ (length rows - S k) D Hm ltac:(lia))). rewrite rev_length.
      replace (length rows - S k)%nat with (length rows - 1 - k)%nat by lia.
      rewrite <- slope_rev by assumption. apply slope_ext; [assumption|assumption|].
      intros i Hi. unfold coord. rewrite rev_nth by assumption. replace (length rows - S i)%nat with (length rows - 1 - i)%nat by lia. reflexivity.
  - destruct rows as [|a [|b r]]; try reflexivity; [|cbn in Hm; lia]. cbn. rewrite Ropp_0. reflexivity.
Qed.

Lemma vopp_scale (u : list R) : vopp u = vscale u (-1).
Proof. apply vec_ext; [rewrite vopp_length, vscale_length; reflexivity|]. intros i. rewrite nth_vopp, nth_vscale. lra. Qed.
Lemma map_vopp_scale rows : map vopp rows = map (fun r => vscale r (-1)) rows.
Proof. apply map_ext. intros u. apply vopp_scale. Qed.

Lemma deriv2_rev n rows : dims n rows -> rows <> [] -> deriv2 (rev rows) = rev (deriv2 rows).
Proof.
  intros D N. unfold deriv2. destruct (deriv_dims n rows D N) as (k & _ & D1 & _). unfold deriv1 in *.
  rewrite (gradient_rev n) by assumption. rewrite map_vopp_scale.
  assert (D1' : dims k (rev (gradient rows))) by (intros p Hp; apply D1, in_rev, Hp).
  rewrite (gradient_scale k) by assumption.
  rewrite (gradient_rev k) by assumption. rewrite map_vopp_scale, map_map.
  transitivity (map (fun x => x) (rev (gradient (gradient rows)))); [|apply map_id].
  apply map_ext. intros u. apply vec_ext; [rewrite !vscale_length; reflexivity|]. intros i. rewrite !nth_vscale. lra.
Qed.

(** ** Plane curvature *)

Lemma curvature2_nth rows i : (i < length rows)%nat ->
  nth i (map2 curvature2 (deriv1 rows) (deriv2 rows)) 0 = curvature2 (nth i (deriv1 rows) []) (nth i (deriv2 rows) []).
Proof.
  intros H. rewrite (nth_map2_in _ _ _ _ [] []); [reflexivity| |]; rewrite ?deriv1_length, ?deriv2_length; assumption.
Qed.

(** The formula over R. *)
Lemma curvature2_R (f s : list R) : curvature2 f s =
  (nth 1 s 0 * nth 0 f 0 - nth 0 s 0 * nth 1 f 0) /
  ((nth 0 f 0 * nth 0 f 0 + nth 1 f 0 * nth 1 f 0) * sqrt (nth 0 f 0 * nth 0 f 0 + nth 1 f 0 * nth 1 f 0)).
Proof. reflexivity. Qed.

Lemma plane_speed (f : list R) : length f = 2%nat -> vdot f f = nth 0 f 0 * nth 0 f 0 + nth 1 f 0 * nth 1 f 0.
Proof. intros L. destruct f as [|a [|b [|]]]; try discriminate. cbn. lra. Qed.

(** A similarity of the plane: rotation by the angle of (a, b), scaling, translation. *)
Definition simil (a b e f : R) (p : list R) : list R :=
  [a * nth 0 p 0 - b * nth 1 p 0 + e; b * nth 0 p 0 + a * nth 1 p 0 + f].

Lemma gradient_simil a b e f rows : dims 2 rows -> (2 <= length rows)%nat ->
  gradient (map (simil a b e f) rows) = map (simil a b 0 0) (gradient rows).
Proof.
  intros D Hm.
  assert (D' : dims 2 (map (simil a b e f) rows)) by (apply (dims_map 2 2 _ _ D); reflexivity).
  apply (rows_ext 2).
  - apply gradient_dims; [assumption|rewrite map_length; assumption].
  - apply (dims_map 2 2); [apply gradient_dims; assumption|reflexivity].
  - rewrite map_length, !gradient_length, map_length. reflexivity.
  - intros k j Hk. rewrite gradient_length, map_length in Hk. rewrite coord_map by (rewrite gradient_length; assumption).
    unfold coord at 1. rewrite (proj2 (gradient_nth 2 _ k D' ltac:(rewrite map_length; assumption) ltac:(rewrite map_length; assumption))).
    rewrite map_length. pose proof (proj2 (gradient_nth 2 _ k D Hm Hk)) as G.
    destruct j as [|[|j]]; cbn [nth simil].
    + rewrite !G. rewrite (slope_ext _ _ (fun i => 1 * (a * coord rows 0 i + - b * coord rows 1 i) + e * 1));
        [rewrite !slope_linear, slope_const; lra|assumption|assumption|].
      intros i Hi. rewrite coord_map by assumption. cbn. unfold coord. lra.
    + rewrite !G. rewrite (slope_ext _ _ (fun i => 1 * (b * coord rows 0 i + a * coord rows 1 i) + f * 1));
        [rewrite !slope_linear, slope_const; lra|assumption|assumption|].
      intros i Hi. rewrite coord_map by assumption. cbn. unfold coord. lra.
    + rewrite (slope_ext _ _ (fun i => 0)); [rewrite slope_const; destruct j; reflexivity|assumption|assumption|].
      intros i Hi. rewrite coord_map by assumption. destruct j; reflexivity.
Qed.

Lemma simil0_nth a b p : nth 0 (simil a b 0 0 p) 0 = a * nth 0 p 0 - b * nth 1 p 0
  /\ nth 1 (simil a b 0 0 p) 0 = b * nth 0 p 0 + a * nth 1 p 0.
Proof. cbn. split; lra. Qed.

Lemma curvature2_simil a b fd sd : 0 < a * a + b * b ->
  0 < nth 0 fd 0 * nth 0 fd 0 + nth 1 fd 0 * nth 1 fd 0 ->
  curvature2 (simil a b 0 0 fd) (simil a b 0 0 sd) = curvature2 fd sd / sqrt (a * a + b * b).
Proof.
  intros HK HQ. rewrite !curvature2_R. destruct (simil0_nth a b fd) as (-> & ->). destruct (simil0_nth a b sd) as (-> & ->).
  set (x := nth 0 fd 0) in *. set (y := nth 1 fd 0) in *. set (u := nth 0 sd 0). set (v := nth 1 sd 0).
  replace ((a * x - b * y) * (a * x - b * y) + (b * x + a * y) * (b * x + a * y)) with ((a * a + b * b) * (x * x + y * y)) by ring.
  rewrite sqrt_mult_alt by lra.
  assert (S1 := sqrt_lt_R0 _ HK). assert (S2 := sqrt_lt_R0 _ HQ). field. repeat split; lra.
Qed.

(** ** Torsion *)

Definition in_span (u v w : list R) : Prop := exists x y, forall j, nth j w 0 = x * nth j u 0 + y * nth j v 0.

Lemma in_span_scale u v w k : in_span u v w -> in_span u v (vscale w k).
Proof. intros (x & y & H). exists (k * x), (k * y). intros j. rewrite nth_vscale, H. ring. Qed.
Lemma in_span_sub u v w z : length w = length z -> in_span u v w -> in_span u v z -> in_span u v (vsub w z).
Proof. intros L (x & y & H) (x' & y' & H'). exists (x - x'), (y - y'). intros j. rewrite nth_vsub, H, H' by assumption. ring. Qed.

Lemma span2_proj n (u v e1 e2 w : list R) : length e1 = n -> length e2 = n -> length w = n ->
  in_span u v e1 -> in_span u v e2 -> in_span u v w ->
  vdot e1 e1 = 1 -> vdot e2 e2 = 1 -> vdot e1 e2 = 0 ->
  vsub (vsub w (vscale e1 (vdot w e1))) (vscale e2 (vdot w e2)) = repeat 0 n.
Proof.
  intros L1 L2 Lw (x1 & y1 & H1) (x2 & y2 & H2) (x & y & Hw) N1 N2 O.
  assert (D : x1 * y2 - x2 * y1 <> 0).
  { intros D.
    assert (C : exists c, x2 = c * x1 /\ y2 = c * y1 \/ (x1 = 0 /\ y1 = 0)).
    { destruct (Req_dec x1 0) as [Z|Z].
      - destruct (Req_dec y1 0) as [Z'|Z']; [exists 0; auto|]. exists (y2 / y1). left. split; [|field; assumption].
        rewrite Z in *. assert (Q : x2 * y1 = 0) by lra. apply Rmult_integral in Q. destruct Q; [lra|contradiction].
      - exists (x2 / x1). left. split; [field; assumption|].
        apply (Rmult_eq_reg_l x1); [|assumption]. replace (x1 * (x2 / x1 * y1)) with (x2 * y1) by (field; assumption). lra. }
    destruct C as (c & [(Cx & Cy)|(Zx & Zy)]).
    - assert (E : e2 = vscale e1 c).
      { apply vec_ext; [rewrite vscale_length; congruence|]. intros j. rewrite nth_vscale, H1, H2, Cx, Cy. ring. }
      rewrite E, vdot_scale_r, N1 in O. rewrite E, vdot_scale_l, vdot_scale_r, N1 in N2. nra.
    - assert (E : e1 = repeat 0 n).
      { apply vec_ext; [rewrite repeat_length; assumption|]. intros j. rewrite nth_zeros, H1, Zx, Zy. ring. }
      rewrite E, vdot_zero_l in N1. lra. }
  set (Dt := x1 * y2 - x2 * y1) in *.
  set (al := (x * y2 - y * x2) / Dt). set (be := (y * x1 - x * y1) / Dt).
  assert (E : w = vadd (vscale e1 al) (vscale e2 be)).
  { apply vec_ext; [rewrite vadd_length; rewrite ?vscale_length; congruence|]. intros j.
    rewrite nth_vadd, !nth_vscale by (rewrite !vscale_length; congruence). rewrite Hw, H1, H2. unfold al, be, Dt. field. exact D. }
  assert (A : vdot w e1 = al).
  { rewrite E, vdot_add_l, !vdot_scale_l by (rewrite !vscale_length; congruence). rewrite N1, (vdot_comm e2 e1), O. ring. }
  assert (B : vdot w e2 = be).
  { rewrite E, vdot_add_l, !vdot_scale_l by (rewrite !vscale_length; congruence). rewrite N2, O. ring. }
  rewrite A, B. apply vec_ext.
  - rewrite vsub_length, vsub_length, repeat_length; rewrite ?vsub_length, ?vscale_length; rewrite ?vscale_length; congruence.
  - intros j. rewrite nth_zeros, nth_vsub, nth_vsub by (rewrite ?vsub_length, ?vscale_length; rewrite ?vscale_length; congruence).
    rewrite E at 1. rewrite nth_vadd by (rewrite !vscale_length; congruence). ring.
Qed.

Lemma plane_in_span n u v a b rows i : plane_rows n [] u v a b rows -> (i < length rows)%nat -> in_span u v (nth i rows []).
Proof.
  intros (_ & _ & _ & H) Hi. exists (a i), (b i). intros j. pose proof (H i j Hi) as K. unfold coord in K. rewrite K.
  destruct j; cbn; lra.
Qed.

(** The binormal vanishes where tangent and normal of a plane curve are well
    defined. *)
Lemma binormal_plane n p u v a b rows i : plane_rows n p u v a b rows -> (i < length rows)%nat ->
  / 100000000 < vnorm (nth i (deriv1 rows) []) -> / 100000000 < vnorm (nth i (normal_rows rows) []) ->
  nth i (binormal_rows rows) [] = repeat 0 n.
Proof.
  intros P Hi Ht Hn.
  destruct (Nat.le_gt_cases 2 (length rows)) as [Hm|Hm].
  2:{ exfalso. destruct rows as [|x [|y r]]; cbn in Hi, Hm; try lia. destruct i as [|i]; [|lia].
      change (nth 0 (deriv1 [x]) []) with [0] in Ht. assert (Z : vnorm [0] = 0) by (apply vnorm_eq0; reflexivity).
      rewrite Z in Ht. lra. }
  assert (P1 : plane_rows n [] u v (slope (length rows) a) (slope (length rows) b) (deriv1 rows)) by (eapply gradient_plane; eassumption).
  assert (P2 := gradient_plane n [] u v _ _ (deriv1 rows) ltac:(rewrite deriv1_length; assumption) P1).
  change (gradient (deriv1 rows)) with (deriv2 rows) in P2.
  assert (P3 := gradient_plane n [] u v _ _ (deriv2 rows) ltac:(rewrite deriv2_length; assumption) P2).
  change (gradient (deriv2 rows)) with (deriv3 rows) in P3.
  assert (S1 : in_span u v (nth i (deriv1 rows) [])) by (apply (plane_in_span n u v _ _ _ i P1); rewrite deriv1_length; assumption).
  assert (S2 : in_span u v (nth i (deriv2 rows) [])) by (apply (plane_in_span n u v _ _ _ i P2); rewrite deriv2_length; assumption).
  assert (S3 : in_span u v (nth i (deriv3 rows) [])) by (apply (plane_in_span n u v _ _ _ i P3); rewrite deriv3_length; assumption).
  assert (L1 : length (nth i (deriv1 rows) []) = n) by (destruct P1 as (D & _); apply dims_nth; [assumption|rewrite deriv1_length; assumption]).
  assert (L2 : length (nth i (deriv2 rows) []) = n) by (destruct P2 as (D & _); apply dims_nth; [assumption|rewrite deriv2_length; assumption]).
  assert (L3 : length (nth i (deriv3 rows) []) = n) by (destruct P3 as (D & _); apply dims_nth; [assumption|rewrite deriv3_length; assumption]).
  rewrite normal_nth in Hn by assumption. rewrite binormal_nth by assumption. cbv zeta.
  set (t := nth i (deriv1 rows) []) in *. set (s := nth i (deriv2 rows) []) in *. set (d := nth i (deriv3 rows) []) in *.
  assert (Le1 : length (unit_row t) = n) by (rewrite unit_row_length; assumption).
  assert (Lr : length (reject s (unit_row t)) = n) by (rewrite reject_length; congruence).
  assert (N1 : vnorm (unit_row t) = 1) by (apply unit_row_norm; assumption).
  assert (SE1 : in_span u v (unit_row t)) by (rewrite unit_row_scale; apply in_span_scale; assumption).
  apply (span2_proj n u v).
  - assumption.
  - rewrite unit_row_length. assumption.
  - assumption.
  - assumption.
  - rewrite unit_row_scale. apply in_span_scale. unfold reject. apply in_span_sub; [rewrite vscale_length; congruence|assumption|].
    apply in_span_scale. assumption.
  - assumption.
  - apply vdot_unit. assumption.
  - apply vdot_unit, unit_row_norm. assumption.
  - rewrite vdot_comm, vdot_unit_row, reject_dot by (congruence || assumption). lra.
Qed.

Lemma torsion_nth rows i : (i < length rows)%nat ->
  nth i (torsion_rows rows) 0 =
    vdot (nth i (gradient (frenet2_rows rows)) []) (nth i (frenet3_rows rows) []) / vnorm (nth i (deriv1 rows) []).
Proof.
  intros H. unfold torsion_rows.
  rewrite (nth_map2_in _ _ _ _ ([], []) []) by (rewrite ?combine_length, ?gradient_length, ?frenet2_length, ?frenet3_length, ?deriv1_length, ?Nat.min_id; assumption).
  rewrite combine_nth by (rewrite gradient_length, frenet2_length, frenet3_length; reflexivity). reflexivity.
Qed.

Lemma torsion_plane n p u v a b rows i : plane_rows n p u v a b rows -> (i < length rows)%nat ->
  / 100000000 < vnorm (nth i (deriv1 rows) []) -> / 100000000 < vnorm (nth i (normal_rows rows) []) ->
  nth i (torsion_rows rows) 0 = 0.
Proof.
  intros P Hi Ht Hn. rewrite torsion_nth by assumption. rewrite frenet3_nth.
  rewrite (binormal_plane n p u v a b rows i P Hi Ht Hn).
  rewrite unit_row_scale, vdot_scale_r, vdot_zero_r. unfold Rdiv. ring.
Qed.

(** ** Curvature in space *)

Lemma curvature_space_nth rows i : (i < length rows)%nat ->
  nth i (curvature_space rows) 0 = vnorm (nth i (gradient (frenet1_rows rows)) []) / vnorm (nth i (deriv1 rows) []).
Proof.
  intros H. unfold curvature_space.
  rewrite (nth_map2_in _ _ _ _ [] []) by (rewrite ?gradient_length, ?frenet1_length, ?deriv1_length; assumption). reflexivity.
Qed.
Lemma curvature_space_length (rows : list (list R)) : length (curvature_space rows) = length rows.
Proof. unfold curvature_space. rewrite map2_length, gradient_length, frenet1_length, deriv1_length. apply Nat.min_id. Qed.

(** Straight lines whose numerical tangents all point the same way. *)
Lemma curvature_line n p u a rows : (2 <= length rows)%nat -> plane_rows n p u (repeat 0 n) a (fun _ => 0) rows ->
  vnorm u = 1 -> (forall i, (i < length rows)%nat -> / 100000000 < slope (length rows) a i) ->
  forall i, (i < length rows)%nat -> nth i (curvature_space rows) 0 = 0 /\ nth i (frenet1_rows rows) [] = u
    /\ vnorm (nth i (deriv1 rows) []) = slope (length rows) a i.
Proof.
  intros Hm P Nu HS.
  assert (P1 := gradient_plane n p u _ a _ rows Hm P). change (gradient rows) with (deriv1 rows) in P1.
  assert (Lu : length u = n) by (destruct P; tauto).
  assert (DT : forall i, (i < length rows)%nat -> nth i (deriv1 rows) [] = vscale u (slope (length rows) a i)).
  { intros i Hi. destruct P1 as (D1 & _ & _ & H). apply vec_ext.
    - rewrite vscale_length, Lu. apply dims_nth; [assumption|rewrite deriv1_length; assumption].
    - intros j. rewrite nth_vscale. specialize (H i j ltac:(rewrite deriv1_length; assumption)). unfold coord in H. rewrite H.
      rewrite nth_zeros. destruct j; cbn; lra. }
  assert (NT : forall i, (i < length rows)%nat -> vnorm (nth i (deriv1 rows) []) = slope (length rows) a i).
  { intros i Hi. rewrite DT, vnorm_scale, Nu by assumption. specialize (HS i Hi). rewrite Rabs_right by lra. lra. }
  assert (E1 : forall i, (i < length rows)%nat -> nth i (frenet1_rows rows) [] = u).
  { intros i Hi. rewrite frenet1_nth, unit_row_scale, frenet_norm_far by (rewrite NT by assumption; auto).
    rewrite NT, DT by assumption. specialize (HS i Hi). apply vec_ext; [rewrite !vscale_length; reflexivity|].
    intros j. rewrite !nth_vscale. field. lra. }
  intros i Hi. split; [|auto]. rewrite curvature_space_nth by assumption.
  assert (DE : dims n (frenet1_rows rows)).
  { intros q Hq. destruct (In_nth _ _ [] Hq) as (k & Hk & <-). rewrite frenet1_length in Hk. rewrite E1 by assumption. assumption. }
  assert (Z : nth i (gradient (frenet1_rows rows)) [] = repeat 0 n).
  { destruct (gradient_nth n (frenet1_rows rows) i DE) as (L & C); [rewrite frenet1_length; assumption..|].
    apply vec_ext; [rewrite repeat_length; assumption|]. intros j. rewrite nth_zeros, C.
    rewrite (slope_ext _ _ (fun _ => nth j u 0)); [apply slope_const|rewrite frenet1_length; assumption|rewrite frenet1_length; assumption|].
    intros k Hk. rewrite frenet1_length in Hk. unfold coord. rewrite E1 by assumption. reflexivity. }
  rewrite Z. assert (Q : vnorm (repeat 0 n) = 0) by (apply vnorm_eq0; rewrite repeat_length; reflexivity).
  rewrite Q. unfold Rdiv. ring.
Qed.

(** ** Indexing *)

Lemma prop_nonempty {T} {NT : Num T} {ST : NumSqrt T} junk (c : curve T) q : c_bool c = true ->
  curve_prop junk c q =
    match q with
    | PT => Ok (AVec (c_tval junk c))
    | PCumarclen => Ok (AVec (c_cumarclen junk c))
    | PFirst => Ok (AMat (deriv1 (c_rows c)))
    | PSecond => Ok (AMat (deriv2 (c_rows c)))
    | PThird => Ok (AMat (deriv3 (c_rows c)))
    | PTangent => Ok (AMat (deriv1 (c_rows c)))
    | PNormal => Ok (AMat (normal_rows (c_rows c)))
    | PBinormal => Ok (AMat (binormal_rows (c_rows c)))
    | PSpeed => Ok (AVec (speed_rows (c_rows c)))
    | PFrenet1 => Ok (AMat (frenet1_rows (c_rows c)))
    | PFrenet2 => Ok (AMat (frenet2_rows (c_rows c)))
    | PFrenet3 => Ok (AMat (frenet3_rows (c_rows c)))
    | PCurvature => if Nat.eqb (c_ndim c) 2 then rmap AVec (curvature_plane (c_rows c)) else Ok (AVec (curvature_space (c_rows c)))
    | PTorsion => Ok (AVec (torsion_rows (c_rows c)))
    end.
Proof. intros B. unfold curve_prop. rewrite B. reflexivity. Qed.
