(** Proofs about Warn.v over the reals: when the warnings are issued. *)
From Coq Require Import ZArith String List Bool Arith Lia Reals Lra Psatz Permutation.
From Verif Require Import Num Py Numeric Curve Vec Geom DiffGeom Intersect Registry Interp Angle Warn Spec GeomSpec.
From Verif Require Import ListFacts ArrayProofs VecFacts CurveProofs CurveProofs2 CurveProofs3 GeomProofs GeomProofs3 DiffGeomProofs DiffGeomProofs2 DiffGeomProofs3 DiffGeomProofs4 DiffGeomProofs5.
From Verif Require Import InterpProofs InterpProofs2 IntersectProofs IntersectProofs3 WarnProofs.
Import ListNotations.
Local Open Scope list_scope.
Local Open Scope R_scope.

(** ** Counting *)

Lemma total_perm {T} {NT : Num T} {ST : NumSqrt T} (c : curve T) s s' : Permutation s s' -> total c s = total c s'.
Proof.
  unfold total. induction 1; cbn [map list_sum fold_right]; try reflexivity;
    repeat (change (fold_right Nat.add 0%nat ?x) with (list_sum x)); lia.
Qed.
Lemma total_zero {T} {NT : Num T} {ST : NumSqrt T} (c : curve T) s : total c s = 0%nat <-> forall p, In p s -> count c p = 0%nat.
Proof.
  unfold total. induction s as [|q s IH]; [split; [intros _ p []|reflexivity]|].
  cbn [map list_sum fold_right]. change (fold_right Nat.add 0%nat (map (count c) s)) with (list_sum (map (count c) s)).
  split.
  - intros H p [<-|Hp]; [lia|]. apply IH; [lia|assumption].
  - intros H. assert (A := H q (or_introl eq_refl)). assert (B : list_sum (map (count c) s) = 0%nat) by (apply IH; intros p Hp; apply H; right; assumption). lia.
Qed.

(** ** Vanishing vectors *)

Lemma vanishing_iff (rows : list (list R)) :
  vanishing rows = 1%nat <-> exists v, In v rows /\ vnorm v <= / 100000000.
Proof.
  unfold vanishing. destruct (existsb _ rows) eqn:E.
  - split; [intros _|reflexivity]. apply existsb_exists in E as (v & Hv & E). exists v. split; [assumption|].
    apply DiffGeomProofs2.isclose_zero in E. rewrite Rabs_right in E by (pose proof (vnorm_nonneg v); lra). assumption.
  - split; [discriminate|]. intros (v & Hv & H). exfalso.
    assert (K : existsb (fun v => isclose (vnorm v) n0) rows = true).
    { apply existsb_exists. exists v. split; [assumption|]. apply DiffGeomProofs2.isclose_zero.
      rewrite Rabs_right by (pose proof (vnorm_nonneg v); lra). assumption. }
    congruence.
Qed.
Lemma vanishing_cases {T} {NT : Num T} {ST : NumSqrt T} (rows : list (list T)) : vanishing rows = 0%nat \/ vanishing rows = 1%nat.
Proof. unfold vanishing. destruct (existsb _ rows); auto. Qed.

Lemma scale_span (u v : list R) x : length u = length v -> vnorm u = 1 -> v = vscale u x -> vscale u (vdot v u) = v.
Proof.
  intros L N ->. rewrite vdot_scale_l, (vdot_unit u N). apply vec_ext; [rewrite !vscale_length; reflexivity|].
  intros i. rewrite !nth_vscale. ring.
Qed.

Lemma normal_line n p u a rows i : (2 <= length rows)%nat -> plane_rows n p u (repeat 0 n) a (fun _ => 0) rows -> (i < length rows)%nat ->
  / 100000000 < vnorm (nth i (deriv1 rows) []) -> nth i (normal_rows rows) [] = repeat 0 n.
Proof.
  intros Hm P Hi Ht.
  assert (P1 := gradient_plane n p u _ a _ rows Hm P). change (gradient rows) with (deriv1 rows) in P1.
  assert (P2 := gradient_plane n [] u _ _ _ (deriv1 rows) ltac:(rewrite deriv1_length; assumption) P1).
  change (gradient (deriv1 rows)) with (deriv2 rows) in P2.
  assert (Lu : length u = n) by (destruct P; tauto).
  assert (D1 : exists x, nth i (deriv1 rows) [] = vscale u x).
  { eexists. destruct P1 as (D & _ & _ & H). apply vec_ext.
    - rewrite vscale_length, Lu. apply dims_nth; [assumption|rewrite deriv1_length; assumption].
    - intros j. rewrite nth_vscale. specialize (H i j ltac:(rewrite deriv1_length; assumption)). unfold coord in H. rewrite H.
      rewrite nth_zeros. instantiate (1 := slope (length rows) a i). destruct j; cbn; ring. }
  assert (D2 : exists y, nth i (deriv2 rows) [] = vscale u y).
  { eexists. destruct P2 as (D & _ & _ & H). apply vec_ext.
    - rewrite vscale_length, Lu. apply dims_nth; [assumption|rewrite deriv2_length; assumption].
    - intros j. rewrite nth_vscale. specialize (H i j ltac:(rewrite deriv2_length; assumption)). unfold coord in H. rewrite H.
      rewrite nth_zeros. instantiate (1 := slope (length (deriv1 rows)) (slope (length rows) a) i). destruct j; cbn; ring. }
  destruct D1 as (x & E1). destruct D2 as (y & E2).
  rewrite normal_nth by assumption. rewrite E2.
  pose proof (unit_row_norm _ Ht) as N1. set (t := nth i (deriv1 rows) []) in *.
  assert (Lt : length t = n) by (rewrite E1, vscale_length; assumption).
  assert (Le : length (unit_row t) = n) by (rewrite unit_row_length; assumption).
  assert (X : x <> 0).
  { intros ->. rewrite E1, vnorm_scale, Rabs_R0 in Ht. lra. }
  assert (Z : exists z, vscale u y = vscale (unit_row t) z).
  { rewrite unit_row_scale. assert (frenet_norm t = vnorm t) as -> by (apply frenet_norm_far; assumption).
    exists (y / x * vnorm t). apply vec_ext; [rewrite !vscale_length; congruence|]. intros j. rewrite !nth_vscale.
    assert (nth j t 0 = nth j u 0 * x) as -> by (rewrite E1, nth_vscale; ring). assert (vnorm t <> 0) by lra. field. auto. }
  destruct Z as (z & Ez). unfold reject. rewrite (scale_span (unit_row t) (vscale u y) z) by (assumption || (rewrite vscale_length; congruence)).
  apply vec_ext; [rewrite vsub_length, vscale_length, repeat_length; [assumption|reflexivity]|].
  intros j. rewrite nth_vsub, nth_zeros by reflexivity. rnum. ring.
Qed.

(** ** Segments *)

Lemma vsub_self_zero (v : list R) : vsub v v = repeat 0 (length v).
Proof. apply vec_ext; [rewrite vsub_length, repeat_length; reflexivity|]. intros j. rewrite nth_vsub, nth_zeros by reflexivity. ring. Qed.

Lemma residual1_zero (a b : list R) : (exists t, b = vscale a t) -> residual1 a b = false.
Proof.
  intros (t & ->). unfold residual1. destruct (Nat.ltb 1 (length a)); [|reflexivity]. cbn [andb].
  destruct (neqb (vdot a a) n0) eqn:E; [reflexivity|]. cbn [negb andb].
  assert (N : vdot a a <> 0) by (cbn in E; apply Reqb_false in E; auto).
  assert (L : lstsq1 a (vscale a t) = t).
  { unfold lstsq1. rewrite E. rewrite vdot_scale_r. rnum. field. assumption. }
  rewrite L, vsub_self_zero, vdot_zero_r. apply Rltb_false. pose proof f_eps_R as F. rewrite F. lra.
Qed.
Lemma residual1_dir (a b : list R) : vdot a a = 0 -> residual1 a b = false.
Proof.
  intros E. unfold residual1. assert (Q : neqb (vdot a a) n0 = true) by (rewrite E; apply Reqb_iff; reflexivity).
  rewrite Q. cbn [negb]. rewrite andb_false_r. reflexivity.
Qed.

(** The squared length of the residual is the least squared distance. *)
Lemma lstsq1_least (a b : list R) t : length a = length b -> vdot a a <> 0 ->
  vdot (vsub b (vscale a (lstsq1 a b))) (vsub b (vscale a (lstsq1 a b))) <= vdot (vsub b (vscale a t)) (vsub b (vscale a t)).
Proof.
  intros L N. assert (K : forall t, vdot (vsub b (vscale a t)) (vsub b (vscale a t)) = vdot b b - 2 * t * vdot a b + t * t * vdot a a).
  { intros s. rewrite vdot_sub_l by (rewrite vscale_length; congruence). rewrite !(vdot_comm _ (vsub _ _)).
    rewrite !vdot_sub_l by (rewrite vscale_length; congruence). rewrite !vdot_scale_l, !vdot_scale_r, (vdot_comm b a). ring. }
  rewrite !K. unfold lstsq1. assert (E : neqb (vdot a a) n0 = false) by (apply Reqb_false; assumption). rewrite E. rnum.
  assert (P : 0 < vdot a a) by (pose proof (vdot_nonneg a); lra).
  assert (Q : vdot b b - 2 * t * vdot a b + t * t * vdot a a -
    (vdot b b - 2 * (vdot a b / vdot a a) * vdot a b + vdot a b / vdot a a * (vdot a b / vdot a a) * vdot a a)
    = vdot a a * ((t - vdot a b / vdot a a) * (t - vdot a b / vdot a a))) by (field; assumption).
  assert (0 <= vdot a a * ((t - vdot a b / vdot a a) * (t - vdot a b / vdot a a))).
  { apply Rmult_le_pos; [lra|]. apply Rle_0_sqr. }
  lra.
Qed.

Lemma residual1_iff n (s : segment R) p : seg_wf n s -> length p = n -> sg_p1 s <> sg_p2 s ->
  (residual1 (sg_dir s) (vsub p (sg_p1 s)) = true <-> forall t, f_eps < sq_gap (sg_point s t) p).
Proof.
  intros H Lp Ne. assert (L1 : length (sg_p1 s) = n) by (destruct H; assumption). pose proof (sg_dir_length n s H) as Ld.
  assert (N := dir_nonzero n s H Ne).
  assert (G : forall t, sq_gap (sg_point s t) p = vdot (vsub (vsub p (sg_p1 s)) (vscale (sg_dir s) t)) (vsub (vsub p (sg_p1 s)) (vscale (sg_dir s) t))).
  { intros t. rewrite sq_gap_vdot. assert (vsub p (sg_point s t) = vsub (vsub p (sg_p1 s)) (vscale (sg_dir s) t)) as ->; [|reflexivity].
    assert (LA : length (vsub p (sg_p1 s)) = n) by (rewrite vsub_length; congruence).
    assert (LB : length (vscale (sg_dir s) t) = n) by (rewrite vscale_length; assumption).
    assert (LC : length (sg_point s t) = n) by (apply sg_point_length; assumption).
    apply vec_ext; [rewrite !vsub_length; congruence|].
    intros j. rewrite (nth_vsub p (sg_point s t)), (nth_vsub (vsub p (sg_p1 s))), (nth_vsub p (sg_p1 s)) by congruence.
    rewrite nth_vscale, (nth_sg_point n), (nth_sg_dir n) by assumption. ring. }
  split.
  - intros E t. unfold residual1 in E. rewrite !andb_true_iff in E. destruct E as [_ E]. apply Rltb_iff in E.
    rewrite G. eapply Rlt_le_trans; [exact E|]. apply lstsq1_least; [rewrite vsub_length; congruence|assumption].
  - intros E. unfold residual1. rewrite !andb_true_iff. split; [split|].
    + apply Nat.ltb_lt. destruct (Nat.le_gt_cases 2 (length (sg_dir s))) as [K|K]; [lia|exfalso].
      destruct (sg_dir s) as [|x [|]] eqn:D; [apply N; reflexivity| |cbn in K; lia]. cbn in Ld.
      assert (Nx : x <> 0) by (intros ->; apply N; cbn; ring).
      specialize (E ((nth 0 p 0 - nth 0 (sg_p1 s) 0) / x)). rewrite G in E.
      destruct p as [|q [|]]; try (cbn in Lp; lia). destruct (sg_p1 s) as [|r [|]]; try (cbn in L1; lia).
      pose proof f_eps_R as F. rewrite F in E. cbn in E.
      replace ((q - r - x * ((q - r) / x)) * (q - r - x * ((q - r) / x)) + 0) with 0 in E by (field; assumption). lra.
    + apply negb_true_iff, Reqb_false. assumption.
    + apply Rltb_iff. rewrite <- G. apply E.
Qed.

Lemma residual1_collinear n (s : segment R) p : seg_wf n s -> length p = n ->
  (p = sg_p1 s \/ p = sg_p2 s \/ sg_p1 s = sg_p2 s \/ on_line_through_origin n [sg_p1 s; sg_p2 s; p]) ->
  residual1 (sg_dir s) (vsub p (sg_p1 s)) = false.
Proof.
  intros H Lp C. assert (L1 : length (sg_p1 s) = n) by (destruct H; assumption). assert (L2 : length (sg_p2 s) = n) by (destruct H; assumption).
  pose proof (sg_dir_length n s H) as Ld.
  destruct C as [-> | [-> | [C | (u & Lu & C)]]].
  - apply residual1_zero. exists 0. apply vec_ext; [rewrite vsub_length, vscale_length; congruence|]. intros j.
    rewrite nth_vsub, nth_vscale by congruence. ring.
  - apply residual1_zero. exists 1. apply vec_ext; [rewrite vsub_length, vscale_length; congruence|]. intros j.
    rewrite nth_vsub, nth_vscale, (nth_sg_dir n) by congruence. ring.
  - apply residual1_dir. assert (sg_dir s = repeat 0 n) as ->; [|apply vdot_zero_r].
    apply vec_ext; [rewrite repeat_length; assumption|]. intros j. rewrite (nth_sg_dir n), nth_zeros, C by assumption. ring.
  - destruct (C (sg_p1 s)) as (t1 & E1); [cbn; auto|]. destruct (C (sg_p2 s)) as (t2 & E2); [cbn; auto|]. destruct (C p) as (t & E); [cbn; auto|].
    destruct (Req_dec t1 t2) as [->|Nt].
    + apply residual1_dir. assert (sg_dir s = repeat 0 n) as ->; [|apply vdot_zero_r].
      apply vec_ext; [rewrite repeat_length; assumption|]. intros j. rewrite (nth_sg_dir n), nth_zeros, E1, E2 by assumption. ring.
    + apply residual1_zero. exists ((t - t1) / (t2 - t1)). apply vec_ext; [rewrite vsub_length, vscale_length; congruence|]. intros j.
      rewrite nth_vsub, nth_vscale, (nth_sg_dir n), E, E1, E2 by congruence. field. lra.
Qed.

(** ** Intersection *)

Lemma exact_result_w_point feps (s1 s2 : segment R) x y : sg_point s1 x = sg_point s2 y -> fst (exact_result_w feps s1 s2 x y) = [].
Proof. intros E. unfold exact_result_w. rewrite <- E, pt_eqb_refl. destruct (_ && _); reflexivity. Qed.

Lemma exact_segments_w_silent n feps (s1 s2 : segment R) : 0 <= feps -> seg_wf n s1 -> seg_wf n s2 -> fst (exact_segments_w feps s1 s2) = [].
Proof.
  intros Pe H1 H2. unfold exact_segments_w.
  destruct (sg_collinear s1 s2); [destruct (overlap_segments s1 s2 false); reflexivity|].
  destruct (parallel_segments s1 s2 f_eps) eqn:EP; [reflexivity|].
  assert (NZ : area_sq (sg_dir s1) (sg_dir s2) <> 0).
  { rewrite <- area_dir. intros Z. assert (K : parallel_segments s1 s2 f_eps = true); [|congruence].
    apply (parallel_iff n s1 s2 _ H1 H2). rewrite Z. pose proof f_eps_R as F. rewrite F. lra. }
  destruct (coplanar_points_iff n [sg_p1 s1; sg_p2 s1; sg_p1 s2; sg_p2 s2]) as (b & Eb & Ib).
  { cbn. lia. }
  { destruct H1, H2. apply dims4; assumption. }
  unfold sg_coplanar. rewrite Eb. unfold wlift, wbind. cbn [fst snd]. destruct b; cbn [negb]; [|reflexivity].
  destruct (sg_singular s1 || sg_singular s2); [reflexivity|]. unfold wwarn. cbn [app fst].
  destruct (plane_solution n s1 s2 H1 H2 NZ (proj1 Ib eq_refl)) as (x & y & E).
  destruct (Nat.eqb (sg_ndim s1) 2) eqn:N2.
  - apply Nat.eqb_eq in N2. unfold sg_ndim in N2. assert (n = 2%nat) by (destruct H1; congruence). subst n.
    rewrite (solve2_solution s1 s2 x y H1 H2 NZ E). apply exact_result_w_point. assumption.
  - rewrite (lstsq2_solution n s1 s2 x y H1 H2 NZ E). cbn [fst snd]. rewrite exact_result_w_point by assumption. rewrite app_nil_r.
    assert (residual2 feps (sg_dir s1) (vopp (sg_dir s2)) (vsub (sg_p1 s2) (sg_p1 s1)) x y = false) as ->; [|reflexivity].
    unfold residual2. apply andb_false_iff. right. apply Rltb_false.
    assert (Z : vsub (vsub (sg_p1 s2) (sg_p1 s1)) (vadd (vscale (sg_dir s1) x) (vscale (vopp (sg_dir s2)) y)) = repeat 0 n).
    { destruct (H1) as [A1 A2]. destruct (H2) as [B1 B2].
      pose proof (sg_dir_length n s1 H1) as L1. pose proof (sg_dir_length n s2 H2) as L2.
      assert (Lo : length (vopp (sg_dir s2)) = n) by (unfold vopp; rewrite map_length; assumption).
      assert (LA : length (vadd (vscale (sg_dir s1) x) (vscale (vopp (sg_dir s2)) y)) = n) by (rewrite vadd_length; rewrite !vscale_length; congruence).
      assert (LS : length (vsub (sg_p1 s2) (sg_p1 s1)) = n) by (rewrite vsub_length; congruence).
      apply vec_ext; [rewrite vsub_length, repeat_length; congruence|]. intros j.
      rewrite nth_zeros, nth_vsub by congruence. rewrite nth_vsub by congruence. rewrite nth_vadd by (rewrite !vscale_length; congruence).
      rewrite !nth_vscale, nth_vopp. pose proof (f_equal (fun l => nth j l 0) E) as A. cbn beta in A.
      rewrite !(nth_sg_point n) in A by assumption. rewrite !(nth_sg_dir n) by assumption. lra. }
    rewrite Z, vdot_zero_r. rnum. assumption.
Qed.

Lemma wbind_silent {A B} (m : W A) (f : A -> W B) : fst m = [] -> (forall a, snd m = Ok a -> fst (f a) = []) -> fst (wbind m f) = [].
Proof. unfold wbind. destruct m as [ws [a|e]]; cbn [fst snd]; intros -> H; [|reflexivity]. apply H. reflexivity. Qed.
Lemma wseq_silent {A} (l : list (W A)) : (forall m, In m l -> fst m = []) -> fst (wseq l) = [].
Proof.
  induction l as [|m l IH]; intros H; [reflexivity|]. cbn [wseq]. apply wbind_silent; [apply H; left; reflexivity|]. intros a _.
  apply wbind_silent; [apply IH; intros k Hk; apply H; right; assumption|]. reflexivity.
Qed.

Lemma exact_curves_w_silent feps (c1 c2 : curve R) same : 0 <= feps -> wf c1 -> wf c2 -> c_ndim c1 = c_ndim c2 ->
  fst (exact_curves_w feps c1 c2 same) = [].
Proof.
  intros Pe W1 W2 En. unfold exact_curves_w. set (prs := bbox_pairs c1 c2 same).
  assert (B : forall i j, In (i, j) prs -> (i < c_size c1 - 1)%nat /\ (j < c_size c2 - 1)%nat).
  { intros i j H. unfold prs, bbox_pairs in H. destruct (_ || _); [destruct H|]. apply indices_In in H. tauto. }
  destruct prs as [|p0 prs'] eqn:E; [reflexivity|]. rewrite <- E in *. clear E.
  rewrite !take_segments_ok.
  2,3: apply Forall_forall; intros k Hk; apply in_map_iff in Hk; destruct Hk as ((i & j) & <- & Hk); apply B in Hk; cbn; tauto.
  apply wbind_silent; [reflexivity|]. intros l1 E1. injection E1 as <-.
  apply wbind_silent; [reflexivity|]. intros l2 E2. injection E2 as <-.
  apply wbind_silent; [|reflexivity]. apply wseq_silent. intros m Hm.
  rewrite !map_map, IntersectProofs3.map2_map in Hm. apply in_map_iff in Hm as ((i & j) & <- & Hij). destruct (B i j Hij) as [Bi Bj].
  apply wbind_silent; [|reflexivity]. cbn [sr_seg fst snd].
  apply (exact_segments_w_silent (c_ndim c1)); [assumption| |].
  - apply seg_at_wf; [destruct W1 as (_ & D & _); exact D|]. unfold c_size in Bi. lia.
  - rewrite En. apply seg_at_wf; [destruct W2 as (_ & D & _); exact D|]. unfold c_size in Bj. lia.
Qed.

(** ** Interpolation grids *)

Lemma get_grid_inv junk few (c : curve R) s g : get_grid junk few c s = Ok g -> g <> [] /\ well_spaced g.
Proof.
  unfold get_grid. destruct (match s with SGrid _ => _ | _ => _ end) as [d|e]; [|discriminate]. cbn [rbind].
  destruct d; try discriminate. intros H. apply check_grid_inv in H as (-> & H). assumption.
Qed.

Lemma get_grid_w_ok junk few (c : curve R) s g : wf c -> c_rows c <> [] -> get_grid junk few c s = Ok g ->
  get_grid_w junk few c s =
    (when (Rltb (nth 0 (c_tval junk c) 0) (nth 0 g 0) || Rltb (nth (length g - 1) g 0) (nth (c_size c - 1) (c_tval junk c) 0)) WInterp, Ok g).
Proof.
  intros W N G. destruct (get_grid_inv _ _ _ _ _ G) as [Ng Wg]. unfold get_grid_w. rewrite G.
  destruct (np_minmax_nondecreasing g Ng) as [-> ->]; [intros i Hi; specialize (Wg i Hi); lra|].
  assert (L := tval_length junk c W N).
  assert (Nt : c_tval junk c <> []) by (intros E; rewrite E in L; unfold c_size in L; destruct (c_rows c); [contradiction|discriminate]).
  rewrite (np_get_first _ 0 Nt), (np_get_last _ 0 Nt), L. cbn [rbind]. unfold wwarn, wret. cbn [fst snd]. rewrite app_nil_r. reflexivity.
Qed.
Lemma get_grid_w_raise {T} {NT : Num T} {ST : NumSqrt T} {RT : NumRound T} junk few (c : curve T) s e :
  get_grid junk few c s = Raise e -> get_grid_w junk few c s = ([], Raise e).
Proof. intros G. unfold get_grid_w. rewrite G. reflexivity. Qed.
