(** Segments: parametrisation, collinearity, coplanarity, parallelism. *)
From Coq Require Import ZArith List Bool Arith Lia Reals Lra Psatz Permutation.
From Verif Require Import Num Py Numeric Curve Vec Geom Spec GeomSpec.
From Verif Require Import ListFacts CurveProofs2 CurveProofs3 VecFacts RankProofs.
Import ListNotations.
Local Open Scope R_scope.

(** ** The specification's notions and the model's *)

Lemma inner_vdot (x y : list R) : inner x y = vdot x y.
Proof. revert y. induction x as [|a x IH]; intros [|b y]; try reflexivity. cbn [inner]. rewrite IH. reflexivity. Qed.
Lemma minus_vsub (x y : list R) : minus x y = vsub x y.
Proof. revert y. induction x as [|a x IH]; intros [|b y]; try reflexivity. cbn [minus]. rewrite IH. reflexivity. Qed.
Lemma norm_vnorm (x : list R) : norm x = vnorm x.
Proof. unfold norm, vnorm. rewrite inner_vdot. reflexivity. Qed.
Lemma dist_vdist (p q : list R) : length p = length q -> dist p q = vdist p q.
Proof. intros H. rewrite vdist_sym by assumption. unfold dist, vdist. rewrite norm_vnorm, minus_vsub. reflexivity. Qed.
Lemma dist_sq (p q : list R) : dist p q * dist p q = inner (minus q p) (minus q p).
Proof. unfold dist. rewrite norm_vnorm, vnorm_sq, inner_vdot. reflexivity. Qed.

Lemma area_sq_wedge (u v : list R) : length u = length v -> area_sq u v = wedge_sq u v.
Proof.
  revert v. induction u as [|a u IH]; intros [|b v] H; try discriminate; [reflexivity|].
  cbn [area_sq wedge_sq]. rewrite IH by (cbn in H; lia). f_equal. cbn [length] in H.
  assert (H' : length u = length v) by lia. clear IH H. revert v H'.
  induction u as [|c u IH]; intros [|d v] H; try discriminate; [reflexivity|].
  cbn [minors_with]. rewrite IH by (cbn in H; lia). unfold vscale, vsub. cbn [map map2].
  rewrite vdot_cons. rnum. ring.
Qed.

(** A segment of dimension [n]. *)
Definition seg_wf (n : nat) (s : segment R) : Prop := length (sg_p1 s) = n /\ length (sg_p2 s) = n.

Lemma sg_dir_length n s : seg_wf n s -> length (sg_dir s) = n.
Proof. intros [H1 H2]. unfold sg_dir. rewrite vsub_length; congruence. Qed.
Lemma sg_point_length n s t : seg_wf n s -> length (sg_point s t) = n.
Proof.
  intros H. pose proof (sg_dir_length n s H). destruct H as [H1 H2]. unfold sg_point.
  rewrite vadd_length; rewrite ?vscale_length; congruence.
Qed.
Lemma nth_sg_dir n s i : seg_wf n s -> nth i (sg_dir s) 0 = nth i (sg_p2 s) 0 - nth i (sg_p1 s) 0.
Proof. intros [H1 H2]. unfold sg_dir. apply nth_vsub. congruence. Qed.
Lemma nth_sg_point n s t i : seg_wf n s ->
  nth i (sg_point s t) 0 = nth i (sg_p1 s) 0 + t * (nth i (sg_p2 s) 0 - nth i (sg_p1 s) 0).
Proof.
  intros H. pose proof (sg_dir_length n s H). pose proof (nth_sg_dir n s i H) as D. destruct H as [H1 H2].
  unfold sg_point. rewrite nth_vadd by (rewrite vscale_length; congruence). rewrite nth_vscale, D. ring.
Qed.
Lemma sg_point_affine n s t : seg_wf n s -> affine_at (sg_p1 s) (sg_p2 s) t (sg_point s t).
Proof.
  intros H. split; [rewrite (sg_point_length n) by assumption; destruct H; congruence|].
  intros i. apply (nth_sg_point n). assumption.
Qed.
Lemma affine_unique p q t x y : affine_at p q t x -> affine_at p q t y -> x = y.
Proof. intros [H1 H2] [H3 H4]. apply vec_ext; [congruence|]. intros i. rewrite H2, H4. reflexivity. Qed.
Lemma affine_sg_point n s t x : seg_wf n s -> affine_at (sg_p1 s) (sg_p2 s) t x <-> x = sg_point s t.
Proof.
  intros H. pose proof (sg_point_affine n s t H) as P. split; [|intros ->; assumption].
  intros Hx. eapply affine_unique; eassumption.
Qed.

Lemma sg_point_0 n s : seg_wf n s -> sg_point s 0 = sg_p1 s.
Proof.
  intros H. symmetry. apply (affine_sg_point n); [assumption|]. split; [reflexivity|]. intros i. ring.
Qed.
Lemma sg_point_1 n s : seg_wf n s -> sg_point s 1 = sg_p2 s.
Proof.
  intros H. symmetry. apply (affine_sg_point n); [assumption|]. destruct H. split; [congruence|]. intros i. ring.
Qed.
Lemma sg_points_map (s : segment R) ts : sg_points s ts = map (sg_point s) ts.
Proof. unfold sg_points. rewrite map_map. reflexivity. Qed.

(** ** Unique points *)

Lemma unique_points_In (pts : list (list R)) p : In p (unique_points pts) <-> In p pts.
Proof.
  unfold unique_points.
  assert (Hp : Permutation (first_occurrences pts) (np_unique_index pts)) by apply sort_by_perm.
  assert (M : forall k, In k (np_unique_index pts) <-> In k (first_occurrences pts)).
  { intros k. split; apply Permutation_in; [apply Permutation_sym|]; assumption. }
  split; [apply pick_in|]. intros H.
  apply In_nth_error in H as (k & Hk).
  assert (exists m, In m (first_occurrences pts) /\ nth_error pts m = Some p) as (m & Hm & Hp').
  { clear Hp M. assert (k < length pts)%nat by (apply nth_error_Some; congruence).
    revert H Hk. induction k as [k IH] using lt_wf_ind. intros Hl Hk.
    destruct (existsb (fun j => row_eqb (nth j pts []) (nth k pts [])) (seq 0 k)) eqn:E.
    - apply existsb_exists in E as (j & Hj & Ej). apply in_seq in Hj. apply row_eqb_R in Ej.
      apply (IH j); [lia|lia|]. rewrite (nth_error_nth' _ []) by lia. rewrite Ej.
      rewrite (nth_error_nth _ _ _ Hk). reflexivity.
    - exists k. split; [|assumption]. apply first_occ_In. split; [assumption|]. intros j Hj.
      destruct (row_eqb (nth j pts []) (nth k pts [])) eqn:E'; [|reflexivity]. exfalso.
      assert (X : existsb (fun j => row_eqb (nth j pts []) (nth k pts [])) (seq 0 k) = true)
        by (apply existsb_exists; exists j; split; [apply in_seq; lia|assumption]). congruence. }
  unfold pick. apply in_flat_map. exists m. split; [apply M; assumption|]. rewrite Hp'. left. reflexivity.
Qed.

Lemma unique_points_NoDup (pts : list (list R)) : NoDup (unique_points pts).
Proof.
  unfold unique_points.
  assert (Hp : Permutation (first_occurrences pts) (np_unique_index pts)) by apply sort_by_perm.
  assert (ND : NoDup (np_unique_index pts)).
  { eapply Permutation_NoDup; [eassumption|]. apply sorted_lt_nodup, first_occ_sorted. }
  assert (F : forall k, In k (np_unique_index pts) -> In k (first_occurrences pts)).
  { intros k. apply Permutation_in, Permutation_sym; assumption. }
  clear Hp. induction (np_unique_index pts) as [|k ks IH]; [constructor|].
  apply NoDup_cons_iff in ND as [N1 N2]. unfold pick. cbn [flat_map].
  assert (IH' := IH N2 (fun k H => F k (or_intror H))).
  destruct (nth_error pts k) as [p|] eqn:E; [|exact IH'].
  cbn [app]. constructor; [|exact IH']. intros C. unfold pick in *. apply in_flat_map in C as (m & Hm & Cm).
  destruct (nth_error pts m) as [q|] eqn:Em; [|destruct Cm]. destruct Cm as [<-|[]].
  assert (k <> m) by (intros ->; contradiction).
  pose proof (proj1 (first_occ_In pts k) (F k (or_introl eq_refl))) as [K1 K2].
  pose proof (proj1 (first_occ_In pts m) (F m (or_intror Hm))) as [M1 M2].
  assert (nth k pts [] = nth m pts []) as Eq.
  { rewrite (nth_error_nth _ _ _ E), (nth_error_nth _ _ _ Em). reflexivity. }
  assert (row_eqb (nth k pts []) (nth m pts []) = true) as T1 by (apply row_eqb_R; assumption).
  assert (row_eqb (nth m pts []) (nth k pts []) = true) as T2 by (apply row_eqb_R; congruence).
  destruct (Nat.lt_trichotomy k m) as [L|[L|L]]; [|contradiction|].
  - rewrite (M2 k L) in T1. discriminate.
  - rewrite (K2 m L) in T2. discriminate.
Qed.

(** ** Collinearity *)

Lemma unique_lt3_iff (pts : list (list R)) :
  (length (unique_points pts) < 3)%nat <-> exists a b, forall p, In p pts -> p = a \/ p = b.
Proof.
  split.
  - intros H. destruct (unique_points pts) as [|a [|b [|c l]]] eqn:E; cbn in H; try lia.
    + exists [], []. intros p Hp. apply unique_points_In in Hp. rewrite E in Hp. destruct Hp.
    + exists a, a. intros p Hp. apply unique_points_In in Hp. rewrite E in Hp. destruct Hp as [<-|[]]; auto.
    + exists a, b. intros p Hp. apply unique_points_In in Hp. rewrite E in Hp. destruct Hp as [<-|[<-|[]]]; auto.
  - intros (a & b & H).
    assert (incl (unique_points pts) [a; b]) as I.
    { intros p Hp. apply (proj1 (unique_points_In _ _)) in Hp. destruct (H p Hp) as [->| ->]; cbn; auto. }
    apply NoDup_incl_length in I; [|apply unique_points_NoDup]. cbn in I. lia.
Qed.

Lemma vscale_iff (u x : list R) c : length x = length u ->
  (x = vscale u c <-> forall i, nth i x 0 = c * nth i u 0).
Proof.
  intros H. split.
  - intros -> i. rewrite nth_vscale. ring.
  - intros E. apply vec_ext; [rewrite vscale_length; assumption|]. intros i. rewrite nth_vscale, E. ring.
Qed.

Lemma collinear_points_iff n pts : dims n pts ->
  (collinear_points pts = true <->
   (exists a b, forall p, In p pts -> p = a \/ p = b) \/ on_line_through_origin n pts).
Proof.
  intros Hd. unfold collinear_points.
  assert (Hu : all_len n (unique_points pts)) by (intros p Hp; apply Hd, unique_points_In; assumption).
  assert (R1 : rank_le 1 (unique_points pts) = true <-> on_line_through_origin n pts).
  { rewrite (rank_le_1 n) by assumption. split; intros (u & Lu & H); exists u; (split; [assumption|]); intros r Hr.
    - destruct (H r) as (c & Hc); [apply unique_points_In; assumption|]. exists c.
      apply vscale_iff; [|assumption]. rewrite Lu. apply Hd. assumption.
    - apply (proj1 (unique_points_In _ _)) in Hr. destruct (H r Hr) as (c & Hc). exists c. apply vscale_iff; [|assumption].
      rewrite Lu. apply Hd. assumption. }
  destruct (Nat.ltb_spec (length (unique_points pts)) 3) as [L|L].
  - split; [|reflexivity]. intros _. left. apply unique_lt3_iff. assumption.
  - rewrite R1. split; [auto|]. intros [H|H]; [|assumption]. apply unique_lt3_iff in H. lia.
Qed.

Lemma two_points_line n pts a b : dims n pts -> (forall p, In p pts -> p = a \/ p = b) -> on_common_line n pts.
Proof.
  intros Hd H. destruct (in_dec (list_eq_dec Req_EM_T) a pts) as [Ha|Ha];
    destruct (in_dec (list_eq_dec Req_EM_T) b pts) as [Hb|Hb].
  - exists a, (vsub b a). pose proof (Hd a Ha). pose proof (Hd b Hb).
    split; [assumption|]. split; [rewrite vsub_length; congruence|].
    intros x Hx. destruct (H x Hx) as [->| ->].
    + exists 0. intros i. ring.
    + exists 1. intros i. rewrite nth_vsub by congruence. ring.
  - exists a, a. pose proof (Hd a Ha). split; [assumption|]. split; [assumption|].
    intros x Hx. exists 0. destruct (H x Hx) as [->| ->]; [intros i; ring|contradiction].
  - exists b, b. pose proof (Hd b Hb). split; [assumption|]. split; [assumption|].
    intros x Hx. exists 0. destruct (H x Hx) as [->| ->]; [contradiction|intros i; ring].
  - exists (repeat 0 n), (repeat 0 n). rewrite repeat_length. split; [reflexivity|]. split; [reflexivity|].
    intros x Hx. destruct (H x Hx) as [->| ->]; contradiction.
Qed.

Lemma origin_line_common n pts : on_line_through_origin n pts -> on_common_line n pts.
Proof.
  intros (u & Lu & H). exists (repeat 0 n), u. rewrite repeat_length. split; [reflexivity|]. split; [assumption|].
  intros x Hx. destruct (H x Hx) as (t & Ht). exists t. intros i. rewrite Ht, nth_zeros. ring.
Qed.

Lemma collinear_points_sound n pts : dims n pts -> collinear_points pts = true -> on_common_line n pts.
Proof.
  intros Hd H. apply (collinear_points_iff n) in H; [|assumption]. destruct H as [(a & b & H)|H].
  - eapply two_points_line; eassumption.
  - apply origin_line_common. assumption.
Qed.

(** Closeness of points. *)
Lemma allequal_near (p q : list R) : allequal DFloat DFloat p q = true <-> near p q.
Proof.
  unfold near. revert q. induction p as [|a p IH]; intros [|b q]; cbn [allequal]; split; intros H;
    try discriminate; try constructor; try (inversion H; fail).
  - apply andb_prop in H as [H _]. unfold isequal in H. cbn [is_int andb] in H. apply isclose_R. assumption.
  - apply andb_prop in H as [_ H]. apply IH. assumption.
  - inversion H; subst. apply andb_true_intro. split; [|apply IH; assumption].
    unfold isequal. cbn [is_int andb]. apply isclose_R. assumption.
Qed.
Lemma near_length p q : near p q -> length p = length q.
Proof. unfold near. apply Forall2_length. Qed.
Lemma near_refl p : near p p.
Proof. apply allequal_near. induction p; cbn [allequal]; [reflexivity|]. rewrite isequal_R_refl. assumption. Qed.
Lemma pt_eqb_near (p q : list R) : pt_eqb p q = true <-> near p q.
Proof.
  unfold pt_eqb. destruct (Nat.eqb_spec (length p) (length q)) as [E|E]; cbn [negb].
  - apply allequal_near.
  - split; [discriminate|]. intros H. apply near_length in H. contradiction.
Qed.

Lemma dims3 n (a b c : list R) : length a = n -> length b = n -> length c = n -> dims n [a; b; c].
Proof. intros H1 H2 H3 p [<-|[<-|[<-|[]]]]; assumption. Qed.
Lemma dims4 n (a b c d : list R) :
  length a = n -> length b = n -> length c = n -> length d = n -> dims n [a; b; c; d].
Proof. intros H1 H2 H3 H4 p [<-|[<-|[<-|[<-|[]]]]]; assumption. Qed.

Lemma sg_collinear_point_iff n s p : seg_wf n s -> length p = n ->
  (sg_collinear_point s p = true <->
   near p (sg_p1 s) \/ near p (sg_p2 s) \/ sg_p1 s = sg_p2 s \/ on_line_through_origin n [sg_p1 s; sg_p2 s; p]).
Proof.
  intros [H1 H2] Hp. unfold sg_collinear_point.
  rewrite <- !pt_eqb_near.
  destruct (pt_eqb p (sg_p1 s)) eqn:E1; cbn [orb]; [tauto|].
  destruct (pt_eqb p (sg_p2 s)) eqn:E2; cbn [orb]; [tauto|].
  rewrite (collinear_points_iff n) by (apply dims3; assumption). split.
  - intros [(a & b & H)|H]; [|auto].
    assert (p <> sg_p1 s) as N1 by (intros E; rewrite E in E1; rewrite (proj2 (pt_eqb_near _ _) (near_refl _)) in E1; discriminate).
    assert (p <> sg_p2 s) as N2 by (intros E; rewrite E in E2; rewrite (proj2 (pt_eqb_near _ _) (near_refl _)) in E2; discriminate).
    right; right; left.
    destruct (H (sg_p1 s)) as [A|A]; [cbn; auto| |]; destruct (H (sg_p2 s)) as [B|B]; try (cbn; auto; fail);
      destruct (H p) as [C|C]; try (cbn; auto; fail); congruence.
  - intros [H|[H|[H|H]]]; try discriminate; [|auto]. left. exists (sg_p1 s), p.
    intros q [<-|[<-|[<-|[]]]]; auto.
Qed.

(** ** Segment.t *)

Lemma sub_point_scale n s t : seg_wf n s -> vsub (sg_point s t) (sg_p1 s) = vscale (sg_dir s) t.
Proof.
  intros H. pose proof (sg_dir_length n s H). pose proof (sg_point_length n s t H).
  assert (length (sg_p1 s) = n) by (destruct H; assumption).
  apply vec_ext; [rewrite vsub_length, vscale_length; congruence|]. intros i.
  rewrite nth_vsub by congruence. rewrite nth_vscale, (nth_sg_point n), (nth_sg_dir n) by assumption. ring.
Qed.

Lemma dir_nonzero n s : seg_wf n s -> sg_p1 s <> sg_p2 s -> vdot (sg_dir s) (sg_dir s) <> 0.
Proof.
  intros H Hne E. apply vdot_eq0 in E. apply Hne. destruct (H) as [H1 H2]. apply vec_ext; [congruence|]. intros i.
  apply (f_equal (fun v => nth i v 0)) in E. rewrite nth_zeros, (nth_sg_dir n) in E by assumption. lra.
Qed.
Lemma dir_pos n s : seg_wf n s -> sg_p1 s <> sg_p2 s -> 0 < vdot (sg_dir s) (sg_dir s).
Proof. intros H Hne. pose proof (vdot_nonneg (sg_dir s)). pose proof (dir_nonzero n s H Hne). lra. Qed.

Lemma sg_t_point n s t : seg_wf n s -> sg_p1 s <> sg_p2 s ->
  sg_t s (sg_point s t) = if sg_collinear_point s (sg_point s t) then Some t else None.
Proof.
  intros H Hne. unfold sg_t. destruct (sg_collinear_point s (sg_point s t)); [|reflexivity].
  f_equal. rewrite (sub_point_scale n) by assumption. unfold lstsq1. rnum.
  pose proof (dir_nonzero n s H Hne). destruct (Reqb _ 0) eqn:E; [apply Reqb_iff in E; contradiction|].
  rewrite vdot_scale_r. field. assumption.
Qed.

(** The three points lie on a line through the origin iff the segment's line
    does. *)
Lemma origin_line_of_segment n s t : seg_wf n s -> sg_p1 s <> sg_p2 s ->
  (on_line_through_origin n [sg_p1 s; sg_p2 s; sg_point s t] <->
   exists k, affine_at (sg_p1 s) (sg_p2 s) k (repeat 0 n)).
Proof.
  intros H Hne. pose proof H as [H1 H2]. split.
  - intros (u & Lu & Hu).
    destruct (Hu (sg_p1 s)) as (a & Ha); [cbn; auto|]. destruct (Hu (sg_p2 s)) as (b & Hb); [cbn; auto|].
    assert (a <> b).
    { intros ->. apply Hne. apply vec_ext; [congruence|]. intros i. rewrite Ha, Hb. reflexivity. }
    exists (a / (a - b)). split; [rewrite repeat_length; congruence|]. intros i.
    rewrite nth_zeros, Ha, Hb. field. lra.
  - intros (k & _ & Hk). exists (sg_dir s). split; [apply (sg_dir_length n); assumption|].
    assert (P1 : forall i, nth i (sg_p1 s) 0 = - k * nth i (sg_dir s) 0).
    { intros i. specialize (Hk i). rewrite nth_zeros in Hk. rewrite (nth_sg_dir n) by assumption. lra. }
    intros x [<-|[<-|[<-|[]]]].
    + exists (- k). assumption.
    + exists (1 - k). intros i. specialize (P1 i). rewrite (nth_sg_dir n) in * by assumption. lra.
    + exists (t - k). intros i. rewrite (nth_sg_point n) by assumption. specialize (P1 i).
      rewrite (nth_sg_dir n) in * by assumption. lra.
Qed.

(** ** Coplanarity *)

Lemma last_map {A B} (f : A -> B) l d : last (map f l) (f d) = f (last l d).
Proof. induction l as [|a [|b l] IH]; try reflexivity. cbn [map last] in *. exact IH. Qed.
Lemma last_In {A} (l : list A) d : l <> [] -> In (last l d) l.
Proof. intros H. rewrite (app_removelast_last d H) at 2. apply in_or_app. right. left. reflexivity. Qed.
Lemma removelast_In {A} (l : list A) a : In a (removelast l) -> In a l.
Proof.
  intros H. assert (l <> []) as N by (intros ->; destruct H). rewrite (app_removelast_last a N). apply in_or_app. auto.
Qed.

Lemma plane_of_small n pts : (n < 3)%nat -> dims n pts -> in_common_plane n pts.
Proof.
  intros Hn Hd.
  destruct n as [|[|[|n]]]; try lia.
  - exists [], [], []. repeat split. intros x Hx. exists 0, 0. intros i.
    assert (E := Hd x Hx). destruct x; [|discriminate]. destruct i; cbn; ring.
  - exists [0], [1], [0]. repeat split. intros x Hx. assert (E := Hd x Hx).
    destruct x as [|a [|? ?]]; try discriminate. exists a, 0. intros [|[|i]]; cbn; ring.
  - exists [0; 0], [1; 0], [0; 1]. repeat split. intros x Hx. assert (E := Hd x Hx).
    destruct x as [|a [|b [|? ?]]]; try discriminate. exists a, b. intros [|[|[|i]]]; cbn; ring.
Qed.

Lemma coplanar_points_iff n pts : (2 <= length pts)%nat -> dims n pts ->
  exists b, coplanar_points pts = Ok b /\ (b = true <-> in_common_plane n pts).
Proof.
  intros Hne Hd. destruct pts as [|p0 [|p1 l]] eqn:E; [cbn in Hne; lia|cbn in Hne; lia|]. rewrite <- E in *.
  assert (L0 : length p0 = n) by (apply Hd; rewrite E; left; reflexivity).
  assert (EQ : coplanar_points pts =
    if Nat.ltb (length p0) 3 then Ok true
    else Ok (rank_le 2 (removelast (map (fun r => vsub r (last pts [])) pts)))) by (rewrite E; reflexivity).
  rewrite EQ, L0. clear EQ. destruct (Nat.ltb_spec n 3) as [L|L].
  - exists true. split; [reflexivity|]. split; [|reflexivity]. intros _. apply plane_of_small; assumption.
  - set (q := last pts []). set (rel := map (fun r => vsub r q) pts).
    eexists. split; [reflexivity|].
    assert (Hq : In q pts) by (apply last_In; rewrite E; discriminate).
    assert (Lq : length q = n) by (apply Hd; assumption).
    assert (Hrel : forall r, In r (removelast rel) -> exists x, In x pts /\ r = vsub x q).
    { intros r Hr. apply removelast_In in Hr. apply in_map_iff in Hr as (x & <- & Hx). eauto. }
    assert (Hlr : all_len n (removelast rel)).
    { intros r Hr. destruct (Hrel r Hr) as (x & Hx & ->). rewrite vsub_length; [|rewrite Lq]; apply Hd; assumption. }
    assert (Hcov : forall x, In x pts -> x = q \/ In (vsub x q) (removelast rel)).
    { intros x Hx. assert (rel <> []) as Nr by (unfold rel; rewrite E; discriminate).
      assert (In (vsub x q) rel) as Hin by (unfold rel; exact (in_map (fun r => vsub r q) _ _ Hx)).
      rewrite (app_removelast_last (vsub [] q) Nr) in Hin. apply in_app_or in Hin as [Hin|[Hin|[]]]; [auto|left].
      unfold rel in Hin. rewrite (last_map (fun r => vsub r q) pts []) in Hin. fold q in Hin.
      assert (length x = n) by (apply Hd; assumption).
      apply vec_ext; [congruence|]. intros i. apply (f_equal (fun v => nth i v 0)) in Hin.
      rewrite !nth_vsub in Hin by congruence. lra. }
    rewrite (rank_le_2 n) by assumption. split.
    + intros (u & v & Lu & Lv & H). exists q, u, v. repeat split; try assumption. intros x Hx.
      destruct (Hcov x Hx) as [->|Hin].
      * exists 0, 0. intros i. ring.
      * destruct (H _ Hin) as (s & t & Hst). exists s, t. intros i.
        apply (f_equal (fun w => nth i w 0)) in Hst.
        rewrite nth_vsub in Hst by (rewrite Lq; apply Hd; assumption).
        rewrite nth_vadd, !nth_vscale in Hst by (rewrite !vscale_length; congruence). lra.
    + intros (p & u & v & Lp & Lu & Lv & H). exists u, v. split; [assumption|]. split; [assumption|].
      intros r Hr. destruct (Hrel r Hr) as (x & Hx & ->).
      destruct (H x Hx) as (s & t & Hst). destruct (H q Hq) as (s' & t' & Hst').
      exists (s - s'), (t - t'). assert (length x = n) by (apply Hd; assumption).
      apply vec_ext; [rewrite vsub_length, vadd_length, !vscale_length; rewrite ?vscale_length; congruence|].
      intros i. rewrite nth_vsub by congruence. rewrite nth_vadd by (rewrite !vscale_length; congruence).
      rewrite !nth_vscale, Hst, Hst'. ring.
Qed.

(** ** Parallelism *)

Lemma parallel_iff n (s1 s2 : segment R) tol : seg_wf n s1 -> seg_wf n s2 ->
  (parallel_segments s1 s2 tol = true <->
   area_sq (minus (sg_p2 s1) (sg_p1 s1)) (minus (sg_p2 s2) (sg_p1 s2)) < tol).
Proof.
  intros H1 H2. unfold parallel_segments. rnum. rewrite Rltb_iff, !minus_vsub.
  change (vsub (sg_p2 s1) (sg_p1 s1)) with (sg_dir s1). change (vsub (sg_p2 s2) (sg_p1 s2)) with (sg_dir s2).
  assert (L : length (sg_dir s1) = length (sg_dir s2)) by (rewrite (sg_dir_length n s1), (sg_dir_length n s2); auto).
  rewrite area_sq_wedge, lagrange by assumption. tauto.
Qed.

Lemma parallel_sym (s1 s2 : segment R) tol : parallel_segments s1 s2 tol = parallel_segments s2 s1 tol.
Proof.
  unfold parallel_segments. rewrite (vdot_comm (sg_dir s2) (sg_dir s1)). f_equal. rnum. ring.
Qed.
Lemma sg_dir_reverse n s : seg_wf n s -> sg_dir (sg_reverse s) = vopp (sg_dir s).
Proof. intros [H1 H2]. unfold sg_dir, sg_reverse. cbn [sg_p1 sg_p2]. vext. Qed.
Lemma parallel_reverse n (s1 s2 : segment R) tol : seg_wf n s1 ->
  parallel_segments (sg_reverse s1) s2 tol = parallel_segments s1 s2 tol.
Proof.
  intros H. unfold parallel_segments. rewrite (sg_dir_reverse n) by assumption.
  rewrite !vdot_opp_l, vdot_opp_r. f_equal. rnum. ring.
Qed.
Lemma proportional_area (x y : list R) : length x = length y -> proportional x y -> area_sq x y = 0.
Proof.
  intros L (a & b & Hab & H).
  rewrite area_sq_wedge, <- lagrange by assumption.
  assert (E : vscale x a = vscale y b).
  { apply vec_ext; [rewrite !vscale_length; assumption|]. intros i. rewrite !nth_vscale. specialize (H i). lra. }
  assert (E1 : a * vdot x x = b * vdot y x) by (rewrite <- !vdot_scale_l, E; reflexivity).
  assert (E2 : a * vdot x y = b * vdot y y) by (rewrite <- !vdot_scale_l, E; reflexivity).
  rewrite (vdot_comm y x) in E1.
  destruct Hab as [Ha|Hb].
  - apply (Rmult_eq_reg_l a); [|assumption]. rewrite Rmult_0_r.
    replace (a * (vdot x x * vdot y y - vdot x y * vdot x y))
      with ((a * vdot x x) * vdot y y - vdot x y * (a * vdot x y)) by ring. rewrite E1, E2. ring.
  - apply (Rmult_eq_reg_l b); [|assumption]. rewrite Rmult_0_r.
    replace (b * (vdot x x * vdot y y - vdot x y * vdot x y))
      with (vdot x x * (b * vdot y y) - vdot x y * (b * vdot x y)) by ring. rewrite <- E1, <- E2. ring.
Qed.
