(** Angles and overlaps of segments. *)
From Coq Require Import ZArith List Bool Arith Lia Reals Lra Psatz.
From Verif Require Import Num Py Numeric Curve Vec Geom Angle Spec GeomSpec.
From Verif Require Import ListFacts CurveProofs2 CurveProofs3 VecFacts RankProofs GeomProofs.
Import ListNotations.
Local Open Scope R_scope.

(** ** Angles *)

Lemma isclose_zero (x : R) : isclose x 0 = true <-> Rabs x <= / 100000000.
Proof.
  rewrite isclose_R, Rminus_0_r, Rabs_R0. split; intros H; lra.
Qed.

Lemma angle_none (s1 s2 : segment R) rnd :
  segments_angle s1 s2 rnd = None <-> norm (sg_dir s1) * norm (sg_dir s2) <= / 100000000.
Proof.
  unfold segments_angle. rewrite !norm_vnorm.
  pose proof (vnorm_nonneg (sg_dir s1)). pose proof (vnorm_nonneg (sg_dir s2)).
  destruct (isclose _ 0) eqn:E.
  - apply isclose_zero in E. rewrite Rabs_right in E by nra. split; auto.
  - split; [discriminate|]. intros L.
    assert (isclose (vnorm (sg_dir s1) * vnorm (sg_dir s2)) 0 = true) as X
      by (apply isclose_zero; rewrite Rabs_right by nra; assumption). congruence.
Qed.

Lemma angle_range (s1 s2 : segment R) rnd phi : segments_angle s1 s2 rnd = Some phi -> 0 <= phi <= PI.
Proof.
  unfold segments_angle. destruct (isclose _ 0); [discriminate|]. intros [= <-]. apply acos_bound.
Qed.

Lemma cos_ratio_range (u v : list R) : length u = length v -> 0 < vnorm u * vnorm v ->
  -1 <= vdot u v / (vnorm u * vnorm v) <= 1.
Proof.
  intros L P. pose proof (vdot_le_norm u v L) as B.
  assert (- (vnorm u * vnorm v) <= vdot u v <= vnorm u * vnorm v) as B'
    by (unfold Rabs in B; destruct (Rcase_abs _); lra).
  split; apply (Rmult_le_reg_r (vnorm u * vnorm v)); try assumption;
    unfold Rdiv; rewrite Rmult_assoc, Rinv_l by lra; lra.
Qed.

Lemma angle_value n (s1 s2 : segment R) phi : seg_wf n s1 -> seg_wf n s2 ->
  segments_angle s1 s2 None = Some phi ->
  phi = acos (vdot (sg_dir s1) (sg_dir s2) / (vnorm (sg_dir s1) * vnorm (sg_dir s2)))
  /\ 0 < vnorm (sg_dir s1) * vnorm (sg_dir s2)
  /\ -1 <= vdot (sg_dir s1) (sg_dir s2) / (vnorm (sg_dir s1) * vnorm (sg_dir s2)) <= 1.
Proof.
  intros H1 H2. unfold segments_angle.
  assert (L : length (sg_dir s1) = length (sg_dir s2)) by (rewrite (sg_dir_length n s1), (sg_dir_length n s2); auto).
  pose proof (vnorm_nonneg (sg_dir s1)). pose proof (vnorm_nonneg (sg_dir s2)).
  destruct (isclose _ 0) eqn:E; [discriminate|].
  assert (P : 0 < vnorm (sg_dir s1) * vnorm (sg_dir s2)).
  { destruct (Rle_lt_dec (vnorm (sg_dir s1) * vnorm (sg_dir s2)) (/ 100000000)) as [C|C]; [|lra].
    assert (isclose (vnorm (sg_dir s1) * vnorm (sg_dir s2)) 0 = true) as X
      by (apply isclose_zero; rewrite Rabs_right by nra; assumption). congruence. }
  pose proof (cos_ratio_range _ _ L P) as B. cbv zeta.
  set (c := vdot (sg_dir s1) (sg_dir s2) / (vnorm (sg_dir s1) * vnorm (sg_dir s2))) in *.
  destruct (Rltb 1 c) eqn:E1; [apply Rltb_iff in E1; lra|].
  destruct (Rltb c (-1)) eqn:E2; [apply Rltb_iff in E2; lra|].
  intros [= <-]. auto.
Qed.

Lemma angle_cos n (s1 s2 : segment R) phi : seg_wf n s1 -> seg_wf n s2 ->
  segments_angle s1 s2 None = Some phi ->
  cos phi * (norm (sg_dir s1) * norm (sg_dir s2)) = inner (sg_dir s1) (sg_dir s2).
Proof.
  intros H1 H2 E. destruct (angle_value n s1 s2 phi H1 H2 E) as (-> & P & B).
  rewrite cos_acos by assumption. rewrite !norm_vnorm, inner_vdot. field. split; nra.
Qed.

Lemma angle_sym (s1 s2 : segment R) rnd : segments_angle s1 s2 rnd = segments_angle s2 s1 rnd.
Proof.
  unfold segments_angle. rewrite (vdot_comm (sg_dir s2)), (Rmult_comm (vnorm (sg_dir s2))). reflexivity.
Qed.

Lemma sg_reverse_wf n s : seg_wf n s -> seg_wf n (sg_reverse s).
Proof. intros [H1 H2]. split; assumption. Qed.

Lemma angle_reverse n (s1 s2 : segment R) phi : seg_wf n s1 -> seg_wf n s2 ->
  segments_angle s1 s2 None = Some phi -> segments_angle s1 (sg_reverse s2) None = Some (PI - phi).
Proof.
  intros H1 H2 E. destruct (angle_value n s1 s2 phi H1 H2 E) as (-> & P & B).
  destruct (segments_angle s1 (sg_reverse s2) None) as [psi|] eqn:E'.
  - destruct (angle_value n s1 (sg_reverse s2) psi H1 (sg_reverse_wf n s2 H2) E') as (-> & P' & B').
    rewrite (sg_dir_reverse n) by assumption. rewrite vdot_opp_r, vnorm_opp.
    replace (- vdot (sg_dir s1) (sg_dir s2) / (vnorm (sg_dir s1) * vnorm (sg_dir s2)))
      with (- (vdot (sg_dir s1) (sg_dir s2) / (vnorm (sg_dir s1) * vnorm (sg_dir s2)))) by (field; nra).
    f_equal. apply acos_opp.
  - apply angle_none in E'. rewrite (sg_dir_reverse n) in E' by assumption. rewrite !norm_vnorm, vnorm_opp in E'.
    exfalso. assert (segments_angle s1 s2 None = None) as X by (apply angle_none; rewrite !norm_vnorm; assumption).
    congruence.
Qed.

(** ** Overlap *)

Lemma npmin_R (a b : R) : npmin a b = Rmin a b.
Proof.
  unfold npmin. rnum. destruct (Rltb b a) eqn:E.
  - apply Rltb_iff in E. symmetry. apply Rmin_right. lra.
  - apply Rltb_false in E. symmetry. apply Rmin_left. lra.
Qed.
Lemma npmax_R (a b : R) : npmax a b = Rmax a b.
Proof.
  unfold npmax. rnum. destruct (Rltb a b) eqn:E.
  - apply Rltb_iff in E. symmetry. apply Rmax_right. lra.
  - apply Rltb_false in E. symmetry. apply Rmax_left. lra.
Qed.

Ltac minmax := unfold Rmin, Rmax in *; repeat (destruct (Rle_dec _ _)); try nra.

Lemma max_affine_pos x k a b : 0 <= k -> Rmax (x + a * k) (x + b * k) = x + Rmax a b * k.
Proof. intros H. minmax. Qed.
Lemma min_affine_pos x k a b : 0 <= k -> Rmin (x + a * k) (x + b * k) = x + Rmin a b * k.
Proof. intros H. minmax. Qed.
Lemma max_affine_neg x k a b : k <= 0 -> Rmax (x + a * k) (x + b * k) = x + Rmin a b * k.
Proof. intros H. minmax. Qed.
Lemma min_affine_neg x k a b : k <= 0 -> Rmin (x + a * k) (x + b * k) = x + Rmax a b * k.
Proof. intros H. minmax. Qed.

Lemma interval_param a b s : Rmin a b <= s <= Rmax a b -> exists t, 0 <= t <= 1 /\ s = a + t * (b - a).
Proof.
  intros H. destruct (Req_dec a b) as [->|N].
  - exists 0. rewrite Rmin_left, Rmax_left in H by lra. lra.
  - exists ((s - a) / (b - a)). split; [|field; lra].
    assert (D : (s - a) / (b - a) * (b - a) = s - a) by (field; lra).
    set (t := (s - a) / (b - a)) in *. unfold Rmin, Rmax in H. destruct (Rle_dec a b); split; nra.
Qed.
Lemma param_interval a b t : 0 <= t <= 1 -> Rmin a b <= a + t * (b - a) <= Rmax a b.
Proof. intros H. unfold Rmin, Rmax. destruct (Rle_dec a b); nra. Qed.

(** A segment between two points of the line p + R u is an interval of
    parameters. *)
Lemma on_segment_along n p u a b P Q x : length P = n ->
  along p u a P -> along p u b Q ->
  (on_segment P Q x <-> length x = n /\ exists s, Rmin a b <= s <= Rmax a b /\ along p u s x).
Proof.
  intros LP HP HQ. split.
  - intros (t & Ht & Lx & Hx). split; [congruence|]. exists (a + t * (b - a)). split; [apply param_interval; assumption|].
    intros i. rewrite Hx, (HP i), (HQ i). ring.
  - intros (Lx & s & Hs & Hx). apply interval_param in Hs as (t & Ht & ->). exists t. split; [assumption|].
    split; [congruence|]. intros i. rewrite (Hx i), (HP i), (HQ i). ring.
Qed.

Lemma existsb_map2_iff (f : R -> R -> bool) u v : length u = length v ->
  (existsb (fun b => b) (map2 f u v) = true <-> exists i, (i < length u)%nat /\ f (nth i u 0) (nth i v 0) = true).
Proof.
  revert v. induction u as [|a u IH]; intros [|b v] H; try discriminate.
  - cbn. split; [discriminate|]. intros (i & Hi & _). lia.
  - cbn [map2 existsb]. rewrite orb_true_iff, (IH v) by (cbn in H; lia). split.
    + intros [E|(i & Hi & E)]; [exists 0%nat|exists (S i)]; cbn; split; auto; lia.
    + intros ([|i] & Hi & E); cbn in *; [auto|right]. exists i. split; [lia|assumption].
Qed.

Lemma along_nonzero n p u a b x y : length u = n -> length x = n -> along p u a x -> along p u b y -> x = y ->
  u <> repeat 0 n -> a = b.
Proof.
  intros Lu Lx Ha Hb -> Hu. destruct (Req_dec a b) as [E|N]; [assumption|]. exfalso. apply Hu.
  apply vec_ext; [rewrite repeat_length; assumption|]. intros i. rewrite nth_zeros.
  specialize (Ha i). specialize (Hb i). nra.
Qed.

(** The description of [overlap_segments] on collinear segments: the corners
    of the bounding box of the common segment A B. *)
Lemma overlap_collinear n (s1 s2 : segment R) :
  seg_wf n s1 -> seg_wf n s2 -> on_common_line n [sg_p1 s1; sg_p2 s1; sg_p1 s2; sg_p2 s2] ->
  (overlap_segments s1 s2 false = None <->
   ~ exists x, on_segment (sg_p1 s1) (sg_p2 s1) x /\ on_segment (sg_p1 s2) (sg_p2 s2) x) /\
  (forall q, overlap_segments s1 s2 false = Some q ->
   exists A B, length A = n /\ length B = n /\
     (forall x, on_segment A B x <->
        on_segment (sg_p1 s1) (sg_p2 s1) x /\ on_segment (sg_p1 s2) (sg_p2 s2) x) /\
     length (sg_p1 q) = n /\ length (sg_p2 q) = n /\
     forall i, nth i (sg_p1 q) 0 = Rmin (nth i A 0) (nth i B 0) /\
               nth i (sg_p2 q) 0 = Rmax (nth i A 0) (nth i B 0)).
Proof.
  intros [W1 W2] [W3 W4] (p & u & Lp & Lu & Hline).
  destruct (Hline (sg_p1 s1)) as (a1 & A1); [cbn; auto|].
  destruct (Hline (sg_p2 s1)) as (a2 & A2); [cbn; auto|].
  destruct (Hline (sg_p1 s2)) as (b1 & B1); [cbn; auto|].
  destruct (Hline (sg_p2 s2)) as (b2 & B2); [cbn; auto|]. clear Hline.
  (* parameters may be taken as 0 on a degenerate line *)
  assert (exists a1 a2 b1 b2, along p u a1 (sg_p1 s1) /\ along p u a2 (sg_p2 s1) /\
            along p u b1 (sg_p1 s2) /\ along p u b2 (sg_p2 s2) /\
            (u = repeat 0 n -> Rmax (Rmin a1 a2) (Rmin b1 b2) <= Rmin (Rmax a1 a2) (Rmax b1 b2))) as H.
  { destruct (list_eq_dec Req_EM_T u (repeat 0 n)) as [E|N].
    - exists 0, 0, 0, 0. subst u.
      repeat split; try (intros i); try (rewrite ?(A1 i), ?(A2 i), ?(B1 i), ?(B2 i), nth_zeros; ring).
      minmax.
    - exists a1, a2, b1, b2. repeat split; auto. contradiction. }
  clear a1 a2 b1 b2 A1 A2 B1 B2. destruct H as (a1 & a2 & b1 & b2 & A1 & A2 & B1 & B2 & Hdeg).
  set (lo := Rmax (Rmin a1 a2) (Rmin b1 b2)) in *. set (hi := Rmin (Rmax a1 a2) (Rmax b1 b2)) in *.
  set (A := vadd p (vscale u lo)). set (B := vadd p (vscale u hi)).
  assert (LA : length A = n) by (unfold A; rewrite vadd_length; rewrite ?vscale_length; congruence).
  assert (LB : length B = n) by (unfold B; rewrite vadd_length; rewrite ?vscale_length; congruence).
  assert (HA : along p u lo A) by (intros i; unfold A; rewrite nth_vadd, nth_vscale by (rewrite vscale_length; congruence); ring).
  assert (HB : along p u hi B) by (intros i; unfold B; rewrite nth_vadd, nth_vscale by (rewrite vscale_length; congruence); ring).
  set (minmax := map2 npmin (map2 npmax (sg_p1 s1) (sg_p2 s1)) (map2 npmax (sg_p1 s2) (sg_p2 s2))).
  set (maxmin := map2 npmax (map2 npmin (sg_p1 s1) (sg_p2 s1)) (map2 npmin (sg_p1 s2) (sg_p2 s2))).
  assert (L1 : length minmax = n) by (unfold minmax; rewrite !map2_length; lia).
  assert (L2 : length maxmin = n) by (unfold maxmin; rewrite !map2_length; lia).
  assert (Hco : forall i, (i < n)%nat ->
     (0 <= nth i u 0 -> nth i minmax 0 = nth i B 0 /\ nth i maxmin 0 = nth i A 0) /\
     (nth i u 0 <= 0 -> nth i minmax 0 = nth i A 0 /\ nth i maxmin 0 = nth i B 0)).
  { intros i Hi. rewrite (HA i), (HB i). unfold minmax, maxmin.
    rewrite !(nth_map2 _ _ _ i 0 0) by (rewrite ?map2_length; lia).
    rewrite !npmax_R, !npmin_R, (A1 i), (A2 i), (B1 i), (B2 i). split; intros Hk.
    - rewrite !max_affine_pos, !min_affine_pos, !max_affine_pos by assumption. auto.
    - rewrite !max_affine_neg, !min_affine_neg, !max_affine_neg by assumption. auto. }
  assert (Hout : forall i, (n <= i)%nat -> nth i minmax 0 = 0 /\ nth i maxmin 0 = 0 /\ nth i A 0 = 0 /\ nth i B 0 = 0).
  { intros i Hi. rewrite !nth_overflow by lia. auto. }
  assert (Hcommon : lo <= hi -> forall x, on_segment A B x <->
        on_segment (sg_p1 s1) (sg_p2 s1) x /\ on_segment (sg_p1 s2) (sg_p2 s2) x).
  { intros Hle x.
    rewrite (on_segment_along n p u lo hi A B x), (on_segment_along n p u a1 a2 _ _ x),
      (on_segment_along n p u b1 b2 _ _ x) by assumption.
    rewrite (Rmin_left lo hi), (Rmax_right lo hi) by assumption. split.
    - intros (Lx & s & Hs & Hx). split; (split; [assumption|]); exists s; (split; [|assumption]); unfold lo, hi in Hs; clear - Hs; minmax.
    - intros ((Lx & s & Hs & Hx) & (_ & t & Ht & Hx')). split; [assumption|].
      destruct (list_eq_dec Req_EM_T u (repeat 0 n)) as [E|N].
      + exists lo. split; [lra|]. intros i. rewrite (Hx i), E, nth_zeros. ring.
      + assert (s = t) by (exact (along_nonzero n p u s t x x Lu Lx Hx Hx' eq_refl N)). subst t.
        exists s. split; [|assumption]. unfold lo, hi. clear - Hs Ht. minmax. }
  assert (Hdis : hi < lo -> ~ exists x, on_segment (sg_p1 s1) (sg_p2 s1) x /\ on_segment (sg_p1 s2) (sg_p2 s2) x).
  { intros Hlt (x & X1 & X2). apply (on_segment_along n p u a1 a2) in X1; try assumption.
    apply (on_segment_along n p u b1 b2) in X2; try assumption.
    destruct X1 as (Lx & s & Hs & Hx). destruct X2 as (_ & t & Ht & Hx').
    destruct (list_eq_dec Req_EM_T u (repeat 0 n)) as [E|N]; [specialize (Hdeg E); lra|].
    assert (s = t) by (exact (along_nonzero n p u s t x x Lu Lx Hx Hx' eq_refl N)). subst t.
    unfold lo, hi in Hlt. clear - Hs Ht Hlt. minmax. }
  assert (Hbox : lo <= hi -> forall i, nth i maxmin 0 = Rmin (nth i A 0) (nth i B 0) /\
                                       nth i minmax 0 = Rmax (nth i A 0) (nth i B 0)).
  { intros Hle i. destruct (Nat.lt_ge_cases i n) as [Hi|Hi].
    - destruct (Hco i Hi) as [P N]. pose proof (HA i) as EA. pose proof (HB i) as EB.
      destruct (Rle_lt_dec 0 (nth i u 0)) as [K|K].
      + destruct (P K) as [-> ->]. rewrite Rmin_left, Rmax_right by nra. auto.
      + destruct N as [-> ->]; [lra|]. rewrite Rmin_right, Rmax_left by nra. auto.
    - destruct (Hout i Hi) as (-> & -> & -> & ->). rewrite Rmin_left, Rmax_left by lra. auto. }
  assert (Hov : overlap_segments s1 s2 false = if existsb (fun b => b) (map2 (fun x y => Rltb y x) maxmin minmax)
                 then None else Some (mkSeg maxmin minmax)) by reflexivity.
  rewrite Hov. clear Hov.
  destruct (Rle_lt_dec lo hi) as [Hle|Hlt].
  - destruct (existsb _ _) eqn:E.
    { exfalso. apply existsb_map2_iff in E; [|congruence]. destruct E as (i & Hi & E). apply Rltb_iff in E.
      destruct (Hbox Hle i) as [E1 E2]. rewrite E1, E2 in E. clear - E. minmax. }
    split.
    + split; [discriminate|]. intros C. exfalso. apply C. exists A. apply Hcommon; [assumption|].
      exists 0. split; [lra|]. split; [reflexivity|]. intros i. ring.
    + intros q [= <-]. exists A, B. cbn [sg_p1 sg_p2]. auto 10.
  - destruct (existsb _ _) eqn:E.
    + split; [|discriminate]. split; [|reflexivity]. intros _. apply Hdis. assumption.
    + exfalso. assert (u <> repeat 0 n) as N by (intros X; specialize (Hdeg X); lra).
      apply N. apply vec_ext; [rewrite repeat_length; assumption|]. intros i. rewrite nth_zeros.
      destruct (Nat.lt_ge_cases i n) as [Hi|Hi]; [|apply nth_overflow; lia].
      assert (F : Rltb (nth i minmax 0) (nth i maxmin 0) = false).
      { destruct (Rltb (nth i minmax 0) (nth i maxmin 0)) eqn:F; [|reflexivity]. exfalso.
        assert (existsb (fun b => b) (map2 (fun x y => Rltb y x) maxmin minmax) = true) as T.
        { apply existsb_map2_iff; [congruence|]. exists i. split; [lia|]. assumption. } congruence. }
      apply Rltb_false in F. destruct (Hco i Hi) as [P Q]. pose proof (HA i) as EA. pose proof (HB i) as EB.
      destruct (Rtotal_order (nth i u 0) 0) as [K|[K|K]]; [|assumption|].
      * destruct Q as [E1 E2]; [lra|]. nra.
      * destruct P as [E1 E2]; [lra|]. nra.
Qed.
