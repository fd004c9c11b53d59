(** Further facts about overlaps, angles and parameters, and the real-number
    computations needed by the examples. *)
From Coq Require Import ZArith List Bool Arith Lia Reals Lra Psatz.
From Verif Require Import Num Py Numeric Curve Vec Geom Angle Spec GeomSpec.
From Verif Require Import ListFacts CurveProofs2 CurveProofs3 VecFacts RankProofs GeomProofs GeomProofs2 GeomProofs3.
Import ListNotations.
Local Open Scope R_scope.

(** ** Evaluation of small real examples *)
Lemma vdot_nil : vdot (T:=R) [] [] = 0.
Proof. reflexivity. Qed.
Ltac rvec := cbn [sg_dir sg_p1 sg_p2 vsub vadd vscale vopp map2 map sg_point sg_reverse];
  unfold sg_dir, sg_point, vsub, vadd, vscale, vopp; cbn [sg_p1 sg_p2 map2 map];
  rewrite ?vdot_cons, ?vdot_nil; rnum.

(** ** Parameters *)
Lemma sg_t_iff n (s : segment R) x : seg_wf n s -> sg_p1 s <> sg_p2 s ->
  (sg_t s (sg_point s x) = Some x <->
   near (sg_point s x) (sg_p1 s) \/ near (sg_point s x) (sg_p2 s) \/
   exists k, affine_at (sg_p1 s) (sg_p2 s) k (repeat 0 n)) /\
  (sg_t s (sg_point s x) = Some x \/ sg_t s (sg_point s x) = None).
Proof.
  intros H Hne. rewrite (sg_t_point n s x H Hne).
  pose proof (sg_collinear_point_iff n s (sg_point s x) H (sg_point_length n s x H)) as C.
  pose proof (origin_line_of_segment n s x H Hne) as O.
  destruct (sg_collinear_point s (sg_point s x)).
  - split; [|auto]. split; [intros _|auto].
    destruct (proj1 C eq_refl) as [A|[A|[A|A]]]; [auto|auto|contradiction|]. right. right. apply O. assumption.
  - split; [|auto]. split; [discriminate|]. intros A. exfalso.
    assert (false = true); [|discriminate]. apply C. destruct A as [A|[A|A]]; [auto|auto|].
    right. right. right. apply O. assumption.
Qed.

Lemma sg_t_end n (s : segment R) : seg_wf n s -> sg_p1 s <> sg_p2 s ->
  sg_t s (sg_p1 s) = Some 0 /\ sg_t s (sg_p2 s) = Some 1.
Proof.
  intros H Hne. split.
  - pose proof (proj1 (sg_t_iff n s 0 H Hne)) as I. rewrite (sg_point_0 n s H) in I. apply I. left. apply near_refl.
  - pose proof (proj1 (sg_t_iff n s 1 H Hne)) as I. rewrite (sg_point_1 n s H) in I. apply I. right. left. apply near_refl.
Qed.

Lemma on_segment_point n (s : segment R) x : seg_wf n s ->
  (on_segment (sg_p1 s) (sg_p2 s) x <-> exists t, 0 <= t <= 1 /\ x = sg_point s t).
Proof.
  intros H. split; intros (t & Ht & A); exists t; (split; [assumption|]); apply (affine_sg_point n s t x H); assumption.
Qed.

(** ** Overlap *)
Lemma overlap_mid_len n (s1 s2 : segment R) :
  seg_wf n s1 -> seg_wf n s2 -> on_common_line n [sg_p1 s1; sg_p2 s1; sg_p1 s2; sg_p2 s2] ->
  forall q, overlap_segments s1 s2 false = Some q ->
  exists A B, length A = n /\ length B = n /\
    (forall x, on_segment A B x <->
        on_segment (sg_p1 s1) (sg_p2 s1) x /\ on_segment (sg_p1 s2) (sg_p2 s2) x) /\
    seg_wf n q /\
    (forall i, nth i (sg_p1 q) 0 + nth i (sg_p2 q) 0 = nth i A 0 + nth i B 0) /\
    dist (sg_p1 q) (sg_p2 q) = dist A B /\
    ((forall i, nth i (sg_p1 s1) 0 <= nth i (sg_p2 s1) 0) ->
     forall x, on_segment (sg_p1 q) (sg_p2 q) x <-> on_segment A B x).
Proof.
  intros H1 H2 Hl q Hq. destruct (proj2 (overlap_collinear n s1 s2 H1 H2 Hl) q Hq) as (A & B & LA & LB & HC & Q1 & Q2 & HM).
  exists A, B. split; [assumption|]. split; [assumption|]. split; [assumption|]. split; [split; assumption|]. split; [|split].
  - intros i. destruct (HM i) as [-> ->]. unfold Rmin, Rmax. destruct (Rle_dec _ _); lra.
  - unfold dist, norm. f_equal. rewrite !minus_vsub, !inner_vdot.
    assert (G : forall i, nth i (vsub (sg_p2 q) (sg_p1 q)) 0 * nth i (vsub (sg_p2 q) (sg_p1 q)) 0 =
                          nth i (vsub B A) 0 * nth i (vsub B A) 0).
    { intros i. rewrite !nth_vsub by congruence. destruct (HM i) as [-> ->]. unfold Rmin, Rmax. destruct (Rle_dec _ _); ring. }
    assert (L : length (vsub (sg_p2 q) (sg_p1 q)) = length (vsub B A)) by (rewrite !vsub_length; congruence).
    revert G L. generalize (vsub (sg_p2 q) (sg_p1 q)) as x. generalize (vsub B A) as y. clear.
    intros y x. revert y. induction x as [|a x IH]; intros [|b y] G L; try discriminate; [reflexivity|].
    rewrite !vdot_cons. rewrite (IH y).
    + pose proof (G 0%nat) as G0. cbn in G0. rewrite G0. reflexivity.
    + intros i. exact (G (S i)).
    + cbn in L. lia.
  - intros Mono.
    assert (OA : on_segment (sg_p1 s1) (sg_p2 s1) A).
    { apply HC. exists 0. split; [lra|]. split; [reflexivity|]. intros i. ring. }
    assert (OB : on_segment (sg_p1 s1) (sg_p2 s1) B).
    { apply HC. exists 1. split; [lra|]. split; [congruence|]. intros i. ring. }
    destruct OA as (ta & Ta & _ & EA). destruct OB as (tb & Tb & _ & EB).
    assert (ta <= tb \/ tb <= ta) as [L|L] by lra.
    + assert (E1 : sg_p1 q = A).
      { apply vec_ext; [congruence|]. intros i. rewrite (proj1 (HM i)), EA, EB. specialize (Mono i).
        apply Rmin_left. nra. }
      assert (E2 : sg_p2 q = B).
      { apply vec_ext; [congruence|]. intros i. rewrite (proj2 (HM i)), EA, EB. specialize (Mono i).
        apply Rmax_right. nra. }
      rewrite E1, E2. intros x. reflexivity.
    + assert (E1 : sg_p1 q = B).
      { apply vec_ext; [congruence|]. intros i. rewrite (proj1 (HM i)), EA, EB. specialize (Mono i).
        apply Rmin_right. nra. }
      assert (E2 : sg_p2 q = A).
      { apply vec_ext; [congruence|]. intros i. rewrite (proj2 (HM i)), EA, EB. specialize (Mono i).
        apply Rmax_left. nra. }
      rewrite E1, E2. intros x. split; intros (t & Ht & Lx & Ex); exists (1 - t); (split; [lra|]); (split; [congruence|]);
        intros i; rewrite Ex; ring.
Qed.

(** ** Angles *)
Lemma norm_sq_pos_neq (v : list R) : 0 < vnorm v -> vdot v v <> 0.
Proof. intros H E. rewrite <- vnorm_sq in E. nra. Qed.

Lemma angle_multiple n (s1 s2 : segment R) k : seg_wf n s1 -> seg_wf n s2 ->
  (forall i, nth i (sg_dir s2) 0 = k * nth i (sg_dir s1) 0) ->
  forall phi, segments_angle s1 s2 None = Some phi ->
  (0 < k -> phi = 0) /\ (k < 0 -> phi = PI).
Proof.
  intros H1 H2 Hk phi E.
  destruct (angle_value n s1 s2 phi H1 H2 E) as (-> & P & _).
  assert (V : sg_dir s2 = vscale (sg_dir s1) k).
  { apply vec_ext; [rewrite vscale_length, !(sg_dir_length n) by assumption; reflexivity|].
    intros i. rewrite Hk, nth_vscale. ring. }
  rewrite V in *. rewrite vnorm_scale in *. rewrite vdot_scale_r, <- vnorm_sq.
  pose proof (vnorm_nonneg (sg_dir s1)).
  assert (vnorm (sg_dir s1) <> 0) by (intros Z; rewrite Z in P; lra).
  split; intros Hs.
  - rewrite Rabs_right by lra.
    replace (_ / _) with 1 by (field; split; lra). exact acos_1.
  - rewrite Rabs_left by lra.
    replace (_ / _) with (-1) by (field; split; lra).
    replace (-1) with (- (1)) by ring. rewrite acos_opp, acos_1. ring.
Qed.

(** ** Translation *)
Definition translate (s : segment R) (w : list R) : segment R := mkSeg (vadd (sg_p1 s) w) (vadd (sg_p2 s) w).
Lemma sg_dir_translate n s w : seg_wf n s -> length w = n -> sg_dir (translate s w) = sg_dir s.
Proof.
  intros [A B] L. unfold sg_dir, translate. cbn [sg_p1 sg_p2].
  assert (L1 : length (vadd (sg_p1 s) w) = n) by (rewrite vadd_length; congruence).
  assert (L2 : length (vadd (sg_p2 s) w) = n) by (rewrite vadd_length; congruence).
  apply vec_ext; [rewrite !vsub_length; congruence|]. intros i.
  rewrite !nth_vsub, !nth_vadd by congruence. ring.
Qed.
