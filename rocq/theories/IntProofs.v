(** Segments and curves with integer coordinates. *)
From Coq Require Import ZArith List Bool Arith Reals Lra Lia Sorted.
From Verif Require Import Num Py Numeric Curve Vec VecFacts Geom GeomSpec GeomProofs GeomProofs3 Intersect
  CurveProofs3 IntersectProofs3.
Import ListNotations.
Local Open Scope R_scope.

Definition whole (x : R) : Prop := exists z, x = IZR z.
Definition whole_vec (v : list R) : Prop := forall x, In x v -> whole x.

Lemma whole_add x y : whole x -> whole y -> whole (x + y).
Proof. intros (a & ->) (b & ->). exists (a + b)%Z. symmetry. apply plus_IZR. Qed.
Lemma whole_sub x y : whole x -> whole y -> whole (x - y).
Proof. intros (a & ->) (b & ->). exists (a - b)%Z. symmetry. apply minus_IZR. Qed.
Lemma whole_mul x y : whole x -> whole y -> whole (x * y).
Proof. intros (a & ->) (b & ->). exists (a * b)%Z. symmetry. apply mult_IZR. Qed.
Lemma whole_opp x : whole x -> whole (- x).
Proof. intros (a & ->). exists (- a)%Z. symmetry. apply opp_IZR. Qed.
Lemma whole_0 : whole 0. Proof. exists 0%Z. reflexivity. Qed.
Lemma whole_1 : whole 1. Proof. exists 1%Z. reflexivity. Qed.

Lemma whole_below x : whole x -> x < 1 -> x <= 0.
Proof. intros (z & ->) H. apply lt_IZR in H. apply IZR_le. lia. Qed.
Lemma whole_small x : whole x -> Rabs x < 1 -> x = 0.
Proof.
  intros W H. apply Rabs_def2 in H. destruct W as (z & ->). destruct H as [H1 H2].
  apply lt_IZR in H1. assert (H3 : IZR (-1) < IZR z) by (cbn; lra). apply lt_IZR in H3. f_equal. lia.
Qed.

Lemma whole_vsub u v : whole_vec u -> whole_vec v -> whole_vec (vsub u v).
Proof.
  revert v. induction u as [|a u IH]; intros [|b v] Hu Hv x Hx; cbn in Hx; try contradiction.
  destruct Hx as [<-|Hx]; [apply whole_sub; [apply Hu|apply Hv]; left; reflexivity|].
  apply (IH v); [intros y Hy; apply Hu; right; exact Hy|intros y Hy; apply Hv; right; exact Hy|exact Hx].
Qed.
Lemma whole_vdot u v : whole_vec u -> whole_vec v -> whole (vdot u v).
Proof.
  revert v. induction u as [|a u IH]; intros [|b v] Hu Hv; try exact whole_0.
  rewrite vdot_cons. apply whole_add; [apply whole_mul; [apply Hu|apply Hv]; left; reflexivity|].
  apply IH; [intros y Hy; apply Hu; right; exact Hy|intros y Hy; apply Hv; right; exact Hy].
Qed.

(** ** The tolerance plays no role for integers *)

Lemma ltb_whole x tol : whole x -> 0 < tol <= 1 -> Rltb x tol = Rltb x 1.
Proof.
  intros W Ht. destruct (Rltb x 1) eqn:E.
  - apply Rltb_iff in E. apply Rltb_iff. apply whole_below in E; [lra|exact W].
  - destruct (Rltb x tol) eqn:F; [|reflexivity]. apply Rltb_iff in F. assert (X : Rltb x 1 = true) by (apply Rltb_iff; lra). congruence.
Qed.
Lemma abs_ltb_whole x tol : whole x -> 0 < tol <= 1 -> Rltb (Rabs x) tol = Rltb (Rabs x) 1.
Proof.
  intros W Ht. apply ltb_whole; [|exact Ht]. unfold Rabs. destruct (Rcase_abs x); [apply whole_opp|]; exact W.
Qed.

Lemma closest_params_tol a b c d e tol : whole a -> whole b -> whole c -> whole d -> whole e -> 0 < tol <= 1 ->
  closest_params a b c d e tol = closest_params a b c d e 1.
Proof.
  intros Ha Hb Hc Hd He Ht. unfold closest_params. cbn [nltb nmul nadd nsub nopp nabs ndiv n0 n1 RNum].
  assert (WD : whole (a * c - b * b)) by (apply whole_sub; apply whole_mul; assumption).
  rewrite (ltb_whole _ _ WD Ht).
  assert (W1 : whole (b * e - c * d)) by (apply whole_sub; apply whole_mul; assumption).
  assert (W2 : whole (a * e - b * d)) by (apply whole_sub; apply whole_mul; assumption).
  assert (W3 : whole (- d)) by (apply whole_opp; assumption).
  assert (W4 : whole (- d + b)) by (apply whole_add; assumption).
  assert (W5 : whole (e + b)) by (apply whole_add; assumption).
  pose proof whole_0 as W6. pose proof whole_1 as W7.
  destruct (Rltb (a * c - b * b) 1); [|destruct (Rltb (b * e - c * d) 0); [|destruct (Rltb (a * c - b * b) (b * e - c * d))]];
    (match goal with |- context [if Rltb ?t 0 then if Rltb (- d) 0 then _ else _ else _] => destruct (Rltb t 0) end;
     [destruct (Rltb (- d) 0); [|destruct (Rltb a (- d))]
     |match goal with |- context [if Rltb ?u ?t then if Rltb (- d + b) 0 then _ else _ else _] => destruct (Rltb u t) end;
      [destruct (Rltb (- d + b) 0); [|destruct (Rltb a (- d + b))]|]]);
    (match goal with |- (if Rltb (Rabs ?x) tol then _ else _, if Rltb (Rabs ?y) tol then _ else _) = _ =>
       rewrite (abs_ltb_whole x tol) by assumption; try rewrite (abs_ltb_whole y tol) by assumption end); reflexivity.
Qed.

Definition whole_seg (s : segment R) : Prop := whole_vec (sg_p1 s) /\ whole_vec (sg_p2 s).

Lemma whole_dir s : whole_seg s -> whole_vec (sg_dir s).
Proof. intros [H1 H2]. apply whole_vsub; assumption. Qed.

Lemma segment_to_segment_tol s1 s2 tol : whole_seg s1 -> whole_seg s2 -> 0 < tol <= 1 ->
  segment_to_segment s1 s2 tol = segment_to_segment s1 s2 1.
Proof.
  intros H1 H2 Ht. unfold segment_to_segment. assert (D1 := whole_dir _ H1). assert (D2 := whole_dir _ H2).
  assert (W : whole_vec (vsub (sg_p1 s1) (sg_p1 s2))) by (apply whole_vsub; [apply H1|apply H2]).
  apply closest_params_tol; try assumption; apply whole_vdot; assumption.
Qed.

Lemma wedge_whole u v : length u = length v -> whole_vec u -> whole_vec v -> whole (area_sq u v).
Proof.
  intros L Hu Hv. rewrite area_sq_wedge, <- lagrange by exact L.
  apply whole_sub; apply whole_mul; apply whole_vdot; assumption.
Qed.

Lemma area_nonneg u v : length u = length v -> 0 <= area_sq u v.
Proof. intros L. rewrite area_sq_wedge, <- lagrange by exact L. pose proof (cauchy_schwarz u v L). lra. Qed.

(** ** Exact closest points *)

Lemma limit_le d D K : 0 <= K -> (forall t, 0 < t <= 1 -> d <= D + 2 * sqrt t + t * K) -> d <= D.
Proof.
  intros HK H. apply le_epsilon. intros eps He.
  set (r := Rmin 1 (eps / (2 + K))).
  assert (Hq : 0 < eps / (2 + K)) by (apply Rdiv_lt_0_compat; lra).
  assert (Hr : 0 < r <= 1) by (unfold r, Rmin; destruct (Rle_dec _ _); lra).
  assert (Hr2 : r * (2 + K) <= eps).
  { assert (r <= eps / (2 + K)) by apply Rmin_r. apply Rmult_le_compat_r with (r := 2 + K) in H0; [|lra].
    replace (eps / (2 + K) * (2 + K)) with eps in H0 by (field; lra). exact H0. }
  specialize (H (r * r) ltac:(split; nra)). rewrite sqrt_square in H by lra.
  assert (r * r * K <= r * K) by (apply Rmult_le_compat_r; nra). lra.
Qed.

Lemma whole_optimal n (s1 s2 : segment R) : seg_wf n s1 -> seg_wf n s2 -> whole_seg s1 -> whole_seg s2 ->
  sg_p1 s2 <> sg_p2 s2 ->
  let '(t1, t2) := segment_to_segment s1 s2 f_eps in
  forall x y, 0 <= x <= 1 -> 0 <= y <= 1 -> vdist (sg_point s1 t1) (sg_point s2 t2) <= vdist (sg_point s1 x) (sg_point s2 y).
Proof.
  intros H1 H2 W1 W2 Hne.
  assert (He : 0 < @f_eps R RNum <= 1) by (rewrite f_eps_R; lra).
  assert (L : length (sg_dir s1) = length (sg_dir s2)) by (rewrite !(sg_dir_length n) by assumption; reflexivity).
  assert (WA := wedge_whole _ _ L (whole_dir _ W1) (whole_dir _ W2)). assert (NA := area_nonneg _ _ L).
  assert (HA : area_sq (sg_dir s1) (sg_dir s2) = 0 \/ 1 <= area_sq (sg_dir s1) (sg_dir s2)).
  { destruct (Rlt_le_dec (area_sq (sg_dir s1) (sg_dir s2)) 1) as [A|A]; [left|right; exact A]. apply whole_below in A; [lra|exact WA]. }
  destruct (segment_to_segment s1 s2 f_eps) as [t1 t2] eqn:E. intros x y Hx Hy.
  apply (limit_le _ _ (vnorm (sg_dir s1) + vnorm (sg_dir s2))).
  { pose proof (vnorm_nonneg (sg_dir s1)). pose proof (vnorm_nonneg (sg_dir s2)). lra. }
  intros t Ht. pose proof (segment_to_segment_bound n s1 s2 t H1 H2 Ht Hne) as B. cbv zeta in B.
  rewrite (segment_to_segment_tol _ _ _ W1 W2 Ht), <- (segment_to_segment_tol _ _ _ W1 W2 He), E in B.
  specialize (B ltac:(destruct HA as [HA|HA]; [left; exact HA|right; lra]) x y Hx Hy).
  eapply Rle_trans; [exact B|]. rewrite Rplus_assoc, Rplus_assoc. apply Rplus_le_compat_l. apply Rplus_le_compat_l.
  pose proof (vnorm_nonneg (sg_dir s1)) as N1. pose proof (vnorm_nonneg (sg_dir s2)) as N2.
  destruct (Rltb _ _) eqn:F.
  - apply Rmult_le_pos; lra.
  - destruct HA as [HA|HA]; [exfalso; assert (X : Rltb (area_sq (sg_dir s1) (sg_dir s2)) t = true) by (apply Rltb_iff; lra); congruence|].
    unfold Rdiv. rewrite <- (Rmult_1_r (t * (_ + _))) at 2. apply Rmult_le_compat_l; [apply Rmult_le_pos; lra|].
    rewrite <- Rinv_1. apply Rinv_le_contravar; lra.
Qed.

(** ** Truncated parameters *)

Lemma trunc_unit t : 0 <= t <= 1 -> (t < 1 /\ ntrunc t = 0) \/ (t = 1 /\ ntrunc t = 1).
Proof.
  intros H. cbn [ntrunc RNum]. unfold Rtrunc. destruct (Rle_dec 0 t) as [_|N]; [|lra].
  destruct (Req_dec t 1) as [->|Ne].
  - right. split; [reflexivity|]. f_equal. apply Int_part_INR with (n := 1%nat).
  - left. split; [lra|]. assert (E : Int_part t = 0%Z); [|rewrite E; reflexivity].
    destruct (base_Int_part t) as [A B].
    assert (C : (Int_part t < 1)%Z) by (apply lt_IZR; lra).
    assert (D : (-1 < Int_part t)%Z) by (apply lt_IZR; cbn; lra). lia.
Qed.

(** The end of a segment that an integer parameter selects. *)
Definition snapped (t : R) (s : segment R) : list R := if Req_EM_T t 1 then sg_p2 s else sg_p1 s.

Lemma shortest_int n (s1 s2 : segment R) : seg_wf n s1 -> seg_wf n s2 ->
  shortest_dt DInt s1 s2
  = mkSeg (snapped (fst (segment_to_segment s1 s2 f_eps)) s1) (snapped (snd (segment_to_segment s1 s2 f_eps)) s2).
Proof.
  intros H1 H2. unfold shortest_dt. cbn [cast].
  pose proof (segment_to_segment_range n s1 s2 f_eps H1 H2 ltac:(rewrite f_eps_R; lra)) as Rg.
  destruct (segment_to_segment s1 s2 f_eps) as [t1 t2]. cbn [fst snd]. destruct Rg as [R1 R2].
  f_equal; unfold snapped;
    [destruct (trunc_unit t1 R1) as [[L ->]|[-> ->]]|destruct (trunc_unit t2 R2) as [[L ->]|[-> ->]]];
    destruct (Req_EM_T _ 1); try lra; (apply (sg_point_0 n) || apply (sg_point_1 n)); assumption.
Qed.

Lemma whole_dist u v : length u = length v -> whole_vec u -> whole_vec v -> vdist u v < 1 -> u = v.
Proof.
  intros L Hu Hv H. apply vdist_zero; [exact L|]. pose proof (vdist_nonneg u v) as N.
  assert (Q : vdot (vsub u v) (vsub u v) <= 0).
  { apply whole_below; [apply whole_vdot; apply whole_vsub; assumption|]. rewrite <- vdist_sq. nra. }
  rewrite <- vdist_sq in Q. nra.
Qed.

(** Non-parallel segments meet in one point at most. *)
Lemma meet_unique n (s1 s2 : segment R) x y x' y' : seg_wf n s1 -> seg_wf n s2 -> area_sq (sg_dir s1) (sg_dir s2) <> 0 ->
  sg_point s1 x = sg_point s2 y -> sg_point s1 x' = sg_point s2 y' -> x = x' /\ y = y'.
Proof.
  intros H1 H2 A E E'.
  assert (L : length (sg_dir s1) = length (sg_dir s2)) by (rewrite !(sg_dir_length n) by assumption; reflexivity).
  rewrite area_sq_wedge, <- lagrange in A by exact L.
  assert (C : vscale (sg_dir s1) (x - x') = vscale (sg_dir s2) (y - y')).
  { apply vec_ext; [rewrite !vscale_length; exact L|]. intros i. rewrite !nth_vscale.
    assert (Ei := f_equal (fun l => nth i l 0) E). assert (Ei' := f_equal (fun l => nth i l 0) E'). cbn beta in Ei, Ei'.
    rewrite !(nth_sg_point n) in Ei, Ei' by assumption. rewrite !(nth_sg_dir n) by assumption. lra. }
  assert (C1 := f_equal (fun l => vdot l (sg_dir s1)) C). assert (C2 := f_equal (fun l => vdot l (sg_dir s2)) C). cbn beta in C1, C2.
  rewrite !vdot_scale_l in C1, C2. rewrite (vdot_comm (sg_dir s2) (sg_dir s1)) in C1.
  set (a := vdot (sg_dir s1) (sg_dir s1)) in *. set (b := vdot (sg_dir s1) (sg_dir s2)) in *. set (c := vdot (sg_dir s2) (sg_dir s2)) in *.
  set (p := x - x') in *. set (q := y - y') in *.
  assert (P : p * (a * c - b * b) = 0). { transitivity (c * (p * a) - b * (p * b)); [ring|]. rewrite C1, C2. ring. }
  assert (Q : q * (a * c - b * b) = 0). { transitivity (a * (q * c) - b * (q * b)); [ring|]. rewrite <- C1, <- C2. ring. }
  apply Rmult_integral in P, Q. destruct P as [P|P]; [|contradiction]. destruct Q as [Q|Q]; [|contradiction].
  unfold p, q in *. split; lra.
Qed.
