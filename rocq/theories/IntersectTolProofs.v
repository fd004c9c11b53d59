(** The exact intersection method with a rank tolerance: for the theorems of C95. *)
From Coq Require Import ZArith List Bool Arith Lia Reals Lra Psatz Sorting.Sorted.
From Verif Require Import Num Py Numeric Curve Vec Geom Intersect Spec GeomSpec SvdRank SvdSpec IntersectTol.
From Verif Require Import ListFacts CurveProofs CurveProofs2 CurveProofs3 VecFacts RankProofs GeomProofs GeomProofs2 GeomProofs3 GeomProofs4
  RigidProofs OrthoProofs SvdProofs SvdProofs2 SvdProofs3 SvdProofs4 SvdProofs5 SvdProofs6
  IntersectProofs IntersectProofs2 IntersectProofs3 Properties_Svd.
Import ListNotations.
Local Open Scope R_scope.

(** ** Areas of vectors near one line *)

Lemma area_shift (u v : list R) l : length u = length v ->
  area_sq u v <= vdot u u * vdot (vsub v (vscale u l)) (vsub v (vscale u l)).
Proof.
  intros L. rewrite area_sq_wedge, <- lagrange by assumption.
  rewrite !vdot_sub_l, !vdot_sub_r, !vdot_scale_l, !vdot_scale_r by (rewrite ?vscale_length; congruence).
  rewrite (vdot_comm v u).
  pose proof (Rle_0_sqr (vdot u v - l * vdot u u)) as S. unfold Rsqr in S. lra.
Qed.

Lemma area_comm (u v : list R) : length u = length v -> area_sq u v = area_sq v u.
Proof. intros L. rewrite !area_sq_wedge, <- !lagrange by congruence. rewrite (vdot_comm v u). ring. Qed.

Lemma combo_norm (a b : list R) l d : length a = length b -> Rabs l <= 1 -> vnorm a <= d -> vnorm b <= d ->
  vnorm (vsub a (vscale b l)) <= 2 * d.
Proof.
  intros L Hl Ha Hb.
  assert (E : vsub a (vscale b l) = vadd a (vscale b (- l))).
  { apply vec_ext; [rewrite vsub_length, vadd_length; rewrite ?vscale_length; congruence|].
    intros i. rewrite nth_vsub, nth_vadd, !nth_vscale by (rewrite ?vscale_length; congruence). ring. }
  rewrite E. eapply Rle_trans; [apply vnorm_triangle; rewrite vscale_length; congruence|].
  rewrite vnorm_scale, Rabs_Ropp. pose proof (vnorm_nonneg b). pose proof (Rabs_pos l).
  assert (Rabs l * vnorm b <= 1 * vnorm b) by (apply Rmult_le_compat_r; assumption). lra.
Qed.

Lemma area_near_line_le n (u v w e f : list R) s t d : length w = n -> length e = n -> length f = n -> length u = n -> length v = n ->
  (forall i, nth i u 0 = s * nth i w 0 + nth i e 0) -> (forall i, nth i v 0 = t * nth i w 0 + nth i f 0) ->
  vnorm e <= d -> vnorm f <= d -> Rabs t <= Rabs s ->
  area_sq u v <= (2 * d) * (2 * d) * vdot u u.
Proof.
  intros Lw Le Lf Lu Lv Eu Ev He Hf Hst.
  pose proof (vnorm_nonneg e) as Ne. pose proof (vdot_nonneg u) as Nu.
  set (l := if Req_EM_T s 0 then 0 else t / s).
  assert (Hl : Rabs l <= 1).
  { unfold l. destruct (Req_EM_T s 0) as [Z|Z]; [rewrite Rabs_R0; lra|].
    unfold Rdiv. rewrite Rabs_mult, Rabs_inv. pose proof (Rabs_pos_lt s Z).
    apply Rmult_le_reg_r with (Rabs s); [assumption|]. rewrite Rmult_assoc, Rinv_l by lra. lra. }
  assert (Ht : t = l * s).
  { unfold l. destruct (Req_EM_T s 0) as [Z|Z]; [|field; exact Z].
    rewrite Z, Rabs_R0 in Hst. pose proof (Rabs_pos t).
    destruct (Req_dec t 0) as [T0|T0]; [rewrite T0; ring|]. pose proof (Rabs_pos_lt t T0). lra. }
  assert (E : vsub v (vscale u l) = vsub f (vscale e l)).
  { apply vec_ext; [rewrite !vsub_length; rewrite ?vscale_length; congruence|].
    intros i. rewrite !nth_vsub, !nth_vscale by (rewrite ?vscale_length; congruence). rewrite Eu, Ev, Ht. ring. }
  eapply Rle_trans; [apply (area_shift u v l); congruence|]. rewrite E.
  pose proof (combo_norm f e l d ltac:(congruence) Hl Hf He) as K.
  rewrite <- (vnorm_sq (vsub f (vscale e l))). pose proof (vnorm_nonneg (vsub f (vscale e l))) as P.
  rewrite Rmult_comm. apply Rmult_le_compat_r; [exact Nu|]. apply Rmult_le_compat; assumption.
Qed.

(** Four points near one line through the origin span a small parallelogram. *)
Lemma area_near_line n (p1 p2 q1 q2 w : list R) d : length w = n ->
  length p1 = n -> length p2 = n -> length q1 = n -> length q2 = n ->
  (forall p, In p [p1; p2; q1; q2] -> exists t, dist p (times t w) <= d) ->
  area_sq (vsub p2 p1) (vsub q2 q1) <= (4 * d) * (4 * d) * Rmax (vdot (vsub p2 p1) (vsub p2 p1)) (vdot (vsub q2 q1) (vsub q2 q1)).
Proof.
  intros Lw L1 L2 L3 L4 H.
  assert (D : forall a b, length a = n -> length b = n -> (exists t, dist a (times t w) <= d) -> (exists t, dist b (times t w) <= d) ->
     exists s e, length e = n /\ vnorm e <= 2 * d /\ forall i, nth i (vsub b a) 0 = s * nth i w 0 + nth i e 0).
  { intros a b La Lb (s & Hs) (t & Ht). exists (t - s), (vsub (vsub b (vscale w t)) (vsub a (vscale w s))).
    rewrite times_vscale in Hs, Ht. rewrite dist_vdist in Hs, Ht by (rewrite vscale_length; congruence).
    split; [rewrite !vsub_length; rewrite ?vscale_length, ?vsub_length; rewrite ?vscale_length; congruence|]. split.
    - pose proof (combo_norm (vsub b (vscale w t)) (vsub a (vscale w s)) 1 d) as K.
      replace (vscale (vsub a (vscale w s)) 1) with (vsub a (vscale w s)) in K.
      2:{ apply vec_ext; [rewrite vscale_length; reflexivity|]. intros i. rewrite nth_vscale. ring. }
      apply K; [rewrite !vsub_length; rewrite ?vscale_length; congruence|rewrite Rabs_R1; lra|exact Ht|exact Hs].
    - intros i. rewrite (nth_vsub b a) by congruence.
      rewrite !nth_vsub, !nth_vscale by (rewrite ?vscale_length, ?vsub_length; rewrite ?vscale_length; congruence). ring. }
  destruct (D p1 p2 L1 L2) as (s & e & Le & He & Es); [apply H; cbn; auto|apply H; cbn; auto|].
  destruct (D q1 q2 L3 L4) as (t & f & Lf & Hf & Et); [apply H; cbn; auto|apply H; cbn; auto|].
  set (u := vsub p2 p1) in *. set (v := vsub q2 q1) in *.
  assert (Lu : length u = n) by (unfold u; rewrite vsub_length; congruence).
  assert (Lv : length v = n) by (unfold v; rewrite vsub_length; congruence).
  assert (Q : 0 <= 4 * d * (4 * d)) by (pose proof (Rle_0_sqr (4 * d)); assumption).
  destruct (Rle_lt_dec (Rabs t) (Rabs s)) as [G|G].
  - eapply Rle_trans; [apply (area_near_line_le n u v w e f s t (2 * d)); assumption|].
    replace (2 * (2 * d) * (2 * (2 * d))) with (4 * d * (4 * d)) by ring.
    apply Rmult_le_compat_l; [exact Q|apply Rmax_l].
  - rewrite area_comm by congruence.
    eapply Rle_trans; [apply (area_near_line_le n v u w f e t s (2 * d)); try assumption; lra|].
    replace (2 * (2 * d) * (2 * (2 * d))) with (4 * d * (4 * d)) by ring.
    apply Rmult_le_compat_l; [exact Q|apply Rmax_r].
Qed.

(** ** The default tolerance of four points *)
Lemma frob_le n A r : dims n A -> (forall p, In p A -> norm p <= r) -> frob A <= INR (length A) * (r * r).
Proof.
  intros D H. induction A as [|p A IH]; [cbn; lra|]. cbn [frob]. cbn [length].
  rewrite S_INR. assert (K : vdot p p <= r * r).
  { rewrite <- vnorm_sq. pose proof (vnorm_nonneg p). assert (vnorm p <= r) by (rewrite <- GeomProofs.norm_vnorm; apply H; left; reflexivity).
    apply Rmult_le_compat; assumption. }
  assert (frob A <= INR (length A) * (r * r)) by (apply IH; [intros x Hx; apply D; right; exact Hx|intros x Hx; apply H; right; exact Hx]).
  lra.
Qed.

Lemma tolerance_le n U d r : dims n U -> (0 < length U <= 4)%nat -> 0 <= r -> (forall p, In p U -> norm p <= r) ->
  tolerance n U None d -> 0 <= d <= r * INR (Nat.max 4 n) / 2 ^ 51.
Proof.
  intros D L Hr H (e & (He & _ & x & Lx & Ux & Ex) & ->).
  assert (K : e * e <= 4 * (r * r)).
  { rewrite <- Ex, along_quad. eapply Rle_trans; [apply (quad_frob n); [exact D|exact Lx]|].
    rewrite <- GeomProofs.inner_vdot, Ux, Rmult_1_r. eapply Rle_trans; [apply (frob_le n); eassumption|].
    apply Rmult_le_compat_r; [apply Rmult_le_pos; assumption|]. replace 4 with (INR 4) by (cbn; lra). apply le_INR. lia. }
  assert (E2 : e <= 2 * r).
  { apply Rsqr_incr_0; unfold Rsqr; [|exact He|lra]. lra. }
  assert (M : INR (Nat.max (length U) n) <= INR (Nat.max 4 n)) by (apply le_INR; lia).
  assert (M0 : 0 <= INR (Nat.max (length U) n)) by apply pos_INR.
  split.
  - apply Rmult_le_pos; [apply Rmult_le_pos; assumption|]. apply Rlt_le, Rinv_0_lt_compat, pow_lt. lra.
  - replace (2 ^ 52) with (2 * 2 ^ 51) by (rewrite <- (tech_pow_Rmult 2 51); reflexivity).
    assert (P : 0 < 2 ^ 51) by (apply pow_lt; lra).
    assert (Q : e * INR (Nat.max (length U) n) <= 2 * r * INR (Nat.max 4 n)) by (apply Rmult_le_compat; assumption).
    set (x0 := e * INR (Nat.max (length U) n)) in *. set (y0 := r * INR (Nat.max 4 n)) in *.
    replace (x0 / (2 * 2 ^ 51)) with (x0 * / 2 * / 2 ^ 51) by (field; lra).
    unfold Rdiv. apply Rmult_le_compat_r; [apply Rlt_le, Rinv_0_lt_compat; exact P|]. unfold y0. lra.
Qed.

Lemma four_dims n (s1 s2 : segment R) : seg_wf n s1 -> seg_wf n s2 -> dims n [sg_p1 s1; sg_p2 s1; sg_p1 s2; sg_p2 s2].
Proof. intros [A B] [C D]. apply dims4; assumption. Qed.

(** At most two different points span nothing. *)
Lemma two_points_area n (s1 s2 : segment R) U : seg_wf n s1 -> seg_wf n s2 -> NoDup U ->
  (forall p, In p U <-> In p [sg_p1 s1; sg_p2 s1; sg_p1 s2; sg_p2 s2]) -> (length U <= 2)%nat ->
  area_sq (sg_dir s1) (sg_dir s2) = 0.
Proof.
  intros H1 H2 N S2 L.
  assert (P : forall p, In p [sg_p1 s1; sg_p2 s1; sg_p1 s2; sg_p2 s2] -> In p U) by (intros p; apply S2).
  assert (G : exists a b, forall p, In p U -> p = a \/ p = b).
  { destruct U as [|a [|b [|c U]]]; cbn in L; try lia.
    - exists [], []. intros p [].
    - exists a, a. intros p [<-|[]]; auto.
    - exists a, b. intros p [<-|[<-|[]]]; auto. }
  destruct G as (a & b & G).
  pose proof (sg_dir_length n s1 H1) as L1. pose proof (sg_dir_length n s2 H2) as L2.
  apply proportional_area; [congruence|].
  assert (Q : forall s, seg_wf n s -> (sg_p1 s = a \/ sg_p1 s = b) -> (sg_p2 s = a \/ sg_p2 s = b) ->
     exists c, forall i, nth i (sg_dir s) 0 = c * (nth i b 0 - nth i a 0)).
  { intros s W [A|A] [B|B]; [exists 0|exists 1|exists (-1)|exists 0]; intros i; rewrite (nth_sg_dir n), A, B by assumption; ring. }
  destruct (Q s1 H1) as (x & Ex); [apply G, P; cbn; auto|apply G, P; cbn; auto|].
  destruct (Q s2 H2) as (y & Ey); [apply G, P; cbn; auto|apply G, P; cbn; auto|].
  destruct (Req_dec x 0) as [X|X].
  - exists 1, 0. split; [lra|]. intros i. rewrite Ex, X. ring.
  - exists y, x. split; [auto|]. intros i. rewrite Ex, Ey. ring.
Qed.

Lemma collinear_tol_total svd n (s1 s2 : segment R) : correct_svd svd -> seg_wf n s1 -> seg_wf n s2 ->
  exists b, sg_collinear_tol svd None s1 s2 = Ok b.
Proof.
  intros C H1 H2. unfold sg_collinear_tol. destruct (_ || _); [eauto|].
  destruct (uniq [sg_p1 s1; sg_p2 s1; sg_p1 s2; sg_p2 s2]) as (U & N & S2).
  destruct (col_dec svd n [sg_p1 s1; sg_p2 s1; sg_p1 s2; sg_p2 s2] U None C ltac:(discriminate) (four_dims n s1 s2 H1 H2) N S2 Logic.I) as (b & E & _). eauto.
Qed.

Lemma coplanar_tol_total svd n (s1 s2 : segment R) : correct_svd svd -> seg_wf n s1 -> seg_wf n s2 ->
  exists b, sg_coplanar_tol svd None s1 s2 = Ok b.
Proof.
  intros C H1 H2. unfold sg_coplanar_tol.
  destruct (cop_dec svd n [sg_p1 s1; sg_p2 s1; sg_p1 s2; sg_p2 s2] None C ltac:(cbn; lia) (four_dims n s1 s2 H1 H2) Logic.I) as (b & E & _). eauto.
Qed.

(** What a positive collinearity test says. *)
Lemma collinear_tol_near svd n (s1 s2 : segment R) r : correct_svd svd -> seg_wf n s1 -> seg_wf n s2 -> (0 < n)%nat ->
  (forall p, In p [sg_p1 s1; sg_p2 s1; sg_p1 s2; sg_p2 s2] -> norm p <= r) ->
  sg_collinear_tol svd None s1 s2 = Ok true ->
  (near (sg_p1 s2) (sg_p1 s1) /\ near (sg_p2 s2) (sg_p2 s1)) \/
  (near (sg_p2 s2) (sg_p1 s1) /\ near (sg_p1 s2) (sg_p2 s1)) \/
  (exists a b, forall p, In p [sg_p1 s1; sg_p2 s1; sg_p1 s2; sg_p2 s2] -> p = a \/ p = b) \/
  exists w, length w = n /\ forall p, In p [sg_p1 s1; sg_p2 s1; sg_p1 s2; sg_p2 s2] ->
    exists t, dist p (times t w) <= r * INR (Nat.max 4 n) / 2 ^ 51.
Proof.
  intros C H1 H2 Hn HR. unfold sg_collinear_tol, sg_eqb, sg_reverse. cbn [sg_p1 sg_p2].
  destruct (pt_eqb (sg_p1 s2) (sg_p1 s1) && pt_eqb (sg_p2 s2) (sg_p2 s1)) eqn:E1.
  { intros _. apply Bool.andb_true_iff in E1. destruct E1 as [A B]. apply pt_eqb_near in A, B. left. auto. }
  destruct (pt_eqb (sg_p2 s2) (sg_p1 s1) && pt_eqb (sg_p1 s2) (sg_p2 s1)) eqn:E2.
  { intros _. apply Bool.andb_true_iff in E2. destruct E2 as [A B]. apply pt_eqb_near in A, B. right. left. auto. }
  cbn [orb]. intros E. right. right.
  set (pts := [sg_p1 s1; sg_p2 s1; sg_p1 s2; sg_p2 s2]) in *.
  assert (D : dims n pts) by (apply four_dims; assumption).
  destruct (uniq pts) as (U & N & S2).
  assert (DU : dims n U) by (intros p Hp; apply D, S2, Hp).
  assert (L4 : (length U <= 4)%nat) by (apply (NoDup_incl_length (l' := pts) N); intros p; apply S2).
  assert (NU : U <> []).
  { intros Z. assert (K : In (sg_p1 s1) U) by (apply S2; left; reflexivity). rewrite Z in K. destruct K. }
  destruct (Nat.le_gt_cases (length U) 2) as [L|L].
  { left. destruct U as [|a [|b [|c U]]]; cbn in L; try lia; [contradiction| |].
    - exists a, a. intros p Hp. apply S2 in Hp. destruct Hp as [<-|[]]; auto.
    - exists a, b. intros p Hp. apply S2 in Hp. destruct Hp as [<-|[<-|[]]]; auto. }
  right. destruct (tolerance_exists n U None DU Hn NU) as (d & T & Hd).
  assert (R0 : 0 <= r) by (eapply Rle_trans; [|apply (HR (sg_p1 s1)); left; reflexivity]; apply sqrt_pos).
  assert (B : 0 <= d <= r * INR (Nat.max 4 n) / 2 ^ 51).
  { apply (tolerance_le n U); try assumption; [lia|]. intros p Hp. apply HR, S2, Hp. }
  destruct (C89_near_line svd n pts U None d C ltac:(discriminate) D N S2 T (proj1 B)) as [K _].
  destruct (K E L) as (w & Lw & Hw). exists w. split; [exact Lw|]. intros p Hp. destruct (Hw p Hp) as (t & Ht). exists t. lra.
Qed.

(** Directions that are clearly different are never taken for collinear. *)
Lemma clearly_different svd n (s1 s2 : segment R) r : correct_svd svd -> seg_wf n s1 -> seg_wf n s2 ->
  (forall p, In p [sg_p1 s1; sg_p2 s1; sg_p1 s2; sg_p2 s2] -> norm p <= r) ->
  (r * INR (Nat.max 4 n) / 2 ^ 49) ^ 2 * Rmax (inner (sg_dir s1) (sg_dir s1)) (inner (sg_dir s2) (sg_dir s2))
    < area_sq (sg_dir s1) (sg_dir s2) ->
  ~ (near (sg_p1 s2) (sg_p1 s1) /\ near (sg_p2 s2) (sg_p2 s1)) ->
  ~ (near (sg_p2 s2) (sg_p1 s1) /\ near (sg_p1 s2) (sg_p2 s1)) ->
  sg_collinear_tol svd None s1 s2 = Ok false.
Proof.
  intros C H1 H2 HR HA M1 M2. destruct (collinear_tol_total svd n s1 s2 C H1 H2) as ([|] & E); [exfalso|exact E].
  rewrite !GeomProofs.inner_vdot in HA.
  assert (A0 : 0 < area_sq (sg_dir s1) (sg_dir s2)).
  { eapply Rle_lt_trans; [|exact HA]. apply Rmult_le_pos; [apply pow2_ge_0|].
    eapply Rle_trans; [apply (vdot_nonneg (sg_dir s1))|apply Rmax_l]. }
  assert (Hn : (0 < n)%nat).
  { destruct n; [|lia]. pose proof (sg_dir_length 0 s1 H1) as L. apply length_zero_iff_nil in L. rewrite L in A0. cbn in A0. lra. }
  destruct (collinear_tol_near svd n s1 s2 r C H1 H2 Hn HR E) as [K|[K|[(a & b & K)|(w & Lw & K)]]]; [tauto|tauto| |].
  - pose proof (two_points_area n s1 s2 (nodup (list_eq_dec Req_EM_T) [sg_p1 s1; sg_p2 s1; sg_p1 s2; sg_p2 s2]) H1 H2) as Z.
    rewrite Z in A0; [lra|apply NoDup_nodup|intros p; apply nodup_In|].
    change 2%nat with (length [a; b]). apply NoDup_incl_length; [apply NoDup_nodup|].
    intros p Hp. apply nodup_In in Hp. destruct (K p Hp) as [->| ->]; cbn; auto.
  - destruct H1 as [A1 A2], H2 as [B1 B2].
    pose proof (area_near_line n (sg_p1 s1) (sg_p2 s1) (sg_p1 s2) (sg_p2 s2) w _ Lw A1 A2 B1 B2 K) as X.
    fold (sg_dir s1) (sg_dir s2) in X.
    replace (4 * (r * INR (Nat.max 4 n) / 2 ^ 51)) with (r * INR (Nat.max 4 n) / 2 ^ 49) in X; [cbn [pow] in HA; lra|].
    replace (2 ^ 51) with (4 * 2 ^ 49) by (replace 51%nat with (2 + 49)%nat by reflexivity; rewrite pow_add; ring).
    assert (0 < 2 ^ 49) by (apply pow_lt; lra). field.
Qed.

(** ** The method for two segments *)

Lemma exact_tol_collinear svd feps (s1 s2 : segment R) : sg_collinear_tol svd None s1 s2 = Ok true ->
  exact_segments_tol svd feps s1 s2 =
    match overlap_segments s1 s2 false with
    | None => Ok not_intersected
    | Some q => Ok (mkInfo (IDSegment q) IOverlap)
    end.
Proof. intros E. unfold exact_segments_tol. rewrite E. cbn [rbind]. destruct (overlap_segments s1 s2 false); reflexivity. Qed.

(** Where the tests agree the results do. *)
Lemma exact_tol_agree svd feps (s1 s2 : segment R) :
  sg_collinear_tol svd None s1 s2 = Ok (sg_collinear s1 s2) ->
  (sg_collinear s1 s2 = false -> parallel_segments s1 s2 f_eps = false -> sg_coplanar_tol svd None s1 s2 = sg_coplanar s1 s2) ->
  exact_segments_tol svd feps s1 s2 = exact_segments feps s1 s2.
Proof.
  intros E1 E2. unfold exact_segments_tol, exact_segments. rewrite E1. cbn [rbind].
  destruct (sg_collinear s1 s2); [reflexivity|]. destruct (parallel_segments s1 s2 f_eps); [reflexivity|].
  rewrite E2 by reflexivity. reflexivity.
Qed.

(** The exact tests imply the tests with the tolerance. *)
Lemma collinear_exact_tol svd n (s1 s2 : segment R) : correct_svd svd -> seg_wf n s1 -> seg_wf n s2 ->
  sg_collinear s1 s2 = true -> sg_collinear_tol svd None s1 s2 = Ok true.
Proof.
  intros C H1 H2. unfold sg_collinear, sg_collinear_tol. destruct (_ || _); [reflexivity|].
  intros E. apply (C89_collinear_exact svd n); try assumption; [discriminate|apply four_dims; assumption|exact Logic.I].
Qed.

Lemma coplanar_exact_tol svd n (s1 s2 : segment R) : correct_svd svd -> seg_wf n s1 -> seg_wf n s2 ->
  sg_coplanar s1 s2 = Ok true -> sg_coplanar_tol svd None s1 s2 = Ok true.
Proof.
  intros C H1 H2 E. apply (C89_coplanar_exact svd n); try assumption; [cbn; lia|apply four_dims; assumption|exact Logic.I].
Qed.

(** Found with the exact tests: found with the tolerance, if not taken for
    collinear. *)
Lemma exact_tol_keeps svd n feps (s1 s2 : segment R) i : correct_svd svd -> seg_wf n s1 -> seg_wf n s2 ->
  exact_segments feps s1 s2 = Ok i -> i_type i <> INone ->
  exact_segments_tol svd feps s1 s2 = Ok i \/
  (sg_collinear s1 s2 = false /\ sg_collinear_tol svd None s1 s2 = Ok true).
Proof.
  intros C H1 H2 E Ti. destruct (sg_collinear s1 s2) eqn:NC.
  - left. rewrite exact_tol_agree; [exact E|rewrite NC; apply (collinear_exact_tol svd n); assumption|congruence].
  - destruct (collinear_tol_total svd n s1 s2 C H1 H2) as ([|] & Et); [right; auto|left].
    rewrite exact_tol_agree; [exact E|congruence|]. intros _ EP.
    assert (Q : sg_coplanar s1 s2 = Ok true).
    { unfold exact_segments in E. rewrite NC, EP in E.
      destruct (sg_coplanar s1 s2) as [[|]|e]; [reflexivity| |discriminate]. cbn in E. injection E as <-. cbn in Ti. contradiction. }
    rewrite Q. apply (coplanar_exact_tol svd n); assumption.
Qed.

Lemma exact_tol_complete svd n feps (s1 s2 : segment R) p r : correct_svd svd -> seg_wf n s1 -> seg_wf n s2 ->
  (forall p, In p [sg_p1 s1; sg_p2 s1; sg_p1 s2; sg_p2 s2] -> norm p <= r) ->
  (r * INR (Nat.max 4 n) / 2 ^ 49) ^ 2 * Rmax (inner (sg_dir s1) (sg_dir s1)) (inner (sg_dir s2) (sg_dir s2))
    < area_sq (sg_dir s1) (sg_dir s2) ->
  f_eps <= area_sq (sg_dir s1) (sg_dir s2) ->
  ~ near (sg_p1 s1) (sg_p2 s1) -> ~ near (sg_p1 s2) (sg_p2 s2) ->
  ~ (near (sg_p1 s2) (sg_p1 s1) /\ near (sg_p2 s2) (sg_p2 s1)) ->
  ~ (near (sg_p2 s2) (sg_p1 s1) /\ near (sg_p1 s2) (sg_p2 s1)) ->
  on_segment (sg_p1 s1) (sg_p2 s1) p -> on_segment (sg_p1 s2) (sg_p2 s2) p ->
  exact_segments_tol svd feps s1 s2 = Ok (mkInfo (IDPoint p) IExact).
Proof.
  intros C H1 H2 HR HA FE N1 N2 M1 M2 P1 P2.
  pose proof (clearly_different svd n s1 s2 r C H1 H2 HR HA M1 M2) as NC.
  rewrite <- area_dir in FE.
  destruct (exact_segments_complete n feps s1 s2 p H1 H2 FE N1 N2 P1 P2) as [E|(K & _)].
  - destruct (exact_tol_keeps svd n feps s1 s2 _ C H1 H2 E ltac:(discriminate)) as [Q|(_ & Q)]; [exact Q|congruence].
  - apply (collinear_exact_tol svd n) in K; try assumption. congruence.
Qed.

(** *** The solution of the linear system *)

Lemma residual n (s1 s2 : segment R) x y : seg_wf n s1 -> seg_wf n s2 ->
  vsub (sg_point s1 x) (sg_point s2 y) =
  vsub (vsub (vscale (sg_dir s1) x) (vscale (sg_dir s2) y)) (vsub (sg_p1 s2) (sg_p1 s1)).
Proof.
  intros H1 H2. pose proof (sg_dir_length n s1 H1) as L1. pose proof (sg_dir_length n s2 H2) as L2.
  destruct (H1) as [A1 A2]. destruct (H2) as [B1 B2].
  apply vec_ext.
  - rewrite !vsub_length; rewrite ?vsub_length; rewrite ?vscale_length, ?(sg_point_length n); try assumption; congruence.
  - intros i. rewrite !nth_vsub by (rewrite ?vsub_length; rewrite ?vscale_length, ?(sg_point_length n); try assumption; congruence).
    rewrite !nth_vscale, !(nth_sg_point n), !(nth_sg_dir n) by assumption. ring.
Qed.

(** The least-squares solution: the residual is orthogonal to both lines. *)
Lemma lstsq2_orthogonal n (s1 s2 : segment R) x y : seg_wf n s1 -> seg_wf n s2 -> area_sq (sg_dir s1) (sg_dir s2) <> 0 ->
  lstsq2 (sg_dir s1) (vopp (sg_dir s2)) (vsub (sg_p1 s2) (sg_p1 s1)) = (x, y) ->
  let r := vsub (sg_point s1 x) (sg_point s2 y) in vdot r (sg_dir s1) = 0 /\ vdot r (sg_dir s2) = 0.
Proof.
  intros H1 H2 HA E. cbv zeta. rewrite (residual n) by assumption.
  pose proof (sg_dir_length n s1 H1) as L1. pose proof (sg_dir_length n s2 H2) as L2.
  assert (Lb : length (vsub (sg_p1 s2) (sg_p1 s1)) = n) by (destruct H1, H2; rewrite vsub_length; congruence).
  set (b0 := vsub (sg_p1 s2) (sg_p1 s1)) in *.
  rewrite area_sq_wedge, <- (lagrange (sg_dir s1) (sg_dir s2)) in HA by congruence.
  rewrite !vdot_sub_l, !vdot_scale_l by (rewrite ?vsub_length; rewrite ?vscale_length; congruence).
  unfold lstsq2 in E. cbn [nsub nmul ndiv RNum] in E. rewrite !vdot_opp_l, !vdot_opp_r in E.
  injection E as <- <-.
  rewrite (vdot_comm b0 (sg_dir s1)), (vdot_comm b0 (sg_dir s2)), (vdot_comm (sg_dir s2) (sg_dir s1)).
  set (a := vdot (sg_dir s1) (sg_dir s1)) in *. set (b := vdot (sg_dir s1) (sg_dir s2)) in *.
  set (c := vdot (sg_dir s2) (sg_dir s2)) in *.
  split; field; lra.
Qed.

Lemma orthogonal_closest n (s1 s2 : segment R) x y x' y' : seg_wf n s1 -> seg_wf n s2 ->
  (let r := vsub (sg_point s1 x) (sg_point s2 y) in vdot r (sg_dir s1) = 0 /\ vdot r (sg_dir s2) = 0) ->
  vdist (sg_point s1 x) (sg_point s2 y) <= vdist (sg_point s1 x') (sg_point s2 y').
Proof.
  intros H1 H2. cbv zeta. set (r := vsub (sg_point s1 x) (sg_point s2 y)). intros [O1 O2].
  pose proof (sg_dir_length n s1 H1) as L1. pose proof (sg_dir_length n s2 H2) as L2.
  assert (Lr : length r = n) by (unfold r; rewrite vsub_length; rewrite ?(sg_point_length n); try assumption; reflexivity).
  set (m := vsub (vscale (sg_dir s1) (x' - x)) (vscale (sg_dir s2) (y' - y))).
  assert (Lm : length m = n) by (unfold m; rewrite vsub_length; rewrite ?vscale_length; congruence).
  assert (E : vsub (sg_point s1 x') (sg_point s2 y') = vadd r m).
  { apply vec_ext; [rewrite vsub_length, vadd_length; rewrite ?(sg_point_length n); try assumption; congruence|].
    intros i. rewrite nth_vadd by congruence. unfold r, m.
    rewrite !nth_vsub by (rewrite ?vscale_length, ?(sg_point_length n); try assumption; congruence).
    rewrite !nth_vscale, !(nth_sg_point n), !(nth_sg_dir n) by assumption. ring. }
  assert (O : vdot r m = 0).
  { unfold m. rewrite vdot_sub_r, !vdot_scale_r, O1, O2 by (rewrite ?vscale_length; congruence). ring. }
  unfold vdist. rewrite E. fold r. apply Rsqr_incr_0; unfold Rsqr; try apply vnorm_nonneg.
  rewrite !vnorm_sq. rewrite vdot_add_l, !vdot_add_r by congruence. rewrite (vdot_comm m r), O.
  pose proof (vdot_nonneg m). lra.
Qed.

(** In the plane the solution is exact. *)
Lemma solve2_exact (s1 s2 : segment R) x y : seg_wf 2 s1 -> seg_wf 2 s2 ->
  solve2 (sg_dir s1) (vopp (sg_dir s2)) (vsub (sg_p1 s2) (sg_p1 s1)) = Some (x, y) -> sg_point s1 x = sg_point s2 y.
Proof.
  intros H1 H2. unfold solve2. cbv zeta. cbn [nsub nmul ndiv neqb n0 RNum].
  rewrite !nth_vopp.
  destruct (Reqb _ 0) eqn:Q; [discriminate|].
  intros E. assert (N : nth 0 (sg_dir s1) 0 * - nth 1 (sg_dir s2) 0 - - nth 0 (sg_dir s2) 0 * nth 1 (sg_dir s1) 0 <> 0).
  { intros Z. apply Reqb_iff in Z. congruence. }
  injection E as <- <-.
  apply vec_ext; [rewrite !(sg_point_length 2) by assumption; reflexivity|].
  destruct (H1) as [A1 A2]. destruct (H2) as [B1 B2].
  intros i. rewrite !(nth_sg_point 2) by assumption. rewrite !nth_vsub by congruence.
  rewrite !(nth_sg_dir 2) in * by assumption.
  destruct i as [|[|i]].
  - field. exact N.
  - field. exact N.
  - rewrite !(nth_overflow _ _ (n := S (S i))) by lia. ring.
Qed.

Lemma exact_result_inv feps (s1 s2 : segment R) x y p : exact_result feps s1 s2 x y = Ok (mkInfo (IDPoint p) IExact) ->
  in_unit x = true /\ in_unit y = true /\ p = sg_point s1 x /\
  (near (sg_point s1 x) (sg_point s2 y) \/ vdist (sg_point s1 x) (sg_point s2 y) <= feps).
Proof.
  unfold exact_result. destruct (in_unit x); [|discriminate]. destruct (in_unit y); [|discriminate]. cbn [andb].
  destruct (pt_eqb (sg_point s1 x) (sg_point s2 y)) eqn:P; cbn [negb andb].
  - intros E. cbn in E. injection E as <-. repeat split. left. apply pt_eqb_near, P.
  - destruct (nltb feps _) eqn:L; [discriminate|]. intros E. cbn in E. injection E as <-. repeat split. right.
    cbn [nltb RNum] in L. destruct (Rle_lt_dec (vdist (sg_point s1 x) (sg_point s2 y)) feps) as [K|K]; [exact K|].
    apply Rltb_iff in K. congruence.
Qed.

Lemma exact_tol_point svd n feps (s1 s2 : segment R) p : correct_svd svd -> seg_wf n s1 -> seg_wf n s2 ->
  exact_segments_tol svd feps s1 s2 = Ok (mkInfo (IDPoint p) IExact) ->
  exists x y, in_unit x = true /\ in_unit y = true /\ p = sg_point s1 x /\
    (near (sg_point s1 x) (sg_point s2 y) \/ vdist (sg_point s1 x) (sg_point s2 y) <= feps) /\
    (forall x' y', vdist (sg_point s1 x) (sg_point s2 y) <= vdist (sg_point s1 x') (sg_point s2 y')) /\
    (n = 2%nat -> sg_point s1 x = sg_point s2 y) /\
    f_eps <= area_sq (sg_dir s1) (sg_dir s2) /\ sg_collinear_tol svd None s1 s2 = Ok false.
Proof.
  intros C H1 H2 E. destruct (collinear_tol_total svd n s1 s2 C H1 H2) as ([|] & Et).
  { rewrite exact_tol_collinear in E by assumption. destruct (overlap_segments s1 s2 false); discriminate. }
  unfold exact_segments_tol in E. rewrite Et in E. cbn [rbind] in E.
  destruct (parallel_segments s1 s2 f_eps) eqn:EP; [discriminate|].
  assert (PA : f_eps <= area_sq (sg_dir s1) (sg_dir s2)).
  { rewrite <- area_dir. destruct (Rle_lt_dec f_eps (area_sq (minus (sg_p2 s1) (sg_p1 s1)) (minus (sg_p2 s2) (sg_p1 s2)))) as [L|L]; [assumption|].
    apply (parallel_iff n s1 s2 _ H1 H2) in L. congruence. }
  assert (NZ : area_sq (sg_dir s1) (sg_dir s2) <> 0) by (pose proof f_eps_R as FE; rewrite FE in PA; lra).
  destruct (sg_coplanar_tol svd None s1 s2) as [[|]|]; cbn [rbind negb] in E; try discriminate.
  destruct (sg_singular s1 || sg_singular s2); [discriminate|].
  assert (Dn : sg_ndim s1 = n) by (destruct H1; assumption).
  rewrite Dn in E. destruct (Nat.eqb_spec n 2) as [->|N2].
  - destruct (solve2 _ _ _) as [(x & y)|] eqn:Sl; [|discriminate]. apply exact_result_inv in E. destruct E as (Ux & Uy & -> & G).
    pose proof (solve2_exact s1 s2 x y H1 H2 Sl) as Q. exists x, y. repeat (split; [assumption || reflexivity|]). split; [|auto].
    intros x' y'. rewrite <- Q, vdist_refl. apply vdist_nonneg.
  - destruct (lstsq2 _ _ _) as (x & y) eqn:Sl. apply exact_result_inv in E. destruct E as (Ux & Uy & -> & G).
    exists x, y. repeat (split; [assumption || reflexivity|]). split; [|split; [congruence|auto]].
    intros x' y'. apply (orthogonal_closest n); try assumption. apply (lstsq2_orthogonal n); assumption.
Qed.

Lemma exact_tol_total svd n feps (s1 s2 : segment R) : correct_svd svd -> seg_wf n s1 -> seg_wf n s2 ->
  exists i, exact_segments_tol svd feps s1 s2 = Ok i /\ info_ok i.
Proof.
  intros C H1 H2. unfold exact_segments_tol.
  destruct (collinear_tol_total svd n s1 s2 C H1 H2) as (b & Et). rewrite Et. cbn [rbind].
  assert (N : info_ok (T := R) not_intersected) by reflexivity.
  destruct b.
  { destruct (overlap_segments s1 s2 false) as [q|]; [|eauto]. exists (mkInfo (IDSegment q) IOverlap). split; [reflexivity|]. exists q. reflexivity. }
  destruct (parallel_segments s1 s2 f_eps); [eauto|].
  destruct (coplanar_tol_total svd n s1 s2 C H1 H2) as ([|] & Ec); rewrite Ec; cbn [rbind negb]; [|eauto].
  destruct (sg_singular s1 || sg_singular s2); [eauto|].
  assert (X : forall x y, exists i, exact_result feps s1 s2 x y = Ok i /\ info_ok i).
  { intros x y. destruct (exact_result feps s1 s2 x y) as [i|e] eqn:K.
    - exists i. split; [reflexivity|]. apply (exact_result_ok _ _ _ _ _ _ K).
    - unfold exact_result in K. destruct (_ && _); [|discriminate]. destruct (_ && _); discriminate. }
  destruct (Nat.eqb _ 2); [destruct (solve2 _ _ _) as [(x & y)|]; eauto|]. destruct (lstsq2 _ _ _) as (x & y). apply X.
Qed.

(** ** The method for two curves *)
Lemma exact_curves_tol_eq svd feps (c1 c2 : curve R) same :
  exact_curves_tol svd feps c1 c2 same =
  do rs <- rseq (map (fun ij => do i <- exact_segments_tol svd feps (seg_at (c_rows c1) (fst ij)) (seg_at (c_rows c2) (snd ij)) ;
                                Ok (pair_inter c1 c2 i ij)) (bbox_pairs c1 c2 same)) ;
  Ok (filter in_bool rs).
Proof.
  unfold exact_curves_tol. set (prs := bbox_pairs c1 c2 same).
  assert (B : forall i j, In (i, j) prs -> (i < c_size c1 - 1 /\ j < c_size c2 - 1)%nat).
  { intros i j H. unfold prs, bbox_pairs in H. destruct (_ || _); [destruct H|].
    apply indices_In in H. tauto. }
  destruct prs as [|p0 prs'] eqn:E; [reflexivity|]. rewrite <- E in *. clear E.
  rewrite !take_segments_ok.
  2,3: apply Forall_forall; intros k Hk; apply in_map_iff in Hk; destruct Hk as ((i & j) & <- & Hk); apply B in Hk; cbn; tauto.
  cbn [rbind]. rewrite !map_map, map2_map. reflexivity.
Qed.

Lemma exact_curves_tol_spec svd n feps (c1 c2 : curve R) same : correct_svd svd ->
  dims n (c_rows c1) -> dims n (c_rows c2) -> (same = true -> c2 = c1) ->
  exists ps l, exact_curves_tol svd feps c1 c2 same = Ok l /\ StronglySorted before ps /\
    Forall2 (fun '(i, j) x =>
      in_seg1 x = SegOf true (Z.of_nat i) (seg_at (c_rows c1) i) /\
      in_seg2 x = SegOf false (Z.of_nat j) (seg_at (c_rows c2) j) /\
      exact_segments_tol svd feps (seg_at (c_rows c1) i) (seg_at (c_rows c2) j) = Ok (in_info x)) ps l /\
    forall i j, In (i, j) ps <->
      (S i < c_size c1)%nat /\ (S j < c_size c2)%nat /\ (same = true -> (i + 2 <= j)%nat) /\
      boxes_meet (nth i (c_rows c1) []) (nth (S i) (c_rows c1) []) (nth j (c_rows c2) []) (nth (S j) (c_rows c2) []) /\
      exists y, exact_segments_tol svd feps (seg_at (c_rows c1) i) (seg_at (c_rows c2) j) = Ok y /\ i_type y <> INone.
Proof.
  intros C D1 D2 Hs.
  set (fi := fun ij : nat * nat =>
    match exact_segments_tol svd feps (seg_at (c_rows c1) (fst ij)) (seg_at (c_rows c2) (snd ij)) with
    | Ok y => y | Raise _ => not_intersected end).
  set (f := fun ij => pair_inter c1 c2 (fi ij) ij).
  assert (HB : forall i j, In (i, j) (bbox_pairs c1 c2 same) <->
     (S i < c_size c1)%nat /\ (S j < c_size c2)%nat /\ (same = true -> (i + 2 <= j)%nat) /\
     boxes_meet (nth i (c_rows c1) []) (nth (S i) (c_rows c1) []) (nth j (c_rows c2) []) (nth (S j) (c_rows c2) [])).
  { intros i j. unfold bbox_pairs.
    replace (if same then c_rows c1 else c_rows c2) with (c_rows c2) by (destruct same; [rewrite Hs by reflexivity|]; reflexivity).
    destruct (Nat.eqb_spec (c_size c1) 0) as [Z1|Z1]; cbn [orb].
    { cbn [In]. split; [tauto|lia]. }
    destruct (Nat.eqb_spec (c_size c2) 0) as [Z2|Z2]; cbn [orb].
    { cbn [In]. split; [tauto|lia]. }
    rewrite indices_In. split.
    - intros (G1 & G2 & G3 & G4). apply (bbox_intersect_iff n) in G3; unfold c_size in *; try assumption; try lia.
      split; [lia|]. split; [lia|]. split; assumption.
    - intros (G1 & G2 & G3 & G4). repeat split; try lia; try assumption.
      apply (bbox_intersect_iff n); unfold c_size in *; try assumption; lia. }
  assert (TOT : forall i j, (S i < c_size c1)%nat -> (S j < c_size c2)%nat ->
     exact_segments_tol svd feps (seg_at (c_rows c1) i) (seg_at (c_rows c2) j) = Ok (fi (i, j))).
  { intros i j Hi Hj. unfold fi. cbn [fst snd].
    destruct (exact_tol_total svd n feps (seg_at (c_rows c1) i) (seg_at (c_rows c2) j) C) as (y & E & _).
    1,2: apply seg_at_wf; assumption. rewrite E. reflexivity. }
  rewrite exact_curves_tol_eq. rewrite (rseq_map_ok _ f).
  2:{ intros (i & j) H. apply HB in H. destruct H as (Hi & Hj & _). cbn [fst snd]. rewrite (TOT i j Hi Hj). reflexivity. }
  cbn [rbind].
  assert (S0 : StronglySorted before (bbox_pairs c1 c2 same)).
  { unfold bbox_pairs. destruct (_ || _); [constructor|]. apply indices_sorted. }
  destruct (filtered_pairs f _ S0) as (ps & Sp & Ef & Ip). exists ps, (map f ps). rewrite Ef.
  split; [reflexivity|]. split; [assumption|]. split.
  - assert (G : forall ij, In ij ps -> In ij (bbox_pairs c1 c2 same)) by (intros ij H; apply Ip in H; tauto).
    clear Ip Ef Sp S0. induction ps as [|(i & j) ps IH]; cbn [map]; constructor.
    + cbn. repeat split. assert (K : In (i, j) (bbox_pairs c1 c2 same)) by (apply G; left; reflexivity).
      apply HB in K. destruct K as (Hi & Hj & _). apply TOT; assumption.
    + apply IH. intros ij H. apply G. right. assumption.
  - intros i j. rewrite Ip, HB.
    assert (IB : in_bool (f (i, j)) = true <-> i_type (fi (i, j)) <> INone).
    { unfold in_bool, f, pair_inter. cbn. destruct (i_type (fi (i, j))); cbn; split; congruence. }
    rewrite IB. split.
    + intros ((Hi & Hj & Hq & Hb) & Ht). repeat (split; [assumption|]). exists (fi (i, j)). split; [apply TOT; assumption|assumption].
    + intros (Hi & Hj & Hq & Hb & y & E & Ht). split; [tauto|]. rewrite TOT in E by assumption. injection E as <-. assumption.
Qed.
