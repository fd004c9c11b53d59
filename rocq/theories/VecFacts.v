(** Real vector algebra on lists. *)
From Coq Require Import ZArith List Bool Arith Lia Reals Lra Psatz.
From Verif Require Import Num Py Numeric Curve Vec Spec.
From Verif Require Import CurveProofs3.
Import ListNotations.
Local Open Scope R_scope.

Ltac rnum := cbn [n0 n1 nadd nsub nmul ndiv nopp nabs nltb nleb neqb nisnan nisinf nsqrt RNum RSqrt] in *.

Lemma map2_length {A B C} (f : A -> B -> C) u v : length (map2 f u v) = Nat.min (length u) (length v).
Proof. revert v. induction u as [|a u IH]; intros [|b v]; cbn; auto. Qed.

Lemma nth_map2 {A B C} (f : A -> B -> C) u v i da db dc :
  length u = length v -> (i < length u)%nat -> nth i (map2 f u v) dc = f (nth i u da) (nth i v db).
Proof.
  revert v i. induction u as [|a u IH]; intros [|b v] i H Hi; cbn in *; try lia.
  destruct i; [reflexivity|]. apply IH; lia.
Qed.

Lemma vadd_length (u v : list R) : length u = length v -> length (vadd u v) = length u.
Proof. intros H. unfold vadd. rewrite map2_length. lia. Qed.
Lemma vsub_length (u v : list R) : length u = length v -> length (vsub u v) = length u.
Proof. intros H. unfold vsub. rewrite map2_length. lia. Qed.
Lemma vscale_length (u : list R) s : length (vscale u s) = length u.
Proof. apply map_length. Qed.
Lemma vopp_length (u : list R) : length (vopp u) = length u.
Proof. apply map_length. Qed.

Lemma nth_vadd (u v : list R) i : length u = length v -> nth i (vadd u v) 0 = nth i u 0 + nth i v 0.
Proof.
  intros H. unfold vadd. destruct (Nat.lt_ge_cases i (length u)).
  - rewrite (nth_map2 _ u v i 0 0) by assumption. reflexivity.
  - rewrite !nth_overflow; try lra; try lia. rewrite map2_length. lia.
Qed.
Lemma nth_vsub (u v : list R) i : length u = length v -> nth i (vsub u v) 0 = nth i u 0 - nth i v 0.
Proof.
  intros H. unfold vsub. destruct (Nat.lt_ge_cases i (length u)).
  - rewrite (nth_map2 _ u v i 0 0) by assumption. reflexivity.
  - rewrite !nth_overflow; try lra; try lia. rewrite map2_length. lia.
Qed.
Lemma nth_vscale (u : list R) s i : nth i (vscale u s) 0 = nth i u 0 * s.
Proof.
  unfold vscale. replace 0 with (0 * s) at 1 by lra.
  exact (map_nth (fun x => x * s) u 0 i).
Qed.
Lemma nth_vopp (u : list R) i : nth i (vopp u) 0 = - nth i u 0.
Proof.
  unfold vopp. replace 0 with (- 0) at 1 by lra.
  exact (map_nth (fun x => - x) u 0 i).
Qed.
Lemma nth_zeros n i : nth i (repeat 0 n) 0 = 0.
Proof. revert i. induction n as [|n IH]; intros [|i]; cbn; auto. Qed.

Lemma vec_ext (u v : list R) : length u = length v -> (forall i, nth i u 0 = nth i v 0) -> u = v.
Proof. intros H E. apply (nth_ext u v 0 0); [assumption|]. intros i _. apply E. Qed.

Ltac vlen := repeat first
  [ rewrite vadd_length | rewrite vsub_length | rewrite vscale_length | rewrite vopp_length
  | rewrite repeat_length ]; first [reflexivity | assumption | symmetry; assumption | congruence | lia | idtac].

(** Prove an identity of vectors coordinate by coordinate. *)
Ltac vnth := repeat first
  [ rewrite nth_vadd by (vlen) | rewrite nth_vsub by (vlen) | rewrite nth_vscale | rewrite nth_vopp
  | rewrite nth_zeros ].
Ltac vext := apply vec_ext; [vlen | intros ?i; vnth; try (ring || lra)].

(** ** Dot product *)

Lemma vdot_cons a b (u v : list R) : vdot (a :: u) (b :: v) = a * b + vdot u v.
Proof. reflexivity. Qed.

Lemma vdot_comm (u v : list R) : vdot u v = vdot v u.
Proof.
  revert v. induction u as [|a u IH]; intros [|b v]; try reflexivity.
  rewrite !vdot_cons, IH. ring.
Qed.
Lemma vdot_add_l (u v w : list R) : length u = length v -> vdot (vadd u v) w = vdot u w + vdot v w.
Proof.
  revert v w. induction u as [|a u IH]; intros [|b v] [|c w] H; try discriminate; try (cbn; ring).
  unfold vadd. cbn [map2]. fold (vadd u v). rewrite !vdot_cons, IH by (cbn in H; lia). rnum. ring.
Qed.
Lemma vdot_sub_l (u v w : list R) : length u = length v -> vdot (vsub u v) w = vdot u w - vdot v w.
Proof.
  revert v w. induction u as [|a u IH]; intros [|b v] [|c w] H; try discriminate; try (cbn; ring).
  unfold vsub. cbn [map2]. fold (vsub u v). rewrite !vdot_cons, IH by (cbn in H; lia). rnum. ring.
Qed.
Lemma vdot_scale_l (u v : list R) s : vdot (vscale u s) v = s * vdot u v.
Proof.
  revert v. induction u as [|a u IH]; intros [|b v]; try (cbn; ring).
  unfold vscale. cbn [map]. fold (vscale u s). rewrite !vdot_cons, IH. rnum. ring.
Qed.
Lemma vdot_opp_l (u v : list R) : vdot (vopp u) v = - vdot u v.
Proof.
  revert v. induction u as [|a u IH]; intros [|b v]; try (cbn; ring).
  unfold vopp. cbn [map]. fold (vopp u). rewrite !vdot_cons, IH. rnum. ring.
Qed.
Lemma vdot_add_r (u v w : list R) : length u = length v -> vdot w (vadd u v) = vdot w u + vdot w v.
Proof. intros H. rewrite vdot_comm, vdot_add_l, (vdot_comm u), (vdot_comm v) by assumption. reflexivity. Qed.
Lemma vdot_sub_r (u v w : list R) : length u = length v -> vdot w (vsub u v) = vdot w u - vdot w v.
Proof. intros H. rewrite vdot_comm, vdot_sub_l, (vdot_comm u), (vdot_comm v) by assumption. reflexivity. Qed.
Lemma vdot_scale_r (u v : list R) s : vdot v (vscale u s) = s * vdot v u.
Proof. rewrite vdot_comm, vdot_scale_l, vdot_comm. reflexivity. Qed.
Lemma vdot_opp_r (u v : list R) : vdot v (vopp u) = - vdot v u.
Proof. rewrite vdot_comm, vdot_opp_l, vdot_comm. reflexivity. Qed.

Lemma vdot_nonneg (u : list R) : 0 <= vdot u u.
Proof. induction u as [|a u IH]; [cbn; lra|]. rewrite vdot_cons. nra. Qed.

Lemma vdot_zero_l n (v : list R) : vdot (repeat 0 n) v = 0.
Proof. revert v. induction n as [|n IH]; intros [|b v]; try (cbn; ring). cbn [repeat]. rewrite vdot_cons, IH. ring. Qed.
Lemma vdot_zero_r n (v : list R) : vdot v (repeat 0 n) = 0.
Proof. rewrite vdot_comm. apply vdot_zero_l. Qed.

Lemma vdot_eq0 (u : list R) : vdot u u = 0 -> u = repeat 0 (length u).
Proof.
  induction u as [|a u IH]; [reflexivity|]. rewrite vdot_cons. intros H.
  pose proof (vdot_nonneg u). cbn [length repeat]. f_equal; [nra|]. apply IH. nra.
Qed.
Lemma vdot_eq0_iff (u : list R) : vdot u u = 0 <-> u = repeat 0 (length u).
Proof. split; [apply vdot_eq0|]. intros H. rewrite H. apply vdot_zero_l. Qed.

Ltac vdot_expand := repeat first
  [ rewrite vdot_add_l by (vlen) | rewrite vdot_add_r by (vlen)
  | rewrite vdot_sub_l by (vlen) | rewrite vdot_sub_r by (vlen)
  | rewrite vdot_scale_l | rewrite vdot_scale_r | rewrite vdot_opp_l | rewrite vdot_opp_r ].

Lemma cauchy_schwarz (u v : list R) : length u = length v -> vdot u v * vdot u v <= vdot u u * vdot v v.
Proof.
  intros H. pose proof (vdot_nonneg u) as Hu. pose proof (vdot_nonneg v) as Hv.
  destruct (Req_dec (vdot v v) 0) as [E|E].
  - rewrite (vdot_eq0 _ E), !vdot_zero_r. lra.
  - set (k := vdot u v / vdot v v).
    pose proof (vdot_nonneg (vsub u (vscale v k))) as P.
    rewrite vdot_sub_l, !vdot_sub_r, !vdot_scale_l, !vdot_scale_r, (vdot_comm v u) in P by vlen.
    assert (K : k * vdot v v = vdot u v) by (unfold k; field; assumption).
    replace (k * (k * vdot v v)) with (k * vdot u v) in P by (rewrite K; reflexivity).
    assert (0 <= vdot u u - k * vdot u v) by lra.
    replace (vdot u v * vdot u v) with (k * vdot u v * vdot v v) by (rewrite <- K at 2; ring).
    apply Rmult_le_compat_r; lra.
Qed.

Lemma vnorm_sq (u : list R) : vnorm u * vnorm u = vdot u u.
Proof. unfold vnorm. rnum. apply sqrt_sqrt, vdot_nonneg. Qed.
Lemma vnorm_nonneg (u : list R) : 0 <= vnorm u.
Proof. unfold vnorm. rnum. apply sqrt_pos. Qed.
Lemma vnorm_eq0 (u : list R) : vnorm u = 0 <-> u = repeat 0 (length u).
Proof.
  rewrite <- vdot_eq0_iff, <- vnorm_sq. split; [intros ->; ring|]. intros H.
  pose proof (vnorm_nonneg u). nra.
Qed.
Lemma vnorm_scale (u : list R) s : vnorm (vscale u s) = Rabs s * vnorm u.
Proof.
  unfold vnorm. rnum. rewrite vdot_scale_l, vdot_scale_r.
  replace (s * (s * vdot u u)) with ((s * s) * vdot u u) by ring.
  rewrite sqrt_mult_alt by (apply Rle_0_sqr). rewrite <- (sqrt_Rsqr_abs s). reflexivity.
Qed.
Lemma vnorm_opp (u : list R) : vnorm (vopp u) = vnorm u.
Proof. unfold vnorm. rnum. f_equal. rewrite vdot_opp_l, vdot_opp_r. ring. Qed.

Lemma vdot_le_norm (u v : list R) : length u = length v -> Rabs (vdot u v) <= vnorm u * vnorm v.
Proof.
  intros H. pose proof (cauchy_schwarz u v H) as CS.
  pose proof (vnorm_nonneg u). pose proof (vnorm_nonneg v).
  apply Rsqr_incr_0_var; [|nra]. rewrite <- Rsqr_abs. unfold Rsqr.
  rewrite <- (vnorm_sq u), <- (vnorm_sq v) in CS. nra.
Qed.

Lemma vnorm_triangle (u v : list R) : length u = length v -> vnorm (vadd u v) <= vnorm u + vnorm v.
Proof.
  intros H. pose proof (vnorm_nonneg u). pose proof (vnorm_nonneg v).
  apply Rsqr_incr_0_var; [|lra]. unfold Rsqr. rewrite vnorm_sq.
  vdot_expand. pose proof (vdot_le_norm u v H) as D. pose proof (Rle_abs (vdot u v)).
  rewrite (vdot_comm v u), <- (vnorm_sq u), <- (vnorm_sq v). nra.
Qed.

(** ** Euclidean distance *)

Lemma vdist_nonneg (u v : list R) : 0 <= vdist u v.
Proof. apply vnorm_nonneg. Qed.
Lemma vdist_sym (u v : list R) : length u = length v -> vdist u v = vdist v u.
Proof.
  intros H. unfold vdist. rewrite <- vnorm_opp. f_equal. vext.
Qed.
Lemma vdist_refl (u : list R) : vdist u u = 0.
Proof. unfold vdist. apply vnorm_eq0. vext. Qed.
Lemma vdist_zero (u v : list R) : length u = length v -> vdist u v = 0 -> u = v.
Proof.
  intros H E. unfold vdist in E. apply vnorm_eq0 in E. apply vec_ext; [assumption|].
  intros i. apply (f_equal (fun w => nth i w 0)) in E. rewrite nth_vsub, nth_zeros in E by assumption. lra.
Qed.
Lemma vdist_triangle (u v w : list R) : length u = length v -> length v = length w ->
  vdist u w <= vdist u v + vdist v w.
Proof.
  intros H1 H2. unfold vdist.
  replace (vsub u w) with (vadd (vsub u v) (vsub v w)) by vext. apply vnorm_triangle. vlen.
Qed.

Lemma sq_gap_vdot (p q : list R) : sq_gap p q = vdot (vsub q p) (vsub q p).
Proof.
  revert q. induction p as [|a p IH]; intros [|b q]; try reflexivity.
  cbn [sq_gap]. rewrite IH. unfold vsub. cbn [map2]. fold (vsub q p). rewrite vdot_cons. reflexivity.
Qed.
Lemma chord_vdist (p q : list R) : length p = length q -> chord p q = vdist p q.
Proof. intros H. rewrite vdist_sym by assumption. unfold chord. rewrite sq_gap_vdot. reflexivity. Qed.

(** ** Lagrange identity *)

(** Sum of the squares of all 2x2 minors of the rows [u] and [v]. *)
Fixpoint wedge_sq (u v : list R) : R :=
  match u, v with
  | a :: u', b :: v' =>
      vdot (vsub (vscale v' a) (vscale u' b)) (vsub (vscale v' a) (vscale u' b)) + wedge_sq u' v'
  | _, _ => 0
  end.

Lemma lagrange (u v : list R) : length u = length v ->
  vdot u u * vdot v v - vdot u v * vdot u v = wedge_sq u v.
Proof.
  revert v. induction u as [|a u IH]; intros [|b v] H; try discriminate; [cbn; ring|].
  cbn [wedge_sq]. rewrite <- IH by (cbn in H; lia). rewrite !vdot_cons.
  assert (H' : length u = length v) by (cbn in H; lia). vdot_expand.
  rewrite (vdot_comm v u). ring.
Qed.
