(** Chords of a smooth curve against its length, and the error of linear interpolation. *)
From Coq Require Import ZArith List Bool Arith Lia Reals Lra Psatz.
From Verif Require Import Num Vec DiffGeom Spec GeomSpec VecFacts GeomProofs DiffGeomProofs2 SampleProofs SampleProofs2.
Import ListNotations.
Local Open Scope R_scope.

(** *** The length of an arc *)

Lemma vdot_deriv u : forall s n (f f1 : nat -> R -> R) x, (forall j, (s <= j < s + n)%nat -> derivable_pt_lim (f j) x (f1 j x)) ->
  derivable_pt_lim (fun x => vdot u (map (fun j => f j x) (seq s n))) x (vdot u (map (fun j => f1 j x) (seq s n))).
Proof.
  induction u as [|a u IH]; intros s n f f1 x H.
  - apply (derivable_pt_lim_ext (fct_cte 0)); [intros z; destruct n; reflexivity|].
    replace (vdot [] (map (fun j => f1 j x) (seq s n))) with 0 by (destruct n; reflexivity). apply derivable_pt_lim_const.
  - destruct n as [|n].
    + apply (derivable_pt_lim_ext (fct_cte 0)); [intros z; reflexivity|].
      replace (vdot (a :: u) (map (fun j => f1 j x) (seq s 0))) with 0 by reflexivity. apply derivable_pt_lim_const.
    + cbn [seq map]. rewrite vdot_cons.
      eapply (derivable_pt_lim_ext (mult_real_fct a (f s) + (fun x => vdot u (map (fun j => f j x) (seq (S s) n))))%F).
      * intros z. rewrite vdot_cons. reflexivity.
      * apply derivable_pt_lim_plus; [apply derivable_pt_lim_scal, H; lia|]. apply IH. intros j Hj. apply H. lia.
Qed.
Lemma vec_deriv n (f f1 : nat -> R -> R) lo hi u : (forall j, (j < n)%nat -> deriv_on lo hi (f j) (f1 j)) ->
  deriv_on lo hi (fun x => vdot u (vec n f x)) (fun x => vdot u (vec n f1 x)).
Proof. intros H x Hx. apply (vdot_deriv u 0 n f f1 x). intros j Hj. apply H; [lia|exact Hx]. Qed.

Lemma vdot_unit_le u w : length u = length w -> vnorm u <= 1 -> vdot u w <= vnorm w.
Proof.
  intros L U. pose proof (vdot_le_norm u w L) as C. pose proof (Rle_abs (vdot u w)). pose proof (vnorm_nonneg w). nra.
Qed.
Lemma unit_dot p : 0 < vnorm p -> vdot (unit p) p = vnorm p.
Proof. intros H. unfold unit. rewrite vdot_scale_l, <- vnorm_sq. field. lra. Qed.
Lemma unit_norm p : 0 < vnorm p -> vnorm (unit p) = 1.
Proof. intros H. unfold unit. rewrite vnorm_scale, Rabs_right; [field; lra|]. left. apply Rinv_0_lt_compat, H. Qed.

Section Arc.
  Variables (n : nat) (lo hi W : R) (f f1 f2 : nat -> R -> R) (s : R -> R).
  Hypothesis D0 : forall j, (j < n)%nat -> deriv_on lo hi (f j) (f1 j).
  Hypothesis Ds : deriv_on lo hi s (fun x => vnorm (vec n f1 x)).
  Let gap x y := vsub (vec n f y) (vec n f x).

  Lemma chord_le x y : lo <= x -> x <= y -> y <= hi -> vnorm (gap x y) <= s y - s x.
  Proof.
    intros Hx Hxy Hy. destruct (Req_dec (vnorm (gap x y)) 0) as [Z|Z].
    - rewrite Z. destruct Hxy as [Hxy|<-]; [|lra].
      destruct (MVT_cor2 s (fun x => vnorm (vec n f1 x)) x y Hxy ltac:(intros c Hc; apply Ds; lra)) as (c & E & _). rewrite E. pose proof (vnorm_nonneg (vec n f1 c)). nra.
    - assert (P : 0 < vnorm (gap x y)) by (pose proof (vnorm_nonneg (gap x y)); lra). set (u := unit (gap x y)).
      assert (Lg : length (gap x y) = n) by (unfold gap; rewrite vsub_length; rewrite !vec_length; reflexivity).
      assert (Lu : length u = n) by (unfold u, unit; rewrite vscale_length; exact Lg).
      destruct Hxy as [Hxy|<-].
      + pose proof (vec_deriv n f f1 lo hi u D0) as Du.
        destruct (MVT_cor2 (s - (fun x => vdot u (vec n f x)))%F (fun z => vnorm (vec n f1 z) - vdot u (vec n f1 z)) x y Hxy) as (c & E & Hc).
        { intros c Hc. apply derivable_pt_lim_minus; [apply Ds|apply Du]; lra. }
        unfold minus_fct in E.
        assert (G : vdot u (vec n f y) - vdot u (vec n f x) = vnorm (gap x y)).
        { rewrite <- (unit_dot (gap x y) P). fold u. unfold gap. rewrite vdot_sub_r by (rewrite ?Lu, !vec_length; reflexivity). reflexivity. }
        pose proof (vdot_unit_le u (vec n f1 c) ltac:(rewrite Lu, vec_length; reflexivity) ltac:(unfold u; rewrite unit_norm by exact P; lra)). nra.
      + exfalso. apply Z. unfold gap. apply vnorm_eq0. apply vec_ext; [rewrite repeat_length; reflexivity|]. intros i. rewrite nth_vsub by reflexivity. rewrite nth_zeros. ring.
  Qed.

  Hypothesis D1 : forall j, (j < n)%nat -> deriv_on lo hi (f1 j) (f2 j).
  Hypothesis BW : forall x, lo <= x <= hi -> vnorm (vec n f2 x) <= W.

  Lemma chord_ge x y : lo <= x -> x <= y -> y <= hi -> s y - s x - W * (y - x) ^ 2 <= vnorm (gap x y).
  Proof.
    intros Hx Hxy Hy. pose proof (vnorm_nonneg (gap x y)) as G0. destruct Hxy as [Hxy|<-]; [|replace (x - x) with 0 by ring; nra].
    assert (W0 : 0 <= W) by (pose proof (BW x ltac:(lra)); pose proof (vnorm_nonneg (vec n f2 x)); lra).
    destruct (MVT_cor2 s (fun x => vnorm (vec n f1 x)) x y Hxy ltac:(intros c Hc; apply Ds; lra)) as (c & E & Hc). rewrite E.
    destruct (Req_dec (vnorm (vec n f1 c)) 0) as [Z|Z].
    - rewrite Z. pose proof (Rmult_le_pos W _ W0 (pow2_ge_0 (y - x))). lra.
    - assert (P : 0 < vnorm (vec n f1 c)) by (pose proof (vnorm_nonneg (vec n f1 c)); lra). set (u := unit (vec n f1 c)).
      assert (Lu : length u = n) by (unfold u, unit; rewrite vscale_length, vec_length; reflexivity).
      assert (Nu : vnorm u = 1) by (apply unit_norm, P).
      pose proof (vec_deriv n f f1 lo hi u D0) as Du. pose proof (vec_deriv n f1 f2 lo hi u D1) as Du1.
      destruct (MVT_cor2 _ _ x y Hxy (fun d (Hd : x <= d <= y) => Du d ltac:(lra))) as (d & Ed & Hd).
      assert (Gg : vdot u (vec n f y) - vdot u (vec n f x) <= vnorm (gap x y)).
      { rewrite <- vdot_sub_r by (rewrite ?Lu, !vec_length; reflexivity). apply vdot_unit_le; [unfold gap; rewrite Lu, vsub_length; rewrite !vec_length; reflexivity|lra]. }
      assert (K : vdot u (vec n f1 c) - W * (y - x) <= vdot u (vec n f1 d)).
      { assert (Q : forall z, lo <= z <= hi -> - W <= vdot u (vec n f2 z) <= W).
        { intros z Hz. pose proof (vdot_le_norm u (vec n f2 z) ltac:(rewrite Lu, vec_length; reflexivity)) as C. rewrite Nu in C.
          apply Rabs_lt_le_inv in C. pose proof (BW z Hz). lra. }
        destruct (Rtotal_order c d) as [L|[<-|L]].
        - destruct (MVT_cor2 _ _ c d L (fun z (Hz : c <= z <= d) => Du1 z ltac:(lra))) as (z & Ez & Hz). specialize (Q z ltac:(lra)). nra.
        - nra.
        - destruct (MVT_cor2 _ _ d c L (fun z (Hz : d <= z <= c) => Du1 z ltac:(lra))) as (z & Ez & Hz). specialize (Q z ltac:(lra)). nra. }
      unfold u in K at 1. rewrite unit_dot in K by exact P. nra.
  Qed.
End Arc.

(** *** Linear interpolation *)
Lemma linear_error lo hi g g1 g2 M x y z : deriv_on lo hi g g1 -> deriv_on lo hi g1 g2 -> bounded_on lo hi g2 M ->
  lo <= x -> x <= z <= y -> y <= hi -> x < y ->
  Rabs (g x + (z - x) / (y - x) * (g y - g x) - g z) <= M * (y - x) ^ 2 / 8.
Proof.
  intros D D1 B Hx Hz Hy Hxy. set (l := (z - x) / (y - x)).
  assert (L : z - x = l * (y - x)) by (unfold l; field; lra). assert (L01 : 0 <= l <= 1).
  { unfold l. split; [apply Rmult_le_pos; [lra|left; apply Rinv_0_lt_compat; lra]|]. apply (Rmult_le_reg_r (y - x)); [lra|]. unfold Rdiv. rewrite Rmult_assoc, Rinv_l by lra. lra. }
  pose proof (taylor2 lo hi g g1 g2 M z x D D1 B ltac:(lra) ltac:(lra)) as T1. pose proof (taylor2 lo hi g g1 g2 M z y D D1 B ltac:(lra) ltac:(lra)) as T2.
  replace (Rabs (x - z)) with (l * (y - x)) in T1 by (rewrite Rabs_left1; lra).
  replace (Rabs (y - z)) with ((1 - l) * (y - x)) in T2 by (rewrite Rabs_right; lra).
  apply Rabs_lt_le_inv in T1, T2. set (t := y - x) in *.
  replace (x - z) with (- (l * t)) in T1 by lra. replace (y - z) with ((1 - l) * t) in T2 by (unfold t in *; lra).
  assert (M0 : 0 <= M) by (pose proof (B x ltac:(lra)); pose proof (Rabs_pos (g2 x)); lra).
  assert (Q : l * (1 - l) <= / 4) by (clear; pose proof (pow2_ge_0 (l - / 2)); nra). assert (T0 : 0 <= M * t ^ 2) by (apply Rmult_le_pos; [exact M0|apply pow2_ge_0]).
  set (A1 := g x - g z - - (l * t) * g1 z) in *. set (A2 := g y - g z - (1 - l) * t * g1 z) in *.
  replace (g x + l * (g y - g x) - g z) with ((1 - l) * A1 + l * A2) by (unfold A1, A2; ring).
  assert (V1 : M * (l * t) ^ 2 / 2 = M * t ^ 2 * (l * l) / 2) by (clear; field). assert (V2 : M * ((1 - l) * t) ^ 2 / 2 = M * t ^ 2 * ((1 - l) * (1 - l)) / 2) by (clear; field).
  rewrite V1 in T1. rewrite V2 in T2.
  set (K := M * t ^ 2) in *.
  assert (U1 : Rabs ((1 - l) * A1) <= (1 - l) * (K * (l * l) / 2)) by (rewrite Rabs_mult, Rabs_right by lra; apply Rmult_le_compat_l; [lra|apply Rabs_le; lra]).
  assert (U2 : Rabs (l * A2) <= l * (K * ((1 - l) * (1 - l)) / 2)) by (rewrite Rabs_mult, Rabs_right by lra; apply Rmult_le_compat_l; [lra|apply Rabs_le; lra]).
  eapply Rle_trans; [apply Rabs_triang|]. assert (K * (l * (1 - l)) <= K * / 4) by (apply Rmult_le_compat_l; lra). nra.
Qed.
