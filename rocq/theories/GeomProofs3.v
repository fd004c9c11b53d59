(** Closest points. *)
From Coq Require Import ZArith List Bool Arith Lia Reals Lra Psatz.
From Verif Require Import Num Py Numeric Curve Vec Geom Spec GeomSpec.
From Verif Require Import ListFacts CurveProofs2 CurveProofs3 VecFacts RankProofs GeomProofs GeomProofs2.
Import ListNotations.
Local Open Scope R_scope.

Lemma f_eps_R : @f_eps R RNum = / 4503599627370496.
Proof. unfold f_eps. cbn [nlit RNum]. lra. Qed.

Lemma vdist_sq (u v : list R) : vdist u v * vdist u v = vdot (vsub u v) (vsub u v).
Proof. apply vnorm_sq. Qed.

(** ** Segment to point *)

(** Squared distance from the point at parameter t. *)
Lemma seg_point_sq n (s : segment R) p t : seg_wf n s -> length p = n ->
  vdist (sg_point s t) p * vdist (sg_point s t) p =
  vdot (vsub p (sg_p1 s)) (vsub p (sg_p1 s)) - 2 * t * vdot (vsub p (sg_p1 s)) (sg_dir s)
  + t * t * vdot (sg_dir s) (sg_dir s).
Proof.
  intros H Hp. pose proof (sg_dir_length n s H) as Ld. pose proof (sg_point_length n s t H) as Lp.
  destruct (H) as [H1 H2]. rewrite vdist_sq.
  replace (vsub (sg_point s t) p) with (vsub (vscale (sg_dir s) t) (vsub p (sg_p1 s))).
  - assert (length (vsub p (sg_p1 s)) = n) by (rewrite vsub_length; congruence).
    set (w := vsub p (sg_p1 s)) in *. set (u := sg_dir s) in *.
    rewrite vdot_sub_l, !vdot_sub_r, !vdot_scale_l, !vdot_scale_r, (vdot_comm u w) by (rewrite ?vscale_length; congruence).
    ring.
  - apply vec_ext.
    + rewrite !vsub_length; rewrite ?vscale_length, ?vsub_length; congruence.
    + intros i. rewrite !nth_vsub by (rewrite ?vscale_length, ?vsub_length; congruence).
      rewrite nth_vscale, (nth_sg_dir n), (nth_sg_point n) by assumption. ring.
Qed.

Lemma isclose_true_R (a b : R) : isclose a b = true -> Rabs (a - b) <= / 100000000 + / 100000 * Rabs b.
Proof. apply isclose_R. Qed.
Lemma isclose_false_R (a b : R) : isclose a b = false -> / 100000000 + / 100000 * Rabs b < Rabs (a - b).
Proof.
  intros H. destruct (Rle_lt_dec (Rabs (a - b)) (/ 100000000 + / 100000 * Rabs b)) as [L|L]; [|assumption].
  apply isclose_R in L. congruence.
Qed.

(** The parameter chosen by segment_to_point, by cases. *)
Lemma segment_to_point_cases (s : segment R) p (c1 := vdot (vsub p (sg_p1 s)) (sg_dir s)) (c2 := vdot (sg_dir s) (sg_dir s)) :
  (c1 <= / 100000000 /\ segment_to_point s p = 0) \/
  (/ 100000000 < c1 /\ c2 - c1 <= / 100000000 + / 100000 * c1 /\ segment_to_point s p = 1) \/
  (/ 100000000 < c1 /\ / 100000000 + / 100000 * c1 < c2 - c1 /\ segment_to_point s p = c1 / c2).
Proof.
  assert (E : segment_to_point s p =
    if (Rltb c1 0) || isclose c1 0 then 0
    else if (Rltb c2 c1) || isclose c2 c1 then 1 else c1 / c2) by reflexivity.
  rewrite E. clear E. generalize c1 c2. clear. intros c1 c2.
  destruct (Rltb c1 0) eqn:E1; cbn [orb].
  { apply Rltb_iff in E1. left. split; [lra|reflexivity]. }
  apply Rltb_false in E1. destruct (isclose c1 0) eqn:E2.
  { apply isclose_zero in E2. rewrite Rabs_right in E2 by lra. left. auto. }
  apply isclose_false_R in E2. rewrite Rminus_0_r, Rabs_R0, Rabs_right in E2 by lra. right.
  destruct (Rltb c2 c1) eqn:E3; cbn [orb].
  { apply Rltb_iff in E3. left. repeat split; lra. }
  apply Rltb_false in E3. destruct (isclose c2 c1) eqn:E4.
  - apply isclose_true_R in E4. rewrite !Rabs_right in E4 by lra. left. repeat split; lra.
  - apply isclose_false_R in E4. rewrite !Rabs_right in E4 by lra. right. repeat split; lra.
Qed.

Lemma segment_to_point_range (s : segment R) p : 0 <= segment_to_point s p <= 1.
Proof.
  destruct (segment_to_point_cases s p) as [[_ ->]|[(_ & _ & ->)|(H1 & H2 & ->)]]; try lra.
  set (c1 := vdot (vsub p (sg_p1 s)) (sg_dir s)) in *. set (c2 := vdot (sg_dir s) (sg_dir s)) in *.
  assert (0 < c2) by lra.
  assert (E : c1 / c2 * c2 = c1) by (field; lra). set (t := c1 / c2) in *. split; nra.
Qed.

Lemma segment_to_point_bound n (s : segment R) p tau : seg_wf n s -> length p = n -> 0 <= tau <= 1 ->
  let D := vdist (sg_point s (segment_to_point s p)) p in
  let d := vdist (sg_point s tau) p in
  let L2 := vdot (sg_dir s) (sg_dir s) in
  D * D <= d * d + 2 / 100000000 + 2 / 100000 * L2 /\
  L2 * (D * D - d * d) <= (/ 100000000 + / 100000 * L2) * (/ 100000000 + / 100000 * L2).
Proof.
  intros H Hp Ht. cbv zeta. rewrite !(seg_point_sq n) by assumption.
  pose proof (segment_to_point_cases s p) as C. cbv zeta in C.
  pose proof (vdot_nonneg (sg_dir s)) as P.
  set (c1 := vdot (vsub p (sg_p1 s)) (sg_dir s)) in *. set (c2 := vdot (sg_dir s) (sg_dir s)) in *.
  set (ww := vdot (vsub p (sg_p1 s)) (vsub p (sg_p1 s))).
  pose proof (Rle_0_sqr (c1 - tau * c2)) as Z. unfold Rsqr in Z.
  generalize dependent c2. generalize dependent c1. intros c1 c2 C P Z.
  destruct C as [[C1 ->]|[(C1 & C2 & ->)|(C1 & C2 & ->)]].
  - split; [nra|].
    assert (X : c2 * (2 * tau * c1 - tau * tau * c2) = c1 * c1 - (c1 - tau * c2) * (c1 - tau * c2)) by ring.
    assert (W : 0 <= (/ 100000000 + / 100000 * c2) * (/ 100000000 + / 100000 * c2) - / 100000000 * / 100000000) by nra.
    destruct (Rle_lt_dec c1 0) as [N|N].
    + assert (Y : 2 * tau * c1 - tau * tau * c2 <= 0) by nra.
      assert (c2 * (2 * tau * c1 - tau * tau * c2) <= 0) by nra. lra.
    + assert (c1 * c1 <= / 100000000 * / 100000000) by nra. lra.
  - assert (X : c2 * (c2 - 2 * c1 + 2 * tau * c1 - tau * tau * c2) = (c2 - c1) * (c2 - c1) - (c1 - tau * c2) * (c1 - tau * c2)) by ring.
    destruct (Rle_lt_dec c1 c2) as [N|N].
    + assert (B : 0 <= c2 - c1 <= / 100000000 + / 100000 * c2) by lra.
      assert (V : c2 - 2 * c1 + 2 * tau * c1 - tau * tau * c2 = (1 - tau) * (2 * (c2 - c1)) - (1 - tau) * (1 - tau) * c2) by ring.
      assert (0 <= (1 - tau) * (1 - tau) * c2) by (repeat apply Rmult_le_pos; lra).
      assert (0 <= tau * (2 * (c2 - c1))) by (repeat apply Rmult_le_pos; lra).
      split; [lra|].
      assert ((c2 - c1) * (c2 - c1) <= (/ 100000000 + / 100000 * c2) * (/ 100000000 + / 100000 * c2))
        by (apply Rmult_le_compat; lra).
      lra.
    + assert (V : c2 - 2 * c1 + 2 * tau * c1 - tau * tau * c2 = - ((1 - tau) * (2 * (c1 - c2)) + (1 - tau) * (1 - tau) * c2)) by ring.
      assert (0 <= (1 - tau) * (1 - tau) * c2) by (repeat apply Rmult_le_pos; lra).
      assert (0 <= (1 - tau) * (2 * (c1 - c2))) by (repeat apply Rmult_le_pos; lra).
      split; [lra|].
      assert (0 <= c2 * ((1 - tau) * (2 * (c1 - c2)) + (1 - tau) * (1 - tau) * c2)) by (apply Rmult_le_pos; lra).
      assert (0 <= (/ 100000000 + / 100000 * c2) * (/ 100000000 + / 100000 * c2)) by (apply Rmult_le_pos; lra).
      rewrite V in X. lra.
  - assert (0 < c2) by lra. assert (E : c1 / c2 * c2 = c1) by (field; lra). set (t := c1 / c2) in *.
    assert (F : t * t * c2 = t * c1) by (rewrite <- E; ring).
    assert (G : (ww - 2 * t * c1 + t * t * c2) - (ww - 2 * tau * c1 + tau * tau * c2) = - ((t - tau) * (t - tau) * c2))
      by (rewrite <- E; ring).
    assert (0 <= (t - tau) * (t - tau)) by apply Rle_0_sqr.
    assert (0 <= (t - tau) * (t - tau) * c2) by (apply Rmult_le_pos; lra).
    assert (0 <= (/ 100000000 + / 100000 * c2) * (/ 100000000 + / 100000 * c2)) by (apply Rmult_le_pos; lra).
    split; [lra|]. rewrite G. assert (0 <= c2 * ((t - tau) * (t - tau) * c2)) by (apply Rmult_le_pos; lra). lra.
Qed.

(** No snapping: exact minimum. *)
Lemma segment_to_point_exact n (s : segment R) p tau : seg_wf n s -> length p = n -> 0 <= tau <= 1 ->
  let c1 := vdot (vsub p (sg_p1 s)) (sg_dir s) in
  let c2 := vdot (sg_dir s) (sg_dir s) in
  (c1 <= 0 \/ / 100000000 < c1) ->
  (c2 <= c1 \/ / 100000000 + / 100000 * c1 < c2 - c1) ->
  vdist (sg_point s (segment_to_point s p)) p <= vdist (sg_point s tau) p.
Proof.
  intros H Hp Ht c1 c2 N1 N2. apply Rsqr_incr_0_var; [|apply vdist_nonneg]. unfold Rsqr.
  rewrite !(seg_point_sq n) by assumption.
  pose proof (segment_to_point_cases s p) as C. cbv zeta in C. fold c1 c2 in C. fold c1 c2.
  pose proof (vdot_nonneg (sg_dir s)) as P. fold c2 in P.
  set (ww := vdot (vsub p (sg_p1 s)) (vsub p (sg_p1 s))).
  destruct C as [[C1 ->]|[(C1 & C2 & ->)|(C1 & C2 & ->)]].
  - assert (c1 <= 0) by lra. assert (0 <= tau * - c1) by (apply Rmult_le_pos; lra).
    assert (0 <= tau * tau * c2) by (repeat apply Rmult_le_pos; lra). lra.
  - assert (c2 <= c1) by lra.
    assert (0 <= (1 - tau) * (1 - tau) * c2) by (repeat apply Rmult_le_pos; lra).
    assert (0 <= (1 - tau) * (2 * (c1 - c2))) by (repeat apply Rmult_le_pos; lra). lra.
  - assert (0 < c2) by lra. assert (E : c1 / c2 * c2 = c1) by (field; lra). set (t := c1 / c2) in *.
    assert (G : (ww - 2 * t * c1 + t * t * c2) - (ww - 2 * tau * c1 + tau * tau * c2) = - ((t - tau) * (t - tau) * c2))
      by (rewrite <- E; ring).
    assert (0 <= (t - tau) * (t - tau)) by apply Rle_0_sqr.
    assert (0 <= (t - tau) * (t - tau) * c2) by (apply Rmult_le_pos; lra). lra.
Qed.

(** ** Segment to segment *)

(** Numerators and denominators before the final divisions:
    /repo/skcurve/_geomalg.py:377-421. *)
Definition raw_params (a b c d e tol : R) : R * R * (R * R) :=
  let dd := a * c - b * b in
  let '(sn, sd, tn, td) :=
    if Rltb dd tol then (0, 1, e, c)
    else
      let sn := b * e - c * d in
      let tn := a * e - b * d in
      if Rltb sn 0 then (0, dd, e, c)
      else if Rltb dd sn then (dd, dd, e + b, c)
      else (sn, dd, tn, dd) in
  if Rltb tn 0 then
    if Rltb (- d) 0 then (0, sd, (0, td))
    else if Rltb a (- d) then (sd, sd, (0, td))
    else (- d, a, (0, td))
  else if Rltb td tn then
    if Rltb (- d + b) 0 then (0, sd, (td, td))
    else if Rltb a (- d + b) then (sd, sd, (td, td))
    else (- d + b, a, (td, td))
  else (sn, sd, (tn, td)).

Definition snap (tol n d : R) : R := if Rltb (Rabs n) tol then 0 else n / d.

Lemma closest_params_raw a b c d e tol :
  closest_params a b c d e tol =
  let '(sn, sd, (tn, td)) := raw_params a b c d e tol in (snap tol sn sd, snap tol tn td).
Proof.
  unfold closest_params, raw_params, snap. rnum.
  repeat match goal with |- context [if Rltb ?x ?y then _ else _] => destruct (Rltb x y) end; reflexivity.
Qed.

Ltac dec_if := match goal with
  | |- context [if Rltb ?x ?y then _ else _] =>
      let E := fresh "E" in destruct (Rltb x y) eqn:E; [apply Rltb_iff in E|apply Rltb_false in E]
  end.

Lemma raw_range a b c d e tol : 0 < tol -> 0 <= a -> 0 <= c -> b * b <= a * c ->
  let '(sn, sd, (tn, td)) := raw_params a b c d e tol in 0 <= sn <= sd /\ 0 <= tn <= td.
Proof.
  intros Ht Ha Hc Hb. unfold raw_params.
  repeat dec_if; lra.
Qed.

Lemma snap_range tol n d : 0 < tol -> 0 <= n <= d -> 0 <= snap tol n d <= 1.
Proof.
  intros Ht H. unfold snap. dec_if; [lra|]. rewrite Rabs_right in E by lra.
  assert (0 < d) by lra. assert (K : n / d * d = n) by (field; lra). set (q := n / d) in *. split; nra.
Qed.

(** First order optimality of (s0, t0) for the squared distance
    ww + 2 d s - 2 e t + a s^2 - 2 b s t + c t^2 on the unit square. *)
Definition kkt (a b c d e s0 t0 : R) : Prop :=
  (forall s, 0 <= s <= 1 -> 0 <= (s - s0) * (d + a * s0 - b * t0)) /\
  (forall t, 0 <= t <= 1 -> 0 <= (t - t0) * (c * t0 - b * s0 - e)).

Lemma kkt_min a b c d e s0 t0 s t : 0 <= a -> 0 <= c -> b * b <= a * c ->
  kkt a b c d e s0 t0 -> 0 <= s <= 1 -> 0 <= t <= 1 ->
  2 * d * s0 - 2 * e * t0 + a * s0 * s0 - 2 * b * s0 * t0 + c * t0 * t0 <=
  2 * d * s - 2 * e * t + a * s * s - 2 * b * s * t + c * t * t.
Proof.
  intros Ha Hc Hb [K1 K2] Hs Ht. specialize (K1 s Hs). specialize (K2 t Ht).
  set (x := s - s0) in *. set (y := t - t0) in *.
  replace s with (s0 + x) by (unfold x; ring). replace t with (t0 + y) by (unfold y; ring).
  assert (Q : 0 <= a * x * x - 2 * b * x * y + c * y * y).
  { destruct (Req_dec a 0) as [Ea|Na].
    - assert (b = 0) by nra. subst. nra.
    - assert (0 < a) by lra. apply (Rmult_le_reg_l a); [assumption|].
      replace (a * (a * x * x - 2 * b * x * y + c * y * y))
        with ((a * x - b * y) * (a * x - b * y) + (a * c - b * b) * (y * y)) by ring.
      pose proof (Rle_0_sqr (a * x - b * y)) as S1. pose proof (Rle_0_sqr y) as S2. unfold Rsqr in *.
      assert (0 <= (a * c - b * b) * (y * y)) by (apply Rmult_le_pos; lra). lra. }
  lra.
Qed.

Lemma kkt_intro a b c d e s0 t0 :
  0 <= s0 <= 1 -> 0 <= t0 <= 1 ->
  (s0 < 1 -> 0 <= d + a * s0 - b * t0) -> (0 < s0 -> d + a * s0 - b * t0 <= 0) ->
  (t0 < 1 -> 0 <= c * t0 - b * s0 - e) -> (0 < t0 -> c * t0 - b * s0 - e <= 0) ->
  kkt a b c d e s0 t0.
Proof.
  intros Hs Ht S1 S2 T1 T2. split.
  - intros s H. destruct (Rtotal_order s s0) as [L|[->|L]]; [|nra|].
    + specialize (S2 ltac:(lra)). nra.
    + specialize (S1 ltac:(lra)). nra.
  - intros t H. destruct (Rtotal_order t t0) as [L|[->|L]]; [|nra|].
    + specialize (T2 ltac:(lra)). nra.
    + specialize (T1 ltac:(lra)). nra.
Qed.

Lemma div_mul x y : y <> 0 -> x / y * y = x.
Proof. intros H. field. assumption. Qed.

(** Sign facts used in the corner cases. *)
Lemma corner a b c f g : 0 < a -> 0 < c -> 0 < a * c - b * b -> 0 < g ->
  a * f <= b * g -> c * g <= b * f -> f <= 0.
Proof.
  intros Ha Hc HD Hg H1 H2. destruct (Rle_lt_dec f 0) as [L|L]; [assumption|exfalso].
  assert (0 < c * g) by (apply Rmult_lt_0_compat; lra).
  assert (0 < b) by nra.
  assert (c * (a * f) <= c * (b * g)) by (apply Rmult_le_compat_l; lra).
  assert (b * (c * g) <= b * (b * f)) by (apply Rmult_le_compat_l; lra).
  assert (0 < (a * c - b * b) * f) by (apply Rmult_lt_0_compat; lra). lra.
Qed.

Ltac quot q E R := match goal with |- kkt _ _ _ _ _ ?s ?t =>
  match s with ?x / ?y => idtac | _ => match t with ?x / ?y => idtac end end end;
  match goal with |- context [?x / ?y] =>
  let H := fresh in assert (H : 0 < y) by lra;
  assert (R : 0 <= x / y <= 1)
   by (split; [apply Rmult_le_pos; [lra|left; apply Rinv_0_lt_compat; assumption]
              |apply (Rmult_le_reg_r y); [assumption|]; rewrite (div_mul x y) by lra; lra]);
  pose proof (div_mul x y (Rgt_not_eq _ _ H)) as E; clear H;
  set (q := x / y) in * end.

(** k x > 0 is impossible when 0 < k and k x <= 0. *)
Lemma le0_by k x : 0 < k -> k * x <= 0 -> x <= 0.
Proof. intros H1 H2. destruct (Rle_lt_dec x 0) as [L|L]; [assumption|]. pose proof (Rmult_lt_0_compat k x H1 L). lra. Qed.
Lemma ge0_by k x : 0 < k -> 0 <= k * x -> 0 <= x.
Proof. intros H1 H2. destruct (Rle_lt_dec 0 x) as [L|L]; [assumption|]. pose proof (Rmult_lt_0_compat k (- x) H1 ltac:(lra)). lra. Qed.

Ltac kk := apply kkt_intro; try lra; intros.

(** Clearly non-parallel directions. *)
Lemma raw_kkt_skew a b c d e tol : 0 < tol -> 0 <= a -> 0 <= c -> tol <= a * c - b * b ->
  let '(sn, sd, (tn, td)) := raw_params a b c d e tol in kkt a b c d e (sn / sd) (tn / td).
Proof.
  intros Htol Ha Hc HD.
  assert (Pa : 0 < a) by nra. assert (Pc : 0 < c) by nra.
  assert (Z : forall x, 0 / x = 0) by (intros; unfold Rdiv; ring).
  assert (O : forall x, 0 < x -> x / x = 1) by (intros; field; lra).
  unfold raw_params. set (D := a * c - b * b) in *.
  assert (PD : 0 < D) by lra. assert (DE : D = a * c - b * b) by reflexivity. clearbody D.
  dec_if; [lra|].
  repeat dec_if; rewrite ?Z, ?O by assumption; clear Z O.
  - kk.
  - (* d < - a *)
    assert (b + e <= 0); [|kk].
    destruct (Rle_lt_dec b 0) as [L|L]; [lra|]. apply (le0_by b); [assumption|].
    assert (c * d <= c * - a) by (apply Rmult_le_compat_l; lra). lra.
  - quot s0 Es Rs.
    assert (b * s0 + e <= 0); [|assert (d + a * s0 = 0) by lra; kk].
    destruct (Rle_lt_dec b 0) as [L|L].
    + assert (0 <= - b * s0) by (apply Rmult_le_pos; lra). lra.
    + apply (le0_by b); [assumption|].
      assert (0 <= D * s0) by (apply Rmult_le_pos; lra).
      assert (X : d = - (s0 * a)) by lra. rewrite X, DE in *. lra.
  - kk.
  - assert (c - b - e <= 0); [|kk].
    destruct (Rle_lt_dec 0 b) as [L|L]; [lra|]. apply (le0_by (- b)); [lra|].
    assert (c * d <= c * (b - a)) by (apply Rmult_le_compat_l; lra). lra.
  - quot s0 Es Rs.
    assert (c - b * s0 - e <= 0); [|assert (d + a * s0 - b = 0) by lra; kk].
    destruct (Rle_lt_dec 0 b) as [L|L].
    + assert (0 <= b * s0) by (apply Rmult_le_pos; lra). lra.
    + apply (le0_by (- b)); [lra|].
      assert (0 <= D * s0) by (apply Rmult_le_pos; lra).
      assert (X : d = b - s0 * a) by lra. rewrite X, DE in *. lra.
  - quot t0 Et Rt.
    assert (0 <= d - b * t0); [|kk].
    apply (ge0_by c); [assumption|]. rewrite <- Et in E0. lra.
  - assert (e <= 0); [|kk].
    destruct (Rle_lt_dec e 0) as [L|L]; [assumption|exfalso].
    assert (0 <= - b * e) by (apply Rmult_le_pos; lra).
    assert (0 <= c * d) by (apply Rmult_le_pos; lra). lra.
  - kk.
  - quot s0 Es Rs.
    assert (b * s0 + e <= 0); [|assert (d + a * s0 = 0) by lra; kk].
    destruct (Rle_lt_dec 0 b) as [L|L].
    + assert (0 <= b * (1 - s0)) by (apply Rmult_le_pos; lra). lra.
    + apply (le0_by (- b)); [lra|].
      assert (0 <= D * (1 - s0)) by (apply Rmult_le_pos; lra).
      assert (X : d = - (s0 * a)) by lra. rewrite X, DE in *. lra.
  - assert (c - e <= 0); [|kk].
    destruct (Rle_lt_dec b 0) as [L|L]; [lra|]. apply (le0_by b); [assumption|].
    assert (c * b <= c * d) by (apply Rmult_le_compat_l; lra). lra.
  - kk.
  - quot s0 Es Rs.
    assert (c - b * s0 - e <= 0); [|assert (d + a * s0 - b = 0) by lra; kk].
    destruct (Rle_lt_dec b 0) as [L|L].
    + assert (0 <= - b * (1 - s0)) by (apply Rmult_le_pos; lra). lra.
    + apply (le0_by b); [lra|].
      assert (0 <= D * (1 - s0)) by (apply Rmult_le_pos; lra).
      assert (X : d = b - s0 * a) by lra. rewrite X, DE in *. lra.
  - quot t0 Et Rt.
    assert (d + a - b * t0 <= 0); [|kk].
    apply (le0_by c); [assumption|]. assert (X : e = t0 * c - b) by lra. rewrite X, DE in *. lra.
  - assert (e <= 0); [|kk]. apply (corner a b c e d); lra.
  - assert (b + e <= 0); [|kk]. apply (corner a (- b) c (b + e) (- a - d)); lra.
  - quot s0 Es Rs.
    assert (b * s0 + e <= 0); [|assert (d + a * s0 = 0) by lra; kk].
    apply (le0_by a); [assumption|]. assert (X : d = - (s0 * a)) by lra. rewrite X in *. lra.
  - assert (c - e <= 0); [|kk]. apply (corner a (- b) c (c - e) (d - b)); lra.
  - assert (c - b - e <= 0); [|kk]. apply (corner a b c (c - b - e) (b - a - d)); lra.
  - quot s0 Es Rs.
    assert (c - b * s0 - e <= 0); [|assert (d + a * s0 - b = 0) by lra; kk].
    apply (le0_by a); [assumption|]. assert (X : d = b - s0 * a) by lra. rewrite X, DE in *. lra.
  - quot s0 Es Rs. quot t0 Et Rt.
    assert (d + a * s0 - b * t0 = 0).
    { apply (Rmult_eq_reg_l D); [|lra].
      replace (D * (d + a * s0 - b * t0)) with (D * d + a * (s0 * D) - b * (t0 * D)) by ring.
      rewrite Es, Et, DE. ring. }
    assert (c * t0 - b * s0 - e = 0).
    { apply (Rmult_eq_reg_l D); [|lra].
      replace (D * (c * t0 - b * s0 - e)) with (c * (t0 * D) - b * (s0 * D) - e * D) by ring.
      rewrite Es, Et, DE. ring. }
    kk.
Qed.

(** Exactly parallel directions, second segment not degenerate. *)
Lemma raw_kkt_parallel a b c d e tol : 0 < tol -> 0 <= a -> 0 < c -> a * c = b * b -> d * c = b * e ->
  let '(sn, sd, (tn, td)) := raw_params a b c d e tol in kkt a b c d e (sn / sd) (tn / td).
Proof.
  intros Htol Ha Hc HD HE.
  assert (Z : forall x, 0 / x = 0) by (intros; unfold Rdiv; ring).
  assert (O : forall x, 0 < x -> x / x = 1) by (intros; field; lra).
  unfold raw_params.
  dec_if; [|lra]. clear E.
  assert (A0 : a = 0 -> b = 0) by (intros ->; nra).
  assert (D0 : a = 0 -> d = 0) by (intros Q; pose proof (A0 Q) as B; rewrite B in HE; nra).
  repeat dec_if; rewrite ?Z, ?O by lra.
  - kk.
  - assert (b + e <= 0); [|kk].
    destruct (Rle_lt_dec b 0) as [L|L]; [lra|]. apply (le0_by b); [assumption|].
    assert (c * d <= c * - a) by (apply Rmult_le_compat_l; lra). lra.
  - destruct (Req_dec a 0) as [Q|Q].
    { pose proof (A0 Q). pose proof (D0 Q). subst. rewrite Ropp_0, Z. kk. }
    quot s0 Es Rs.
    assert (b * s0 + e <= 0); [|assert (d + a * s0 = 0) by lra; kk].
    destruct (Rle_lt_dec b 0) as [L|L].
    + assert (0 <= - b * s0) by (apply Rmult_le_pos; lra). lra.
    + apply (le0_by b); [assumption|].
      assert (X : d = - (s0 * a)) by lra. rewrite X in *.
      replace (b * (b * s0 + e)) with (b * b * s0 + b * e) by ring. rewrite <- HD, <- HE. lra.
  - kk.
  - assert (c - b - e <= 0); [|kk].
    destruct (Rle_lt_dec 0 b) as [L|L]; [lra|]. apply (le0_by (- b)); [lra|].
    assert (c * d <= c * (b - a)) by (apply Rmult_le_compat_l; lra). lra.
  - destruct (Req_dec a 0) as [Q|Q].
    { pose proof (A0 Q). pose proof (D0 Q). subst. rewrite Ropp_0, Rplus_0_l, Z. kk. }
    quot s0 Es Rs.
    assert (c - b * s0 - e <= 0); [|assert (d + a * s0 - b = 0) by lra; kk].
    destruct (Rle_lt_dec 0 b) as [L|L].
    + assert (0 <= b * s0) by (apply Rmult_le_pos; lra). lra.
    + apply (le0_by (- b)); [lra|].
      assert (X : d = b - s0 * a) by lra. rewrite X in *.
      replace (- b * (c - b * s0 - e)) with (- b * c + b * b * s0 + b * e) by ring. rewrite <- HD, <- HE. lra.
  - quot t0 Et Rt.
    assert (d - b * t0 = 0).
    { apply (Rmult_eq_reg_l c); [|lra]. rewrite Rmult_0_r.
      replace (c * (d - b * t0)) with (d * c - b * (t0 * c)) by ring. rewrite Et. lra. }
    kk.
Qed.

(** How far snapping can move a parameter: nowhere, or to 0 from a value
    whose numerator was below tol. *)
Lemma snap_cases tol n d : 0 < tol -> 0 <= n <= d -> snap tol n d = n / d \/ (snap tol n d = 0 /\ n < tol).
Proof.
  intros Ht H. unfold snap. dec_if; [|left; reflexivity].
  rewrite Rabs_right in E by lra. right. auto.
Qed.

(** Shape of the denominators. *)
Lemma raw_den a b c d e tol : 0 < tol <= 1 ->
  let '(sn, sd, (tn, td)) := raw_params a b c d e tol in
  let D := a * c - b * b in
  ((sd = 1 /\ (sn = 0 \/ sn = 1)) \/ sd = a \/ (sd = D /\ tol <= D)) /\
  (td = c \/ (td = D /\ tol <= D)).
Proof.
  intros Ht. unfold raw_params. repeat dec_if; cbv zeta; split; lra || (try tauto); lra.
Qed.

(** Squared distance between points of two segments. *)
Lemma seg_seg_sq n (s1 s2 : segment R) s t : seg_wf n s1 -> seg_wf n s2 ->
  let u := sg_dir s1 in let v := sg_dir s2 in let w := vsub (sg_p1 s1) (sg_p1 s2) in
  vdist (sg_point s1 s) (sg_point s2 t) * vdist (sg_point s1 s) (sg_point s2 t) =
  vdot w w + (2 * vdot u w * s - 2 * vdot v w * t + vdot u u * s * s - 2 * vdot u v * s * t + vdot v v * t * t).
Proof.
  intros H1 H2 u v w. pose proof (sg_dir_length n s1 H1) as L1. pose proof (sg_dir_length n s2 H2) as L2.
  pose proof (sg_point_length n s1 s H1) as P1. pose proof (sg_point_length n s2 t H2) as P2.
  rewrite vdist_sq.
  replace (vsub (sg_point s1 s) (sg_point s2 t)) with (vadd w (vsub (vscale u s) (vscale v t))).
  - assert (Lw : length w = n) by (unfold w; rewrite vsub_length; destruct H1, H2; congruence).
    fold u in L1. fold v in L2.
    rewrite vdot_add_l, !vdot_add_r, !vdot_sub_l, !vdot_sub_r, !vdot_scale_l, !vdot_scale_r
      by (rewrite ?vsub_length; rewrite ?vscale_length; congruence).
    rewrite (vdot_comm w u), (vdot_comm w v), (vdot_comm v u). ring.
  - destruct (H1) as [A1 A2]. destruct (H2) as [B1 B2]. fold u in L1. fold v in L2.
    assert (Lw : length w = n) by (unfold w; rewrite vsub_length; congruence).
    assert (Ls : length (vsub (vscale u s) (vscale v t)) = n) by (rewrite vsub_length; rewrite ?vscale_length; congruence).
    apply vec_ext; [rewrite vadd_length, vsub_length; congruence|].
    intros i. rewrite nth_vadd, !nth_vsub by (rewrite ?vscale_length; congruence). unfold w.
    rewrite nth_vsub, !nth_vscale, !(nth_sg_point n) by congruence || assumption.
    unfold u, v. rewrite !(nth_sg_dir n) by assumption. ring.
Qed.

(** With parallel directions, d c = b e. *)
Lemma parallel_de (u v w : list R) : length u = length v -> length u = length w ->
  vdot v v <> 0 -> vdot u u * vdot v v = vdot u v * vdot u v ->
  vdot u w * vdot v v = vdot u v * vdot v w.
Proof.
  intros L1 L2 Hc H.
  set (z := vsub (vscale u (vdot v v)) (vscale v (vdot u v))).
  assert (Lz : length z = length u) by (unfold z; rewrite vsub_length; rewrite ?vscale_length; congruence).
  assert (Z0 : vdot z z = 0).
  { unfold z. rewrite vdot_sub_l, !vdot_sub_r, !vdot_scale_l, !vdot_scale_r
      by (rewrite ?vscale_length; congruence). rewrite (vdot_comm v u).
    set (a := vdot u u) in *. set (b := vdot u v) in *. set (c := vdot v v) in *.
    transitivity (c * (a * c - b * b)); [ring|]. rewrite H. ring. }
  pose proof (cauchy_schwarz z w ltac:(congruence)) as CS. rewrite Z0 in CS.
  assert (vdot z w = 0) by nra.
  unfold z in H0. rewrite vdot_sub_l, !vdot_scale_l in H0 by (rewrite ?vscale_length; congruence). lra.
Qed.

(** [x] is where the code moved the parameter [x0]: nowhere, or to 0 from a
    position whose distance to the start is at most sqrt tol, or at most
    tol/area of the segment. *)
Definition moved (tol area len x0 x : R) : Prop :=
  x = x0 \/ (x = 0 /\ ((x0 * len) * (x0 * len) <= tol \/ (tol <= area /\ x0 * area <= tol))).

Lemma snap_moved tol n d a len area : 0 < tol <= 1 -> 0 <= n <= d -> a = len * len ->
  ((d = 1 /\ (n = 0 \/ n = 1)) \/ d = a \/ (d = area /\ tol <= area)) ->
  moved tol area len (n / d) (snap tol n d).
Proof.
  intros Ht Hn Ha HD. destruct (snap_cases tol n d ltac:(lra) Hn) as [E|[E L]]; [left; assumption|].
  destruct HD as [[-> [->| ->]]|[->|[-> HD]]].
  - left. rewrite E. unfold Rdiv. ring.
  - lra.
  - right. split; [assumption|]. left.
    destruct (Req_dec a 0) as [Z|Z].
    + assert (n = 0) by lra. subst n. unfold Rdiv. rewrite Rmult_0_l. lra.
    + assert (P : 0 < a) by lra.
      pose proof (div_mul n a Z) as Q. set (q := n / a) in *.
      assert (q <= 1) by (apply (Rmult_le_reg_r a); lra).
      assert (0 <= q) by (apply (Rmult_le_reg_r a); lra).
      replace (q * len * (q * len)) with (q * (q * (len * len))) by ring. rewrite <- Ha, Q.
      assert (0 <= (1 - q) * n) by (apply Rmult_le_pos; lra). lra.
  - right. split; [assumption|]. right. split; [assumption|]. rewrite div_mul by lra. lra.
Qed.

Lemma quot_range n d : 0 <= n <= d -> (d = 0 -> n / d = 0) -> 0 <= n / d <= 1.
Proof.
  intros H Z. destruct (Req_dec d 0) as [E|E]; [rewrite (Z E); lra|].
  pose proof (div_mul n d E). split; apply (Rmult_le_reg_r d); lra.
Qed.

Lemma segment_to_segment_range n (s1 s2 : segment R) tol : seg_wf n s1 -> seg_wf n s2 -> 0 < tol ->
  let '(t1, t2) := segment_to_segment s1 s2 tol in 0 <= t1 <= 1 /\ 0 <= t2 <= 1.
Proof.
  intros H1 H2 Ht. unfold segment_to_segment. rewrite closest_params_raw.
  pose proof (sg_dir_length n s1 H1) as L1. pose proof (sg_dir_length n s2 H2) as L2.
  pose proof (raw_range (vdot (sg_dir s1) (sg_dir s1)) (vdot (sg_dir s1) (sg_dir s2)) (vdot (sg_dir s2) (sg_dir s2))
    (vdot (sg_dir s1) (vsub (sg_p1 s1) (sg_p1 s2))) (vdot (sg_dir s2) (vsub (sg_p1 s1) (sg_p1 s2))) tol Ht
    (vdot_nonneg _) (vdot_nonneg _) ltac:(apply cauchy_schwarz; congruence)) as Rg.
  destruct (raw_params _ _ _ _ _ _) as [[sn sd] [tn td]]. destruct Rg as [R1 R2].
  split; apply snap_range; assumption.
Qed.

Lemma segment_to_segment_near n (s1 s2 : segment R) tol : seg_wf n s1 -> seg_wf n s2 -> 0 < tol <= 1 ->
  sg_p1 s2 <> sg_p2 s2 ->
  let area := area_sq (sg_dir s1) (sg_dir s2) in
  area = 0 \/ tol <= area ->
  let '(t1, t2) := segment_to_segment s1 s2 tol in
  exists x0 y0, 0 <= x0 <= 1 /\ 0 <= y0 <= 1 /\
    (forall x y, 0 <= x <= 1 -> 0 <= y <= 1 ->
       vdist (sg_point s1 x0) (sg_point s2 y0) <= vdist (sg_point s1 x) (sg_point s2 y)) /\
    moved tol area (vnorm (sg_dir s1)) x0 t1 /\ moved tol area (vnorm (sg_dir s2)) y0 t2.
Proof.
  intros H1 H2 Ht Hne area HA.
  pose proof (sg_dir_length n s1 H1) as L1. pose proof (sg_dir_length n s2 H2) as L2.
  assert (AE : area = vdot (sg_dir s1) (sg_dir s1) * vdot (sg_dir s2) (sg_dir s2)
                      - vdot (sg_dir s1) (sg_dir s2) * vdot (sg_dir s1) (sg_dir s2)).
  { unfold area. rewrite area_sq_wedge by congruence. rewrite (lagrange (sg_dir s1) (sg_dir s2)) by congruence. reflexivity. }
  pose proof (dir_pos n s2 H2 Hne) as Pc.
  set (w := vsub (sg_p1 s1) (sg_p1 s2)) in *.
  assert (Lw : length w = n) by (unfold w; rewrite vsub_length; destruct H1, H2; congruence).
  assert (PD : area = 0 -> vdot (sg_dir s1) w * vdot (sg_dir s2) (sg_dir s2) = vdot (sg_dir s1) (sg_dir s2) * vdot (sg_dir s2) w).
  { intros Z. apply parallel_de; [congruence|congruence|lra|lra]. }
  assert (SQ : forall x y, _) by (intros x y; exact (seg_seg_sq n s1 s2 x y H1 H2)).
  cbv zeta in SQ. fold w in SQ.
  assert (CS : vdot (sg_dir s1) (sg_dir s2) * vdot (sg_dir s1) (sg_dir s2) <= vdot (sg_dir s1) (sg_dir s1) * vdot (sg_dir s2) (sg_dir s2))
    by (apply cauchy_schwarz; congruence).
  unfold segment_to_segment. fold w. rewrite closest_params_raw.
  pose proof (vnorm_sq (sg_dir s1)) as Nu. pose proof (vnorm_sq (sg_dir s2)) as Nv.
  pose proof (vdot_nonneg (sg_dir s1)) as Pa.
  set (a := vdot (sg_dir s1) (sg_dir s1)) in *. set (b := vdot (sg_dir s1) (sg_dir s2)) in *.
  set (c := vdot (sg_dir s2) (sg_dir s2)) in *.
  set (d := vdot (sg_dir s1) w) in *. set (e := vdot (sg_dir s2) w) in *.
  pose proof (raw_range a b c d e tol ltac:(lra) Pa ltac:(lra) CS) as Rg.
  pose proof (raw_den a b c d e tol Ht) as Dn.
  assert (K : let '(sn, sd, (tn, td)) := raw_params a b c d e tol in kkt a b c d e (sn / sd) (tn / td)).
  { destruct HA as [HA|HA].
    - apply raw_kkt_parallel; [lra|lra|lra|lra|exact (PD HA)].
    - apply raw_kkt_skew; lra. }
  destruct (raw_params a b c d e tol) as [[sn sd] [tn td]]. destruct Rg as [R1 R2]. cbv zeta in Dn. destruct Dn as [D1 D2].
  exists (sn / sd), (tn / td).
  assert (X0 : 0 <= sn / sd <= 1) by (apply quot_range; [assumption|intros Z; replace sn with 0 by lra; unfold Rdiv; ring]).
  assert (Y0 : 0 <= tn / td <= 1) by (apply quot_range; [assumption|intros Z; replace tn with 0 by lra; unfold Rdiv; ring]).
  split; [assumption|]. split; [assumption|]. split; [|split].
  - intros x y Hx Hy. apply Rsqr_incr_0_var; [|apply vdist_nonneg]. unfold Rsqr. rewrite !SQ.
    apply Rplus_le_compat_l. apply kkt_min; assumption || lra.
  - apply (snap_moved tol sn sd a); [assumption|assumption|lra|]. rewrite AE. tauto.
  - apply (snap_moved tol tn td c); [assumption|assumption|lra|]. rewrite AE. tauto.
Qed.

(** Moving a parameter moves the point by |dx| |u|. *)
Lemma sg_point_move n (s : segment R) x y : seg_wf n s ->
  vdist (sg_point s x) (sg_point s y) = Rabs (x - y) * vnorm (sg_dir s).
Proof.
  intros H. unfold vdist. rewrite <- vnorm_scale. f_equal. pose proof (sg_dir_length n s H) as Ld.
  apply vec_ext.
  - rewrite vsub_length, vscale_length; rewrite !(sg_point_length n) by assumption; congruence.
  - intros i. rewrite nth_vsub by (rewrite !(sg_point_length n) by assumption; reflexivity).
    rewrite nth_vscale, !(nth_sg_point n), (nth_sg_dir n) by assumption. ring.
Qed.

Lemma moved_bound tol area len x0 x : 0 < tol -> 0 <= x0 -> 0 <= len -> moved tol area len x0 x ->
  Rabs (x - x0) * len <= sqrt tol + (if Rltb area tol then 0 else tol * len / area).
Proof.
  intros Ht Hx Hl [->|[-> M]].
  - rewrite Rminus_eq_0, Rabs_R0, Rmult_0_l. pose proof (sqrt_pos tol).
    dec_if; [lra|]. assert (0 <= tol * len / area); [|lra].
    apply Rmult_le_pos; [apply Rmult_le_pos; lra|]. left. apply Rinv_0_lt_compat. lra.
  - rewrite Rminus_0_l, Rabs_Ropp, Rabs_right by lra. destruct M as [M|[M1 M2]].
    + assert (x0 * len <= sqrt tol).
      { apply Rsqr_incr_0_var; [|apply sqrt_pos]. unfold Rsqr. rewrite sqrt_sqrt by lra. assumption. }
      dec_if; [lra|]. assert (0 <= tol * len / area); [|lra].
      apply Rmult_le_pos; [apply Rmult_le_pos; lra|]. left. apply Rinv_0_lt_compat. lra.
    + dec_if; [lra|]. pose proof (sqrt_pos tol).
      assert (x0 * len <= tol * len / area); [|lra].
      apply (Rmult_le_reg_r area); [lra|]. rewrite (div_mul (tol * len)) by lra.
      replace (x0 * len * area) with (x0 * area * len) by ring. apply Rmult_le_compat_r; lra.
Qed.

Lemma segment_to_segment_bound n (s1 s2 : segment R) tol : seg_wf n s1 -> seg_wf n s2 -> 0 < tol <= 1 ->
  sg_p1 s2 <> sg_p2 s2 ->
  let area := area_sq (sg_dir s1) (sg_dir s2) in
  area = 0 \/ tol <= area ->
  let '(t1, t2) := segment_to_segment s1 s2 tol in
  forall x y, 0 <= x <= 1 -> 0 <= y <= 1 ->
    vdist (sg_point s1 t1) (sg_point s2 t2) <= vdist (sg_point s1 x) (sg_point s2 y) + 2 * sqrt tol
      + (if Rltb area tol then 0 else tol * (vnorm (sg_dir s1) + vnorm (sg_dir s2)) / area).
Proof.
  intros H1 H2 Ht Hne area HA.
  pose proof (segment_to_segment_near n s1 s2 tol H1 H2 Ht Hne HA) as N. cbv zeta in N. fold area in N.
  destruct (segment_to_segment s1 s2 tol) as [t1 t2]. destruct N as (x0 & y0 & X0 & Y0 & Min & M1 & M2).
  intros x y Hx Hy. specialize (Min x y Hx Hy).
  apply moved_bound in M1; [|lra|lra|apply vnorm_nonneg]. apply moved_bound in M2; [|lra|lra|apply vnorm_nonneg].
  pose proof (vdist_triangle (sg_point s1 t1) (sg_point s1 x0) (sg_point s2 t2)) as T1.
  pose proof (vdist_triangle (sg_point s1 x0) (sg_point s2 y0) (sg_point s2 t2)) as T2.
  rewrite !(sg_point_length n) in * by assumption.
  specialize (T1 eq_refl eq_refl). specialize (T2 eq_refl eq_refl).
  rewrite (sg_point_move n) in T1 by assumption. rewrite (sg_point_move n s2) in T2 by assumption.
  rewrite (Rabs_minus_sym y0 t2) in T2.
  destruct (Rltb area tol); [lra|]. unfold Rdiv in *. lra.
Qed.

(** ** Vectorised version *)

(** One entry of the masked updates. *)
Definition entry_params (a b c d e tol : R) : R * R :=
  let up (x : R) (m : bool) (y : R) := if m then y else x in
  let dd := a * c - b * b in
  let lt_tol := Rltb dd tol in
  let sd := up dd lt_tol 1 in
  let tn := up 0 lt_tol e in
  let td := up dd lt_tol c in
  let sn := up 0 (negb lt_tol) (b * e - c * d) in
  let tn := up tn (negb lt_tol) (a * e - b * d) in
  let m1 := Rltb sn 0 && negb lt_tol in
  let sn := up sn m1 0 in
  let tn := up tn m1 e in
  let td := up td m1 c in
  let m2 := Rltb sd sn && negb lt_tol in
  let sn := up sn m2 sd in
  let tn := up tn m2 (e + b) in
  let td := up td m2 c in
  let m3 := Rltb tn 0 in
  let tn := up tn m3 0 in
  let k1 := Rltb (- d) 0 && m3 in
  let k2 := Rltb a (- d) && m3 in
  let k3 := (negb k1 && negb k2) && m3 in
  let sn := up sn k1 0 in
  let sn := up sn k2 sd in
  let sn := up sn k3 (- d) in
  let sd := up sd k3 a in
  let m4 := Rltb td tn in
  let tn := up tn m4 td in
  let j1 := Rltb (b - d) 0 && m4 in
  let j2 := Rltb a (b - d) && m4 in
  let j3 := (negb j1 && negb j2) && m4 in
  let sn := up sn j1 0 in
  let sn := up sn j2 sd in
  let sn := up sn j3 (b - d) in
  let sd := up sd j3 a in
  (up 0 (negb (Rltb (Rabs sn) tol)) (sn / sd), up 0 (negb (Rltb (Rabs tn) tol)) (tn / td)).

Ltac dec_lt := match goal with |- context [Rltb ?x ?y] =>
  lazymatch x with context [Rltb] => fail | _ => lazymatch y with context [Rltb] => fail | _ =>
  let E := fresh "E" in destruct (Rltb x y) eqn:E; [apply Rltb_iff in E|apply Rltb_false in E];
  cbn [negb andb orb]; try (exfalso; lra) end end end.

Lemma entry_params_eq a b c d e tol : 0 < tol -> 0 <= a -> 0 <= c -> b * b <= a * c ->
  entry_params a b c d e tol = closest_params a b c d e tol.
Proof.
  intros Ht Ha Hc Hb. unfold closest_params. rnum. replace (- d + b) with (b - d) by ring.
  cbv beta delta [entry_params]. cbv zeta.
  assert (HD : 0 <= a * c - b * b) by lra. set (D := a * c - b * b) in *. clearbody D. clear Hb.
  repeat dec_lt; reflexivity.
Qed.

Lemma segments_params_pointwise (data1 data2 : list (list R)) tol i j n :
  0 < tol -> (forall r, In r data1 -> length r = n) -> (forall r, In r data2 -> length r = n) ->
  (S i < length data1)%nat -> (S j < length data2)%nat ->
  let '(t1, t2) := segments_params data1 data2 tol in
  (t1 i j, t2 i j) = segment_to_segment (mkSeg (nth i data1 []) (nth (S i) data1 []))
                                        (mkSeg (nth j data2 []) (nth (S j) data2 [])) tol.
Proof.
  intros Ht D1 D2 Hi Hj. unfold segment_to_segment.
  rewrite <- entry_params_eq; [reflexivity|assumption|apply vdot_nonneg|apply vdot_nonneg|].
  apply cauchy_schwarz. unfold sg_dir. cbn [sg_p1 sg_p2].
  assert (length (nth i data1 []) = n) by (apply D1, nth_In; lia).
  assert (length (nth (S i) data1 []) = n) by (apply D1, nth_In; lia).
  assert (length (nth j data2 []) = n) by (apply D2, nth_In; lia).
  assert (length (nth (S j) data2 []) = n) by (apply D2, nth_In; lia).
  rewrite !vsub_length; congruence.
Qed.

Lemma segments_points_pointwise dt (data1 data2 : list (list R)) tol i j n :
  0 < tol -> (forall r, In r data1 -> length r = n) -> (forall r, In r data2 -> length r = n) ->
  (S i < length data1)%nat -> (S j < length data2)%nat ->
  let s1 := mkSeg (nth i data1 []) (nth (S i) data1 []) in
  let s2 := mkSeg (nth j data2 []) (nth (S j) data2 []) in
  segments_points dt data1 data2 tol i j =
  (sg_point s1 (cast dt (fst (segment_to_segment s1 s2 tol))), sg_point s2 (cast dt (snd (segment_to_segment s1 s2 tol)))).
Proof.
  intros Ht D1 D2 Hi Hj. cbv zeta.
  pose proof (segments_params_pointwise data1 data2 tol i j n Ht D1 D2 Hi Hj) as P.
  unfold segments_points. destruct (segments_params data1 data2 tol) as [t1 t2]. rewrite <- P. reflexivity.
Qed.
