(** Errors of cubic interpolants of values of a smooth function: the derivatives
    that the interpolators choose are close to the slopes of the chords, and the
    interpolant is then close to the function. *)
From Coq Require Import List Bool Arith Lia PrimFloat Reals Lra Psatz.
From Verif Require Import Num Py Numeric Curve Interp Splines Splines2 Spec.
From Verif Require Import ListFacts ArrayProofs InterpProofs SplineProofs SplineProofs2 SplineProofs3 SplineProofs4 SplineProofs5 SplineProofs8 SampleProofs SampleProofs3.
Import ListNotations.
Local Open Scope R_scope.

Lemma abs2 a b : Rabs a <= b <-> - b <= a <= b.
Proof. split; [apply Rabs_lt_le_inv|apply Rabs_le]. Qed.

(** ** One piece *)

(** A cubic piece against the chord. *)
Lemma hval_chord h y0 y1 d0 d1 l B : 0 < h -> 0 <= l <= 1 ->
  Rabs (d0 - (y1 - y0) / h) <= B -> Rabs (d1 - (y1 - y0) / h) <= B ->
  Rabs (hval h y0 y1 d0 d1 (l * h) - (y0 + l * (y1 - y0))) <= h * B / 4.
Proof.
  intros Hh Hl A0 A1. rewrite hval_eq by lra. set (m := (y1 - y0) / h) in *.
  replace (y1 - y0) with (m * h) by (unfold m; field; lra).
  replace (y0 + d0 * (l * h) + (3 * m - 2 * d0 - d1) / h * (l * h * (l * h)) + (d0 + d1 - 2 * m) / (h * h) * (l * h * (l * h) * (l * h)) - (y0 + l * (m * h)))
    with (h * ((l * (1 - l)) * ((1 - l) * (d0 - m) - l * (d1 - m)))) by (field; lra).
  set (a := d0 - m) in *. set (b := d1 - m) in *. apply abs2 in A0. apply abs2 in A1. clearbody a b. clear m.
  assert (P : 0 <= l * (1 - l) <= / 4).
  { split; [apply Rmult_le_pos; lra|]. pose proof (pow2_ge_0 (l - / 2)). lra. }
  set (p := l * (1 - l)) in *.
  assert (Q : Rabs ((1 - l) * a - l * b) <= B).
  { apply abs2. split; nra. }
  apply abs2. apply abs2 in Q. set (q := (1 - l) * a - l * b) in *. clearbody q p. assert (B0 : 0 <= B) by lra.
  assert (X : - (B / 4) <= p * q <= B / 4).
  { split; nra. }
  split; nra.
Qed.

(** A cubic piece against the function. *)
Lemma hval_error lo hi g g1 g2 M x y z d0 d1 B : deriv_on lo hi g g1 -> deriv_on lo hi g1 g2 -> bounded_on lo hi g2 M ->
  lo <= x -> x <= z <= y -> y <= hi -> x < y ->
  Rabs (d0 - (g y - g x) / (y - x)) <= B -> Rabs (d1 - (g y - g x) / (y - x)) <= B ->
  Rabs (hval (y - x) (g x) (g y) d0 d1 (z - x) - g z) <= M * (y - x) ^ 2 / 8 + (y - x) * B / 4.
Proof.
  intros D D1 Hb Hx Hz Hy Hxy A0 A1. set (l := (z - x) / (y - x)).
  assert (E : z - x = l * (y - x)) by (unfold l; field; lra).
  assert (L : 0 <= l <= 1) by (split; apply (Rmult_le_reg_r (y - x)); lra).
  pose proof (linear_error lo hi g g1 g2 M x y z D D1 Hb Hx Hz Hy Hxy) as P. fold l in P.
  pose proof (hval_chord (y - x) (g x) (g y) d0 d1 l B ltac:(lra) L A0 A1) as Q. rewrite <- E in Q.
  apply abs2 in P; apply abs2 in Q. apply abs2. lra.
Qed.

(** The slope of a chord against the derivatives at its ends. *)
Lemma chord_slope lo hi g g1 g2 M x y : deriv_on lo hi g g1 -> deriv_on lo hi g1 g2 -> bounded_on lo hi g2 M ->
  lo <= x -> x < y -> y <= hi ->
  Rabs ((g y - g x) / (y - x) - g1 x) <= M * (y - x) / 2 /\ Rabs ((g y - g x) / (y - x) - g1 y) <= M * (y - x) / 2.
Proof.
  intros D D1 Hb Hx Hxy Hy.
  pose proof (taylor2 lo hi g g1 g2 M x y D D1 Hb ltac:(lra) ltac:(lra)) as P.
  pose proof (taylor2 lo hi g g1 g2 M y x D D1 Hb ltac:(lra) ltac:(lra)) as Q.
  replace (Rabs (x - y)) with (y - x) in Q by (rewrite Rabs_left1; lra). rewrite (Rabs_right (y - x)) in P by lra.
  set (h := y - x) in *. assert (Hh : 0 < h) by (unfold h; lra). replace (x - y) with (- h) in Q by (unfold h; ring).
  replace (g y - g x) with ((g y - g x) / h * h) in P by (field; lra). replace (g x - g y) with (- ((g y - g x) / h * h)) in Q by (field; lra).
  set (m := (g y - g x) / h) in *. apply abs2 in P; apply abs2 in Q. split; apply abs2; split; apply (Rmult_le_reg_r h); nra.
Qed.

(** ** pchip *)

Lemma pchip_inner_between h0 h1 m0 m1 : 0 < h0 -> 0 < h1 -> 0 < m0 -> 0 < m1 ->
  Rmin m0 m1 <= (pchip_inner h0 h1 m0 m1 : R) <= Rmax m0 m1.
Proof.
  intros H0 H1 M0 M1. unfold pchip_inner. rewrite (proj2 (same_sign_iff m1 m0)) by lra.
  cbn [n0 n1 nlit nadd nsub nmul ndiv neqb RNum negb].
  assert (E : forall m, 0 < m -> Reqb m 0 = false) by (intros m Hm; apply not_true_iff_false; rewrite Reqb_spec; lra).
  rewrite !E by assumption. cbn [orb].
  set (w1 := 2 / 1 * h1 + h0). set (w2 := h1 + 2 / 1 * h0).
  assert (W1 : 0 < w1) by (unfold w1; lra). assert (W2 : 0 < w2) by (unfold w2; lra). clearbody w1 w2.
  assert (P : 0 < w1 * m1 + w2 * m0) by (pose proof (Rmult_lt_0_compat w1 m1); pose proof (Rmult_lt_0_compat w2 m0); lra).
  assert (Eq : 1 / ((w1 / m0 + w2 / m1) / (w1 + w2)) = (w1 + w2) * (m0 * m1) / (w1 * m1 + w2 * m0)).
  { field. repeat split; try lra. }
  rewrite Eq.
  pose proof (Rmin_l m0 m1). pose proof (Rmin_r m0 m1). pose proof (Rmax_l m0 m1). pose proof (Rmax_r m0 m1).
  set (a := Rmin m0 m1) in *. set (b := Rmax m0 m1) in *. clearbody a b.
  assert (V : (w1 + w2) * (m0 * m1) / (w1 * m1 + w2 * m0) * (w1 * m1 + w2 * m0) = w1 * m1 * m0 + w2 * m0 * m1) by (field; lra).
  pose proof (Rmult_lt_0_compat w1 m1 W1 M1). pose proof (Rmult_lt_0_compat w2 m0 W2 M0).
  split; apply (Rmult_le_reg_r (w1 * m1 + w2 * m0)); try exact P; rewrite V; nra.
Qed.

Lemma pchip_inner_close h0 h1 m0 m1 : 0 < h0 -> 0 < h1 ->
  Rabs (pchip_inner h0 h1 m0 m1 - m0) <= Rabs (m1 - m0) /\ Rabs (pchip_inner h0 h1 m0 m1 - m1) <= Rabs (m1 - m0).
Proof.
  intros H0 H1.
  assert (Pos : forall m0 m1, 0 < m0 -> 0 < m1 ->
     Rabs (pchip_inner h0 h1 m0 m1 - m0) <= Rabs (m1 - m0) /\ Rabs (pchip_inner h0 h1 m0 m1 - m1) <= Rabs (m1 - m0)).
  { clear m0 m1. intros m0 m1 P0 P1. pose proof (pchip_inner_between h0 h1 m0 m1 H0 H1 P0 P1) as K. unfold Rmin, Rmax in K.
    set (d := pchip_inner h0 h1 m0 m1) in *. clearbody d. unfold Rabs. destruct (Rle_dec m0 m1); repeat destruct (Rcase_abs _); split; lra. }
  assert (Z : ~ (0 < m0 /\ 0 < m1) -> ~ (m0 < 0 /\ m1 < 0) -> Rabs m0 <= Rabs (m1 - m0) /\ Rabs m1 <= Rabs (m1 - m0)).
  { intros N1 N2. unfold Rabs. repeat destruct (Rcase_abs _); split; lra. }
  destruct (Rlt_dec 0 m0) as [P0|P0]; [destruct (Rlt_dec 0 m1) as [P1|P1]; [apply Pos; assumption|]|destruct (Rlt_dec m0 0) as [N0|N0]; [destruct (Rlt_dec m1 0) as [N1|N1]|]].
  - rewrite pchip_inner_zero by lra. replace (0 - m0) with (- m0) by ring. replace (0 - m1) with (- m1) by ring. rewrite !Rabs_Ropp. apply Z; lra.
  - pose proof (Pos (- m0) (- m1) ltac:(lra) ltac:(lra)) as K. rewrite pchip_inner_opp in K. set (d := pchip_inner h0 h1 m0 m1) in *.
    replace (- d - - m0) with (- (d - m0)) in K by ring. replace (- d - - m1) with (- (d - m1)) in K by ring. replace (- m1 - - m0) with (- (m1 - m0)) in K by ring.
    rewrite !Rabs_Ropp in K. exact K.
  - rewrite pchip_inner_zero by lra. replace (0 - m0) with (- m0) by ring. replace (0 - m1) with (- m1) by ring. rewrite !Rabs_Ropp. apply Z; lra.
  - rewrite pchip_inner_zero by lra. replace (0 - m0) with (- m0) by ring. replace (0 - m1) with (- m1) by ring. rewrite !Rabs_Ropp. apply Z; lra.
Qed.

Lemma pchip_edge_close h0 h1 m0 m1 : 0 < h0 -> 0 < h1 -> Rabs (pchip_edge h0 h1 m0 m1 - m0) <= Rabs (m1 - m0).
Proof.
  intros H0 H1. unfold pchip_edge. cbn [n0 n1 nlit nadd nsub nmul ndiv neqb nabs nltb RNum].
  set (d := ((2 / 1 * h0 + h1) * m0 - h0 * m1) / (h0 + h1)).
  assert (E : d - m0 = h0 / (h0 + h1) * (m0 - m1)) by (unfold d; field; lra).
  assert (Lr : 0 <= h0 / (h0 + h1) <= 1).
  { split; apply (Rmult_le_reg_r (h0 + h1)); try lra; unfold Rdiv; rewrite Rmult_assoc, Rinv_l by lra; lra. }
  assert (Hd : Rabs (d - m0) <= Rabs (m1 - m0)).
  { rewrite E, Rabs_mult, (Rabs_right (h0 / (h0 + h1))) by lra. rewrite (Rabs_minus_sym m0 m1). pose proof (Rabs_pos (m1 - m0)). nra. }
  destruct (same_sign d m0) eqn:S; cbn [negb].
  - destruct (negb (same_sign m0 m1) && Rltb (3 / 1 * Rabs m0) (Rabs d)) eqn:C; [|exact Hd].
    apply andb_true_iff in C as [_ C]. apply Rltb_spec in C. apply same_sign_iff in S.
    revert Hd C. unfold Rabs. repeat destruct (Rcase_abs _); intros; lra.
  - assert (N : ~ ((0 < d /\ 0 < m0) \/ (d < 0 /\ m0 < 0) \/ (d = 0 /\ m0 = 0))).
    { intros K. apply same_sign_iff in K. congruence. }
    revert Hd. unfold Rabs. repeat destruct (Rcase_abs _); intros; lra.
Qed.

(** The derivatives of pchip differ from the slopes next to them by at most the
    change of the slopes. *)
Lemma pchip_close (xs ys : list R) C k : increasing xs -> (S k < length xs)%nat -> 0 <= C ->
  (forall i, (S (S i) < length xs)%nat -> Rabs (slope_at xs ys (S i) - slope_at xs ys i) <= C) ->
  Rabs (nth k (pchip_derivs xs ys) 0 - slope_at xs ys k) <= C /\ Rabs (nth (S k) (pchip_derivs xs ys) 0 - slope_at xs ys k) <= C.
Proof.
  intros I Hk C0 HC. assert (H2 : (2 <= length xs)%nat) by lia.
  assert (Hh : forall i, (S i < length xs)%nat -> 0 < nth (S i) xs 0 - nth i xs 0) by (intros i Hi; pose proof (I i Hi); lra).
  pose proof (pd_eq xs ys k ltac:(lia)) as E0. pose proof (pd_eq xs ys (S k) ltac:(lia)) as E1. cbv beta zeta in E0, E1. rewrite E0, E1. clear E0 E1.
  assert (Z : forall x, Rabs (x - x) <= C) by (intros x; replace (x - x) with 0 by ring; rewrite Rabs_R0; exact C0).
  destruct (Nat.eqb_spec (length xs) 2) as [E|E].
  - replace k with 0%nat by lia. split; apply Z.
  - split.
    + destruct (Nat.eqb_spec k 0) as [->|K].
      * eapply Rle_trans; [apply pchip_edge_close; apply Hh; lia|]. apply (HC 0%nat). lia.
      * destruct (Nat.eqb_spec k (length xs - 1)); [lia|]. eapply Rle_trans; [apply pchip_inner_close; apply Hh; lia|].
        replace k with (S (k - 1)) at 1 by lia. replace (S k) with (S (S (k - 1))) at 1 by lia.
        pose proof (HC (k - 1)%nat ltac:(lia)) as Q. unfold slope_at in Q. exact Q.
    + change (Nat.eqb (S k) 0) with false. cbv iota. destruct (Nat.eqb_spec (S k) (length xs - 1)) as [K|K].
      * replace (length xs - 2)%nat with k by lia. eapply Rle_trans; [apply pchip_edge_close; apply Hh; lia|].
        pose proof (HC (length xs - 3)%nat ltac:(lia)) as Q. replace (S (length xs - 3)) with k in Q by lia. rewrite Rabs_minus_sym in Q.
        unfold slope_at, step_at in Q. replace (S (length xs - 3)) with k in * by lia. exact Q.
      * replace (S k - 1)%nat with k by lia. eapply Rle_trans; [apply pchip_inner_close; apply Hh; lia|]. apply (HC k). lia.
Qed.

(** ** akima *)

Lemma ext_close xs y M C : (3 <= length xs)%nat -> slopes_ext xs y M ->
  (forall k, (S (S k) < length xs)%nat -> Rabs (M (k + 3)%nat - M (k + 2)%nat) <= C) ->
  forall i, (i < length xs + 2)%nat -> Rabs (M (S i) - M i) <= C.
Proof.
  intros H3 (_ & E0 & E1 & E2 & E3) Hk i Hi. set (n := length xs) in *.
  assert (Hin : forall i, (2 <= i)%nat -> (i < n)%nat -> Rabs (M (S i) - M i) <= C).
  { intros m A B. specialize (Hk (m - 2)%nat ltac:(lia)). replace (m - 2 + 3)%nat with (S m) in Hk by lia. replace (m - 2 + 2)%nat with m in Hk by lia. exact Hk. }
  pose proof (Hin 2%nat ltac:(lia) ltac:(lia)) as B2. pose proof (Hin (n - 1)%nat ltac:(lia) ltac:(lia)) as Bn. replace (S (n - 1)) with n in Bn by lia.
  destruct (Nat.eq_dec i 0) as [->|]; [replace (M 1%nat - M 0%nat) with (M 3%nat - M 2%nat) by lra; exact B2|].
  destruct (Nat.eq_dec i 1) as [->|]; [replace (M 2%nat - M 1%nat) with (M 3%nat - M 2%nat) by lra; exact B2|].
  destruct (Nat.eq_dec i n) as [->|]; [replace (S n) with (n + 1)%nat by lia; replace (M (n + 1)%nat - M n) with (M n - M (n - 1)%nat) by lra; exact Bn|].
  destruct (Nat.eq_dec i (n + 1)) as [->|]; [replace (S (n + 1)) with (n + 2)%nat by lia; replace (M (n + 2)%nat - M (n + 1)%nat) with (M n - M (n - 1)%nat) by lra; exact Bn|].
  apply Hin; lia.
Qed.

Lemma rule_close M limit k d C : 0 <= limit -> akima_rule M limit k d ->
  Rabs (M (k + 1)%nat - M k) <= C -> Rabs (M (k + 2)%nat - M (k + 1)%nat) <= C -> Rabs (M (k + 3)%nat - M (k + 2)%nat) <= C ->
  Rabs (d - M (k + 1)%nat) <= 3 / 2 * C /\ Rabs (d - M (k + 2)%nat) <= 3 / 2 * C.
Proof.
  intros H0 [R1 R2] A B D. unfold bend in *. assert (C0 : 0 <= C) by (pose proof (Rabs_pos (M (k + 1)%nat - M k)); lra).
  destruct (Rlt_dec limit (Rabs (M (k + 3)%nat - M (k + 2)%nat) + Rabs (M (k + 1)%nat - M k))) as [L|L].
  - specialize (R1 L). pose proof (Rabs_pos (M (k + 3)%nat - M (k + 2)%nat)) as P1. pose proof (Rabs_pos (M (k + 1)%nat - M k)) as P2.
    set (w1 := Rabs (M (k + 3)%nat - M (k + 2)%nat)) in *. set (w2 := Rabs (M (k + 1)%nat - M k)) in *.
    set (p := M (k + 1)%nat) in *. set (q := M (k + 2)%nat) in *. clearbody w1 w2 p q. apply abs2 in B. clear R2 A D.
    assert (E1 : (d - p) * (w1 + w2) = w2 * (q - p)) by lra. assert (E2 : (d - q) * (w1 + w2) = - w1 * (q - p)) by lra.
    assert (Pw : 0 < w1 + w2) by lra. split; apply abs2; split; apply (Rmult_le_reg_r (w1 + w2)); try exact Pw; rewrite ?E1, ?E2; nra.
  - rewrite R2 by lra. apply abs2 in A. apply abs2 in B. apply abs2 in D. split; apply abs2; lra.
Qed.

Lemma akima_close (xs : list R) rows empty n j k C : increasing xs -> (3 <= length xs)%nat -> length rows = length xs -> (j < n)%nat -> (S k < length xs)%nat ->
  let y i := nth j (nth i rows []) 0 in let m i := (y (S i) - y i) / (nth (S i) xs 0 - nth i xs 0) in
  (forall i, (S (S i) < length xs)%nat -> Rabs (m (S i) - m i) <= C) ->
  Rabs (nth j (nth k (akima_rows empty xs rows n) []) 0 - m k) <= 3 / 2 * C /\
  Rabs (nth j (nth (S k) (akima_rows empty xs rows n) []) 0 - m k) <= 3 / 2 * C.
Proof.
  intros I H3 L Hj Hk y m HC. set (M := ak_m xs rows empty j).
  assert (Ext : slopes_ext xs (fun i => nth i (column rows j) 0) M) by (apply akima_slopes_ext; exact H3).
  assert (Ms : forall i, (S i < length xs)%nat -> M (i + 2)%nat = m i).
  { intros i Hi. rewrite (proj1 Ext i Hi), !column_nth by lia. reflexivity. }
  assert (Cl : forall i, (i < length xs + 2)%nat -> Rabs (M (S i) - M i) <= C).
  { apply (ext_close xs (fun i => nth i (column rows j) 0) M C H3 Ext). intros i Hi. replace (i + 3)%nat with (S i + 2)%nat by lia. rewrite !Ms by lia. apply HC, Hi. }
  assert (P := ak_top_pos xs rows empty n ltac:(lia) L ltac:(lia)).
  assert (G : forall i, (i < length xs)%nat ->
     Rabs (nth j (nth i (akima_rows empty xs rows n) []) 0 - M (i + 1)%nat) <= 3 / 2 * C /\
     Rabs (nth j (nth i (akima_rows empty xs rows n) []) 0 - M (i + 2)%nat) <= 3 / 2 * C).
  { intros i Hi. apply (rule_close M (ak_top xs rows empty n / 1000000000) i _ C); [apply Rmult_le_pos; [exact P|left; apply Rinv_0_lt_compat, IZR_lt; reflexivity]|apply akima_rows_rule; try assumption; lia| | |].
    - replace (i + 1)%nat with (S i) by lia. apply Cl. lia.
    - replace (i + 2)%nat with (S (i + 1)) by lia. apply Cl. lia.
    - replace (i + 3)%nat with (S (i + 2)) by lia. apply Cl. lia. }
  split.
  - rewrite <- (Ms k Hk). apply G. lia.
  - rewrite <- (Ms k Hk). replace (k + 2)%nat with (S k + 1)%nat by lia. apply G. lia.
Qed.

(** ** cubic: the equations of the spline bound the errors of its derivatives *)

Lemma max_abs (e : nat -> R) lo m : exists k, (lo <= k <= lo + m)%nat /\ forall i, (lo <= i <= lo + m)%nat -> Rabs (e i) <= Rabs (e k).
Proof.
  induction m as [|m (k & Hk & A)].
  - exists lo. split; [lia|]. intros i Hi. replace i with lo by lia. lra.
  - destruct (Rle_dec (Rabs (e (lo + S m)%nat)) (Rabs (e k))) as [L|L].
    + exists k. split; [lia|]. intros i Hi. destruct (Nat.eq_dec i (lo + S m)) as [->|]; [exact L|apply A; lia].
    + exists (lo + S m)%nat. split; [lia|]. intros i Hi. destruct (Nat.eq_dec i (lo + S m)) as [->|]; [lra|]. pose proof (A i ltac:(lia)). lra.
Qed.

Section Cubic.
  Variables (b0 b1 : bc1 R) (xs ys : list R) (fp : nat -> R) (M tau : R).
  Let n := length xs.
  Let h k := nth (S k) xs 0 - nth k xs 0.
  Let m k := (nth (S k) ys 0 - nth k ys 0) / h k.
  Hypothesis Hn : (2 <= n)%nat.
  Hypothesis Hh : forall k, (S k < n)%nat -> 0 < h k <= tau.
  Hypothesis Hm : forall k, (S k < n)%nat -> Rabs (m k - fp k) <= M * h k / 2 /\ Rabs (m k - fp (S k)) <= M * h k / 2.
  Variable d : nat -> R.
  Hypothesis Sys : system_eq b0 b1 xs ys d.

  Let e k := d k - fp k.

  (** What the end conditions have to do with the function for the derivatives
      to be within E of its derivatives. *)
  Definition end_ok (E : R) (b : bc1 R) (p : R) : Prop :=
    match b with
    | D1 v => Rabs (v - p) <= E
    | D2 v => (3 * M + Rabs v) * tau / 2 <= E
    | Nak => 6 * M * tau <= E
    end.

  Lemma M_pos : 0 <= M.
  Proof.
    pose proof (Hh 0%nat ltac:(lia)) as A. destruct (Hm 0%nat ltac:(lia)) as [B _]. pose proof (Rabs_pos (m 0%nat - fp 0%nat)).
    apply (Rmult_le_reg_r (h 0%nat)); lra.
  Qed.

  Lemma inner_res k : (S (S k) < n)%nat ->
    Rabs (h (S k) * e k + 2 * (h k + h (S k)) * e (S k) + h k * e (S (S k))) <= 3 * M * (h k * h (S k)).
  Proof.
    intros Hk. pose proof (proj1 Sys k Hk) as Q. cbv beta in Q. fold (h k) (h (S k)) (m k) (m (S k)) in Q.
    replace (h (S k) * e k + 2 * (h k + h (S k)) * e (S k) + h k * e (S (S k)))
      with (h (S k) * ((m k - fp k) + 2 * (m k - fp (S k))) + h k * (2 * (m (S k) - fp (S k)) + (m (S k) - fp (S (S k)))))
      by (unfold e; lra).
    destruct (Hm k ltac:(lia)) as [A B]. destruct (Hm (S k) ltac:(lia)) as [C D]. pose proof (Hh k ltac:(lia)) as P. pose proof (Hh (S k) ltac:(lia)) as P'.
    apply abs2 in A. apply abs2 in B. apply abs2 in C. apply abs2 in D.
    set (u := (m k - fp k) + 2 * (m k - fp (S k))) in *. set (v := 2 * (m (S k) - fp (S k)) + (m (S k) - fp (S (S k)))) in *.
    assert (U : - (3 / 2 * (M * h k)) <= u <= 3 / 2 * (M * h k)) by (unfold u; lra).
    assert (V : - (3 / 2 * (M * h (S k))) <= v <= 3 / 2 * (M * h (S k))) by (unfold v; lra).
    clearbody u v. clear A B C D Q. apply abs2. set (p := h k) in *. set (q := h (S k)) in *. clearbody p q.
    assert (X : - (3 / 2 * (M * p)) * q <= q * u <= 3 / 2 * (M * p) * q) by (split; nra).
    assert (Y : - (3 / 2 * (M * q)) * p <= p * v <= 3 / 2 * (M * q) * p) by (split; nra).
    split; nra.
  Qed.

  Lemma half_prod k : (S (S k) < n)%nat -> h k * h (S k) <= tau * (h k + h (S k)) / 2.
  Proof. intros Hk. pose proof (Hh k ltac:(lia)). pose proof (Hh (S k) ltac:(lia)). nra. Qed.

  (** Not a knot at the start. *)
  Lemma nak_start : b0 = Nak -> (3 <= n)%nat -> parabola_case b0 b1 xs = false ->
    Rabs (h 1%nat * e 0%nat + (h 0%nat + h 1%nat) * e 1%nat) <= 3 * M * (h 0%nat * h 1%nat).
  Proof.
    intros E H3 Np. pose proof (proj2 Sys) as Q. rewrite Np in Q. destruct Q as [Q _]. unfold start_eq in Q. rewrite E in Q. cbv beta in Q.
    destruct Q as [_ Q]. specialize (Q H3). fold (h 0%nat) (h 1%nat) (m 0%nat) (m 1%nat) in Q.
    destruct (Hm 0%nat ltac:(lia)) as [A B]. destruct (Hm 1%nat ltac:(lia)) as [C _]. pose proof (Hh 0%nat ltac:(lia)) as P. pose proof (Hh 1%nat ltac:(lia)) as P'.
    apply abs2 in A. apply abs2 in B. apply abs2 in C. pose proof M_pos as M0.
    set (a := m 0%nat - fp 1%nat) in *. set (b := m 1%nat - fp 1%nat) in *. set (c := m 0%nat - fp 0%nat) in *.
    set (p := h 0%nat) in *. set (q := h 1%nat) in *.
    assert (Eq : (q * e 0%nat + (p + q) * e 1%nat) * (p + q) = q * (2 * p + q) * a + p * p * b + q * (p + q) * c).
    { unfold e. replace ((q * (d 0%nat - fp 0%nat) + (p + q) * (d 1%nat - fp 1%nat)) * (p + q))
        with ((q * d 0%nat + (p + q) * d 1%nat) * (p + q) - (q * fp 0%nat + (p + q) * fp 1%nat) * (p + q)) by ring.
      rewrite Q. unfold a, b, c. field. lra. }
    set (x := q * e 0%nat + (p + q) * e 1%nat) in *. clearbody x a b c p q. clear Q Sys Hm Hh. apply abs2.
    assert (X1 : - (q * (2 * p + q) * (M * p / 2)) <= q * (2 * p + q) * a <= q * (2 * p + q) * (M * p / 2)).
    { assert (0 <= q * (2 * p + q)) by (apply Rmult_le_pos; lra). split; nra. }
    assert (X2 : - (p * p * (M * q / 2)) <= p * p * b <= p * p * (M * q / 2)).
    { assert (0 <= p * p) by (apply Rmult_le_pos; lra). split; nra. }
    assert (X3 : - (q * (p + q) * (M * p / 2)) <= q * (p + q) * c <= q * (p + q) * (M * p / 2)).
    { assert (0 <= q * (p + q)) by (apply Rmult_le_pos; lra). split; nra. }
    assert (Y : q * (2 * p + q) * (M * p / 2) + p * p * (M * q / 2) + q * (p + q) * (M * p / 2) <= 3 * M * (p * q) * (p + q)).
    { assert (0 <= M * (p * q)) by (apply Rmult_le_pos; [exact M0|apply Rmult_le_pos; lra]).
      replace (q * (2 * p + q) * (M * p / 2) + p * p * (M * q / 2) + q * (p + q) * (M * p / 2)) with (M * (p * q) * (2 * p + q)) by field.
      replace (3 * M * (p * q) * (p + q)) with (M * (p * q) * (3 * (p + q))) by ring. apply Rmult_le_compat_l; lra. }
    split; apply (Rmult_le_reg_r (p + q)); lra.
  Qed.

  Lemma nak_end : b1 = Nak -> (3 <= n)%nat -> parabola_case b0 b1 xs = false ->
    Rabs ((h (n - 3)%nat + h (n - 2)%nat) * e (n - 2)%nat + h (n - 3)%nat * e (n - 1)%nat) <= 3 * M * (h (n - 3)%nat * h (n - 2)%nat).
  Proof.
    intros E H3 Np. pose proof (proj2 Sys) as Q. rewrite Np in Q. destruct Q as [_ Q]. unfold end_eq in Q. rewrite E in Q. cbv beta in Q.
    destruct Q as [_ Q]. specialize (Q H3). fold n in Q. fold (h (n - 3)%nat) (h (n - 2)%nat) (m (n - 3)%nat) (m (n - 2)%nat) in Q.
    destruct (Hm (n - 2)%nat ltac:(lia)) as [A C]. destruct (Hm (n - 3)%nat ltac:(lia)) as [_ B]. pose proof (Hh (n - 3)%nat ltac:(lia)) as P'. pose proof (Hh (n - 2)%nat ltac:(lia)) as P.
    replace (S (n - 3)) with (n - 2)%nat in B by lia. replace (S (n - 2)) with (n - 1)%nat in C by lia.
    apply abs2 in A. apply abs2 in B. apply abs2 in C. pose proof M_pos as M0.
    set (a := m (n - 2)%nat - fp (n - 2)%nat) in *. set (b := m (n - 3)%nat - fp (n - 2)%nat) in *. set (c := m (n - 2)%nat - fp (n - 1)%nat) in *.
    set (p := h (n - 2)%nat) in *. set (q := h (n - 3)%nat) in *.
    assert (Eq : ((q + p) * e (n - 2)%nat + q * e (n - 1)%nat) * (q + p) = q * (2 * p + q) * a + p * p * b + q * (p + q) * c).
    { unfold e. replace (((q + p) * (d (n - 2)%nat - fp (n - 2)%nat) + q * (d (n - 1)%nat - fp (n - 1)%nat)) * (q + p))
        with (((q + p) * d (n - 2)%nat + q * d (n - 1)%nat) * (q + p) - ((q + p) * fp (n - 2)%nat + q * fp (n - 1)%nat) * (q + p)) by ring.
      rewrite Q. unfold a, b, c. field. lra. }
    set (x := (q + p) * e (n - 2)%nat + q * e (n - 1)%nat) in *. clearbody x a b c p q. clear Q Sys Hm Hh. apply abs2.
    assert (X1 : - (q * (2 * p + q) * (M * p / 2)) <= q * (2 * p + q) * a <= q * (2 * p + q) * (M * p / 2)).
    { assert (0 <= q * (2 * p + q)) by (apply Rmult_le_pos; lra). split; nra. }
    assert (X2 : - (p * p * (M * q / 2)) <= p * p * b <= p * p * (M * q / 2)).
    { assert (0 <= p * p) by (apply Rmult_le_pos; lra). split; nra. }
    assert (X3 : - (q * (p + q) * (M * p / 2)) <= q * (p + q) * c <= q * (p + q) * (M * p / 2)).
    { assert (0 <= q * (p + q)) by (apply Rmult_le_pos; lra). split; nra. }
    assert (Y : q * (2 * p + q) * (M * p / 2) + p * p * (M * q / 2) + q * (p + q) * (M * p / 2) <= 3 * M * (q * p) * (q + p)).
    { assert (0 <= M * (p * q)) by (apply Rmult_le_pos; [exact M0|apply Rmult_le_pos; lra]).
      replace (q * (2 * p + q) * (M * p / 2) + p * p * (M * q / 2) + q * (p + q) * (M * p / 2)) with (M * (p * q) * (2 * p + q)) by field.
      replace (3 * M * (q * p) * (q + p)) with (M * (p * q) * (3 * (p + q))) by ring. apply Rmult_le_compat_l; lra. }
    split; apply (Rmult_le_reg_r (q + p)); lra.
  Qed.

  Definition core_lo : nat := match b0 with Nak => if (n =? 2)%nat then 0 else 1 | _ => 0 end.
  Definition core_hi : nat := match b1 with Nak => if (n =? 2)%nat then n - 1 else n - 2 | _ => n - 1 end.

  (** All rows but those of not-a-knot ends. *)
  Lemma core_bound E : parabola_case b0 b1 xs = false -> 3 / 2 * M * tau <= E ->
    end_ok E b0 (fp 0%nat) -> end_ok E b1 (fp (n - 1)%nat) ->
    forall k, (core_lo <= k <= core_hi)%nat -> Rabs (e k) <= E.
  Proof.
    intros Np He Ok0 Ok1. pose proof M_pos as M0. pose proof (Hh 0%nat ltac:(lia)) as Ph0. assert (Mt : 0 <= M * tau) by (apply Rmult_le_pos; lra).
    assert (Npar : b0 = Nak -> b1 = Nak -> n <> 3%nat).
    { intros A B C. enough (parabola_case b0 b1 xs = true) by congruence. unfold parabola_case. fold n. rewrite A, B, C. reflexivity. }
    assert (Lh : (core_lo <= core_hi)%nat /\ (core_hi <= n - 1)%nat /\ (core_lo <= 1)%nat /\ (n - 2 <= core_hi)%nat /\
      (core_lo = 1%nat -> b0 = Nak /\ (3 <= n)%nat) /\ (core_hi = (n - 2)%nat -> b1 = Nak /\ (3 <= n)%nat) /\ (core_lo = 0%nat -> b0 = Nak -> n = 2%nat) /\ (core_hi = (n - 1)%nat -> b1 = Nak -> n = 2%nat) /\
      ~ (core_lo = 1%nat /\ core_hi = 1%nat /\ n = 3%nat /\ b1 = Nak)).
    { unfold core_lo, core_hi. destruct (Nat.eqb_spec n 2); destruct b0, b1; repeat split; try lia; try reflexivity; try discriminate; intros; try lia; try discriminate; intuition (try lia; try discriminate). }
    destruct Lh as (L1 & L2 & L3 & L4 & La & Lb & Lc & Ld & Le).
    destruct (max_abs e core_lo (core_hi - core_lo)) as (k & Hk & Mx). replace (core_lo + (core_hi - core_lo))%nat with core_hi in * by lia.
    enough (G : Rabs (e k) <= E) by (intros i Hi; pose proof (Mx i Hi); lra).
    assert (Nb : forall i, (core_lo <= i <= core_hi)%nat -> - Rabs (e k) <= e i <= Rabs (e k)) by (intros i Hi; apply abs2, Mx, Hi).
    set (T := Rabs (e k)) in *. assert (T0 : 0 <= T) by apply Rabs_pos.
    pose proof (proj2 Sys) as Q. rewrite Np in Q. destruct Q as [Qs Qe].
    assert (Two : forall a b c B, Rabs (2 * a + b) <= B -> - c <= b <= c -> c = Rabs a -> Rabs a <= B).
    { intros a b c B X Y Z. apply abs2 in X. revert Z. unfold Rabs. destruct (Rcase_abs a); intros; lra. }
    destruct (Nat.eq_dec k 0) as [->|K0].
    - (* the start *)
      assert (Z : core_lo = 0%nat) by lia. unfold start_eq in Qs. destruct b0 as [|v|v] eqn:Eb.
      + specialize (Lc Z eq_refl). destruct Qs as [Qs _]. specialize (Qs Lc). cbv beta in Qs. fold (h 0%nat) (m 0%nat) in Qs. destruct (Hm 0%nat ltac:(lia)) as [A _].
        unfold T, e. rewrite Qs. pose proof (Hh 0%nat ltac:(lia)). pose proof (Rmult_le_compat_l M (h 0%nat) tau M0 ltac:(lra)). lra.
      + unfold T, e. rewrite Qs. exact Ok0.
      + cbn [end_ok] in Ok0. cbv beta in Qs. fold (h 0%nat) in Qs. set (p := h 0%nat) in *.
        assert (V : 2 * e 0%nat + e 1%nat = 2 * (m 0%nat - fp 0%nat) + (m 0%nat - fp 1%nat) - v * p / 2).
        { apply (Rmult_eq_reg_r p); [|lra]. unfold e. replace ((2 * (d 0%nat - fp 0%nat) + (d 1%nat - fp 1%nat)) * p) with (2 * p * d 0%nat + p * d 1%nat - (2 * fp 0%nat + fp 1%nat) * p) by ring.
          rewrite Qs. unfold m. fold p. field. lra. }
        apply (Two _ (e 1%nat) T); [|apply Nb; lia|reflexivity]. eapply Rle_trans; [|exact Ok0]. rewrite V.
        destruct (Hm 0%nat ltac:(lia)) as [A B]. apply abs2 in A. apply abs2 in B. fold p in A, B.
        pose proof (Rmult_le_compat_l M p tau M0 ltac:(lra)) as X. pose proof (Rabs_pos v) as Va.
        assert (Y : - (Rabs v * tau) <= v * p <= Rabs v * tau).
        { pose proof (Rle_abs v). pose proof (Rle_abs (- v)) as Y'. rewrite Rabs_Ropp in Y'. split; nra. }
        apply abs2. lra.
    - destruct (Nat.eq_dec k (n - 1)) as [->|K1].
      + (* the end *)
        assert (Z : core_hi = (n - 1)%nat) by lia. unfold end_eq in Qe. destruct b1 as [|v|v] eqn:Eb.
        * specialize (Ld Z eq_refl). destruct Qe as [Qe _]. specialize (Qe Ld). cbv beta in Qe. fold (h 0%nat) (m 0%nat) in Qe. destruct (Hm 0%nat ltac:(lia)) as [_ A].
          unfold T, e. replace (n - 1)%nat with 1%nat by lia. rewrite Qe. pose proof (Hh 0%nat ltac:(lia)). pose proof (Rmult_le_compat_l M (h 0%nat) tau M0 ltac:(lra)). lra.
        * unfold T, e. fold n in Qe. rewrite Qe. exact Ok1.
        * cbn [end_ok] in Ok1. cbv beta in Qe. fold n in Qe. fold (h (n - 2)%nat) in Qe. destruct (Hm (n - 2)%nat ltac:(lia)) as [A B]. pose proof (Hh (n - 2)%nat ltac:(lia)) as P.
          replace (S (n - 2)) with (n - 1)%nat in B by lia. assert (Em : m (n - 2)%nat * h (n - 2)%nat = nth (n - 1) ys 0 - nth (n - 2) ys 0).
          { unfold m. replace (S (n - 2)) with (n - 1)%nat by lia. field. lra. }
          set (p := h (n - 2)%nat) in *.
          assert (V : 2 * e (n - 1)%nat + e (n - 2)%nat = 2 * (m (n - 2)%nat - fp (n - 1)%nat) + (m (n - 2)%nat - fp (n - 2)%nat) + v * p / 2).
          { apply (Rmult_eq_reg_r p); [|lra]. unfold e. 
            replace ((2 * (m (n - 2)%nat - fp (n - 1)%nat) + (m (n - 2)%nat - fp (n - 2)%nat) + v * p / 2) * p) with (3 * (m (n - 2)%nat * p) + v / 2 * (p * p) - (2 * fp (n - 1)%nat + fp (n - 2)%nat) * p) by field.
            rewrite Em. lra. }
          apply (Two _ (e (n - 2)%nat) T); [|apply Nb; lia|reflexivity]. eapply Rle_trans; [|exact Ok1]. rewrite V.
          apply abs2 in A. apply abs2 in B.
          pose proof (Rmult_le_compat_l M p tau M0 ltac:(lra)) as X. pose proof (Rabs_pos v) as Va.
          assert (Y : - (Rabs v * tau) <= v * p <= Rabs v * tau).
          { pose proof (Rle_abs v). pose proof (Rle_abs (- v)) as Y'. rewrite Rabs_Ropp in Y'. split; nra. }
          apply abs2. lra.
      + destruct k as [|k]; [lia|]. pose proof (inner_res k ltac:(lia)) as Ir. pose proof (Hh k ltac:(lia)) as Pk. pose proof (Hh (S k) ltac:(lia)) as Pk'. pose proof (half_prod k ltac:(lia)) as Hp.
        destruct (Nat.eq_dec k 0) as [Ek|Ek]; [destruct (Nat.eq_dec core_lo 1) as [El|El]|].
        * (* next to a not-a-knot start *)
          subst k. destruct (La El) as [Eb H3]. pose proof (nak_start Eb H3 Np) as Ns.
          assert (X : Rabs ((h 0%nat + h 1%nat) * e 1%nat + h 0%nat * e 2%nat) <= 6 * M * (h 0%nat * h 1%nat)).
          { apply abs2 in Ir. apply abs2 in Ns. apply abs2. lra. }
          assert (H2 : (2 <= core_hi)%nat).
          { destruct (Nat.le_gt_cases 2 core_hi) as [|Q]; [assumption|exfalso]. assert (core_hi = 1%nat) by lia.
            destruct (Nat.eq_dec n 3) as [N3|N3]; [apply Le; repeat split; try assumption; apply Lb; lia|lia]. }
          pose proof (Nb 2%nat ltac:(lia)) as N2. set (p := h 0%nat) in *. set (q := h 1%nat) in *.
          assert (Y : T <= 6 * M * p).
          { apply (Rmult_le_reg_r q); [lra|]. apply abs2 in X.
            assert (Y1 : - (p * T) <= p * e 2%nat <= p * T) by (split; nra).
            assert (Y2 : (p + q) * T <= 6 * M * (p * q) + p * T); [|lra].
            unfold T. unfold Rabs at 1. destruct (Rcase_abs (e 1%nat)); fold T; lra. }
          rewrite Eb in Ok0. cbn [end_ok] in Ok0. pose proof (Rmult_le_compat_l M p tau M0 ltac:(lra)). lra.
        * (* ordinary row, second sample *)
          subst k. assert (El0 : core_lo = 0%nat) by lia.
          destruct (Nat.eq_dec core_hi 1) as [Eh|Eh].
          -- (* next to a not-a-knot end, three samples *)
             assert (N3 : n = 3%nat) by lia. destruct (Lb ltac:(lia)) as [Eb H3]. pose proof (nak_end Eb H3 Np) as Ns. rewrite N3 in Ns. cbn [Nat.sub] in Ns.
             assert (X : Rabs (h 1%nat * e 0%nat + (h 0%nat + h 1%nat) * e 1%nat) <= 6 * M * (h 0%nat * h 1%nat)).
             { apply abs2 in Ir. apply abs2 in Ns. apply abs2. lra. }
             pose proof (Nb 0%nat ltac:(lia)) as N2. set (p := h 0%nat) in *. set (q := h 1%nat) in *.
             assert (Y : T <= 6 * M * q).
             { apply (Rmult_le_reg_r p); [lra|]. apply abs2 in X.
               assert (Y1 : - (q * T) <= q * e 0%nat <= q * T) by (split; nra).
               assert (Y2 : (p + q) * T <= 6 * M * (p * q) + q * T); [|lra].
               unfold T. unfold Rabs at 1. destruct (Rcase_abs (e 1%nat)); fold T; lra. }
             rewrite Eb in Ok1. cbn [end_ok] in Ok1. pose proof (Rmult_le_compat_l M q tau M0 ltac:(lra)). lra.
          -- pose proof (Nb 0%nat ltac:(lia)) as N0. pose proof (Nb 2%nat ltac:(lia)) as N2. set (p := h 0%nat) in *. set (q := h 1%nat) in *.
             assert (Y : T <= 3 / 2 * M * tau); [|lra]. apply (Rmult_le_reg_r (p + q)); [lra|]. apply abs2 in Ir.
             assert (Y1 : - (p * T) <= p * e 2%nat <= p * T) by (split; nra). assert (Y2 : - (q * T) <= q * e 0%nat <= q * T) by (split; nra).
             assert (Y3 : 3 * M * (p * q) <= 3 * M * (tau * (p + q) / 2)) by (apply Rmult_le_compat_l; lra).
             assert (Y4 : 2 * (p + q) * T <= 3 * M * (p * q) + (p + q) * T); [|lra].
             unfold T. unfold Rabs at 1. destruct (Rcase_abs (e 1%nat)); fold T; lra.
        * destruct (Nat.eq_dec core_hi (S k)) as [Eh|Eh].
          -- (* next to a not-a-knot end *)
             assert (Ekn : S k = (n - 2)%nat) by lia. destruct (Lb ltac:(lia)) as [Eb H3]. pose proof (nak_end Eb H3 Np) as Ns.
             replace (n - 3)%nat with k in Ns by lia. rewrite <- Ekn in Ns. replace (n - 1)%nat with (S (S k)) in Ns by lia.
             assert (X : Rabs (h (S k) * e k + (h k + h (S k)) * e (S k)) <= 6 * M * (h k * h (S k))).
             { apply abs2 in Ir. apply abs2 in Ns. apply abs2. lra. }
             pose proof (Nb k ltac:(lia)) as N2. set (p := h k) in *. set (q := h (S k)) in *.
             assert (Y : T <= 6 * M * q).
             { apply (Rmult_le_reg_r p); [lra|]. apply abs2 in X.
               assert (Y1 : - (q * T) <= q * e k <= q * T) by (split; nra).
               assert (Y2 : (p + q) * T <= 6 * M * (p * q) + q * T); [|lra].
               unfold T. unfold Rabs at 1. destruct (Rcase_abs (e (S k))); fold T; lra. }
             rewrite Eb in Ok1. cbn [end_ok] in Ok1. pose proof (Rmult_le_compat_l M q tau M0 ltac:(lra)). lra.
          -- pose proof (Nb k ltac:(lia)) as N0. pose proof (Nb (S (S k)) ltac:(lia)) as N2. set (p := h k) in *. set (q := h (S k)) in *.
             assert (Y : T <= 3 / 2 * M * tau); [|lra]. apply (Rmult_le_reg_r (p + q)); [lra|]. apply abs2 in Ir.
             assert (Y1 : - (p * T) <= p * e (S (S k)) <= p * T) by (split; nra). assert (Y2 : - (q * T) <= q * e k <= q * T) by (split; nra).
             assert (Y3 : 3 * M * (p * q) <= 3 * M * (tau * (p + q) / 2)) by (apply Rmult_le_compat_l; lra).
             assert (Y4 : 2 * (p + q) * T <= 3 * M * (p * q) + (p + q) * T); [|lra].
             unfold T. unfold Rabs at 1. destruct (Rcase_abs (e (S k))); fold T; lra.
  Qed.

  (** Without not-a-knot ends. *)
  Lemma derivs_close E : b0 <> Nak -> b1 <> Nak -> 3 / 2 * M * tau <= E ->
    end_ok E b0 (fp 0%nat) -> end_ok E b1 (fp (n - 1)%nat) -> forall k, (k < n)%nat -> Rabs (d k - fp k) <= E.
  Proof.
    intros N0 N1 He Ok0 Ok1 k Hk. apply (core_bound E); try assumption.
    - destruct (parabola_case b0 b1 xs) eqn:Pc; [|reflexivity]. exfalso. apply andb_true_iff in Pc as [_ Pc]. destruct b0, b1; try discriminate; congruence.
    - unfold core_lo, core_hi. destruct b0, b1; try congruence; lia.
  Qed.

  (** With not-a-knot ends. *)
  Lemma nak_close rho : b0 = Nak -> b1 = Nak -> 0 <= rho ->
    ((3 <= n)%nat -> h 0%nat <= rho * h 1%nat /\ h (n - 2)%nat <= rho * h (n - 3)%nat) ->
    forall k, (k < n)%nat -> Rabs (d k - fp k) <= (9 + 6 * rho) * M * tau.
  Proof.
    intros N0 N1 Rp Rt k Hk. pose proof M_pos as M0. pose proof (Hh 0%nat ltac:(lia)) as P0. assert (Mt : 0 <= M * tau) by (apply Rmult_le_pos; lra).
    assert (RMt : 0 <= rho * (M * tau)) by (apply Rmult_le_pos; lra). fold (e k).
    destruct (parabola_case b0 b1 xs) eqn:Np.
    - assert (N3 : n = 3%nat) by (unfold parabola_case in Np; apply andb_true_iff in Np as [Np _]; apply Nat.eqb_eq in Np; exact Np).
      pose proof (proj2 Sys) as Q. rewrite Np in Q. cbv beta in Q. fold (h 0%nat) (h 1%nat) in Q. fold (m 0%nat) (m 1%nat) in Q. destruct Q as [Q0 Q1].
      pose proof (inner_res 0%nat ltac:(lia)) as Ir. pose proof (half_prod 0%nat ltac:(lia)) as Hp. pose proof (Hh 1%nat ltac:(lia)) as P1.
      destruct (Hm 0%nat ltac:(lia)) as [A B]. destruct (Hm 1%nat ltac:(lia)) as [C D]. set (p := h 0%nat) in *. set (q := h 1%nat) in *.
      assert (X0 : Rabs (e 0%nat + e 1%nat) <= M * p) by (apply abs2 in A; apply abs2 in B; apply abs2; unfold e; lra).
      assert (X1 : Rabs (e 1%nat + e 2%nat) <= M * q) by (apply abs2 in C; apply abs2 in D; apply abs2; unfold e; lra).
      apply abs2 in X0. apply abs2 in X1. apply abs2 in Ir.
      assert (Mp : M * p <= M * tau) by (apply Rmult_le_compat_l; lra). assert (Mq : M * q <= M * tau) by (apply Rmult_le_compat_l; lra).
      assert (Y : - (5 / 2 * (M * tau)) <= e 1%nat <= 5 / 2 * (M * tau)).
      { assert (Z0 : - (q * (M * p)) <= q * (e 0%nat + e 1%nat) <= q * (M * p)) by (split; nra).
        assert (Z1 : - (p * (M * q)) <= p * (e 1%nat + e 2%nat) <= p * (M * q)) by (split; nra).
        assert (Z2 : M * (p * q) <= M * (tau * (p + q) / 2)) by (apply Rmult_le_compat_l; lra).
        split; apply (Rmult_le_reg_r (p + q)); lra. }
      apply abs2. destruct k as [|[|[|k]]]; [| | |lia]; lra.
    - assert (Cb : forall k, (core_lo <= k <= core_hi)%nat -> Rabs (e k) <= 6 * M * tau).
      { apply core_bound; [exact Np|lra| |]; rewrite ?N0, ?N1; cbn [end_ok]; lra. }
      unfold core_lo, core_hi in Cb. rewrite N0, N1 in Cb. destruct (Nat.eqb_spec n 2) as [E2|E2]; [eapply Rle_trans; [apply Cb; lia|lra]|].
      destruct (Rt ltac:(lia)) as [R0 R1].
      destruct (Nat.eq_dec k 0) as [->|K0]; [|destruct (Nat.eq_dec k (n - 1)) as [->|K1]; [|eapply Rle_trans; [apply Cb; lia|lra]]].
      + pose proof (nak_start N0 ltac:(lia) Np) as Ns. pose proof (Cb 1%nat ltac:(lia)) as C1. pose proof (Hh 1%nat ltac:(lia)) as P1. apply abs2 in Ns. apply abs2 in C1.
        set (p := h 0%nat) in *. set (q := h 1%nat) in *. set (B := 6 * M * tau) in *.
        assert (Z : - (((1 + rho) * q) * B) <= (p + q) * e 1%nat <= ((1 + rho) * q) * B).
        { assert (Z1 : - ((p + q) * B) <= (p + q) * e 1%nat <= (p + q) * B) by (split; nra).
          assert (Z2 : (p + q) * B <= ((1 + rho) * q) * B) by (apply Rmult_le_compat_r; unfold B; lra). lra. }
        assert (Z3 : 3 * M * (p * q) <= 3 * (M * tau) * q).
        { replace (3 * M * (p * q)) with (3 * M * q * p) by ring. replace (3 * (M * tau) * q) with (3 * M * q * tau) by ring.
          apply Rmult_le_compat_l; [|lra]. apply Rmult_le_pos; lra. }
        replace ((9 + 6 * rho) * M * tau) with (3 * (M * tau) + (1 + rho) * B) by (unfold B; ring).
        apply abs2. split; apply (Rmult_le_reg_r q); lra.
      + pose proof (nak_end N1 ltac:(lia) Np) as Ns. pose proof (Cb (n - 2)%nat ltac:(lia)) as C1. pose proof (Hh (n - 3)%nat ltac:(lia)) as P1. pose proof (Hh (n - 2)%nat ltac:(lia)) as P2. apply abs2 in Ns. apply abs2 in C1.
        set (p := h (n - 2)%nat) in *. set (q := h (n - 3)%nat) in *. set (B := 6 * M * tau) in *.
        assert (Z : - (((1 + rho) * q) * B) <= (q + p) * e (n - 2)%nat <= ((1 + rho) * q) * B).
        { assert (Z1 : - ((q + p) * B) <= (q + p) * e (n - 2)%nat <= (q + p) * B) by (split; nra).
          assert (Z2 : (q + p) * B <= ((1 + rho) * q) * B) by (apply Rmult_le_compat_r; unfold B; lra). lra. }
        assert (Z3 : 3 * M * (q * p) <= 3 * (M * tau) * q).
        { replace (3 * M * (q * p)) with (3 * M * q * p) by ring. replace (3 * (M * tau) * q) with (3 * M * q * tau) by ring.
          apply Rmult_le_compat_l; [|lra]. apply Rmult_le_pos; lra. }
        replace ((9 + 6 * rho) * M * tau) with (3 * (M * tau) + (1 + rho) * B) by (unfold B; ring).
        apply abs2. split; apply (Rmult_le_reg_r q); lra.
  Qed.
End Cubic.
