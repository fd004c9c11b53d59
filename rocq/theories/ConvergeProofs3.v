(** Errors of the derivatives of periodic cubic splines. *)
From Coq Require Import List Bool Arith Lia PrimFloat Reals Lra Psatz.
From Verif Require Import Num Py Numeric Curve Interp Splines Splines2 Periodic Spec.
From Verif Require Import ListFacts ArrayProofs InterpProofs SplineProofs SplineProofs2 SplineProofs3 SplineProofs4 SplineProofs5 SplineProofs8 SampleProofs SampleProofs3.
From Verif Require Import PeriodicProofs ConvergeProofs ConvergeProofs2.
Import ListNotations.
Local Open Scope R_scope.

(** One row of a diagonally dominant system, at the largest unknown. *)
Lemma dominant_row p q a b c B : 0 < p -> 0 < q -> Rabs a <= Rabs b -> Rabs c <= Rabs b ->
  Rabs (q * a + 2 * (p + q) * b + p * c) <= B * (p + q) -> Rabs b <= B.
Proof.
  intros P Q A C E. apply abs2 in A. apply abs2 in C. apply abs2 in E. set (T := Rabs b) in *.
  apply (Rmult_le_reg_r (p + q)); [lra|].
  assert (Y1 : - (p * T) <= p * c <= p * T) by (apply scaled; lra). assert (Y2 : - (q * T) <= q * a <= q * T) by (apply scaled; lra).
  assert (Y4 : 2 * (p + q) * T <= B * (p + q) + (p + q) * T); [|lra].
  unfold T. unfold Rabs at 1. destruct (Rcase_abs b); fold T; lra.
Qed.

(** A cyclic diagonally dominant system. *)
Lemma dominant_cyclic (h e : nat -> R) n B : (2 <= n)%nat -> (forall k, (S k < n)%nat -> 0 < h k) ->
  (forall k, (S (S k) < n)%nat -> Rabs (h (S k) * e k + 2 * (h k + h (S k)) * e (S k) + h k * e (S (S k))) <= B * (h k + h (S k))) ->
  e (n - 1)%nat = e 0%nat ->
  Rabs (h 0%nat * e (n - 2)%nat + 2 * (h (n - 2)%nat + h 0%nat) * e 0%nat + h (n - 2)%nat * e 1%nat) <= B * (h (n - 2)%nat + h 0%nat) ->
  forall k, (k < n)%nat -> Rabs (e k) <= B.
Proof.
  intros Hn Hh Hi En Hs. destruct (max_abs e 0 (n - 1)) as (k & Hk & Mx). cbn [Nat.add] in *.
  enough (G : Rabs (e k) <= B) by (intros i Hi'; pose proof (Mx i ltac:(lia)); lra).
  assert (Z : Rabs (e k) = Rabs (e 0%nat) -> Rabs (e k) <= B).
  { intros Q. rewrite Q. apply (dominant_row (h (n - 2)%nat) (h 0%nat) (e (n - 2)%nat) _ (e 1%nat)); try (apply Hh; lia); try exact Hs; rewrite <- Q; apply Mx; lia. }
  destruct (Nat.eq_dec k 0) as [->|K0]; [apply Z; reflexivity|].
  destruct (Nat.eq_dec k (n - 1)) as [->|K1]; [apply Z; rewrite En; reflexivity|].
  destruct k as [|k]; [lia|]. apply (dominant_row (h k) (h (S k)) (e k) _ (e (S (S k)))); try (apply Hh; lia); [apply Mx; lia|apply Mx; lia|apply Hi; lia].
Qed.

(** What a joint of two pieces contributes: the slopes of the chords against the derivatives. *)
Lemma joint2 M tau p q m m' a b c : 0 <= M -> 0 < p <= tau -> 0 < q <= tau ->
  Rabs (m - a) <= M * p / 2 -> Rabs (m - b) <= M * p / 2 -> Rabs (m' - b) <= M * q / 2 -> Rabs (m' - c) <= M * q / 2 ->
  Rabs (3 * (q * m + p * m') - (q * a + 2 * (p + q) * b + p * c)) <= 3 / 2 * M * tau * (p + q).
Proof.
  intros M0 P Q A B C D. apply abs2 in A. apply abs2 in B. apply abs2 in C. apply abs2 in D.
  replace (3 * (q * m + p * m') - (q * a + 2 * (p + q) * b + p * c)) with (q * ((m - a) + 2 * (m - b)) + p * (2 * (m' - b) + (m' - c))) by ring.
  set (u := (m - a) + 2 * (m - b)). set (v := 2 * (m' - b) + (m' - c)).
  assert (Mp : M * p <= M * tau) by (apply Rmult_le_compat_l; lra). assert (Mq : M * q <= M * tau) by (apply Rmult_le_compat_l; lra).
  assert (U : - (3 / 2 * (M * tau)) <= u <= 3 / 2 * (M * tau)) by (unfold u; lra).
  assert (V : - (3 / 2 * (M * tau)) <= v <= 3 / 2 * (M * tau)) by (unfold v; lra).
  pose proof (scaled q u _ ltac:(lra) U). pose proof (scaled p v _ ltac:(lra) V). apply abs2. lra.
Qed.

Section PerClose.
  Variables (xs ys : list R) (f f1 f2 : R -> R) (tau : R).
  Let n := length xs.
  Let x k := nth k xs 0.
  Let lo := x 0%nat.
  Let hi := x (n - 1)%nat.
  Hypothesis I : increasing xs.
  Hypothesis Hn : (2 <= n)%nat.
  Hypothesis Hy : forall k, (k < n)%nat -> nth k ys 0 = f (x k).
  Hypothesis Ht : forall k, (S k < n)%nat -> x (S k) - x k <= tau.
  Hypothesis E1 : f1 hi = f1 lo.
  Let h k := x (S k) - x k.
  Let m k := (f (x (S k)) - f (x k)) / h k.
  Let e k := per_at xs ys k - f1 (x k).

  Lemma per_x k : (k < n)%nat -> lo <= x k <= hi.
  Proof. intros Hk. split; apply increasing_le; try assumption; unfold n in *; lia. Qed.
  Lemma per_h k : (S k < n)%nat -> 0 < h k <= tau.
  Proof. intros Hk. split; [pose proof (I k Hk); unfold h, x; lra|apply Ht, Hk]. Qed.

  (** The equations for the errors. *)
  Lemma per_inner k : (S (S k) < n)%nat -> h (S k) * e k + 2 * (h k + h (S k)) * e (S k) + h k * e (S (S k))
    = 3 * (h (S k) * m k + h k * m (S k)) - (h (S k) * f1 (x k) + 2 * (h k + h (S k)) * f1 (x (S k)) + h k * f1 (x (S (S k)))).
  Proof.
    intros Hk. destruct (per_at_ok xs ys I Hn) as [In _]. pose proof (In k Hk) as Q. cbv beta in Q.
    change (nth (S (S k)) xs 0 - nth (S k) xs 0) with (h (S k)) in Q. change (nth (S k) xs 0 - nth k xs 0) with (h k) in Q. rewrite !Hy in Q by (unfold n in *; lia).
    fold (m k) (m (S k)) in Q. unfold e. lra.
  Qed.
  Lemma per_seam : e (n - 1)%nat = e 0%nat /\
    h 0%nat * e (n - 2)%nat + 2 * (h (n - 2)%nat + h 0%nat) * e 0%nat + h (n - 2)%nat * e 1%nat
    = 3 * (h 0%nat * m (n - 2)%nat + h (n - 2)%nat * m 0%nat) - (h 0%nat * f1 (x (n - 2)%nat) + 2 * (h (n - 2)%nat + h 0%nat) * f1 (x 0%nat) + h (n - 2)%nat * f1 (x 1%nat)).
  Proof.
    destruct (per_at_ok xs ys I Hn) as [_ [S1 S2]]. split; [unfold e; change (x (n - 1)%nat) with hi; rewrite E1; unfold n; rewrite S1; reflexivity|].
    change (step_at xs 0) with (h 0%nat) in S2. change (length xs) with n in S2. change (step_at xs (n - 2)) with (h (n - 2)%nat) in S2.
    assert (Sl : forall k, (S k < n)%nat -> slope_at xs ys k = m k).
    { intros k Hk. unfold slope_at. change (step_at xs k) with (h k). unfold m. rewrite <- !Hy by lia. reflexivity. }
    rewrite !Sl in S2 by lia. unfold e. lra.
  Qed.

  (** Two derivatives. *)
  Lemma per_close2 M : deriv_on lo hi f f1 -> deriv_on lo hi f1 f2 -> bounded_on lo hi f2 M ->
    forall k, (k < n)%nat -> Rabs (per_at xs ys k - f1 (x k)) <= 3 / 2 * M * tau.
  Proof.
    intros Df Df1 Hb.
    assert (M0 : 0 <= M) by (pose proof (Hb (x 0%nat) (per_x 0%nat ltac:(lia))); pose proof (Rabs_pos (f2 (x 0%nat))); lra).
    assert (Ch : forall k, (S k < n)%nat -> Rabs (m k - f1 (x k)) <= M * h k / 2 /\ Rabs (m k - f1 (x (S k))) <= M * h k / 2).
    { intros k Hk. apply (chord_slope lo hi f f1 f2 M); try assumption; [apply per_x; lia|pose proof (per_h k Hk); unfold h in *; lra|apply per_x, Hk]. }
    destruct per_seam as [Sn Se]. apply (dominant_cyclic h e n); [exact Hn|intros k Hk; apply per_h, Hk| |exact Sn|].
    - intros k Hk. rewrite per_inner by exact Hk. destruct (Ch k ltac:(lia)). destruct (Ch (S k) Hk). apply joint2; try assumption; apply per_h; lia.
    - rewrite Se. destruct (Ch 0%nat ltac:(lia)) as [A B]. destruct (Ch (n - 2)%nat ltac:(lia)) as [C D]. replace (S (n - 2)) with (n - 1)%nat in D by lia.
      change (x (n - 1)%nat) with hi in D. rewrite E1 in D. apply joint2; try assumption; apply per_h; lia.
  Qed.

  (** Four derivatives. *)
  Lemma per_close4 f3 f4 M : f2 hi = f2 lo -> deriv_on lo hi f f1 -> deriv_on lo hi f1 f2 -> deriv_on lo hi f2 f3 -> deriv_on lo hi f3 f4 -> bounded_on lo hi f4 M ->
    forall k, (k < n)%nat -> Rabs (per_at xs ys k - f1 (x k)) <= 7 / 24 * M * tau ^ 3.
  Proof.
    intros E2 Df Df1 Df2 Df3 Hb.
    assert (M0 : 0 <= M) by (pose proof (Hb (x 0%nat) (per_x 0%nat ltac:(lia))); pose proof (Rabs_pos (f4 (x 0%nat))); lra).
    assert (Res : forall k, (S k < n)%nat ->
      Rabs (3 * m k - 2 * f1 (x k) - f1 (x (S k)) - h k / 2 * f2 (x k)) <= 7 / 24 * M * tau ^ 3 /\
      Rabs (3 * m k - 2 * f1 (x (S k)) - f1 (x k) + h k / 2 * f2 (x (S k))) <= 7 / 24 * M * tau ^ 3).
    { intros k Hk. pose proof (per_h k Hk) as P.
      assert (C : M * h k ^ 3 <= M * tau ^ 3) by (apply Rmult_le_compat_l; [exact M0|apply pow_incr; lra]).
      destruct (chord_res lo hi f f1 f2 f3 f4 M (x k) (x (S k))) as [A B]; try assumption; [apply per_x; lia|apply I, Hk|apply per_x, Hk|].
      fold (h k) in A, B. fold (m k) in A, B. split; lra. }
    assert (Two : forall p q u v B, 0 < p -> 0 < q -> Rabs u <= B -> Rabs v <= B -> Rabs (q * u + p * v) <= B * (p + q)).
    { intros p q u v B P Q U V. apply abs2 in U. apply abs2 in V. pose proof (scaled q u B ltac:(lra) U). pose proof (scaled p v B ltac:(lra) V). apply abs2. lra. }
    destruct per_seam as [Sn Se]. apply (dominant_cyclic h e n); [exact Hn|intros k Hk; apply per_h, Hk| |exact Sn|].
    - intros k Hk. rewrite per_inner by exact Hk. destruct (Res k ltac:(lia)) as [_ A]. destruct (Res (S k) Hk) as [B _]. pose proof (per_h k ltac:(lia)). pose proof (per_h (S k) Hk).
      set (u := 3 * m k - 2 * f1 (x (S k)) - f1 (x k) + h k / 2 * f2 (x (S k))) in *.
      set (v := 3 * m (S k) - 2 * f1 (x (S k)) - f1 (x (S (S k))) - h (S k) / 2 * f2 (x (S k))) in *.
      match goal with |- Rabs ?r <= _ => replace r with (h (S k) * u + h k * v) by (unfold u, v; field) end. apply Two; lra.
    - rewrite Se. destruct (Res 0%nat ltac:(lia)) as [B _]. destruct (Res (n - 2)%nat ltac:(lia)) as [_ A]. replace (S (n - 2)) with (n - 1)%nat in A by lia.
      change (x (n - 1)%nat) with hi in A. rewrite E1, E2 in A. pose proof (per_h 0%nat ltac:(lia)). pose proof (per_h (n - 2)%nat ltac:(lia)). change lo with (x 0%nat) in A.
      set (u := 3 * m (n - 2)%nat - 2 * f1 (x 0%nat) - f1 (x (n - 2)%nat) + h (n - 2)%nat / 2 * f2 (x 0%nat)) in *.
      set (v := 3 * m 0%nat - 2 * f1 (x 0%nat) - f1 (x 1%nat) - h 0%nat / 2 * f2 (x 0%nat)) in *.
      match goal with |- Rabs ?r <= _ => replace r with (h 0%nat * u + h (n - 2)%nat * v) by (unfold u, v; field) end. apply Two; lra.
  Qed.
End PerClose.
