(** Errors of cubic splines of values of a function with four derivatives. *)
From Coq Require Import List Bool Arith Lia PrimFloat Reals Lra Psatz.
From Verif Require Import Num Py Numeric Curve Interp Splines Splines2 Spec.
From Verif Require Import ListFacts ArrayProofs InterpProofs SplineProofs SplineProofs2 SplineProofs3 SplineProofs4 SplineProofs5 SplineProofs8 SampleProofs SampleProofs3 ConvergeProofs.
Import ListNotations.
Local Open Scope R_scope.

Lemma hval_basis h y0 y1 d0 d1 l : 0 < h ->
  hval h y0 y1 d0 d1 (l * h)
  = (1 + 2 * l) * ((1 - l) * (1 - l)) * y0 + l * l * (3 - 2 * l) * y1 + h * (l * ((1 - l) * (1 - l)) * d0 - l * l * (1 - l) * d1).
Proof. intros Hh. rewrite hval_eq by lra. field. lra. Qed.

Lemma scaled a r b : 0 <= a -> - b <= r <= b -> - (a * b) <= a * r <= a * b.
Proof. intros A R. split; nra. Qed.

(** A cubic piece whose end derivatives are within E of those of the function. *)
Lemma hval_error4 lo hi g g1 g2 g3 g4 M x y z d0 d1 E :
  deriv_on lo hi g g1 -> deriv_on lo hi g1 g2 -> deriv_on lo hi g2 g3 -> deriv_on lo hi g3 g4 -> bounded_on lo hi g4 M ->
  lo <= x -> x <= z <= y -> y <= hi -> x < y -> Rabs (d0 - g1 x) <= E -> Rabs (d1 - g1 y) <= E ->
  Rabs (hval (y - x) (g x) (g y) d0 d1 (z - x) - g z) <= M * (y - x) ^ 4 / 128 + (y - x) * E / 4.
Proof.
  intros D D1 D2 D3 Hb Hx Hz Hy Hxy A0 A1. set (h := y - x). set (l := (z - x) / h). assert (Hh : 0 < h) by (unfold h; lra).
  assert (El : z - x = l * h) by (unfold l; field; lra). assert (L : 0 <= l <= 1) by (split; apply (Rmult_le_reg_r h); unfold h in *; lra).
  pose proof (taylor4 lo hi g g1 g2 g3 g4 M z x D D1 D2 D3 Hb ltac:(lra) ltac:(lra)) as T0.
  pose proof (taylor4 lo hi g g1 g2 g3 g4 M z y D D1 D2 D3 Hb ltac:(lra) ltac:(lra)) as T1.
  pose proof (taylor3 lo hi g1 g2 g3 g4 M z x D1 D2 D3 Hb ltac:(lra) ltac:(lra)) as T2.
  pose proof (taylor3 lo hi g1 g2 g3 g4 M z y D1 D2 D3 Hb ltac:(lra) ltac:(lra)) as T3.
  assert (M0 : 0 <= M) by (pose proof (Hb x ltac:(lra)); pose proof (Rabs_pos (g4 x)); lra).
  rewrite (Rabs_left1 (x - z)) in T0, T2 by lra. rewrite (Rabs_right (y - z)) in T1, T3 by lra.
  replace (- (x - z)) with (l * h) in T0, T2 by lra. replace (x - z) with (- (l * h)) in T0, T2 by lra.
  replace (y - z) with ((1 - l) * h) in T1, T3 by (unfold h in *; lra).
  rewrite El, hval_basis by exact Hh. clear El.
  set (r0 := g x - g z - - (l * h) * g1 z - (- (l * h)) ^ 2 / 2 * g2 z - (- (l * h)) ^ 3 / 6 * g3 z) in *.
  set (r1 := g y - g z - (1 - l) * h * g1 z - ((1 - l) * h) ^ 2 / 2 * g2 z - ((1 - l) * h) ^ 3 / 6 * g3 z) in *.
  set (r2 := g1 x - g1 z - - (l * h) * g2 z - (- (l * h)) ^ 2 / 2 * g3 z) in *.
  set (r3 := g1 y - g1 z - (1 - l) * h * g2 z - ((1 - l) * h) ^ 2 / 2 * g3 z) in *.
  set (e0 := d0 - g1 x) in *. set (e1 := d1 - g1 y) in *.
  replace ((1 + 2 * l) * ((1 - l) * (1 - l)) * g x + l * l * (3 - 2 * l) * g y + h * (l * ((1 - l) * (1 - l)) * d0 - l * l * (1 - l) * d1) - g z)
    with ((1 + 2 * l) * ((1 - l) * (1 - l)) * r0 + l * l * (3 - 2 * l) * r1 + h * (l * ((1 - l) * (1 - l))) * r2 + h * (l * l * (1 - l)) * (- r3)
          + h * (l * ((1 - l) * (1 - l))) * e0 + h * (l * l * (1 - l)) * (- e1))
    by (unfold r0, r1, r2, r3, e0, e1; field).
  apply abs2 in T0. apply abs2 in T1. apply abs2 in T2. apply abs2 in T3. apply abs2 in A0. apply abs2 in A1.
  assert (T3' : - (M * ((1 - l) * h) ^ 3 / 6) <= - r3 <= M * ((1 - l) * h) ^ 3 / 6) by lra. assert (A1' : - E <= - e1 <= E) by lra.
  clearbody r0 r1 r2 r3 e0 e1. set (q := 1 - l) in *. assert (Q : 0 <= q) by (unfold q; lra).
  assert (B0 : 0 <= (1 + 2 * l) * (q * q)) by (apply Rmult_le_pos; [lra|apply Rmult_le_pos; lra]).
  assert (B1 : 0 <= l * l * (3 - 2 * l)) by (apply Rmult_le_pos; [apply Rmult_le_pos; lra|lra]).
  assert (B2 : 0 <= h * (l * (q * q))) by (apply Rmult_le_pos; [lra|apply Rmult_le_pos; [lra|apply Rmult_le_pos; lra]]).
  assert (B3 : 0 <= h * (l * l * q)) by (apply Rmult_le_pos; [lra|apply Rmult_le_pos; [apply Rmult_le_pos; lra|lra]]).
  pose proof (scaled _ _ _ B0 T0) as S0. pose proof (scaled _ _ _ B1 T1) as S1. pose proof (scaled _ _ _ B2 T2) as S2. pose proof (scaled _ _ _ B3 T3') as S3.
  pose proof (scaled _ _ _ B2 A0) as S4. pose proof (scaled _ _ _ B3 A1') as S5.
  set (p := l * q). assert (P : 0 <= p <= / 4) by (unfold p, q; split; [apply Rmult_le_pos; lra|pose proof (pow2_ge_0 (l - / 2)); lra]).
  assert (X : (1 + 2 * l) * (q * q) * (M * (l * h) ^ 4 / 24) + l * l * (3 - 2 * l) * (M * (q * h) ^ 4 / 24) + h * (l * (q * q)) * (M * (l * h) ^ 3 / 6) + h * (l * l * q) * (M * (q * h) ^ 3 / 6)
    = M * h ^ 4 * (p ^ 2 * (7 - 16 * p) / 24)) by (unfold p, q; field).
  assert (Y : p ^ 2 * (7 - 16 * p) / 24 <= / 128).
  { assert (Z : / 128 - p ^ 2 * (7 - 16 * p) / 24 = (/ 4 - p) * ((3 / 4 + 3 * p - 16 * p ^ 2) / 24)) by field.
    assert (W : 0 <= (/ 4 - p) * ((3 / 4 + 3 * p - 16 * p ^ 2) / 24)); [|lra].
    apply Rmult_le_pos; [lra|]. assert (p ^ 2 <= / 4 * p) by (cbn [pow]; nra). nra. }
  assert (Mh : 0 <= M * h ^ 4) by (apply Rmult_le_pos; [exact M0|apply pow_le; lra]).
  pose proof (Rmult_le_compat_l _ _ _ Mh Y) as Y'.
  assert (V : h * (l * (q * q)) * E + h * (l * l * q) * E = h * E * p) by (unfold p, q; ring).
  assert (E0 : 0 <= E) by lra. assert (V' : h * E * p <= h * E * / 4) by (apply Rmult_le_compat_l; [apply Rmult_le_pos; lra|lra]).
  apply abs2. lra.
Qed.

(** A diagonally dominant system. *)
Lemma dominant (h e : nat -> R) n B : (2 <= n)%nat -> (forall k, (S k < n)%nat -> 0 < h k) ->
  (forall k, (S (S k) < n)%nat -> Rabs (h (S k) * e k + 2 * (h k + h (S k)) * e (S k) + h k * e (S (S k))) <= B * (h k + h (S k))) ->
  (Rabs (e 0%nat) <= B \/ Rabs (2 * e 0%nat + e 1%nat) <= B) ->
  (Rabs (e (n - 1)%nat) <= B \/ Rabs (2 * e (n - 1)%nat + e (n - 2)%nat) <= B) ->
  forall k, (k < n)%nat -> Rabs (e k) <= B.
Proof.
  intros Hn Hh Hi H0 H1. destruct (max_abs e 0 (n - 1)) as (k & Hk & Mx). cbn [Nat.add] in *.
  enough (G : Rabs (e k) <= B) by (intros i Hi'; pose proof (Mx i ltac:(lia)); lra).
  assert (Nb : forall i, (i < n)%nat -> - Rabs (e k) <= e i <= Rabs (e k)) by (intros i Hi'; apply abs2, Mx; lia).
  assert (Two : forall a b B, Rabs (2 * a + b) <= B -> - Rabs a <= b <= Rabs a -> Rabs a <= B).
  { intros a b c X. apply abs2 in X. unfold Rabs. destruct (Rcase_abs a); intros; lra. }
  destruct (Nat.eq_dec k 0) as [->|K0]; [destruct H0 as [H0|H0]; [exact H0|apply (Two _ (e 1%nat)); [exact H0|apply Nb; lia]]|].
  destruct (Nat.eq_dec k (n - 1)) as [->|K1]; [destruct H1 as [H1|H1]; [exact H1|apply (Two _ (e (n - 2)%nat)); [exact H1|apply Nb; lia]]|].
  destruct k as [|k]; [lia|]. pose proof (Hi k ltac:(lia)) as Ir. pose proof (Hh k ltac:(lia)). pose proof (Hh (S k) ltac:(lia)).
  pose proof (Nb k ltac:(lia)) as N0. pose proof (Nb (S (S k)) ltac:(lia)) as N2. set (p := h k) in *. set (q := h (S k)) in *. set (T := Rabs (e (S k))) in *.
  apply (Rmult_le_reg_r (p + q)); [lra|]. apply abs2 in Ir.
  assert (Y1 : - (p * T) <= p * e (S (S k)) <= p * T) by (apply scaled; lra). assert (Y2 : - (q * T) <= q * e k <= q * T) by (apply scaled; lra).
  assert (Y4 : 2 * (p + q) * T <= B * (p + q) + (p + q) * T); [|lra].
  unfold T. unfold Rabs at 1. destruct (Rcase_abs (e (S k))); fold T; lra.
Qed.

(** What the chord's slope and the derivative at the other end say about the second derivative. *)
Lemma chord_res lo hi g g1 g2 g3 g4 M x y : deriv_on lo hi g g1 -> deriv_on lo hi g1 g2 -> deriv_on lo hi g2 g3 -> deriv_on lo hi g3 g4 -> bounded_on lo hi g4 M ->
  lo <= x -> x < y -> y <= hi -> let h := y - x in let m := (g y - g x) / h in
  Rabs (3 * m - 2 * g1 x - g1 y - h / 2 * g2 x) <= 7 / 24 * M * h ^ 3 /\
  Rabs (3 * m - 2 * g1 y - g1 x + h / 2 * g2 y) <= 7 / 24 * M * h ^ 3.
Proof.
  intros D D1 D2 D3 Hb Hx Hxy Hy h m.
  pose proof (taylor4 lo hi g g1 g2 g3 g4 M x y D D1 D2 D3 Hb ltac:(lra) ltac:(lra)) as T0.
  pose proof (taylor4 lo hi g g1 g2 g3 g4 M y x D D1 D2 D3 Hb ltac:(lra) ltac:(lra)) as T1.
  pose proof (taylor3 lo hi g1 g2 g3 g4 M x y D1 D2 D3 Hb ltac:(lra) ltac:(lra)) as T2.
  pose proof (taylor3 lo hi g1 g2 g3 g4 M y x D1 D2 D3 Hb ltac:(lra) ltac:(lra)) as T3.
  rewrite (Rabs_left1 (x - y)) in T1, T3 by lra. rewrite (Rabs_right (y - x)) in T0, T2 by lra.
  replace (- (x - y)) with h in T1, T3 by (unfold h; lra). replace (x - y) with (- h) in T1, T3 by (unfold h; lra). fold h in T0, T2.
  assert (Hh : 0 < h) by (unfold h; lra). assert (Em : g y - g x = m * h) by (unfold m; field; lra).
  replace (g x - g y) with (- (m * h)) in T1 by lra. rewrite Em in T0. clearbody m h. clear D D1 D2 D3 Hb.
  apply abs2 in T0. apply abs2 in T1. apply abs2 in T2. apply abs2 in T3. split; apply abs2.
  - set (r := g1 y - g1 x - h * g2 x - h ^ 2 / 2 * g3 x) in *.
    assert (Rr : - (M * h ^ 3 / 24) <= m - g1 x - h / 2 * g2 x - h ^ 2 / 6 * g3 x <= M * h ^ 3 / 24) by (split; apply (Rmult_le_reg_r h); try exact Hh; lra).
    replace (3 * m - 2 * g1 x - g1 y - h / 2 * g2 x) with (3 * (m - g1 x - h / 2 * g2 x - h ^ 2 / 6 * g3 x) - r) by (unfold r; field). lra.
  - set (r := g1 x - g1 y - - h * g2 y - (- h) ^ 2 / 2 * g3 y) in *.
    assert (Rr : - (M * h ^ 3 / 24) <= m - g1 y + h / 2 * g2 y - h ^ 2 / 6 * g3 y <= M * h ^ 3 / 24) by (split; apply (Rmult_le_reg_r h); try exact Hh; lra).
    replace (3 * m - 2 * g1 y - g1 x + h / 2 * g2 y) with (3 * (m - g1 y + h / 2 * g2 y - h ^ 2 / 6 * g3 y) - r) by (unfold r; field). lra.
Qed.

(** The derivatives of a spline that meets the function's first or second derivative at both ends. *)
Definition exact_end (b : bc1 R) (p1 p2 : R) : Prop := match b with D1 v => v = p1 | D2 v => v = p2 | Nak => False end.

Section Fourth.
  Variables (b0 b1 : bc1 R) (xs ys : list R) (f f1 f2 f3 f4 : R -> R) (M tau : R).
  Let n := length xs.
  Let x k := nth k xs 0.
  Hypothesis I : increasing xs.
  Hypothesis Hn : (2 <= n)%nat.
  Let lo := x 0%nat.
  Let hi := x (n - 1)%nat.
  Hypothesis Hy : forall k, (k < n)%nat -> nth k ys 0 = f (x k).
  Hypothesis Ht : forall k, (S k < n)%nat -> x (S k) - x k <= tau.
  Hypothesis Df : deriv_on lo hi f f1.
  Hypothesis Df1 : deriv_on lo hi f1 f2.
  Hypothesis Df2 : deriv_on lo hi f2 f3.
  Hypothesis Df3 : deriv_on lo hi f3 f4.
  Hypothesis Hb : bounded_on lo hi f4 M.
  Hypothesis Ok0 : exact_end b0 (f1 lo) (f2 lo).
  Hypothesis Ok1 : exact_end b1 (f1 hi) (f2 hi).
  Variable d : nat -> R.
  Hypothesis Sys : system_eq b0 b1 xs ys d.

  Lemma exact_close k : (k < n)%nat -> Rabs (d k - f1 (x k)) <= 7 / 24 * M * tau ^ 3.
  Proof.
    set (e k := d k - f1 (x k)). change (d k - f1 (x k)) with (e k). revert k.
    assert (Xl : forall k, (k < n)%nat -> lo <= x k <= hi).
    { intros k Hk. split; apply increasing_le; try assumption; unfold n in *; lia. }
    set (h := fun k => x (S k) - x k).
    assert (Hp : forall k, (S k < n)%nat -> 0 < h k <= tau) by (intros k Hk; split; [pose proof (I k Hk); unfold h, x; lra|apply Ht, Hk]).
    assert (M0 : 0 <= M) by (pose proof (Hb (x 0%nat) (Xl 0%nat ltac:(lia))); pose proof (Rabs_pos (f4 (x 0%nat))); lra).
    set (m := fun k => (f (x (S k)) - f (x k)) / h k).
    assert (Res : forall k, (S k < n)%nat ->
      Rabs (3 * m k - 2 * f1 (x k) - f1 (x (S k)) - h k / 2 * f2 (x k)) <= 7 / 24 * M * h k ^ 3 /\
      Rabs (3 * m k - 2 * f1 (x (S k)) - f1 (x k) + h k / 2 * f2 (x (S k))) <= 7 / 24 * M * h k ^ 3).
    { intros k Hk. apply (chord_res lo hi f f1 f2 f3 f4 M (x k) (x (S k))); try assumption; [apply Xl; lia|apply I, Hk|apply Xl, Hk]. }
    assert (Cube : forall k, (S k < n)%nat -> M * h k ^ 3 <= M * tau ^ 3).
    { intros k Hk. apply Rmult_le_compat_l; [exact M0|]. apply pow_incr. pose proof (Hp k Hk). lra. }
    assert (Npar : parabola_case b0 b1 xs = false).
    { destruct (parabola_case b0 b1 xs) eqn:Pc; [|reflexivity]. exfalso. apply andb_true_iff in Pc as [_ Pc]. destruct b0; [destruct Ok0|discriminate|discriminate]. }
    pose proof (proj2 Sys) as Q. rewrite Npar in Q. destruct Q as [Qs Qe].
    apply (dominant h e n); [exact Hn|intros k Hk; apply Hp, Hk| | |].
    - intros k Hk. pose proof (proj1 Sys k Hk) as Q. cbv beta in Q.
      change (nth (S (S k)) xs 0 - nth (S k) xs 0) with (h (S k)) in Q. change (nth (S k) xs 0 - nth k xs 0) with (h k) in Q. rewrite !Hy in Q by lia. fold (m k) (m (S k)) in Q.
      destruct (Res k ltac:(lia)) as [_ A]. destruct (Res (S k) ltac:(lia)) as [B _]. pose proof (Hp k ltac:(lia)) as P. pose proof (Hp (S k) ltac:(lia)) as P'.
      set (u := 3 * m k - 2 * f1 (x (S k)) - f1 (x k) + h k / 2 * f2 (x (S k))) in *.
      set (v := 3 * m (S k) - 2 * f1 (x (S k)) - f1 (x (S (S k))) - h (S k) / 2 * f2 (x (S k))) in *.
      replace (h (S k) * e k + 2 * (h k + h (S k)) * e (S k) + h k * e (S (S k))) with (h (S k) * u + h k * v) by (unfold u, v, e; lra).
      apply abs2 in A. apply abs2 in B. pose proof (Cube k ltac:(lia)) as C1. pose proof (Cube (S k) ltac:(lia)) as C2.
      pose proof (scaled (h (S k)) u (7 / 24 * M * tau ^ 3) ltac:(lra) ltac:(lra)) as S1. pose proof (scaled (h k) v (7 / 24 * M * tau ^ 3) ltac:(lra) ltac:(lra)) as S2.
      apply abs2. lra.
    - unfold start_eq in Qs. unfold exact_end in Ok0. destruct b0 as [|v|v]; [destruct Ok0| |].
      + left. unfold e. rewrite Qs, Ok0. fold lo. replace (f1 lo - f1 lo) with 0 by ring. rewrite Rabs_R0. apply Rmult_le_pos; [lra|]. apply pow_le. pose proof (Hp 0%nat ltac:(lia)). lra.
      + right. cbv beta in Qs. change (nth 1 xs 0 - nth 0 xs 0) with (h 0%nat) in Qs. rewrite !Hy in Qs by lia. destruct (Res 0%nat ltac:(lia)) as [A _]. pose proof (Hp 0%nat ltac:(lia)) as P.
        replace (2 * e 0%nat + e 1%nat) with (3 * m 0%nat - 2 * f1 (x 0%nat) - f1 (x 1%nat) - h 0%nat / 2 * f2 (x 0%nat)).
        * pose proof (Cube 0%nat ltac:(lia)). lra.
        * apply (Rmult_eq_reg_r (h 0%nat)); [|lra]. unfold e. replace ((2 * (d 0%nat - f1 (x 0%nat)) + (d 1%nat - f1 (x 1%nat))) * h 0%nat) with (2 * h 0%nat * d 0%nat + h 0%nat * d 1%nat - (2 * f1 (x 0%nat) + f1 (x 1%nat)) * h 0%nat) by ring.
          rewrite Qs, Ok0. unfold m, lo. field. lra.
    - unfold end_eq in Qe. fold n in Qe. unfold exact_end in Ok1. destruct b1 as [|v|v]; [destruct Ok1| |].
      + left. unfold e. rewrite Qe, Ok1. fold hi. replace (f1 hi - f1 hi) with 0 by ring. rewrite Rabs_R0. apply Rmult_le_pos; [lra|]. apply pow_le. pose proof (Hp 0%nat ltac:(lia)). lra.
      + right. cbv beta in Qe. change (nth (S (n - 2)) xs 0 - nth (n - 2) xs 0) with (h (n - 2)%nat) in Qe. rewrite !Hy in Qe by lia. destruct (Res (n - 2)%nat ltac:(lia)) as [_ A]. pose proof (Hp (n - 2)%nat ltac:(lia)) as P.
        assert (Em : f (x (n - 1)%nat) - f (x (n - 2)%nat) = m (n - 2)%nat * h (n - 2)%nat) by (unfold m; replace (S (n - 2)) with (n - 1)%nat by lia; field; lra).
        replace (S (n - 2)) with (n - 1)%nat in A by lia.
        replace (2 * e (n - 1)%nat + e (n - 2)%nat) with (3 * m (n - 2)%nat - 2 * f1 (x (n - 1)%nat) - f1 (x (n - 2)%nat) + h (n - 2)%nat / 2 * f2 (x (n - 1)%nat)).
        * pose proof (Cube (n - 2)%nat ltac:(lia)). lra.
        * apply (Rmult_eq_reg_r (h (n - 2)%nat)); [|lra]. unfold e. rewrite Em, Ok1 in Qe. fold hi. lra.
  Qed.
End Fourth.
