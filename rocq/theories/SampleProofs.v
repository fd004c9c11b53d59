(** Smooth functions sampled at equal steps: Taylor bounds and the differences
    numpy.gradient computes. *)
From Coq Require Import ZArith List Bool Arith Lia Reals Lra Psatz.
From Verif Require Import Num Vec DiffGeom Spec GeomSpec DiffGeomProofs2.
Import ListNotations.
Local Open Scope R_scope.

(** [g'] is the derivative of [g] on the interval. *)
Definition deriv_on (lo hi : R) (g g' : R -> R) : Prop := forall x, lo <= x <= hi -> derivable_pt_lim g x (g' x).
Definition bounded_on (lo hi : R) (g : R -> R) (B : R) : Prop := forall x, lo <= x <= hi -> Rabs (g x) <= B.

Lemma nondec (f f' : R -> R) s : 0 <= s -> (forall t, 0 <= t <= s -> derivable_pt_lim f t (f' t)) ->
  (forall t, 0 <= t <= s -> 0 <= f' t) -> f 0 <= f s.
Proof.
  intros [Hs|<-] D P; [|lra].
  destruct (MVT_cor2 f f' 0 s Hs D) as (c & E & Hc). pose proof (P c ltac:(lra)). nra.
Qed.

Lemma pow_deriv K k t : derivable_pt_lim (fun s => K * s ^ S k / INR (S k)) t (K * t ^ k).
Proof.
  assert (N : INR (S k) <> 0) by (apply not_0_INR; lia).
  replace (K * t ^ k) with (K / INR (S k) * (INR (S k) * t ^ pred (S k))) by (cbn [pred]; field; exact N).
  eapply derivable_pt_lim_ext; [|apply (derivable_pt_lim_scal (fun s => s ^ S k) (K / INR (S k)) t); apply derivable_pt_lim_pow].
  intros s. unfold mult_real_fct. cbv beta. field. exact N.
Qed.

Lemma grow (f f' : R -> R) K k s : 0 <= s -> f 0 = 0 -> (forall t, 0 <= t <= s -> derivable_pt_lim f t (f' t)) ->
  (forall t, 0 <= t <= s -> Rabs (f' t) <= K * t ^ k) -> Rabs (f s) <= K * s ^ S k / INR (S k).
Proof.
  intros Hs Z D B. assert (E0 : K * 0 ^ S k / INR (S k) = 0) by (rewrite pow_i by lia; unfold Rdiv; ring).
  apply Rabs_le. split.
  - pose proof (nondec (fun t => K * t ^ S k / INR (S k) + f t) (fun t => K * t ^ k + f' t) s Hs) as H. cbv beta in H. rewrite E0, Z in H.
    assert (0 + 0 <= K * s ^ S k / INR (S k) + f s); [|lra]. apply H.
    + intros t Ht. apply (derivable_pt_lim_plus (fun s => K * s ^ S k / INR (S k)) f); [apply pow_deriv|apply D; exact Ht].
    + intros t Ht. specialize (B t Ht). apply Rabs_def2_le in B || (pose proof (Rle_abs (f' t)); pose proof (Rle_abs (- f' t)) as Q; rewrite Rabs_Ropp in Q; lra).
  - pose proof (nondec (fun t => K * t ^ S k / INR (S k) - f t) (fun t => K * t ^ k - f' t) s Hs) as H. cbv beta in H. rewrite E0, Z in H.
    assert (0 - 0 <= K * s ^ S k / INR (S k) - f s); [|lra]. apply H.
    + intros t Ht. apply (derivable_pt_lim_minus (fun s => K * s ^ S k / INR (S k)) f); [apply pow_deriv|apply D; exact Ht].
    + intros t Ht. specialize (B t Ht). pose proof (Rle_abs (f' t)). lra.
Qed.

Lemma affine_deriv a b t : derivable_pt_lim (fun t => a + b * t) t b.
Proof.
  assert (H : derivable_pt_lim ((fun _ => a) + mult_real_fct b (fun t => t))%F t (0 + b * 1))
    by (apply derivable_pt_lim_plus; [apply derivable_pt_lim_const|apply derivable_pt_lim_scal, derivable_pt_lim_id]).
  replace (0 + b * 1) with b in H by ring. exact H.
Qed.

(** Moving along the line from [x] with speed [e]. *)
Lemma line_deriv (g g' : R -> R) x e t : derivable_pt_lim g (x + e * t) (g' (x + e * t)) ->
  derivable_pt_lim (fun t => g (x + e * t)) t (e * g' (x + e * t)).
Proof.
  intros D. rewrite Rmult_comm. apply (derivable_pt_lim_comp (fun t => x + e * t) g).
  - apply affine_deriv.
  - exact D.
Qed.

Section Taylor.
  Variables (lo hi : R).

  Lemma reach x y : lo <= x <= hi -> lo <= y <= hi -> exists e s, (e * e = 1 /\ Rabs e = 1) /\ 0 <= s /\ Rabs (y - x) = s /\ y = x + e * s /\
    forall t, 0 <= t <= s -> lo <= x + e * t <= hi.
  Proof.
    intros X Y. destruct (Rle_lt_dec x y) as [L|L].
    - exists 1, (y - x). rewrite Rabs_R1, Rabs_right by lra. repeat split; try ring; lra.
    - exists (-1), (x - y). rewrite (Rabs_left (-1)), Rabs_left by lra. repeat split; try ring; lra.
  Qed.

  Lemma taylor1 g g1 M x y : deriv_on lo hi g g1 -> bounded_on lo hi g1 M -> lo <= x <= hi -> lo <= y <= hi ->
    Rabs (g y - g x) <= M * Rabs (y - x).
  Proof.
    intros D B X Y. destruct (reach x y X Y) as (e & s & (E2 & Ea) & Hs & -> & -> & In).
    pose proof (grow (fun t => g (x + e * t) - g x) (fun t => e * g1 (x + e * t)) M 0 s Hs) as H. cbv beta in H.
    cbn [pow INR] in H. replace (M * s) with (M * (s * 1) / 1) by field. apply H.
    - rewrite Rmult_0_r, Rplus_0_r. ring.
    - intros t Ht. replace (e * g1 (x + e * t)) with (e * g1 (x + e * t) - 0) by ring.
      apply (derivable_pt_lim_minus (fun t => g (x + e * t)) (fun _ => g x)); [apply line_deriv, D, In, Ht|apply derivable_pt_lim_const].
    - intros t Ht. rewrite Rabs_mult, Ea. pose proof (B _ (In t Ht)). lra.
  Qed.

  Lemma taylor2 g g1 g2 M x y : deriv_on lo hi g g1 -> deriv_on lo hi g1 g2 -> bounded_on lo hi g2 M -> lo <= x <= hi -> lo <= y <= hi ->
    Rabs (g y - g x - (y - x) * g1 x) <= M * Rabs (y - x) ^ 2 / 2.
  Proof.
    intros D D1 B X Y. destruct (reach x y X Y) as (e & s & (E2 & Ea) & Hs & -> & -> & In).
    pose proof (grow (fun t => g (x + e * t) - (g x + e * g1 x * t)) (fun t => e * g1 (x + e * t) - e * g1 x) M 1 s Hs) as H. cbv beta in H.
    replace (g (x + e * s) - g x - (x + e * s - x) * g1 x) with (g (x + e * s) - (g x + e * g1 x * s)) by ring.
    replace (M * s ^ 2 / 2) with (M * s ^ 2 / INR 2) by (cbn [INR]; f_equal; ring). apply H.
    - rewrite !Rmult_0_r, !Rplus_0_r. ring.
    - intros t Ht. apply (derivable_pt_lim_minus (fun t => g (x + e * t)) (fun t => g x + e * g1 x * t)); [apply line_deriv, D, In, Ht|apply affine_deriv].
    - intros t Ht. replace (e * g1 (x + e * t) - e * g1 x) with (e * (g1 (x + e * t) - g1 x)) by ring. rewrite Rabs_mult, Ea.
      pose proof (taylor1 g1 g2 M x (x + e * t) D1 B X (In t Ht)) as K. replace (x + e * t - x) with (e * t) in K by ring.
      rewrite Rabs_mult, Ea, (Rabs_right t) in K by lra. cbn [pow]. lra.
  Qed.

  Lemma quad_deriv a b q t : derivable_pt_lim (fun t => a + b * t + q * (t * t)) t (b + 2 * q * t).
  Proof.
    apply (derivable_pt_lim_plus (fun t => a + b * t) (fun t => q * (t * t))); [apply affine_deriv|].
    replace (2 * q * t) with (q * (1 * t + t * 1)) by ring. apply (derivable_pt_lim_scal (fun t => t * t)).
    apply (derivable_pt_lim_mult (fun t => t) (fun t => t)); apply derivable_pt_lim_id.
  Qed.

  Lemma taylor3 g g1 g2 g3 M x y : deriv_on lo hi g g1 -> deriv_on lo hi g1 g2 -> deriv_on lo hi g2 g3 -> bounded_on lo hi g3 M ->
    lo <= x <= hi -> lo <= y <= hi ->
    Rabs (g y - g x - (y - x) * g1 x - (y - x) ^ 2 / 2 * g2 x) <= M * Rabs (y - x) ^ 3 / 6.
  Proof.
    intros D D1 D2 B X Y. destruct (reach x y X Y) as (e & s & (E2 & Ea) & Hs & -> & -> & In).
    pose proof (grow (fun t => g (x + e * t) - (g x + e * g1 x * t + g2 x / 2 * (t * t))) (fun t => e * g1 (x + e * t) - (e * g1 x + 2 * (g2 x / 2) * t)) (M / 2) 2 s Hs) as H. cbv beta in H.
    replace (g (x + e * s) - g x - (x + e * s - x) * g1 x - (x + e * s - x) ^ 2 / 2 * g2 x) with (g (x + e * s) - (g x + e * g1 x * s + g2 x / 2 * (s * s)))
      by (replace ((x + e * s - x) ^ 2) with (e * e * (s * s)) by ring; rewrite E2; field).
    replace (M * s ^ 3 / 6) with (M / 2 * s ^ 3 / INR 3) by (cbn [INR]; field). apply H.
    - rewrite !Rmult_0_r, !Rplus_0_r. ring.
    - intros t Ht. apply (derivable_pt_lim_minus (fun t => g (x + e * t)) (fun t => g x + e * g1 x * t + g2 x / 2 * (t * t))); [apply line_deriv, D, In, Ht|apply quad_deriv].
    - intros t Ht. replace (e * g1 (x + e * t) - (e * g1 x + 2 * (g2 x / 2) * t)) with (e * (g1 (x + e * t) - g1 x - (e * t) * g2 x))
        by (replace (e * (g1 (x + e * t) - g1 x - e * t * g2 x)) with (e * g1 (x + e * t) - e * g1 x - (e * e) * (t * g2 x)) by ring; rewrite E2; field).
      rewrite Rabs_mult, Ea.
      pose proof (taylor2 g1 g2 g3 M x (x + e * t) D1 D2 B X (In t Ht)) as K. replace (x + e * t - x) with (e * t) in K by ring.
      rewrite Rabs_mult, Ea, (Rabs_right t) in K by lra. cbn [pow] in K |- *. lra.
  Qed.
End Taylor.

Lemma taylor4 lo hi g g1 g2 g3 g4 M x y : deriv_on lo hi g g1 -> deriv_on lo hi g1 g2 -> deriv_on lo hi g2 g3 -> deriv_on lo hi g3 g4 -> bounded_on lo hi g4 M ->
  lo <= x <= hi -> lo <= y <= hi ->
  Rabs (g y - g x - (y - x) * g1 x - (y - x) ^ 2 / 2 * g2 x - (y - x) ^ 3 / 6 * g3 x) <= M * Rabs (y - x) ^ 4 / 24.
Proof.
  intros D D1 D2 D3 B X Y. destruct (reach lo hi x y X Y) as (e & s & (E2 & Ea) & Hs & -> & -> & In).
  pose proof (grow (fun t => g (x + e * t) - ((g x + e * g1 x * t + g2 x / 2 * (t * t)) + e * g3 x / 6 * (t ^ 3)))
    (fun t => e * g1 (x + e * t) - ((e * g1 x + 2 * (g2 x / 2) * t) + e * g3 x / 6 * (INR 3 * t ^ 2))) (M / 6) 3 s Hs) as H. cbv beta in H.
  replace (g (x + e * s) - g x - (x + e * s - x) * g1 x - (x + e * s - x) ^ 2 / 2 * g2 x - (x + e * s - x) ^ 3 / 6 * g3 x)
    with (g (x + e * s) - ((g x + e * g1 x * s + g2 x / 2 * (s * s)) + e * g3 x / 6 * (s ^ 3)))
    by (replace ((x + e * s - x) ^ 2) with (e * e * (s * s)) by ring; replace ((x + e * s - x) ^ 3) with (e * e * (e * s ^ 3)) by ring; rewrite E2; field).
  replace (M * s ^ 4 / 24) with (M / 6 * s ^ 4 / INR 4) by (cbn [INR]; field). apply H.
  - rewrite pow_i by lia. rewrite !Rmult_0_r, !Rplus_0_r. ring.
  - intros t Ht. apply (derivable_pt_lim_minus (fun t => g (x + e * t)) (fun t => (g x + e * g1 x * t + g2 x / 2 * (t * t)) + e * g3 x / 6 * (t ^ 3))); [apply line_deriv, D, In, Ht|].
    apply (derivable_pt_lim_plus (fun t => g x + e * g1 x * t + g2 x / 2 * (t * t)) (fun t => e * g3 x / 6 * t ^ 3)); [apply quad_deriv|].
    apply (derivable_pt_lim_scal (fun t => t ^ 3)). apply (derivable_pt_lim_pow t 3).
  - intros t Ht. replace (e * g1 (x + e * t) - ((e * g1 x + 2 * (g2 x / 2) * t) + e * g3 x / 6 * (INR 3 * t ^ 2)))
      with (e * (g1 (x + e * t) - g1 x - (e * t) * g2 x - (e * t) ^ 2 / 2 * g3 x)).
    2:{ replace ((e * t) ^ 2) with (e * e * t ^ 2) by ring.
        replace (e * (g1 (x + e * t) - g1 x - e * t * g2 x - e * e * t ^ 2 / 2 * g3 x)) with (e * g1 (x + e * t) - e * g1 x - (e * e) * (t * g2 x) - e * e * (e * t ^ 2 / 2 * g3 x)) by field.
        rewrite E2. cbn [INR]. field. }
    rewrite Rabs_mult, Ea.
    pose proof (taylor3 lo hi g1 g2 g3 g4 M x (x + e * t) D1 D2 D3 B X (In t Ht)) as K. replace (x + e * t - x) with (e * t) in K by ring.
    rewrite Rabs_mult, Ea, (Rabs_right t) in K by lra. cbn [pow] in K |- *. lra.
Qed.

(** ** The differences of samples *)

Lemma Rabs_lt_le_inv a b : Rabs a <= b -> - b <= a <= b.
Proof. intros H. split; [pose proof (Rle_abs (- a)) as Q; rewrite Rabs_Ropp in Q; lra|pose proof (Rle_abs a); lra]. Qed.

Lemma slope_close m F G e i : (3 <= m)%nat -> (i < m)%nat -> (forall k, (k < m)%nat -> Rabs (F k - G k) <= e) ->
  Rabs (slope m F i - slope m G i) <= 4 * e.
Proof.
  intros Hm Hi H. assert (K : forall k, (k < m)%nat -> - e <= F k - G k <= e) by (intros k Hk; apply Rabs_lt_le_inv, H, Hk).
  unfold slope. destruct (Nat.eqb_spec m 2); [lia|]. apply Rabs_le.
  destruct (Nat.eqb_spec i 0); [pose proof (K 0%nat ltac:(lia)); pose proof (K 1%nat ltac:(lia)); pose proof (K 2%nat ltac:(lia)); lra|].
  destruct (Nat.eqb_spec i (m - 1)).
  - pose proof (K (m - 1)%nat ltac:(lia)); pose proof (K (m - 2)%nat ltac:(lia)); pose proof (K (m - 3)%nat ltac:(lia)). lra.
  - pose proof (K (i + 1)%nat ltac:(lia)); pose proof (K (i - 1)%nat ltac:(lia)). lra.
Qed.
Lemma slope_close_inner m F G e i : (0 < i)%nat -> (S i < m)%nat -> Rabs (F (i + 1)%nat - G (i + 1)%nat) <= e -> Rabs (F (i - 1)%nat - G (i - 1)%nat) <= e ->
  Rabs (slope m F i - slope m G i) <= e.
Proof.
  intros H0 Hi A B. apply Rabs_lt_le_inv in A, B. apply Rabs_le. unfold slope. destruct (Nat.eqb_spec m 2); [lia|].
  destruct (Nat.eqb_spec i 0); [lia|]. destruct (Nat.eqb_spec i (m - 1)); [lia|]. lra.
Qed.

Section Samples.
  Variables (a h : R) (m : nat).
  Hypothesis Hh : 0 < h.
  Hypothesis Hm : (3 <= m)%nat.
  Definition at_ (k : nat) : R := a + h * INR k.
  Let lo := a.
  Let hi := at_ (m - 1).

  Lemma at_in k : (k < m)%nat -> lo <= at_ k <= hi.
  Proof.
    intros Hk. unfold lo, hi, at_. assert (0 <= INR k) by apply pos_INR. assert (INR k <= INR (m - 1)) by (apply le_INR; lia). nra.
  Qed.
  Lemma at_diff k l : at_ k - at_ l = h * (INR k - INR l).
  Proof. unfold at_. ring. Qed.

  (** One more derivative than the quotient approximates. *)
  Lemma slope_d2 g g1 g2 M i : deriv_on lo hi g g1 -> deriv_on lo hi g1 g2 -> bounded_on lo hi g2 M -> (i < m)%nat ->
    Rabs (slope m (fun k => g (at_ k)) i - h * g1 (at_ i)) <= 2 * M * h ^ 2 /\
    ((0 < i)%nat -> (S i < m)%nat -> Rabs (slope m (fun k => g (at_ k)) i - h * g1 (at_ i)) <= M * h ^ 2 / 2).
  Proof.
    intros D D1 B Hi.
    assert (T : forall k c, (k < m)%nat -> INR k = INR i + c -> - (M * (c * h) ^ 2 / 2) <= g (at_ k) - g (at_ i) - c * h * g1 (at_ i) <= M * (c * h) ^ 2 / 2).
    { intros k c Hk Ec. pose proof (taylor2 lo hi g g1 g2 M (at_ i) (at_ k) D D1 B (at_in i Hi) (at_in k Hk)) as H.
      rewrite at_diff, Ec in H. replace (h * (INR i + c - INR i)) with (c * h) in H by ring. rewrite pow2_abs in H. apply Rabs_lt_le_inv in H. exact H. }
    assert (In : (0 < i)%nat -> (S i < m)%nat -> Rabs (slope m (fun k => g (at_ k)) i - h * g1 (at_ i)) <= M * h ^ 2 / 2).
    { intros H0 H1. pose proof (T (i + 1)%nat 1 ltac:(lia) ltac:(rewrite plus_INR; cbn; ring)) as P. pose proof (T (i - 1)%nat (-1) ltac:(lia) ltac:(rewrite minus_INR by lia; cbn; ring)) as Q.
      unfold slope. destruct (Nat.eqb_spec m 2); [lia|]. destruct (Nat.eqb_spec i 0); [lia|]. destruct (Nat.eqb_spec i (m - 1)); [lia|].
      apply Rabs_le. nra. }
    split; [|exact In]. assert (M0 : 0 <= M) by (pose proof (B (at_ i) (at_in i Hi)); pose proof (Rabs_pos (g2 (at_ i))); lra).
    destruct (Nat.eq_dec i 0) as [E|N]; [|destruct (Nat.eq_dec i (m - 1)) as [E|N']].
    - subst i. pose proof (T 1%nat 1 ltac:(lia) ltac:(cbn; ring)) as P. pose proof (T 2%nat 2 ltac:(lia) ltac:(cbn; ring)) as Q.
      unfold slope. destruct (Nat.eqb_spec m 2); [lia|]. cbn [Nat.eqb]. apply Rabs_le. nra.
    - pose proof (T (m - 2)%nat (-1) ltac:(lia) ltac:(rewrite E, !minus_INR by lia; cbn; ring)) as P. pose proof (T (m - 3)%nat (-2) ltac:(lia) ltac:(rewrite E, !minus_INR by lia; cbn; ring)) as Q.
      unfold slope. destruct (Nat.eqb_spec m 2); [lia|]. destruct (Nat.eqb_spec i 0); [lia|]. destruct (Nat.eqb_spec i (m - 1)); [|lia]. rewrite <- E. apply Rabs_le. nra.
    - specialize (In ltac:(lia) ltac:(lia)). nra.
  Qed.

  Lemma slope_d3 g g1 g2 g3 M i : deriv_on lo hi g g1 -> deriv_on lo hi g1 g2 -> deriv_on lo hi g2 g3 -> bounded_on lo hi g3 M -> (i < m)%nat ->
    Rabs (slope m (fun k => g (at_ k)) i - h * g1 (at_ i)) <= M * h ^ 3 /\
    ((0 < i)%nat -> (S i < m)%nat -> Rabs (slope m (fun k => g (at_ k)) i - h * g1 (at_ i)) <= M * h ^ 3 / 6).
  Proof.
    intros D D1 D2 B Hi.
    assert (T : forall k c, (k < m)%nat -> INR k = INR i + c -> Rabs (g (at_ k) - g (at_ i) - c * h * g1 (at_ i) - (c * h) ^ 2 / 2 * g2 (at_ i)) <= M * Rabs (c * h) ^ 3 / 6).
    { intros k c Hk Ec. pose proof (taylor3 lo hi g g1 g2 g3 M (at_ i) (at_ k) D D1 D2 B (at_in i Hi) (at_in k Hk)) as H.
      rewrite at_diff, Ec in H. replace (h * (INR i + c - INR i)) with (c * h) in H by ring. exact H. }
    assert (Ap : forall c, 0 <= c -> Rabs (c * h) ^ 3 = c ^ 3 * h ^ 3) by (intros c Hc; rewrite Rabs_right by nra; ring).
    assert (An : forall c, 0 <= c -> Rabs (- c * h) ^ 3 = c ^ 3 * h ^ 3) by (intros c Hc; rewrite Rabs_left1 by nra; ring).
    assert (In : (0 < i)%nat -> (S i < m)%nat -> Rabs (slope m (fun k => g (at_ k)) i - h * g1 (at_ i)) <= M * h ^ 3 / 6).
    { intros H0 H1. pose proof (T (i + 1)%nat 1 ltac:(lia) ltac:(rewrite plus_INR; cbn; ring)) as P. pose proof (T (i - 1)%nat (-(1)) ltac:(lia) ltac:(rewrite minus_INR by lia; cbn; ring)) as Q.
      rewrite Ap in P by lra. rewrite An in Q by lra. apply Rabs_lt_le_inv in P, Q.
      unfold slope. destruct (Nat.eqb_spec m 2); [lia|]. destruct (Nat.eqb_spec i 0); [lia|]. destruct (Nat.eqb_spec i (m - 1)); [lia|].
      apply Rabs_le. lra. }
    split; [|exact In].
    assert (M0 : 0 <= M * h ^ 3) by (pose proof (B (at_ i) (at_in i Hi)); pose proof (Rabs_pos (g3 (at_ i))); apply Rmult_le_pos; [lra|apply pow_le; lra]).
    destruct (Nat.eq_dec i 0) as [E|N]; [|destruct (Nat.eq_dec i (m - 1)) as [E|N']].
    - subst i. pose proof (T 1%nat 1 ltac:(lia) ltac:(cbn; ring)) as P. pose proof (T 2%nat 2 ltac:(lia) ltac:(cbn; ring)) as Q.
      rewrite Ap in P, Q by lra. apply Rabs_lt_le_inv in P, Q.
      unfold slope. destruct (Nat.eqb_spec m 2); [lia|]. cbn [Nat.eqb]. apply Rabs_le. lra.
    - pose proof (T (m - 2)%nat (-(1)) ltac:(lia) ltac:(rewrite E, !minus_INR by lia; cbn; ring)) as P. pose proof (T (m - 3)%nat (-(2)) ltac:(lia) ltac:(rewrite E, !minus_INR by lia; cbn; ring)) as Q.
      rewrite An in P, Q by lra. apply Rabs_lt_le_inv in P, Q.
      unfold slope. destruct (Nat.eqb_spec m 2); [lia|]. destruct (Nat.eqb_spec i 0); [lia|]. destruct (Nat.eqb_spec i (m - 1)); [|lia]. rewrite <- E. apply Rabs_le. lra.
    - specialize (In ltac:(lia) ltac:(lia)). lra.
  Qed.

  Lemma slope_scale c F i : slope m (fun k => c * F k) i = c * slope m F i.
  Proof. unfold slope. destruct (Nat.eqb m 2), (Nat.eqb i 0), (Nat.eqb i (m - 1)); field. Qed.

  (** The second difference: first order up to the ends, second order inside. *)
  Lemma slope2_d3 g g1 g2 g3 M i : deriv_on lo hi g g1 -> deriv_on lo hi g1 g2 -> deriv_on lo hi g2 g3 -> bounded_on lo hi g3 M -> (i < m)%nat ->
    Rabs (slope m (slope m (fun k => g (at_ k))) i - h ^ 2 * g2 (at_ i)) <= 6 * M * h ^ 3.
  Proof.
    intros D D1 D2 B Hi. set (F := slope m (fun k => g (at_ k))). set (G := fun k => h * g1 (at_ k)).
    assert (C : forall k, (k < m)%nat -> Rabs (F k - G k) <= M * h ^ 3) by (intros k Hk; apply (slope_d3 g g1 g2 g3 M k D D1 D2 B Hk)).
    pose proof (slope_close m F G _ i Hm Hi C) as C1. pose proof (proj1 (slope_d2 g1 g2 g3 M i D1 D2 B Hi)) as C2.
    unfold G in C1. rewrite (slope_scale h (fun k => g1 (at_ k))) in C1. apply Rabs_lt_le_inv in C1, C2. apply Rabs_le.
    set (s := slope m (fun k => g1 (at_ k)) i) in *. assert (Q : - (2 * M * h ^ 3) <= h * s - h ^ 2 * g2 (at_ i) <= 2 * M * h ^ 3) by nra. lra.
  Qed.

  Lemma slope2_inner F i : (1 < i)%nat -> (S (S i) < m)%nat -> slope m (slope m F) i = (F (i + 2)%nat - 2 * F i + F (i - 2)%nat) / 4.
  Proof.
    intros H0 H1. unfold slope. destruct (Nat.eqb_spec m 2); [lia|]. destruct (Nat.eqb_spec i 0); [lia|]. destruct (Nat.eqb_spec i (m - 1)); [lia|].
    destruct (Nat.eqb_spec (i + 1) 0); [lia|]. destruct (Nat.eqb_spec (i + 1) (m - 1)); [lia|]. destruct (Nat.eqb_spec (i - 1) 0); [lia|]. destruct (Nat.eqb_spec (i - 1) (m - 1)); [lia|].
    replace (i + 1 + 1)%nat with (i + 2)%nat by lia. replace (i + 1 - 1)%nat with i by lia. replace (i - 1 + 1)%nat with i by lia. replace (i - 1 - 1)%nat with (i - 2)%nat by lia. field.
  Qed.
  Lemma slope2_d4 g g1 g2 g3 g4 M i : deriv_on lo hi g g1 -> deriv_on lo hi g1 g2 -> deriv_on lo hi g2 g3 -> deriv_on lo hi g3 g4 -> bounded_on lo hi g4 M ->
    (1 < i)%nat -> (S (S i) < m)%nat -> Rabs (slope m (slope m (fun k => g (at_ k))) i - h ^ 2 * g2 (at_ i)) <= M * h ^ 4 / 3.
  Proof.
    intros D D1 D2 D3 B H0 H1. rewrite slope2_inner by assumption. assert (Hi : (i < m)%nat) by lia.
    assert (T : forall k c, (k < m)%nat -> INR k = INR i + c -> Rabs (c * h) = 2 * h -> Rabs (g (at_ k) - g (at_ i) - c * h * g1 (at_ i) - (c * h) ^ 2 / 2 * g2 (at_ i) - (c * h) ^ 3 / 6 * g3 (at_ i)) <= M * (2 * h) ^ 4 / 24).
    { intros k c Hk Ec Ea. pose proof (taylor4 lo hi g g1 g2 g3 g4 M (at_ i) (at_ k) D D1 D2 D3 B (at_in i Hi) (at_in k Hk)) as H.
      rewrite at_diff, Ec in H. replace (h * (INR i + c - INR i)) with (c * h) in H by ring. rewrite Ea in H. exact H. }
    pose proof (T (i + 2)%nat 2 ltac:(lia) ltac:(rewrite plus_INR; cbn; ring) ltac:(rewrite Rabs_right; lra)) as P.
    pose proof (T (i - 2)%nat (-2) ltac:(lia) ltac:(rewrite minus_INR by lia; cbn; ring) ltac:(rewrite Rabs_left; lra)) as Q.
    apply Rabs_lt_le_inv in P, Q. apply Rabs_le. lra.
  Qed.
  (** The third difference, away from the ends. *)
  Lemma slope3_d4 g g1 g2 g3 g4 M i : deriv_on lo hi g g1 -> deriv_on lo hi g1 g2 -> deriv_on lo hi g2 g3 -> deriv_on lo hi g3 g4 -> bounded_on lo hi g4 M ->
    (2 < i)%nat -> (S (S (S i)) < m)%nat -> Rabs (slope m (slope m (slope m (fun k => g (at_ k)))) i - h ^ 3 * g3 (at_ i)) <= 5 / 6 * M * h ^ 4.
  Proof.
    intros D D1 D2 D3 B H0 H1. set (F := slope m (slope m (fun k => g (at_ k)))). set (G := fun k => h ^ 2 * g2 (at_ k)).
    assert (C : forall k, (1 < k)%nat -> (S (S k) < m)%nat -> Rabs (F k - G k) <= M * h ^ 4 / 3) by (intros k Hk Hk'; apply (slope2_d4 g g1 g2 g3 g4); assumption).
    pose proof (slope_close_inner m F G _ i ltac:(lia) ltac:(lia) (C (i + 1)%nat ltac:(lia) ltac:(lia)) (C (i - 1)%nat ltac:(lia) ltac:(lia))) as C1.
    pose proof (proj2 (slope_d2 g2 g3 g4 M i D2 D3 B ltac:(lia)) ltac:(lia) ltac:(lia)) as C2.
    unfold G in C1. rewrite (slope_scale (h ^ 2) (fun k => g2 (at_ k))) in C1. apply Rabs_lt_le_inv in C1, C2. apply Rabs_le.
    set (s := slope m (fun k => g2 (at_ k)) i) in *. assert (P : 0 < h ^ 2) by (apply pow_lt; exact Hh). assert (Q : - (M * h ^ 4 / 2) <= h ^ 2 * s - h ^ 3 * g3 (at_ i) <= M * h ^ 4 / 2) by nra. lra.
  Qed.
End Samples.

(** Cubic samples: the third difference at every point. *)
Lemma slope3_cubic m a b c d i : (8 <= m)%nat -> (i < m)%nat ->
  slope m (slope m (slope m (fun k => a + b * INR k + c * INR k ^ 2 + d * INR k ^ 3))) i =
  6 * d * (if (i =? 0)%nat || (i =? m - 1)%nat then 3 / 8 else if (i =? 1)%nat || (i =? m - 2)%nat then 5 / 8
           else if (i =? 2)%nat || (i =? m - 3)%nat then 7 / 8 else 1).
Proof.
  intros Hm Hi. set (F := fun k => a + b * INR k + c * INR k ^ 2 + d * INR k ^ 3).
  assert (U : forall k G, (k < m)%nat -> slope m G k = if (k =? 0)%nat then - (3 / 2) * G 0%nat + 2 * G 1%nat - / 2 * G 2%nat
    else if (k =? m - 1)%nat then / 2 * G (m - 3)%nat - 2 * G (m - 2)%nat + 3 / 2 * G (m - 1)%nat else (G (k + 1)%nat - G (k - 1)%nat) / 2).
  { intros k G Hk. unfold slope. destruct (Nat.eqb_spec m 2); [lia|]. reflexivity. }
  set (D1 := fun k => b + 2 * c * INR k + 3 * d * INR k ^ 2 + d * (if (k =? 0)%nat || (k =? m - 1)%nat then -2 else 1)).
  assert (S1 : forall k, (k < m)%nat -> slope m F k = D1 k).
  { intros k Hk. rewrite U by exact Hk. unfold D1, F. destruct (Nat.eqb_spec k 0) as [->|N]; cbn [orb]; [cbn [INR]; field|].
    destruct (Nat.eqb_spec k (m - 1)) as [->|N']; [rewrite !minus_INR by lia; cbn [INR]; field|].
    rewrite plus_INR, minus_INR by lia. cbn [INR]. field. }
  set (D2 := fun k => 2 * c + 6 * d * INR k + d * (if (k =? 0)%nat then 9 / 2 else if (k =? 1)%nat then 3 / 2 else if (k =? m - 2)%nat then - (3 / 2) else if (k =? m - 1)%nat then - (9 / 2) else 0)).
  assert (S2 : forall k, (k < m)%nat -> slope m (slope m F) k = D2 k).
  { intros k Hk. rewrite (slope_ext m _ D1) by (try lia; exact S1). rewrite U by exact Hk. unfold D1, D2.
    repeat match goal with |- context [Nat.eqb ?x ?y] => destruct (Nat.eqb_spec x y); try lia end; cbn [orb]; subst; rewrite ?plus_INR, ?minus_INR by lia; cbn [INR]; try field. }
  rewrite (slope_ext m _ D2) by (try lia; exact S2). rewrite U by exact Hi. unfold D2.
  repeat match goal with |- context [Nat.eqb ?x ?y] => destruct (Nat.eqb_spec x y); try lia end; cbn [orb]; subst; rewrite ?plus_INR, ?minus_INR by lia; cbn [INR]; try field.
Qed.
