(** The cubic spline: existence and uniqueness. *)
From Coq Require Import ZArith String List Bool Arith Lia Reals Lra Psatz.
From Verif Require Import Num Py Numeric Curve Vec Geom DiffGeom Intersect Registry Interp Splines Splines2 Spec GeomSpec.
From Verif Require Import ListFacts VecFacts InterpProofs InterpProofs2 SplineProofs SplineProofs2 SplineProofs3 SplineProofs4.
Import ListNotations.
Local Open Scope list_scope.
Local Open Scope R_scope.

(** ** Specification *)

(** On D the function is a polynomial of degree at most three. *)
Definition cubic_on (f : R -> R) (D : R -> Prop) : Prop :=
  exists a0 a1 a2 a3, forall v, D v -> f v = a0 + a1 * v + a2 * (v * v) + a3 * (v * v * v).

(** Twice continuously differentiable, with the derivatives f1 and f2. *)
Definition two_smooth (f f1 f2 : R -> R) : Prop :=
  (forall v, derivable_pt_lim f v (f1 v)) /\ (forall v, derivable_pt_lim f1 v (f2 v)) /\ continuity f2.

(** The condition at the start: a given first or second derivative; no knot at
    the second sample (with two samples: the chord as tangent). *)
Definition start_cond (b : bc1 R) (xs ys : list R) (f f1 f2 : R -> R) : Prop :=
  match b with
  | D1 v => f1 (nth 0 xs 0) = v
  | D2 v => f2 (nth 0 xs 0) = v
  | Nak => (length xs = 2%nat -> f1 (nth 0 xs 0) = (nth 1 ys 0 - nth 0 ys 0) / (nth 1 xs 0 - nth 0 xs 0)) /\
           ((3 <= length xs)%nat -> cubic_on f (fun v => v <= nth 2 xs 0))
  end.
Definition end_cond (b : bc1 R) (xs ys : list R) (f f1 f2 : R -> R) : Prop :=
  let n := length xs in
  match b with
  | D1 v => f1 (nth (n - 1) xs 0) = v
  | D2 v => f2 (nth (n - 1) xs 0) = v
  | Nak => (n = 2%nat -> f1 (nth 1 xs 0) = (nth 1 ys 0 - nth 0 ys 0) / (nth 1 xs 0 - nth 0 xs 0)) /\
           ((3 <= n)%nat -> cubic_on f (fun v => nth (n - 3) xs 0 <= v))
  end.

(** Three samples and no condition at both ends: a parabola. *)
Definition end_conds (b0 b1 : bc1 R) (xs ys : list R) (f f1 f2 : R -> R) : Prop :=
  (length xs = 3%nat /\ b0 = Nak /\ b1 = Nak -> exists a0 a1 a2, forall v, f v = a0 + a1 * v + a2 * (v * v)) /\
  (~ (length xs = 3%nat /\ b0 = Nak /\ b1 = Nak) -> start_cond b0 xs ys f f1 f2 /\ end_cond b1 xs ys f f1 f2).

Definition spline_fun (b0 b1 : bc1 R) (xs ys : list R) (f f1 f2 : R -> R) : Prop :=
  two_smooth f f1 f2 /\
  (forall k, (S k < length xs)%nat -> cubic_on f (in_piece xs k)) /\
  (forall k, (k < length xs)%nat -> f (nth k xs 0) = nth k ys 0) /\
  end_conds b0 b1 xs ys f f1 f2.

(** ** Polynomials *)

Lemma cubic_zero p0 p1 p2 p3 a b : a < b -> (forall v, a <= v <= b -> p0 + p1 * v + p2 * (v * v) + p3 * (v * v * v) = 0) ->
  p3 = 0 /\ p2 = 0 /\ p1 = 0 /\ p0 = 0.
Proof.
  intros L H. set (e := (b - a) / 3). assert (Pe : 0 < e) by (unfold e; lra).
  assert (E0 := H a ltac:(unfold e in *; lra)). assert (E1 := H (a + e) ltac:(unfold e in *; lra)).
  assert (E2 := H (a + 2 * e) ltac:(unfold e in *; lra)). assert (E3 := H (a + 3 * e) ltac:(unfold e in *; lra)).
  clearbody e. clear H.
  assert (A3 : p3 = 0).
  { apply (Rmult_eq_reg_l (6 * (e * e * e))); [|assert (0 < e * e * e) by (repeat apply Rmult_lt_0_compat; assumption); lra].
    match type of E0 with ?x = _ => match type of E1 with ?y = _ => match type of E2 with ?z = _ => match type of E3 with ?w = _ =>
      replace (6 * (e * e * e) * p3) with (w - 3 * z + 3 * y - x) by ring end end end end. lra. }
  subst p3.
  assert (A2 : p2 = 0).
  { apply (Rmult_eq_reg_l (2 * (e * e))); [|assert (0 < e * e) by (repeat apply Rmult_lt_0_compat; assumption); lra].
    match type of E0 with ?x = _ => match type of E1 with ?y = _ => match type of E2 with ?z = _ =>
      replace (2 * (e * e) * p2) with (z - 2 * y + x) by ring end end end. lra. }
  subst p2.
  assert (A1 : p1 = 0).
  { apply (Rmult_eq_reg_l e); [|lra].
    match type of E0 with ?x = _ => match type of E1 with ?y = _ => replace (e * p1) with (y - x) by ring end end. lra. }
  subst p1. repeat split. lra.
Qed.

Lemma poly_deriv a0 a1 a2 a3 v :
  derivable_pt_lim (fun v => a0 + a1 * v + a2 * (v * v) + a3 * (v * v * v)) v (a1 + 2 * a2 * v + 3 * a3 * (v * v)).
Proof.
  set (s := fun v : R => v).
  assert (Ds : forall v, derivable_pt_lim s v 1) by (intros u; apply derivable_pt_lim_id).
  replace (a1 + 2 * a2 * v + 3 * a3 * (v * v)) with (0 + a1 * 1 + a2 * (1 * s v + s v * 1) + a3 * ((1 * s v + s v * 1) * s v + (s v * s v) * 1)).
  2:{ unfold s. ring. }
  change (derivable_pt_lim (fct_cte a0 + (mult_real_fct a1 s) + mult_real_fct a2 (s * s) + mult_real_fct a3 (s * s * s))%F v
    (0 + a1 * 1 + a2 * (1 * s v + s v * 1) + a3 * ((1 * s v + s v * 1) * s v + (s v * s v) * 1))).
  repeat first [apply derivable_pt_lim_plus|apply derivable_pt_lim_const|apply derivable_pt_lim_scal|apply (derivable_pt_lim_mult (s * s)%F)|apply derivable_pt_lim_mult|apply Ds].
Qed.

Section Cubic2.
  Variables (xs : list R) (y d : nat -> R).
  Hypothesis I : increasing xs.
  Let x k := nth k xs 0.
  Let h k := x (S k) - x k.
  Let m k := (y (S k) - y k) / h k.
  Local Notation p0 := (cp0 xs y d).
  Local Notation p1 := (cp1 xs y d).
  Local Notation p2 := (cp2 xs y d).
  Local Notation c2 := (pc2 xs y d).
  Local Notation c3 := (pc3 xs y d).

  Lemma cp0_poly k v : p0 k v
    = (y k - d k * x k + c2 k * (x k * x k) - c3 k * (x k * x k * x k))
      + (d k - 2 * c2 k * x k + 3 * c3 k * (x k * x k)) * v + (c2 k - 3 * c3 k * x k) * (v * v) + c3 k * (v * v * v).
  Proof. unfold cp0. fold (x k). ring. Qed.

  (** Neighbouring pieces with equal second and third derivatives are equal. *)
  Lemma cp0_same k : (S (S k) < length xs)%nat -> p2 k (x (S k)) = p2 (S k) (x (S k)) -> c3 k = c3 (S k) ->
    forall v, p0 k v = p0 (S k) v.
  Proof.
    intros Hk E2 E3 v.
    assert (A0 : p0 k (x (S k)) = y (S k)) by (apply (cp0_right xs y d I k); lia).
    assert (A1 : p1 k (x (S k)) = d (S k)) by (apply (cp1_right xs y d I k); lia).
    rewrite cp2_left in E2.
    unfold cp0 at 2. fold (x (S k)). rewrite <- E3. replace (c2 (S k)) with (p2 k (x (S k)) / 2) by lra. rewrite <- A0, <- A1.
    unfold cp0, cp1, cp2. fold (x k). field.
  Qed.

  (** A cubic with the values and derivatives at both ends. *)
  Lemma cp0_hermite k a0 a1 a2 a3 : (S k < length xs)%nat ->
    let q v := a0 + a1 * v + a2 * (v * v) + a3 * (v * v * v) in
    let q' v := a1 + 2 * a2 * v + 3 * a3 * (v * v) in
    q (x k) = y k -> q (x (S k)) = y (S k) -> q' (x k) = d k -> q' (x (S k)) = d (S k) ->
    forall v, q v = p0 k v.
  Proof.
    intros Hk q q' E0 E1 F0 F1 v. pose proof (I k Hk) as Ik. fold (x k) in Ik. fold (x (S k)) in Ik.
    apply (cubic_unique (x k) (y k) (d k) (x (S k)) (y (S k)) (d (S k)) v); [lra| |].
    - exists a0, a1, a2, a3. cbv zeta. unfold q, q' in *. repeat split; assumption.
    - pose proof (cp0_hval xs y d I k v Hk) as E. cbv beta in E. rewrite <- E. apply hval_cubic. fold (x k) (x (S k)). lra.
  Qed.
End Cubic2.

(** ** Existence *)

Section Exists.
  Variables (b0 b1 : bc1 R) (xs ys : list R).
  Hypothesis I : increasing xs.
  Hypothesis H2 : (2 <= length xs)%nat.
  Let n := length xs.
  Let x k := nth k xs 0.
  Let y k := nth k ys 0.
  Let h k := x (S k) - x k.
  Let m k := (y (S k) - y k) / h k.

  Lemma step_at_eq k : step_at xs k = h k. Proof. reflexivity. Qed.
  Lemma slope_at_eq k : slope_at xs ys k = m k. Proof. reflexivity. Qed.
  Let hp k : (S k < length xs)%nat -> 0 < h k := step_pos xs I k.

  (** The equations in terms of unknowns e. *)
  Definition start_eq (e : nat -> R) : Prop :=
    match b0 with
    | D1 v => e 0%nat = v
    | D2 v => 2 * h 0%nat * e 0%nat + h 0%nat * e 1%nat = - v / 2 * (h 0%nat * h 0%nat) + 3 * (y 1%nat - y 0%nat)
    | Nak => (n = 2%nat -> e 0%nat = m 0%nat) /\
             ((3 <= n)%nat -> h 1%nat * e 0%nat + (h 0%nat + h 1%nat) * e 1%nat
                = ((3 * h 0%nat + 2 * h 1%nat) * h 1%nat * m 0%nat + h 0%nat * h 0%nat * m 1%nat) / (h 0%nat + h 1%nat))
    end.
  Definition end_eq (e : nat -> R) : Prop :=
    match b1 with
    | D1 v => e (n - 1)%nat = v
    | D2 v => h (n - 2)%nat * e (n - 2)%nat + 2 * h (n - 2)%nat * e (n - 1)%nat
              = v / 2 * (h (n - 2)%nat * h (n - 2)%nat) + 3 * (y (n - 1)%nat - y (n - 2)%nat)
    | Nak => (n = 2%nat -> e 1%nat = m 0%nat) /\
             ((3 <= n)%nat -> (h (n - 3) + h (n - 2)) * e (n - 2)%nat + h (n - 3) * e (n - 1)%nat
                = (h (n - 2) * h (n - 2) * m (n - 3)%nat + (2 * h (n - 3) + 3 * h (n - 2)) * h (n - 3) * m (n - 2)%nat)
                  / (h (n - 3) + h (n - 2)))
    end.
  Definition inner_eq (e : nat -> R) : Prop :=
    forall k, (S (S k) < n)%nat ->
      h (S k) * e k + 2 * (h k + h (S k)) * e (S k) + h k * e (S (S k)) = 3 * (h (S k) * m k + h k * m (S k)).
  Definition system_eq (e : nat -> R) : Prop :=
    inner_eq e /\
    if parabola_case b0 b1 xs then e 0%nat + e 1%nat = 2 * m 0%nat /\ e 1%nat + e 2%nat = 2 * m 1%nat
    else start_eq e /\ end_eq e.

  Lemma system_iff (e : list R) : length e = n ->
    tri_ok 0 (cubic_system b0 b1 xs ys) e <-> system_eq (fun k => nth k e 0).
  Proof.
    intros Le. unfold cubic_system, system_eq. fold n. fold (parabola_case b0 b1 xs).
    change (parabola_case b0 b1 xs) with (Nat.eqb n 3 && match b0, b1 with Nak, Nak => true | _, _ => false end).
    destruct (Nat.eqb n 3 && match b0, b1 with Nak, Nak => true | _, _ => false end) eqn:Pc.
    - apply andb_true_iff in Pc as [En _]. apply Nat.eqb_eq in En.
      destruct e as [|e0 [|e1 [|e2 [|e3 e]]]]; cbn [length] in Le; try lia.
      unfold parabola_rows. cbn [tri_ok hd nth]. rn. change (step_at xs) with h; change (slope_at xs ys) with m. unfold inner_eq. rewrite En. split.
      + intros (A & B & C & _). split; [|split; cbn [nth]; lra]. intros [|k] Hk; [|lia]. cbn [nth]. lra.
      + intros (A & B & C). specialize (A 0%nat ltac:(lia)). cbn [nth] in A, B, C. repeat split; lra.
    - change (tri_ok 0 (map (sys_row b0 b1 xs ys) (seq 0 n)) e <-> inner_eq (fun k => nth k e 0) /\ start_eq (fun k => nth k e 0) /\ end_eq (fun k => nth k e 0)).
      rewrite tri_ok_seq. unfold sys_row. fold n.
      assert (Ks : let '(a, b, c, r) := start_row b0 xs ys in a * 0 + b * nth 0 e 0 + c * nth 1 e 0 = r <-> start_eq (fun k => nth k e 0)).
      { unfold start_row, start_eq. fold n. rn. destruct b0 as [|v|v].
        - destruct (Nat.eqb_spec n 2) as [E|E].
          + change (slope_at xs ys) with m. split; intros; [split; intros; [lra|lia]|]. destruct H as [H _]. specialize (H E). lra.
          + change (step_at xs) with h; change (slope_at xs ys) with m. fold (x 2) (x 0).
            assert (Ed : x 2%nat - x 0%nat = h 0%nat + h 1%nat) by (unfold h; lra). rewrite Ed.
            assert (A := hp 0 ltac:(fold n; lia)). assert (B := hp 1 ltac:(fold n; lia)).
            replace (h 0%nat + 2 * (h 0%nat + h 1%nat)) with (3 * h 0%nat + 2 * h 1%nat) by ring.
            split; [intros K; split; [intros; lia|intros _; lra]|intros [_ K]; specialize (K ltac:(lia)); lra].
        - split; intros; lra.
        - change (step_at xs) with h. fold (y 1) (y 0). split; intros; lra. }
      assert (Ke : let '(a, b, c, r) := end_row b1 xs ys in a * nth (n - 2) e 0 + b * nth (n - 1) e 0 + c * 0 = r <-> end_eq (fun k => nth k e 0)).
      { unfold end_row, end_eq. fold n. rn. destruct b1 as [|v|v].
        - destruct (Nat.eqb_spec n 2) as [E|E].
          + change (slope_at xs ys) with m. rewrite E. cbn [Nat.sub]. split; intros; [split; intros; [lra|lia]|]. destruct H as [H _]. specialize (H eq_refl). lra.
          + change (step_at xs) with h; change (slope_at xs ys) with m. fold (x (n - 1)) (x (n - 3)).
            assert (Ed : x (n - 1)%nat - x (n - 3)%nat = h (n - 3) + h (n - 2)).
            { unfold h. replace (S (n - 3)) with (n - 2)%nat by lia. replace (S (n - 2)) with (n - 1)%nat by lia. lra. }
            rewrite Ed.
            replace (2 * (h (n - 3) + h (n - 2)) + h (n - 2)) with (2 * h (n - 3) + 3 * h (n - 2)) by ring.
            split; [intros K; split; [intros; lia|intros _; lra]|intros [_ K]; specialize (K ltac:(lia)); lra].
        - split; intros; lra.
        - change (step_at xs) with h. fold (y (n - 1)) (y (n - 2)). split; intros; lra. }
      split.
      + intros [_ A]. split; [|split].
        * intros k Hk. specialize (A (S k) ltac:(lia)). cbn [Nat.add] in A.
          destruct (Nat.eqb_spec (S k) 0) as [?|_]; [lia|]. destruct (Nat.eqb_spec (S k) (n - 1)) as [?|_]; [lia|].
          unfold inner_row in A. cbn [nlit nadd nsub nmul ndiv n0 n1 RNum] in A. change (step_at xs) with h in A; change (slope_at xs ys) with m in A.
          replace (S k - 1)%nat with k in A by lia. lra.
        * specialize (A 0%nat ltac:(lia)). cbn [Nat.add Nat.eqb] in A. destruct (start_row b0 xs ys) as [[[a b] c] r]. apply Ks, A.
        * specialize (A (n - 1)%nat ltac:(lia)). cbn [Nat.add] in A. destruct (Nat.eqb_spec (n - 1) 0); [lia|].
          rewrite Nat.eqb_refl in A. destruct (end_row b1 xs ys) as [[[a b] c] r]. apply Ke.
          destruct (n - 1)%nat as [|n'] eqn:En; [lia|]. replace (n - 2)%nat with n' by lia.
          rewrite (nth_overflow e 0 (n := S (S n'))) in A by lia. assumption.
      + intros (A & Bs & Be). split; [assumption|]. intros i Hi. cbn [Nat.add].
        destruct (Nat.eqb_spec i 0) as [->|Ni].
        * destruct (start_row b0 xs ys) as [[[a b] c] r]. apply Ks, Bs.
        * destruct i as [|i]; [lia|]. destruct (Nat.eqb_spec (S i) (n - 1)) as [E|E].
          -- destruct (end_row b1 xs ys) as [[[a b] c] r]. rewrite (nth_overflow e 0 (n := S (S i))) by lia.
             replace i with (n - 2)%nat by lia. replace (S (n - 2)) with (n - 1)%nat by lia. apply Ke, Be.
          -- unfold inner_row. rn. change (step_at xs) with h; change (slope_at xs ys) with m. replace (S i - 1)%nat with i by lia.
             specialize (A i ltac:(lia)). lra.
  Qed.

  Definition deriv_at (k : nat) : R := nth k (cubic_derivs b0 b1 xs ys) 0.

  Lemma deriv_at_ok : system_eq deriv_at.
  Proof.
    apply (proj1 (system_iff (cubic_derivs b0 b1 xs ys) (cubic_derivs_length b0 b1 xs ys))). apply cubic_derivs_ok; assumption.
  Qed.
  Lemma deriv_at_unique e : system_eq e -> forall k, (k < n)%nat -> e k = deriv_at k.
  Proof.
    intros He k Hk.
    assert (E : map e (seq 0 n) = cubic_derivs b0 b1 xs ys).
    { apply cubic_derivs_unique; try assumption. apply system_iff; [rewrite map_length, seq_length; reflexivity|].
      assert (Eq : forall i, (i < n)%nat -> nth i (map e (seq 0 n)) 0 = e i).
      { intros i Hi. rewrite (nth_map_in e _ i 0%nat) by (rewrite seq_length; assumption). rewrite seq_nth by assumption. reflexivity. }
      destruct He as [Hi He]. unfold system_eq, inner_eq, start_eq, end_eq in *. split.
      - intros i Hi'. rewrite !Eq by lia. apply Hi. assumption.
      - destruct (parabola_case b0 b1 xs) eqn:Pc.
        + unfold parabola_case in Pc. apply andb_true_iff in Pc as [En _]. apply Nat.eqb_eq in En. fold n in En.
          rewrite !Eq by lia. assumption.
        + destruct He as [Hs He]. split.
          * destruct b0; [destruct Hs; split; intros; rewrite !Eq by lia; auto|rewrite !Eq by (unfold n; lia); assumption|rewrite !Eq by (unfold n; lia); assumption].
          * destruct b1; [destruct He; split; intros; rewrite !Eq by lia; auto|rewrite !Eq by (unfold n; lia); assumption|rewrite !Eq by (unfold n; lia); assumption]. }
    unfold deriv_at. rewrite <- E. rewrite (nth_map_in e _ k 0%nat) by (rewrite seq_length; assumption). rewrite seq_nth by assumption. reflexivity.
  Qed.

  Local Notation q0 := (cp0 xs y deriv_at).
  Local Notation q1 := (cp1 xs y deriv_at).
  Local Notation q2 := (cp2 xs y deriv_at).
  Definition spl0 : R -> R := pw xs (cp0 xs y deriv_at).
  Definition spl1 : R -> R := pw xs (cp1 xs y deriv_at).
  Definition spl2 : R -> R := pw xs (cp2 xs y deriv_at).

  Lemma q2_agree : agree xs q2.
  Proof.
    intros k Hk. apply (second_iff xs y deriv_at I k Hk). apply (proj1 deriv_at_ok k Hk).
  Qed.

  Lemma in_piece_at k : (S k < n)%nat -> in_piece xs k (x k) /\ in_piece xs k (x (S k)).
  Proof.
    intros Hk. pose proof (I k Hk) as Ik. fold (x k) in Ik. fold (x (S k)) in Ik. unfold in_piece. fold (x k) (x (S k)).
    repeat split; try assumption; right; lra.
  Qed.
  Lemma in_piece_mid k v : (S k < n)%nat -> x k <= v <= x (S k) -> in_piece xs k v.
  Proof. intros Hk Hv. split; [assumption|]. split; right; apply Hv. Qed.

  (** Third derivatives: the not-a-knot conditions. *)
  Lemma third_start (e : nat -> R) : (3 <= n)%nat -> inner_eq e ->
    (pc3 xs y e 0%nat = pc3 xs y e 1%nat <->
     h 1%nat * e 0%nat + (h 0%nat + h 1%nat) * e 1%nat
       = ((3 * h 0%nat + 2 * h 1%nat) * h 1%nat * m 0%nat + h 0%nat * h 0%nat * m 1%nat) / (h 0%nat + h 1%nat)).
  Proof.
    intros H3 In. specialize (In 0%nat ltac:(lia)).
    assert (A := hp 0 ltac:(fold n; lia)). assert (B := hp 1 ltac:(fold n; lia)).
    unfold pc3. fold (x 0) (x 1) (x 2). fold (h 0) (h 1). fold (m 0) (m 1).
    set (h0 := h 0%nat) in *. set (h1 := h 1%nat) in *. set (m0 := m 0%nat) in *. set (m1 := m 1%nat) in *.
    set (e0 := e 0%nat) in *. set (e1 := e 1%nat) in *. set (e2 := e 2%nat) in *. clearbody h0 h1 m0 m1 e0 e1 e2.
    split; intros K.
    - assert (K' : (e0 + e1 - 2 * m0) * (h1 * h1) = (e1 + e2 - 2 * m1) * (h0 * h0)).
      { replace ((e0 + e1 - 2 * m0) * (h1 * h1)) with ((e0 + e1 - 2 * m0) / (h0 * h0) * ((h0 * h0) * (h1 * h1))) by (field; lra).
        rewrite K. field. lra. }
      apply (Rmult_eq_reg_r (h0 + h1)); [|lra].
      unfold Rdiv. rewrite (Rmult_assoc _ (/ (h0 + h1))), Rinv_l by lra. rewrite Rmult_1_r.
      assert (In' : h0 * (h1 * e0 + 2 * (h0 + h1) * e1 + h0 * e2) = h0 * (3 * (h1 * m0 + h0 * m1))) by (rewrite In; reflexivity).
      nra.
    - assert (K' : (h1 * e0 + (h0 + h1) * e1) * (h0 + h1) = (3 * h0 + 2 * h1) * h1 * m0 + h0 * h0 * m1).
      { rewrite K. field. lra. }
      assert (In' : h0 * (h1 * e0 + 2 * (h0 + h1) * e1 + h0 * e2) = h0 * (3 * (h1 * m0 + h0 * m1))) by (rewrite In; reflexivity).
      assert (E : (e0 + e1 - 2 * m0) * (h1 * h1) = (e1 + e2 - 2 * m1) * (h0 * h0)) by nra.
      replace ((e0 + e1 - 2 * m0) / (h0 * h0)) with ((e0 + e1 - 2 * m0) * (h1 * h1) / ((h0 * h0) * (h1 * h1))) by (field; lra).
      rewrite E. field. lra.
  Qed.

  Lemma third_end (e : nat -> R) : (3 <= n)%nat -> inner_eq e ->
    (pc3 xs y e (n - 3)%nat = pc3 xs y e (n - 2)%nat <->
     (h (n - 3) + h (n - 2)) * e (n - 2)%nat + h (n - 3) * e (n - 1)%nat
       = (h (n - 2) * h (n - 2) * m (n - 3)%nat + (2 * h (n - 3) + 3 * h (n - 2)) * h (n - 3) * m (n - 2)%nat) / (h (n - 3) + h (n - 2))).
  Proof.
    intros H3 In. specialize (In (n - 3)%nat ltac:(lia)).
    assert (A := hp (n - 3)%nat ltac:(fold n; lia)). assert (B := hp (n - 2)%nat ltac:(fold n; lia)).
    unfold pc3. fold (x (n - 3)) (x (n - 2)) (x (S (n - 3))) (x (S (n - 2))). fold (h (n - 3)) (h (n - 2)). fold (m (n - 3)) (m (n - 2)).
    replace (S (n - 3)) with (n - 2)%nat in * by lia. replace (S (n - 2)) with (n - 1)%nat in * by lia.
    set (h0 := h (n - 3)%nat) in *. set (h1 := h (n - 2)%nat) in *. set (m0 := m (n - 3)%nat) in *. set (m1 := m (n - 2)%nat) in *.
    set (e0 := e (n - 3)%nat) in *. set (e1 := e (n - 2)%nat) in *. set (e2 := e (n - 1)%nat) in *. clearbody h0 h1 m0 m1 e0 e1 e2.
    assert (In' : h1 * (h1 * e0 + 2 * (h0 + h1) * e1 + h0 * e2) = h1 * (3 * (h1 * m0 + h0 * m1))) by (rewrite In; reflexivity).
    split; intros K.
    - assert (K' : (e0 + e1 - 2 * m0) * (h1 * h1) = (e1 + e2 - 2 * m1) * (h0 * h0)).
      { replace ((e0 + e1 - 2 * m0) * (h1 * h1)) with ((e0 + e1 - 2 * m0) / (h0 * h0) * ((h0 * h0) * (h1 * h1))) by (field; lra).
        rewrite K. field. lra. }
      apply (Rmult_eq_reg_r (h0 + h1)); [|lra].
      unfold Rdiv. rewrite (Rmult_assoc _ (/ (h0 + h1))), Rinv_l by lra. rewrite Rmult_1_r. nra.
    - assert (K' : ((h0 + h1) * e1 + h0 * e2) * (h0 + h1) = h1 * h1 * m0 + (2 * h0 + 3 * h1) * h0 * m1).
      { rewrite K. field. lra. }
      assert (E : (e0 + e1 - 2 * m0) * (h1 * h1) = (e1 + e2 - 2 * m1) * (h0 * h0)) by nra.
      replace ((e0 + e1 - 2 * m0) / (h0 * h0)) with ((e0 + e1 - 2 * m0) * (h1 * h1) / ((h0 * h0) * (h1 * h1))) by (field; lra).
      rewrite E. field. lra.
  Qed.

  Lemma parabola_case_iff : parabola_case b0 b1 xs = true <-> length xs = 3%nat /\ b0 = Nak /\ b1 = Nak.
  Proof.
    unfold parabola_case. rewrite andb_true_iff, Nat.eqb_eq. destruct b0, b1; split; intros (A & B); try discriminate; try (destruct B; discriminate); repeat split; assumption.
  Qed.

  Theorem spline_exists : spline_fun b0 b1 xs ys spl0 spl1 spl2.
  Proof.
    assert (A0 := cp0_agree xs y deriv_at I). assert (A1 := cp1_agree xs y deriv_at I). assert (A2 := q2_agree).
    assert (P0 : forall k v, in_piece xs k v -> spl0 v = q0 k v) by (intros k v Hv; apply pw_eq; assumption).
    assert (P1 : forall k v, in_piece xs k v -> spl1 v = q1 k v) by (intros k v Hv; apply pw_eq; assumption).
    assert (P2 : forall k v, in_piece xs k v -> spl2 v = q2 k v) by (intros k v Hv; apply pw_eq; assumption).
    destruct deriv_at_ok as [In Sy].
    split; [split; [|split]|split; [|split]].
    - apply pw_deriv; try assumption. intros k v. apply cp0_deriv.
    - apply pw_deriv; try assumption. intros k v. apply cp1_deriv.
    - apply pw_cont; try assumption. intros k v. apply derivable_continuous_pt. exists (6 * pc3 xs y deriv_at k). apply cp2_deriv.
    - intros k Hk. do 4 eexists. intros v Hv. rewrite (P0 k v Hv). apply cp0_poly.
    - intros k Hk. fold (x k). destruct (Nat.eq_dec (S k) n) as [E|E].
      + destruct k as [|k]; [lia|]. rewrite (P0 k) by (apply in_piece_at; lia). apply (cp0_right xs y deriv_at I). lia.
      + rewrite (P0 k) by (apply in_piece_at; lia). apply cp0_left.
    - split.
      + intros Pc. pose proof (proj2 parabola_case_iff Pc) as Pb. rewrite Pb in Sy. destruct Sy as [S0 S1]. destruct Pc as (En & _ & _). fold n in En.
        assert (C0 : pc3 xs y deriv_at 0 = 0).
        { unfold pc3. fold (x 0) (x 1). fold (h 0). fold (m 0). rewrite S0. unfold Rdiv. ring. }
        assert (C1 : pc3 xs y deriv_at 1 = 0).
        { unfold pc3. fold (x 1) (x 2). fold (h 1). fold (m 1). rewrite S1. unfold Rdiv. ring. }
        assert (Sm : forall v, q0 0%nat v = q0 1%nat v).
        { apply cp0_same; [assumption|fold n; lia| |congruence]. apply A2. fold n. lia. }
        assert (Al : forall v, spl0 v = q0 0%nat v).
        { intros v. destruct (Rle_dec v (x 1%nat)) as [L|L].
          - apply P0. split; [fold n; lia|]. split; [left; reflexivity|right; exact L].
          - rewrite Sm. apply P0. split; [fold n; lia|]. split; [right; fold (x 1); lra|left; symmetry; exact En]. }
        do 3 eexists. intros v. rewrite Al, cp0_poly, C0. rewrite (Rmult_0_l (v * v * v)), Rplus_0_r. reflexivity.
      + intros Pc. assert (Pb : parabola_case b0 b1 xs = false) by (apply not_true_iff_false; rewrite parabola_case_iff; assumption).
        rewrite Pb in Sy. destruct Sy as [Ss Se]. unfold start_eq, end_eq, start_cond, end_cond in *. fold n. split.
        * destruct b0 as [|v|v].
          -- destruct Ss as [Sa Sb]. split.
             ++ intros E. fold (x 0) (x 1) (y 0) (y 1). rewrite (P1 0%nat) by (apply in_piece_at; lia). unfold x. rewrite cp1_left. exact (Sa E).
             ++ intros E. specialize (Sb E). apply (third_start deriv_at E In) in Sb.
                assert (Sm : forall v, q0 0%nat v = q0 1%nat v).
                { apply cp0_same; [assumption|fold n; lia| |assumption]. apply A2. fold n. lia. }
                do 4 eexists. intros v Hv.
                assert (Al : spl0 v = q0 0%nat v).
                { destruct (Rle_dec v (x 1%nat)) as [L|L].
                  - apply P0. split; [fold n; lia|]. split; [left; reflexivity|right; exact L].
                  - rewrite Sm. apply P0. split; [fold n; lia|]. split; [right; fold (x 1); lra|right; exact Hv]. }
                rewrite Al. apply cp0_poly.
          -- fold (x 0). rewrite (P1 0%nat) by (apply in_piece_at; lia). unfold x. rewrite cp1_left. exact Ss.
          -- fold (x 0). rewrite (P2 0%nat) by (apply in_piece_at; lia). unfold x. rewrite cp2_left.
             unfold pc2. fold (x 0) (x 1). fold (h 0). fold (m 0).
             assert (A := hp 0 ltac:(fold n; lia)).
             apply (Rmult_eq_reg_r (h 0%nat * h 0%nat)); [|apply Rgt_not_eq, Rmult_lt_0_compat; assumption].
             replace (2 * ((3 * m 0%nat - 2 * deriv_at 0 - deriv_at 1) / h 0%nat) * (h 0%nat * h 0%nat))
               with (2 * (3 * (y 1%nat - y 0%nat) - (2 * h 0%nat * deriv_at 0 + h 0%nat * deriv_at 1))) by (unfold m; field; lra).
             rewrite Ss. field.
        * destruct b1 as [|v|v].
          -- destruct Se as [Sa Sb]. split.
             ++ intros E. fold (x 0) (x 1) (y 0) (y 1). rewrite (P1 0%nat) by (apply in_piece_at; lia). unfold x.
                rewrite (cp1_right xs y deriv_at I) by (fold n; lia). exact (Sa E).
             ++ intros E. specialize (Sb E). apply (third_end deriv_at E In) in Sb.
                assert (Sm : forall v, q0 (n - 3)%nat v = q0 (n - 2)%nat v).
                { replace (n - 2)%nat with (S (n - 3)) by lia. apply cp0_same; [assumption|fold n; lia|apply A2; fold n; lia|].
                  replace (S (n - 3)) with (n - 2)%nat by lia. assumption. }
                do 4 eexists. intros v Hv.
                assert (Al : spl0 v = q0 (n - 3)%nat v).
                { destruct (Rle_dec v (x (n - 2)%nat)) as [L|L].
                  - apply P0. split; [fold n; lia|]. split; [right; exact Hv|right]. replace (S (n - 3)) with (n - 2)%nat by lia. exact L.
                  - rewrite Sm. apply P0. split; [fold n; lia|]. split; [right; fold (x (n - 2)); lra|left; fold n; lia]. }
                rewrite Al. apply cp0_poly.
          -- fold (x (n - 1)). replace (n - 1)%nat with (S (n - 2)) in * by lia.
             rewrite (P1 (n - 2)%nat) by (apply in_piece_at; lia). unfold x. rewrite (cp1_right xs y deriv_at I) by (fold n; lia). exact Se.
          -- fold (x (n - 1)). replace (n - 1)%nat with (S (n - 2)) in * by lia.
             rewrite (P2 (n - 2)%nat) by (apply in_piece_at; lia). unfold x. rewrite (cp2_right xs y deriv_at I) by (fold n; lia).
             fold (x (n - 2)) (x (S (n - 2))). fold (h (n - 2)). fold (m (n - 2)).
             assert (A := hp (n - 2)%nat ltac:(fold n; lia)).
             apply (Rmult_eq_reg_r (h (n - 2)%nat * h (n - 2)%nat)); [|apply Rgt_not_eq, Rmult_lt_0_compat; assumption].
             replace (2 * ((deriv_at (n - 2) + 2 * deriv_at (S (n - 2)) - 3 * m (n - 2)%nat) / h (n - 2)%nat) * (h (n - 2)%nat * h (n - 2)%nat))
               with (2 * ((h (n - 2)%nat * deriv_at (n - 2) + 2 * h (n - 2)%nat * deriv_at (S (n - 2))) - 3 * (y (S (n - 2)) - y (n - 2)%nat))) by (unfold m; field; lra).
             rewrite Se. field.
  Qed.
End Exists.
