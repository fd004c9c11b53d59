(** The periodic cubic spline: the cyclic system, existence and uniqueness. *)
From Coq Require Import ZArith String List Bool Arith Lia Reals Lra Psatz.
From Verif Require Import Num Py Numeric Curve Vec Geom DiffGeom Intersect Registry Interp Splines Splines2 Periodic Spec GeomSpec.
From Verif Require Import ListFacts VecFacts InterpProofs InterpProofs2 SplineProofs SplineProofs2 SplineProofs3 SplineProofs4 SplineProofs5 SplineProofs6.
Import ListNotations.
Local Open Scope list_scope.
Local Open Scope R_scope.

(** Some index has the greatest absolute value. *)
Lemma abs_max (e : nat -> R) N : (0 < N)%nat -> exists k, (k < N)%nat /\ forall i, (i < N)%nat -> Rabs (e i) <= Rabs (e k).
Proof.
  induction N as [|N IH]; [lia|]. intros _. destruct N as [|N].
  - exists 0%nat. split; [lia|]. intros i Hi. replace i with 0%nat by lia. lra.
  - destruct (IH ltac:(lia)) as (k & Hk & M). destruct (Rle_dec (Rabs (e k)) (Rabs (e (S N)))) as [L|L].
    + exists (S N). split; [lia|]. intros i Hi. destruct (Nat.eq_dec i (S N)) as [->|Ne]; [lra|]. specialize (M i ltac:(lia)). lra.
    + exists k. split; [lia|]. intros i Hi. destruct (Nat.eq_dec i (S N)) as [->|Ne]; [lra|]. apply M. lia.
Qed.

Lemma div_le1 a b : 0 < b -> a <= b -> a / b <= 1.
Proof. intros Hb Ha. apply (Rmult_le_reg_r b); [assumption|]. replace (a / b * b) with a by (field; lra). lra. Qed.

Section Cyclic.
  Variables (xs ys : list R).
  Hypothesis I : increasing xs.
  Hypothesis H2 : (2 <= length xs)%nat.
  Let n := length xs.
  Let h := step_at xs.
  Let m := slope_at xs ys.
  Let hp k : (S k < n)%nat -> 0 < h k := step_pos xs I k.

  (** The equation where the last piece meets the first one. *)
  Definition seam_eq (e : nat -> R) : Prop :=
    e (n - 1)%nat = e 0%nat /\
    h 0%nat * e (n - 2)%nat + 2 * (h (n - 2)%nat + h 0%nat) * e 0%nat + h (n - 2)%nat * e 1%nat
    = 3 * (h 0%nat * m (n - 2)%nat + h (n - 2)%nat * m 0%nat).
  Definition cyclic_eq (e : nat -> R) : Prop := inner_eq xs ys e /\ seam_eq e.

  (** At most one solution: the system is diagonally dominant. *)
  Lemma cyclic_unique e e' : cyclic_eq e -> cyclic_eq e' -> forall k, (k < n)%nat -> e k = e' k.
  Proof.
    intros [In [S1 S2]] [In' [S1' S2']].
    set (d := fun k => e k - e' k).
    assert (Dn : d (n - 1)%nat = d 0%nat) by (unfold d; congruence).
    assert (D0 : h 0%nat * d (n - 2)%nat + 2 * (h (n - 2)%nat + h 0%nat) * d 0%nat + h (n - 2)%nat * d 1%nat = 0) by (unfold d; lra).
    assert (Di : forall k, (S (S k) < n)%nat -> h (S k) * d k + 2 * (h k + h (S k)) * d (S k) + h k * d (S (S k)) = 0).
    { intros k Hk. specialize (In k Hk). specialize (In' k Hk). unfold d. unfold inner_eq in *.
      change (nth (S (S k)) xs 0 - nth (S k) xs 0) with (h (S k)) in *. change (nth (S k) xs 0 - nth k xs 0) with (h k) in *. lra. }
    destruct (abs_max d n ltac:(unfold n; lia)) as (k & Hk & M).
    assert (Dom : forall a b u v w, 0 < a -> 0 < b -> Rabs u <= Rabs v -> Rabs w <= Rabs v -> b * u + 2 * (a + b) * v + a * w = 0 -> v = 0).
    { intros a b u v w Ha Hb Hu Hw E. unfold Rabs in *. destruct (Rcase_abs u), (Rcase_abs v), (Rcase_abs w); nra. }
    assert (Z : d k = 0).
    { destruct (Nat.eq_dec k 0) as [->|N0]; [|destruct (Nat.eq_dec k (n - 1)) as [->|N1]].
      - apply (Dom (h (n - 2)%nat) (h 0%nat) (d (n - 2)%nat) (d 0%nat) (d 1%nat)); try (apply hp; unfold n; lia); try (apply M; unfold n; lia). exact D0.
      - rewrite Dn. rewrite Dn in M. apply (Dom (h (n - 2)%nat) (h 0%nat) (d (n - 2)%nat) (d 0%nat) (d 1%nat)); try (apply hp; unfold n; lia); try (apply M; unfold n; lia). exact D0.
      - destruct k as [|k]; [lia|]. specialize (Di k ltac:(lia)).
        apply (Dom (h k) (h (S k)) (d k) (d (S k)) (d (S (S k)))); try (apply hp; lia); try (apply M; lia). lra. }
    intros i Hi. specialize (M i Hi). rewrite Z, Rabs_R0 in M. assert (A := Rabs_pos (d i)).
    assert (Zi : d i = 0). { destruct (Req_dec (d i) 0) as [|Ne]; [assumption|]. apply Rabs_pos_lt in Ne. lra. }
    unfold d in Zi. lra.
  Qed.

  (** ** The condensed system *)

  Definition con_row (r : nat -> R) (k : nat) : R * R * R * R :=
    if Nat.eqb k 0 then (0, 2 * (h (n - 2)%nat + h 0%nat), h (n - 2)%nat, r 0%nat)
    else (h k, 2 * (h (k - 1)%nat + h k), h (k - 1)%nat, r k).
  Lemma condensed_eq r : condensed xs r = map (con_row r) (seq 0 (n - 2)).
  Proof. unfold condensed. cbv zeta. apply map_ext. intros k. unfold con_row. rn. reflexivity. Qed.

  Lemma condensed_pivots r : (4 <= n)%nat -> pivots 0 (condensed xs r).
  Proof.
    intros H4. rewrite condensed_eq.
    apply pivots_seq with (P := fun k cp => (k = 0%nat /\ cp = 0) \/ (0 <= cp <= 1)); [|left; split; reflexivity].
    intros i cp Hi Pi. unfold con_row. destruct (Nat.eqb_spec i 0) as [->|N0].
    - assert (A := hp (n - 2)%nat ltac:(lia)). assert (B := hp 0%nat ltac:(lia)). split; [lra|]. intros _. right.
      assert (D : 0 < 2 * (h (n - 2)%nat + h 0%nat) - 0 * cp) by lra. split.
      + apply Rlt_le, Rdiv_lt_0_compat; assumption.
      + apply div_le1; lra.
    - assert (A := hp (i - 1)%nat ltac:(lia)). assert (B := hp i ltac:(lia)). destruct Pi as [[E _]|Pi]; [lia|].
      assert (D : 0 < 2 * (h (i - 1)%nat + h i) - h i * cp) by nra. split; [lra|]. intros _. right. split.
      + apply Rlt_le, Rdiv_lt_0_compat; assumption.
      + apply div_le1; nra.
  Qed.

  Lemma condensed_length r : length (tri_solve 0 0 (condensed xs r)) = (n - 2)%nat.
  Proof. rewrite tri_solve_length, condensed_eq, map_length, seq_length. reflexivity. Qed.

  (** The equations of its solution. *)
  Lemma condensed_ok r : (4 <= n)%nat -> let s k := nth k (tri_solve 0 0 (condensed xs r)) 0 in
    2 * (h (n - 2)%nat + h 0%nat) * s 0%nat + h (n - 2)%nat * s 1%nat = r 0%nat /\
    forall k, (S k < n - 2)%nat -> h (S k) * s k + 2 * (h k + h (S k)) * s (S k) + h k * s (S (S k)) = r (S k).
  Proof.
    intros H4 s.
    assert (T := tri_solve_ok (condensed xs r) 0 0 (condensed_pivots r H4)).
    replace (0 - 0 * hd 0 (tri_solve 0 0 (condensed xs r))) with 0 in T by ring.
    rewrite condensed_eq in T at 1. apply tri_ok_seq in T. destruct T as [_ T]. split.
    - specialize (T 0%nat ltac:(lia)). cbn [Nat.add] in T. unfold con_row in T. cbn [Nat.eqb] in T. fold (s 0%nat) in T. fold (s 1%nat) in T. lra.
    - intros k Hk. specialize (T (S k) ltac:(lia)). cbn [Nat.add] in T. unfold con_row in T. cbn [Nat.eqb] in T.
      replace (S k - 1)%nat with k in T by lia. fold (s k) in T. fold (s (S k)) in T. fold (s (S (S k))) in T. exact T.
  Qed.

  Lemma condensed_over r k : (n - 2 <= k)%nat -> nth k (tri_solve 0 0 (condensed xs r)) 0 = 0.
  Proof. intros Hk. apply nth_overflow. rewrite condensed_length. assumption. Qed.

  (** The response to the last unknown is less than one. *)
  Lemma response_small r : (4 <= n)%nat -> (forall k, (k < n - 2)%nat ->
      r k = (if Nat.eqb k (n - 3) then - h (n - 4)%nat else if Nat.eqb k 0 then - h 0%nat else 0)) ->
    forall k, (k < n - 2)%nat -> Rabs (nth k (tri_solve 0 0 (condensed xs r)) 0) < 1.
  Proof.
    intros H4 Hr. set (s := fun k => nth k (tri_solve 0 0 (condensed xs r)) 0).
    destruct (condensed_ok r H4) as [E0 Ei]. fold (s 0%nat) in E0. fold (s 1%nat) in E0.
    assert (Ov := condensed_over r (n - 2)%nat ltac:(lia)). fold (s (n - 2)%nat) in Ov.
    destruct (abs_max s (n - 2) ltac:(lia)) as (k & Hk & M).
    assert (Dom : forall a b u v w q, 0 < a -> 0 < b -> Rabs u <= Rabs v -> Rabs w <= Rabs v ->
      b * u + 2 * (a + b) * v + a * w = q -> Rabs q < a + b -> Rabs v < 1).
    { intros a b u v w q Ha Hb Hu Hw E Hq. unfold Rabs in *. destruct (Rcase_abs u), (Rcase_abs v), (Rcase_abs w), (Rcase_abs q); nra. }
    assert (Lt : Rabs (s k) < 1).
    { rewrite !Hr in E0 by lia. destruct (Nat.eqb_spec 0 (n - 3)); [lia|]. cbn [Nat.eqb] in E0.
      assert (P1 := hp (n - 2)%nat ltac:(lia)). assert (P0 := hp 0%nat ltac:(lia)).
      destruct k as [|k].
      - apply (Dom (h (n - 2)%nat) (h 0%nat) 0 (s 0%nat) (s 1%nat) (- h 0%nat)); try assumption.
        + rewrite Rabs_R0. apply Rabs_pos.
        + apply M. lia.
        + lra.
        + rewrite Rabs_Ropp, Rabs_pos_eq; lra.
      - specialize (Ei k ltac:(lia)). fold (s k) (s (S k)) (s (S (S k))) in Ei. rewrite Hr in Ei by lia.
        assert (P2 := hp k ltac:(lia)). assert (P3 := hp (S k) ltac:(lia)).
        apply (Dom (h k) (h (S k)) (s k) (s (S k)) (s (S (S k))) (if Nat.eqb (S k) (n - 3) then - h (n - 4)%nat else if Nat.eqb (S k) 0 then - h 0%nat else 0)); try assumption.
        + apply M. lia.
        + destruct (Nat.eq_dec (S (S k)) (n - 2)) as [E|Ne]; [rewrite E, Ov, Rabs_R0; apply Rabs_pos|apply M; lia].
        + destruct (Nat.eqb_spec (S k) (n - 3)) as [E|Ne].
          * replace (n - 4)%nat with k by lia. rewrite Rabs_Ropp, Rabs_pos_eq; lra.
          * cbn [Nat.eqb]. rewrite Rabs_R0. lra. }
    intros i Hi. specialize (M i Hi). fold (s i). lra.
  Qed.

  (** ** The slopes *)

  Definition per_at (k : nat) : R := nth k (periodic_derivs xs ys) 0.

  Lemma periodic_length : length (periodic_derivs xs ys) = n.
  Proof.
    unfold periodic_derivs. cbv zeta. fold n. destruct (Nat.eqb_spec n 2) as [E|E2]; [symmetry; exact E|]. destruct (Nat.eqb_spec n 3) as [E|E3]; [symmetry; exact E|].
    rewrite app_length, map_length, seq_length. cbn [length]. unfold n in *. lia.
  Qed.

  Lemma inner_eq_h e : inner_eq xs ys e <-> forall k, (S (S k) < n)%nat ->
    h (S k) * e k + 2 * (h k + h (S k)) * e (S k) + h k * e (S (S k)) = 3 * (h (S k) * m k + h k * m (S k)).
  Proof. reflexivity. Qed.

  Lemma joint_rhs_eq i k : joint_rhs xs ys i k = 3 * (h k * m i + h i * m k).
  Proof. unfold joint_rhs. rn. reflexivity. Qed.

  Theorem per_at_ok : cyclic_eq per_at.
  Proof.
    assert (Pos : forall k, (S k < n)%nat -> 0 < h k) by (intros; apply hp; assumption).
    unfold cyclic_eq, seam_eq. rewrite inner_eq_h.
    destruct (Nat.eq_dec n 2) as [E2|N2]; [|destruct (Nat.eq_dec n 3) as [E3|N3]].
    - assert (V : per_at 0%nat = m 0%nat /\ per_at 1%nat = m 0%nat).
      { unfold per_at, periodic_derivs. cbv zeta. fold n. rewrite E2. split; reflexivity. }
      destruct V as [V0 V1]. split; [intros k Hk; lia|]. rewrite E2. cbn [Nat.sub]. rewrite V0, V1. split; [reflexivity|ring].
    - set (t := (m 0%nat / h 0%nat + m 1%nat / h 1%nat) / (1 / h 0%nat + 1 / h 1%nat)).
      assert (V : per_at 0%nat = t /\ per_at 1%nat = t /\ per_at 2%nat = t).
      { unfold per_at, periodic_derivs. cbv zeta. fold n. rewrite E3. cbn [Nat.eqb nth]. repeat split; reflexivity. }
      destruct V as (V0 & V1 & V2). assert (A := Pos 0%nat ltac:(lia)). assert (B := Pos 1%nat ltac:(lia)).
      assert (Et : (h 0%nat + h 1%nat) * t = h 1%nat * m 0%nat + h 0%nat * m 1%nat).
      { unfold t. field. lra. }
      split.
      + intros k Hk. replace k with 0%nat by lia. rewrite V0, V1, V2. lra.
      + rewrite E3. cbn [Nat.sub]. rewrite V0, V1, V2. split; [reflexivity|]. lra.
    - assert (H4 : (4 <= n)%nat) by (unfold n in *; lia).
      set (b := fun k => if Nat.eqb k 0 then joint_rhs xs ys (n - 2) 0 else joint_rhs xs ys (k - 1) k).
      set (r2 := fun k => if Nat.eqb k (n - 3) then - h (n - 4)%nat else if Nat.eqb k 0 then - h 0%nat else 0).
      set (s1 := tri_solve 0 0 (condensed xs b)). set (s2 := tri_solve 0 0 (condensed xs r2)).
      set (den := 2 * (h (n - 2)%nat + h (n - 3)%nat) + h (n - 3)%nat * nth 0 s2 0 + h (n - 2)%nat * nth (n - 3) s2 0).
      set (la := (b (n - 2)%nat - h (n - 3)%nat * nth 0 s1 0 - h (n - 2)%nat * nth (n - 3) s1 0) / den).
      set (s := fun k => nth k s1 0 + la * nth k s2 0).
      assert (PD : periodic_derivs xs ys = map s (seq 0 (n - 2)) ++ [la; s 0%nat]).
      { unfold periodic_derivs. cbv zeta. fold n. destruct (Nat.eqb_spec n 2); [lia|]. destruct (Nat.eqb_spec n 3); [lia|].
        unfold s, la, den. rn. reflexivity. }
      assert (V : (forall k, (k < n - 2)%nat -> per_at k = s k) /\ per_at (n - 2)%nat = la /\ per_at (n - 1)%nat = s 0%nat).
      { unfold per_at. rewrite PD. assert (Lm : length (map s (seq 0 (n - 2))) = (n - 2)%nat) by (rewrite map_length, seq_length; reflexivity). split; [|split].
        - intros k Hk. rewrite app_nth1 by lia. rewrite (nth_map_in s _ k 0%nat) by (rewrite seq_length; assumption). rewrite seq_nth by assumption. reflexivity.
        - rewrite app_nth2 by lia. rewrite Lm, Nat.sub_diag. reflexivity.
        - rewrite app_nth2 by lia. rewrite Lm. replace (n - 1 - (n - 2))%nat with 1%nat by lia. reflexivity. }
      destruct V as (Vk & Vl & Vn).
      assert (Sm := response_small r2 H4 (fun k _ => eq_refl)).
      destruct (condensed_ok b H4) as [B0 Bi]. destruct (condensed_ok r2 H4) as [R0 Ri]. fold s1 in B0, Bi. fold s2 in R0, Ri, Sm.
      assert (O1 := condensed_over b (n - 2)%nat ltac:(lia)). assert (O2 := condensed_over r2 (n - 2)%nat ltac:(lia)). fold s1 in O1. fold s2 in O2.
      assert (Dn : 0 < den).
      { unfold den. assert (Q0 := Sm 0%nat ltac:(lia)). assert (Q1 := Sm (n - 3)%nat ltac:(lia)). apply Rabs_def2 in Q0. apply Rabs_def2 in Q1.
        assert (A := Pos (n - 2)%nat ltac:(lia)). assert (B := Pos (n - 3)%nat ltac:(lia)). nra. }
      assert (Last : h (n - 2)%nat * s (n - 3)%nat + 2 * (h (n - 3)%nat + h (n - 2)%nat) * la + h (n - 3)%nat * s 0%nat = b (n - 2)%nat).
      { assert (Ed : la * den = b (n - 2)%nat - h (n - 3)%nat * nth 0 s1 0 - h (n - 2)%nat * nth (n - 3) s1 0) by (unfold la; field; lra).
        unfold den in Ed. unfold s. lra. }
      assert (Bk : forall k, b (S k) = 3 * (h (S k) * m k + h k * m (S k))).
      { intros k. unfold b. cbn [Nat.eqb]. rewrite joint_rhs_eq. replace (S k - 1)%nat with k by lia. reflexivity. }
      assert (Bz : b 0%nat = 3 * (h 0%nat * m (n - 2)%nat + h (n - 2)%nat * m 0%nat)) by (unfold b; cbn [Nat.eqb]; apply joint_rhs_eq).
      split; [|split].
      + intros k Hk. rewrite <- Bk.
        destruct (Nat.eq_dec (S k) (n - 2)) as [Ek|Nk].
        * (* the row of the last unknown *)
          replace (S (S k)) with (n - 1)%nat by lia. rewrite Ek, Vl, Vn, (Vk k) by lia. replace k with (n - 3)%nat by lia. exact Last.
        * rewrite (Vk k), (Vk (S k)) by lia. specialize (Bi k ltac:(lia)). specialize (Ri k ltac:(lia)).
          destruct (Nat.eq_dec (S k) (n - 3)) as [Ej|Nj].
          -- assert (Rj : r2 (S k) = - h k) by (unfold r2; destruct (Nat.eqb_spec (S k) (n - 3)); [f_equal; f_equal; lia|lia]).
             replace (S (S k)) with (n - 2)%nat in * by lia. rewrite Vl. rewrite O1 in Bi. rewrite O2, Rj in Ri. unfold s. 
             replace (h (S k) * (nth k s1 0 + la * nth k s2 0) + 2 * (h k + h (S k)) * (nth (S k) s1 0 + la * nth (S k) s2 0) + h k * la)
               with ((h (S k) * nth k s1 0 + 2 * (h k + h (S k)) * nth (S k) s1 0 + h k * 0) + la * ((h (S k) * nth k s2 0 + 2 * (h k + h (S k)) * nth (S k) s2 0 + h k * 0) + h k)) by ring.
             rewrite Bi, Ri. ring.
          -- assert (Rj : r2 (S k) = 0) by (unfold r2; destruct (Nat.eqb_spec (S k) (n - 3)); [lia|reflexivity]).
             rewrite (Vk (S (S k))) by lia. rewrite Rj in Ri. unfold s.
             replace (h (S k) * (nth k s1 0 + la * nth k s2 0) + 2 * (h k + h (S k)) * (nth (S k) s1 0 + la * nth (S k) s2 0) + h k * (nth (S (S k)) s1 0 + la * nth (S (S k)) s2 0))
               with ((h (S k) * nth k s1 0 + 2 * (h k + h (S k)) * nth (S k) s1 0 + h k * nth (S (S k)) s1 0) + la * (h (S k) * nth k s2 0 + 2 * (h k + h (S k)) * nth (S k) s2 0 + h k * nth (S (S k)) s2 0)) by ring.
             rewrite Bi, Ri. ring.
      + rewrite Vn, (Vk 0%nat) by lia. reflexivity.
      + rewrite Vl, (Vk 0%nat) by lia. rewrite (Vk 1%nat) by lia. rewrite <- Bz.
        assert (Rj : r2 0%nat = - h 0%nat) by (unfold r2; destruct (Nat.eqb_spec 0 (n - 3)); [lia|reflexivity]).
        rewrite Rj in R0. unfold s.
        replace (h 0%nat * la + 2 * (h (n - 2)%nat + h 0%nat) * (nth 0 s1 0 + la * nth 0 s2 0) + h (n - 2)%nat * (nth 1 s1 0 + la * nth 1 s2 0))
          with ((2 * (h (n - 2)%nat + h 0%nat) * nth 0 s1 0 + h (n - 2)%nat * nth 1 s1 0) + la * ((2 * (h (n - 2)%nat + h 0%nat) * nth 0 s2 0 + h (n - 2)%nat * nth 1 s2 0) + h 0%nat)) by ring.
        rewrite B0, R0. ring.
  Qed.
End Cyclic.

(** ** The spline on the range of the samples *)

(** Twice continuously differentiable, cubic between the samples (the end pieces
    are continued), through the samples, with equal derivatives at both ends. *)
Definition periodic_fun (xs ys : list R) (f f1 f2 : R -> R) : Prop :=
  let a := nth 0 xs 0 in
  let b := nth (length xs - 1) xs 0 in
  two_smooth f f1 f2 /\
  (forall k, (S k < length xs)%nat -> cubic_on f (in_piece xs k)) /\
  (forall k, (k < length xs)%nat -> f (nth k xs 0) = nth k ys 0) /\
  f1 b = f1 a /\ f2 b = f2 a.

Lemma periodic_clamped xs ys f f1 f2 : periodic_fun xs ys f f1 f2 ->
  spline_fun (D1 (f1 (nth 0 xs 0))) (D1 (f1 (nth 0 xs 0))) xs ys f f1 f2.
Proof.
  intros (S & C & V & E1 & E2). split; [assumption|]. split; [assumption|]. split; [assumption|]. split.
  - intros (_ & K & _). discriminate.
  - intros _. split; [reflexivity|]. exact E1.
Qed.

Section Seam.
  Variables (b0 b1 : bc1 R) (xs ys : list R) (f f1 f2 : R -> R).
  Hypothesis I : increasing xs.
  Hypothesis H2 : (2 <= length xs)%nat.
  Hypothesis F : spline_fun b0 b1 xs ys f f1 f2.
  Let n := length xs.
  Let e k := f1 (nth k xs 0).

  (** Equal second derivatives at the ends: the equation of the seam. *)
  Lemma seam_iff : f1 (nth (n - 1) xs 0) = f1 (nth 0 xs 0) ->
    (f2 (nth (n - 1) xs 0) = f2 (nth 0 xs 0) <-> seam_eq xs ys e).
  Proof.
    intros E1. set (x := fun k => nth k xs 0). set (y := fun k => nth k ys 0).
    set (h := fun k => x (S k) - x k). set (m := fun k => (y (S k) - y k) / h k).
    assert (Hl : (S 0 < length xs)%nat) by lia. assert (Hr : (S (n - 2) < length xs)%nat) by (unfold n; lia).
    pose proof (I 0%nat Hl) as L0. pose proof (I (n - 2)%nat Hr) as Ln.
    assert (Fl := f2_left b0 b1 xs ys f f1 f2 I H2 F 0 Hl). assert (Fr := f2_right b0 b1 xs ys f f1 f2 I H2 F (n - 2) Hr). cbv beta in Fl, Fr.
    pose proof (cp2_left xs y e 0) as Kl. pose proof (cp2_right xs y e I (n - 2) Hr) as Kr. cbv beta in Kl, Kr.
    change (f2 (nth 0 xs 0) = cp2 xs y e 0 (nth 0 xs 0)) in Fl. change (f2 (nth (S (n - 2)) xs 0) = cp2 xs y e (n - 2) (nth (S (n - 2)) xs 0)) in Fr.
    replace (nth (n - 1) xs 0) with (nth (S (n - 2)) xs 0) in * by (f_equal; unfold n; lia).
    assert (El : f2 (nth 0 xs 0) = 2 * ((3 * m 0%nat - 2 * e 0%nat - e 1%nat) / h 0%nat)) by (rewrite Fl; exact Kl).
    assert (Er : f2 (nth (S (n - 2)) xs 0) = 2 * ((e (n - 2)%nat + 2 * e (S (n - 2)) - 3 * m (n - 2)%nat) / h (n - 2)%nat)) by (rewrite Fr; exact Kr).
    assert (Es : e (S (n - 2)) = e 0%nat) by exact E1.
    rewrite El, Er, Es.
    assert (P0 : 0 < h 0%nat) by (unfold h, x; lra). assert (Pn : 0 < h (n - 2)%nat) by (unfold h, x; lra).
    unfold seam_eq. fold n.
    change (step_at xs 0) with (h 0%nat). change (step_at xs (n - 2)) with (h (n - 2)%nat). change (slope_at xs ys 0) with (m 0%nat). change (slope_at xs ys (n - 2)) with (m (n - 2)%nat).
    replace (e (n - 1)%nat) with (e 0%nat) by (rewrite <- Es; f_equal; unfold n; lia).
    set (A := 3 * m 0%nat - 2 * e 0%nat - e 1%nat). set (B := e (n - 2)%nat + 2 * e 0%nat - 3 * m (n - 2)%nat).
    split.
    - intros K. split; [reflexivity|].
      assert (K' : B * h 0%nat = A * h (n - 2)%nat).
      { replace (B * h 0%nat) with (B / h (n - 2)%nat * (h (n - 2)%nat * h 0%nat)) by (field; lra).
        replace (B / h (n - 2)%nat) with (A / h 0%nat) by lra. field. lra. }
      unfold A, B in K'. lra.
    - intros [_ K]. f_equal.
      assert (K' : B * h 0%nat = A * h (n - 2)%nat) by (unfold A, B; lra).
      replace (B / h (n - 2)%nat) with (B * h 0%nat / (h (n - 2)%nat * h 0%nat)) by (field; lra). rewrite K'. field. lra.
  Qed.
End Seam.

Definition end_slope (xs ys : list R) : bc1 R := D1 (per_at xs ys 0).
Definition per0 (xs ys : list R) : R -> R := spl0 (end_slope xs ys) (end_slope xs ys) xs ys.
Definition per1 (xs ys : list R) : R -> R := spl1 (end_slope xs ys) (end_slope xs ys) xs ys.
Definition per2 (xs ys : list R) : R -> R := spl2 (end_slope xs ys) (end_slope xs ys) xs ys.

Lemma per_deriv_at xs ys : increasing xs -> (2 <= length xs)%nat -> forall k, (k < length xs)%nat ->
  deriv_at (end_slope xs ys) (end_slope xs ys) xs ys k = per_at xs ys k.
Proof.
  intros I H2 k Hk. symmetry. apply deriv_at_unique; try assumption.
  destruct (per_at_ok xs ys I H2) as [In [S1 _]]. split; [assumption|].
  assert (Pc : parabola_case (end_slope xs ys) (end_slope xs ys) xs = false).
  { apply not_true_iff_false. rewrite parabola_case_iff. intros (_ & K & _). discriminate. }
  rewrite Pc. split; [reflexivity|exact S1].
Qed.

Lemma spl1_at b0 b1 xs ys k : increasing xs -> (2 <= length xs)%nat -> (k < length xs)%nat ->
  spl1 b0 b1 xs ys (nth k xs 0) = deriv_at b0 b1 xs ys k.
Proof.
  intros I H2 Hk. set (y := fun k => nth k ys 0).
  assert (A1 := cp1_agree xs y (deriv_at b0 b1 xs ys) I).
  unfold spl1. change (fun k : nat => nth k ys 0) with y.
  destruct (Nat.eq_dec (S k) (length xs)) as [E|E].
  - destruct k as [|k]; [lia|]. rewrite (pw_eq xs I H2 _ k) by (try assumption; apply (in_piece_at xs I); lia).
    apply (cp1_right xs y (deriv_at b0 b1 xs ys) I). lia.
  - rewrite (pw_eq xs I H2 _ k) by (try assumption; apply (in_piece_at xs I); lia). apply cp1_left.
Qed.

Theorem periodic_exists xs ys : increasing xs -> (2 <= length xs)%nat -> periodic_fun xs ys (per0 xs ys) (per1 xs ys) (per2 xs ys).
Proof.
  intros I H2. assert (F := spline_exists (end_slope xs ys) (end_slope xs ys) xs ys I H2).
  assert (D := per_deriv_at xs ys I H2). destruct (per_at_ok xs ys I H2) as [In Se].
  assert (E : forall k, (k < length xs)%nat -> per1 xs ys (nth k xs 0) = per_at xs ys k).
  { intros k Hk. unfold per1. rewrite spl1_at by assumption. apply D. assumption. }
  assert (E1 : per1 xs ys (nth (length xs - 1) xs 0) = per1 xs ys (nth 0 xs 0)).
  { rewrite !E by lia. apply Se. }
  assert (E2 : per2 xs ys (nth (length xs - 1) xs 0) = per2 xs ys (nth 0 xs 0)).
  { apply (seam_iff _ _ xs ys _ _ _ I H2 F E1). destruct Se as [S1 S2]. unfold seam_eq. fold (per1 xs ys). rewrite !E by lia. split; assumption. }
  destruct F as (Sm & C & V & _). unfold periodic_fun. cbv zeta. repeat split; try assumption; apply Sm.
Qed.

Theorem periodic_unique xs ys f f1 f2 : increasing xs -> (2 <= length xs)%nat -> periodic_fun xs ys f f1 f2 -> forall v, f v = per0 xs ys v.
Proof.
  intros I H2 P v. assert (F := periodic_clamped xs ys f f1 f2 P).
  assert (S := f_system _ _ xs ys f f1 f2 I H2 F). destruct S as [In _].
  destruct P as (_ & _ & _ & E1 & E2).
  assert (Se := proj1 (seam_iff _ _ xs ys f f1 f2 I H2 F E1) E2).
  assert (E : f1 (nth 0 xs 0) = per_at xs ys 0).
  { apply (cyclic_unique xs ys I H2 (fun k => f1 (nth k xs 0)) (per_at xs ys)); [split; assumption|apply per_at_ok; assumption|lia]. }
  unfold per0, end_slope. rewrite <- E. apply (spline_unique _ _ xs ys f f1 f2 I H2 F).
Qed.
