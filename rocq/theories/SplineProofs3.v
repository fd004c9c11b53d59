(** The tridiagonal systems of the cubic splines: proofs over the reals. *)
From Coq Require Import ZArith String List Bool Arith Lia Reals Lra Psatz.
From Verif Require Import Num Py Numeric Curve Vec Geom DiffGeom Intersect Registry Interp Splines Splines2 Spec GeomSpec.
From Verif Require Import ListFacts VecFacts InterpProofs InterpProofs2 SplineProofs SplineProofs2.
Import ListNotations.
Local Open Scope list_scope.
Local Open Scope R_scope.

(** Arithmetic of the model, literals included. *)
Ltac rn := cbn [nlit nadd nsub nmul ndiv nopp nabs n0 n1 RNum];
  repeat match goal with |- context [?z / 1] => replace (z / 1) with z by field end.

(** ** Elimination *)

(** The equations: a row (a, b, c, r) says a * (unknown before) + b * (unknown)
    + c * (unknown after) = r. *)
Fixpoint tri_ok (p : R) (rows : list (R * R * R * R)) (x : list R) : Prop :=
  match rows, x with
  | [], [] => True
  | (a, b, c, r) :: rest, x0 :: xs => a * p + b * x0 + c * hd 0 xs = r /\ tri_ok x0 rest xs
  | _, _ => False
  end.

Fixpoint pivots (cp : R) (rows : list (R * R * R * R)) : Prop :=
  match rows with
  | [] => True
  | (a, b, c, r) :: rest => b - a * cp <> 0 /\ pivots (c / (b - a * cp)) rest
  end.

Lemma tri_solve_length (rows : list (R * R * R * R)) : forall cp dp, length (tri_solve cp dp rows) = length rows.
Proof. induction rows as [|[[[a b] c] r] rows IH]; intros cp dp; cbn [tri_solve length]; [reflexivity|]. rewrite IH. reflexivity. Qed.

Lemma tri_solve_cons a b c r (rest : list (R * R * R * R)) cp dp :
  tri_solve cp dp ((a, b, c, r) :: rest)
  = let xs := tri_solve (c / (b - a * cp)) ((r - a * dp) / (b - a * cp)) rest in
    ((r - a * dp) / (b - a * cp) - c / (b - a * cp) * hd 0 xs) :: xs.
Proof.
  cbn [tri_solve]. cbn [ndiv nsub nmul RNum]. cbv zeta. f_equal.
  destruct (tri_solve _ _ rest); cbn [hd]; [|reflexivity]. lra.
Qed.

Lemma tri_solve_ok rows : forall cp dp, pivots cp rows ->
  tri_ok (dp - cp * hd 0 (tri_solve cp dp rows)) rows (tri_solve cp dp rows).
Proof.
  induction rows as [|[[[a b] c] r] rows IH]; intros cp dp H; [exact Logic.I|].
  destruct H as [H1 H2]. rewrite tri_solve_cons. cbv zeta.
  set (xs := tri_solve (c / (b - a * cp)) ((r - a * dp) / (b - a * cp)) rows).
  cbn [tri_ok hd]. split; [field; assumption|]. apply IH. assumption.
Qed.

Lemma tri_solve_unique rows : forall cp dp x, pivots cp rows ->
  tri_ok (dp - cp * hd 0 x) rows x -> x = tri_solve cp dp rows.
Proof.
  induction rows as [|[[[a b] c] r] rows IH]; intros cp dp x H T; destruct x as [|x0 xs]; try (destruct T; fail).
  - reflexivity.
  - cbn [tri_ok hd pivots] in *. destruct H as [H1 H2], T as [T1 T2]. rewrite tri_solve_cons. cbv zeta.
    assert (E : x0 = (r - a * dp) / (b - a * cp) - c / (b - a * cp) * hd 0 xs).
    { rewrite <- T1. field. assumption. }
    assert (Exs : xs = tri_solve (c / (b - a * cp)) ((r - a * dp) / (b - a * cp)) rows).
    { apply IH; [assumption|]. rewrite <- E. assumption. }
    rewrite <- Exs. rewrite E at 1. reflexivity.
Qed.

(** The equations by index. *)
Lemma tri_ok_seq (f : nat -> R * R * R * R) m : forall k p x,
  tri_ok p (map f (seq k m)) x <->
  length x = m /\ forall i, (i < m)%nat ->
    let '(a, b, c, r) := f (k + i)%nat in
    a * (match i with O => p | S i' => nth i' x 0 end) + b * nth i x 0 + c * nth (S i) x 0 = r.
Proof.
  induction m as [|m IH]; intros k p x; cbn [seq map].
  - destruct x; cbn [tri_ok]; split.
    + intros _. split; [reflexivity|]. intros; lia.
    + reflexivity.
    + intros [].
    + intros [E _]. discriminate.
  - destruct x as [|x0 xs].
    + cbn [tri_ok]. destruct (f k) as [[[a b] c] r]. split; [intros []|]. intros [E _]. discriminate.
    + cbn [tri_ok]. destruct (f k) as [[[a b] c] r] eqn:Ef. rewrite IH. split.
      * intros (T & L & A). split; [cbn [length]; lia|]. intros [|i] Hi.
        -- rewrite Nat.add_0_r, Ef. rewrite <- T. cbn [nth]. destruct xs; reflexivity.
        -- specialize (A i ltac:(lia)). rewrite <- Nat.add_succ_comm. destruct (f (S k + i)%nat) as [[[a' b'] c'] r'].
           rewrite <- A. cbn [nth]. destruct i; reflexivity.
      * intros (L & A). split; [|split; [cbn [length] in L; lia|]].
        -- specialize (A 0%nat ltac:(lia)). rewrite Nat.add_0_r, Ef in A. rewrite <- A. cbn [nth]. destruct xs; reflexivity.
        -- intros i Hi. specialize (A (S i) ltac:(lia)). rewrite <- Nat.add_succ_comm in A. destruct (f (S k + i)%nat) as [[[a' b'] c'] r'].
           rewrite <- A. cbn [nth]. destruct i; reflexivity.
Qed.

Lemma pivots_seq (f : nat -> R * R * R * R) (P : nat -> R -> Prop) m : forall k cp,
  (forall i cp, (k <= i < k + m)%nat -> P i cp ->
     let '(a, b, c, r) := f i in b - a * cp <> 0 /\ ((S i < k + m)%nat -> P (S i) (c / (b - a * cp)))) ->
  P k cp -> pivots cp (map f (seq k m)).
Proof.
  induction m as [|m IH]; intros k cp H Hk; [exact Logic.I|]. cbn [seq map pivots].
  pose proof (H k cp ltac:(lia) Hk) as K. destruct (f k) as [[[a b] c] r]. destruct K as [K1 K2]. split; [assumption|].
  destruct m as [|m]; [exact Logic.I|]. apply IH; [|apply K2; lia]. intros i cp' Hi. specialize (H i cp' ltac:(lia)).
  destruct (f i) as [[[a' b'] c'] r']. intros Pi. destruct (H Pi) as [H1 H2]. split; [assumption|]. intros. apply H2. lia.
Qed.

(** ** The system of a spline *)

Section System.
  Variables (b0 b1 : bc1 R) (xs ys : list R).
  Hypothesis I : increasing xs.
  Hypothesis H2 : (2 <= length xs)%nat.
  Let n := length xs.
  Let h := step_at xs.
  Let m := slope_at xs ys.

  Lemma step_pos k : (S k < length xs)%nat -> 0 < h k.
  Proof. intros Hk. pose proof (I k Hk). unfold h, step_at. cbn [nsub n0 RNum]. lra. Qed.

  Definition parabola_case : bool := Nat.eqb n 3 && match b0, b1 with Nak, Nak => true | _, _ => false end.

  Definition sys_row (k : nat) : R * R * R * R :=
    if Nat.eqb k 0 then start_row b0 xs ys else if Nat.eqb k (n - 1) then end_row b1 xs ys else inner_row xs ys k.

  Let inv (k : nat) (cp : R) : Prop :=
    match k with
    | O => cp = 0
    | _ => if Nat.eqb k (n - 1) then (let '(a, b, _, _) := end_row b1 xs ys in b - a * cp <> 0)
           else 0 <= cp /\ (k = 1%nat -> cp * h k <= h (k - 1) + h k /\ (b1 = Nak -> n = 3%nat -> cp < 1)) /\ (k <> 1%nat -> cp < 1)
    end.

  (** After an inner row the factor is below one. *)
  Lemma inner_factor k cp : (1 <= k)%nat -> (S k < n)%nat -> 0 <= cp -> cp * h k <= h (k - 1) + h k ->
    0 < 2 * (h (k - 1) + h k) - h k * cp /\ 0 <= h (k - 1) / (2 * (h (k - 1) + h k) - h k * cp) < 1.
  Proof.
    intros Hk Hn Hc Hcp. assert (A := step_pos (k - 1) ltac:(fold n; lia)). assert (B := step_pos k Hn).
    split; [lra|]. split.
    - apply Rlt_le, Rdiv_lt_0_compat; lra.
    - apply (Rmult_lt_reg_r (2 * (h (k - 1) + h k) - h k * cp)); [lra|]. unfold Rdiv. rewrite Rmult_assoc, Rinv_l by lra. lra.
  Qed.

  Lemma end_pivot cp : (n = 2%nat -> 0 <= cp <= / 2) -> ((3 <= n)%nat -> 0 <= cp < 1) ->
    (b1 = Nak -> (3 <= n)%nat -> (h (n - 3) + h (n - 2)) * cp < h (n - 3)) ->
    let '(a, b, _, _) := end_row b1 xs ys in b - a * cp <> 0.
  Proof.
    intros C2 C3 Cn. assert (A := step_pos (n - 2) ltac:(fold n; lia)).
    unfold end_row. fold n. rn. destruct b1 as [|v|v].
    - destruct (Nat.eqb_spec n 2) as [E|E]; [lra|]. specialize (Cn eq_refl ltac:(lia)).
      assert (Ed : nth (n - 1) xs 0 - nth (n - 3) xs 0 = h (n - 3) + h (n - 2)).
      { unfold h, step_at. cbn [nsub n0 RNum]. replace (S (n - 3)) with (n - 2)%nat by lia. replace (S (n - 2)) with (n - 1)%nat by lia. lra. }
      rewrite Ed. fold h. lra.
    - lra.
    - fold h. assert (cp < 1). { destruct (Nat.eq_dec n 2) as [E|E]; [specialize (C2 E); lra|apply C3; unfold n in *; lia]. }
      nra.
  Qed.

  Lemma system_pivots : pivots 0 (cubic_system b0 b1 xs ys).
  Proof.
    unfold cubic_system. fold n. fold parabola_case. destruct parabola_case eqn:Pc.
    - unfold parabola_case in Pc. apply andb_true_iff in Pc as [En _]. apply Nat.eqb_eq in En.
      assert (A := step_pos 0 ltac:(fold n; lia)). assert (B := step_pos 1 ltac:(fold n; lia)).
      unfold parabola_rows. cbn [pivots]. rn. fold h.
      split; [lra|]. split; [|split; [|exact Logic.I]].
      + replace (1 / (1 - 0 * 0)) with 1 by field. lra.
      + replace (1 / (1 - 0 * 0)) with 1 by field.
        replace (1 - 1 * (h 0 / (2 * (h 0%nat + h 1%nat) - h 1%nat * 1))) with ((h 0%nat + h 1%nat) / (2 * h 0%nat + h 1%nat)).
        * apply Rgt_not_eq, Rdiv_lt_0_compat; lra.
        * field. lra.
    - change (pivots 0 (map sys_row (seq 0 n))). apply (pivots_seq sys_row inv); [|reflexivity].
      intros i cp Hi Hc. unfold sys_row. destruct (Nat.eqb_spec i 0) as [->|Ni].
      + (* the first row *)
        cbn [inv] in Hc. subst cp.
        assert (A := step_pos 0 ltac:(fold n; lia)).
        assert (K : let '(a, b, c, r) := start_row b0 xs ys in
                    a = 0 /\ 0 < b /\ 0 <= c / b /\ (n = 2%nat -> c / b <= / 2) /\
                    ((3 <= n)%nat -> c / b * h 1%nat <= h 0%nat + h 1%nat /\ (b0 <> Nak -> c / b < 1))).
        { unfold start_row. fold n. rn. destruct b0 as [|v|v].
          - destruct (Nat.eqb_spec n 2) as [E|E].
            + split; [reflexivity|]. replace (0 / 1) with 0 by field. repeat split; intros; try lra; try lia.
            + assert (B := step_pos 1 ltac:(fold n; lia)). fold h.
              assert (Ed : nth 2 xs 0 - nth 0 xs 0 = h 0%nat + h 1%nat) by (unfold h, step_at; cbn [nsub n0 RNum]; lra).
              rewrite Ed. split; [reflexivity|]. split; [assumption|]. split; [apply Rlt_le, Rdiv_lt_0_compat; lra|].
              split; [intros; lia|]. intros _. split; [|congruence]. right. field. lra.
          - split; [reflexivity|]. replace (0 / 1) with 0 by field. split; [lra|]. split; [lra|]. split; [lra|].
            intros. assert (B := step_pos 1 ltac:(fold n; lia)). lra.
          - fold h. split; [reflexivity|]. split; [lra|]. replace (h 0 / (2 * h 0%nat)) with (/ 2) by (field; lra).
            split; [lra|]. split; [lra|]. intros. assert (B := step_pos 1 ltac:(fold n; lia)). lra. }
        destruct (start_row b0 xs ys) as [[[a b] c] r]. destruct K as (-> & Kb & K1 & K2 & K3). split; [lra|].
        intros H1. replace (b - 0 * 0) with b by ring. unfold inv. destruct (Nat.eqb_spec 1 (n - 1)) as [E|E].
        * apply end_pivot; intros; try lia. split; [assumption|apply K2; lia].
        * destruct (K3 ltac:(lia)) as [K4 K5]. split; [assumption|]. split; [|congruence]. intros _. split; [exact K4|].
          intros E1 E3. apply K5. intros E0. unfold parabola_case in Pc. rewrite E3, E0, E1 in Pc. discriminate.
      + destruct i as [|i']; [congruence|]. set (i := S i') in *. unfold inv in Hc. fold i in Hc. cbn [Nat.eqb] in *.
        change (match i with O => cp = 0 | S _ => if Nat.eqb i (n - 1) then (let '(a, b, _, _) := end_row b1 xs ys in b - a * cp <> 0) else
          0 <= cp /\ (i = 1%nat -> cp * h i <= h (i - 1) + h i /\ (b1 = Nak -> n = 3%nat -> cp < 1)) /\ (i <> 1%nat -> cp < 1) end) in Hc.
        unfold i in Hc at 1. cbv iota in Hc.
        destruct (Nat.eqb_spec i (n - 1)) as [E|E].
        * (* the last row *)
          destruct (end_row b1 xs ys) as [[[a b] c] r]. split; [assumption|]. intros; lia.
        * (* an inner row *)
          destruct Hc as (C0 & C1 & C2). unfold inner_row. rn. fold h m.
          assert (Hin : (S i < n)%nat) by lia.
          assert (A := step_pos (i - 1) ltac:(fold n; lia)). assert (B := step_pos i Hin).
          assert (Cb : cp * h i <= h (i - 1) + h i).
          { destruct (Nat.eq_dec i 1) as [E1|E1]; [apply C1; assumption|]. specialize (C2 E1). nra. }
          destruct (inner_factor i cp ltac:(lia) Hin C0 Cb) as [F1 F2]. split; [lra|].
          intros _. unfold inv. destruct (Nat.eqb_spec (S i) (n - 1)) as [El|El].
          -- apply end_pivot; intros; try lia; [assumption|].
             replace (n - 3)%nat with (i - 1)%nat by lia. replace (n - 2)%nat with i by lia.
             assert (cp < 1). { destruct (Nat.eq_dec i 1) as [E1|E1]; [apply C1; [assumption|assumption|lia]|apply C2; assumption]. }
             assert (Hd : h (i - 1) + h i < 2 * (h (i - 1) + h i) - h i * cp) by nra.
             apply (Rmult_lt_reg_r (2 * (h (i - 1) + h i) - h i * cp)); [lra|].
             unfold Rdiv. rewrite !Rmult_assoc, Rinv_l by lra. nra.
          -- split; [apply F2|]. split; [intros; lia|]. intros; apply F2.
  Qed.

  Lemma cubic_derivs_length : length (cubic_derivs b0 b1 xs ys) = n.
  Proof.
    unfold cubic_derivs, cubic_system. rewrite tri_solve_length. fold n.
    destruct (Nat.eqb_spec n 3) as [E|E]; cbn [andb].
    - destruct b0, b1; cbn; rewrite ?map_length, ?seq_length; congruence.
    - rewrite map_length, seq_length. reflexivity.
  Qed.

  Lemma cubic_derivs_ok : tri_ok 0 (cubic_system b0 b1 xs ys) (cubic_derivs b0 b1 xs ys).
  Proof.
    unfold cubic_derivs. pose proof (tri_solve_ok _ 0 0 system_pivots) as K.
    replace (0 - 0 * _) with 0 in K by ring. exact K.
  Qed.

  Lemma cubic_derivs_unique x : tri_ok 0 (cubic_system b0 b1 xs ys) x -> x = cubic_derivs b0 b1 xs ys.
  Proof.
    intros K. apply (tri_solve_unique _ 0 0 x system_pivots). replace (0 - 0 * _) with 0 by ring. exact K.
  Qed.
End System.
