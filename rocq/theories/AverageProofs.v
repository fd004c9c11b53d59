(** Interpolators that are linear in the coordinates of the points: their values
    are averages of the points with weights that depend on the parameters only. *)
From Coq Require Import ZArith String List Bool Arith Lia Reals Lra Psatz.
From Verif Require Import Num Py Numeric Curve Vec Geom DiffGeom Intersect Registry Interp Splines Splines2 Csaps Spec GeomSpec.
From Verif Require Import ListFacts VecFacts CurveProofs3 InterpProofs InterpProofs2 SplineProofs SplineProofs2 SplineProofs3 SplineProofs4 SplineProofs5 SplineProofs6.
From Verif Require Import CsapsProofs CsapsProofs2 CsapsProofs3.
Import ListNotations.
Local Open Scope R_scope.

(** ** Linear functions of a list *)

Definition lcomb (a b : R) (u w : list R) : list R := vadd (vscale u a) (vscale w b).
Lemma lcomb_length a b u w : length u = length w -> length (lcomb a b u w) = length u.
Proof. intros H. unfold lcomb. rewrite vadd_length; rewrite ?vscale_length; congruence. Qed.
Lemma nth_lcomb a b u w i : length u = length w -> nth i (lcomb a b u w) 0 = a * nth i u 0 + b * nth i w 0.
Proof. intros H. unfold lcomb. rewrite nth_vadd by (rewrite !vscale_length; congruence). rewrite !nth_vscale. ring. Qed.

Definition lin_fun (n : nat) (F : list R -> R) : Prop :=
  forall a b u w, length u = n -> length w = n -> F (lcomb a b u w) = a * F u + b * F w.

Definition spike (n k : nat) : list R := map (fun i => if Nat.eqb i k then 1 else 0) (seq 0 n).
Lemma spike_length n k : length (spike n k) = n.
Proof. unfold spike. rewrite map_length, seq_length. reflexivity. Qed.
Lemma nth_seq_map (f : nat -> R) n i : (i < n)%nat -> nth i (map f (seq 0 n)) 0 = f i.
Proof.
  intros H. rewrite (nth_indep _ 0 (f 0%nat)) by (rewrite map_length, seq_length; assumption).
  rewrite map_nth, seq_nth by assumption. reflexivity.
Qed.

Lemma lin_fun_weights n F : lin_fun n F -> forall ys, length ys = n -> F ys = bsum (fun k => F (spike n k) * nth k ys 0) n.
Proof.
  intros HF ys L.
  set (cut := fun m => map (fun i => if Nat.ltb i m then nth i ys 0 else 0) (seq 0 n)).
  assert (Lc : forall m, length (cut m) = n) by (intros m; unfold cut; rewrite map_length, seq_length; reflexivity).
  assert (Nc : forall m i, (i < n)%nat -> nth i (cut m) 0 = if Nat.ltb i m then nth i ys 0 else 0).
  { intros m i Hi. unfold cut. apply (nth_seq_map (fun i => if Nat.ltb i m then nth i ys 0 else 0)). assumption. }
  assert (Q : forall m, (m <= n)%nat -> F (cut m) = bsum (fun k => F (spike n k) * nth k ys 0) m).
  { induction m as [|m IH]; intros Hm.
    - cbn [bsum]. assert (E : cut 0%nat = lcomb 0 0 (cut 0%nat) (cut 0%nat)).
      { apply vec_ext; [rewrite lcomb_length by reflexivity; reflexivity|]. intros i. rewrite nth_lcomb by reflexivity.
        destruct (Nat.lt_ge_cases i n); [rewrite Nc by assumption; change (Nat.ltb i 0) with false; cbv iota; ring|rewrite nth_overflow by (rewrite Lc; assumption); ring]. }
      rewrite E, HF by apply Lc. ring.
    - cbn [bsum]. rewrite <- IH by lia. assert (E : cut (S m) = lcomb 1 (nth m ys 0) (cut m) (spike n m)).
      { apply vec_ext; [rewrite lcomb_length by (rewrite Lc, spike_length; reflexivity); rewrite !Lc; reflexivity|].
        intros i. rewrite nth_lcomb by (rewrite Lc, spike_length; reflexivity).
        destruct (Nat.lt_ge_cases i n) as [Hi|Hi].
        - rewrite !Nc by assumption. unfold spike. rewrite (nth_seq_map (fun i => if Nat.eqb i m then 1 else 0)) by assumption.
          destruct (Nat.ltb_spec i (S m)), (Nat.ltb_spec i m), (Nat.eqb_spec i m); try lia; subst; ring.
        - rewrite (nth_overflow (cut (S m))), (nth_overflow (cut m)), (nth_overflow (spike n m)) by (rewrite ?Lc, ?spike_length; assumption). ring. }
      rewrite E, HF by (rewrite ?Lc, ?spike_length; reflexivity). ring. }
  rewrite <- Q by lia. f_equal. apply vec_ext; [rewrite Lc; assumption|]. intros i.
  destruct (Nat.lt_ge_cases i n) as [Hi|Hi].
  - rewrite Nc by assumption. destruct (Nat.ltb_spec i n); [reflexivity|lia].
  - rewrite !nth_overflow by (rewrite ?Lc; lia). reflexivity.
Qed.

Lemma bsum_const_weights a n c : bsum (fun k => a k * c) n = bsum a n * c.
Proof. induction n as [|n IH]; cbn [bsum]; [ring|]. rewrite IH. ring. Qed.

Lemma lin_fun_one n F : lin_fun n F -> F (repeat 1 n) = 1 -> bsum (fun k => F (spike n k)) n = 1.
Proof.
  intros HF H1. rewrite (lin_fun_weights n F HF) in H1 by apply repeat_length. rewrite <- H1. apply bsum_ext.
  intros i Hi. assert (E : nth i (repeat 1 n) 0 = 1).
  { rewrite (nth_indep _ 0 1) by (rewrite repeat_length; assumption). apply nth_repeat. }
  rewrite E. ring.
Qed.

(** ** Tridiagonal systems *)
Lemma tri_solve_lin (lo di up r r' : nat -> R) a b l : forall cp dp dp',
  tri_solve cp (a * dp + b * dp') (map (fun k => (lo k, di k, up k, a * r k + b * r' k)) l)
  = lcomb a b (tri_solve cp dp (map (fun k => (lo k, di k, up k, r k)) l)) (tri_solve cp dp' (map (fun k => (lo k, di k, up k, r' k)) l))
  /\ length (tri_solve cp dp (map (fun k => (lo k, di k, up k, r k)) l)) = length l
  /\ length (tri_solve cp dp' (map (fun k => (lo k, di k, up k, r' k)) l)) = length l.
Proof.
  induction l as [|k l IH]; intros cp dp dp'; [repeat split|].
  cbn [map tri_solve]. rn.
  specialize (IH (up k / (di k - lo k * cp)) ((r k - lo k * dp) / (di k - lo k * cp)) ((r' k - lo k * dp') / (di k - lo k * cp))).
  destruct IH as (IH & L1 & L2).
  replace ((a * r k + b * r' k - lo k * (a * dp + b * dp')) / (di k - lo k * cp))
    with (a * ((r k - lo k * dp) / (di k - lo k * cp)) + b * ((r' k - lo k * dp') / (di k - lo k * cp))) by (unfold Rdiv; ring).
  rewrite IH. cbn [length]. rewrite L1, L2. repeat split.
  set (S1 := tri_solve (up k / (di k - lo k * cp)) ((r k - lo k * dp) / (di k - lo k * cp)) (map (fun k0 => (lo k0, di k0, up k0, r k0)) l)) in *.
  set (S2 := tri_solve (up k / (di k - lo k * cp)) ((r' k - lo k * dp') / (di k - lo k * cp)) (map (fun k0 => (lo k0, di k0, up k0, r' k0)) l)) in *.
  unfold lcomb, vadd, vscale. cbn [map map2]. rn. apply f_equal2; [|reflexivity].
  destruct S1 as [|x S1], S2 as [|y S2]; cbn [length] in L1, L2; try lia; cbn [map map2]; rn; unfold Rdiv; ring.
Qed.

(** The right sides of the spline equations are linear in the values. *)
Definition zero_bc (e : bc1 R) : Prop := match e with Nak => True | D1 v => v = 0 | D2 v => v = 0 end.

Definition row_parts (q : R * R * R * R) : R * R * R := let '(l, d, u, _) := q in (l, d, u).
Definition row_rhs (q : R * R * R * R) : R := let '(_, _, _, r) := q in r.

Lemma slope_at_lin xs a b u w k : length u = length w ->
  slope_at xs (lcomb a b u w) k = a * slope_at xs u k + b * slope_at xs w k.
Proof. intros L. unfold slope_at. rn. rewrite !nth_lcomb by assumption. unfold Rdiv. ring. Qed.

Lemma cubic_derivs_lin b0 b1 xs a b u w k : zero_bc b0 -> zero_bc b1 -> length u = length w ->
  nth k (cubic_derivs b0 b1 xs (lcomb a b u w)) 0 = a * nth k (cubic_derivs b0 b1 xs u) 0 + b * nth k (cubic_derivs b0 b1 xs w) 0.
Proof.
  intros Z0 Z1 L. unfold cubic_derivs.
  assert (G : exists (lo di up : nat -> R) (r : list R -> nat -> R) (l : list nat), forall ys, ys = u \/ ys = w \/ ys = lcomb a b u w ->
    cubic_system b0 b1 xs ys = map (fun k => (lo k, di k, up k, r ys k)) l /\
    (forall k, r (lcomb a b u w) k = a * r u k + b * r w k)).
  { set (sys := fun ys k => nth k (cubic_system b0 b1 xs ys) (0, 0, 0, 0)).
    assert (Len : forall ys, length (cubic_system b0 b1 xs ys) = length xs).
    { intros ys. unfold cubic_system. destruct (Nat.eqb_spec (length xs) 3) as [E|]; cbn [andb]; [|rewrite map_length, seq_length; reflexivity].
      rewrite E. destruct b0, b1; try (rewrite map_length, seq_length; reflexivity). reflexivity. }
    assert (Parts : forall ys ys' k, row_parts (sys ys k) = row_parts (sys ys' k)).
    { intros ys ys' i. unfold sys, cubic_system.
      destruct (Nat.eqb (length xs) 3 && _)%bool.
      - unfold parabola_rows. destruct i as [|[|[|[|i]]]]; reflexivity.
      - destruct (Nat.lt_ge_cases i (length xs)) as [Hi|Hi].
        + assert (E : forall f : nat -> R * R * R * R, nth i (map f (seq 0 (length xs))) (0,0,0,0) = f i).
          { intros f. rewrite (nth_indep _ _ (f 0%nat)) by (rewrite map_length, seq_length; assumption). rewrite map_nth, seq_nth by assumption. reflexivity. }
          rewrite !E. destruct (Nat.eqb i 0); [|destruct (Nat.eqb i (length xs - 1))]; [| |reflexivity].
          * unfold start_row. destruct b0; [destruct (Nat.eqb (length xs) 2)| |]; reflexivity.
          * unfold end_row. destruct b1; [destruct (Nat.eqb (length xs) 2)| |]; reflexivity.
        + rewrite !nth_overflow by (rewrite map_length, seq_length; assumption). reflexivity. }
    exists (fun k => fst (fst (row_parts (sys u k)))), (fun k => snd (fst (row_parts (sys u k)))), (fun k => snd (row_parts (sys u k))).
    exists (fun ys k => row_rhs (sys ys k)), (seq 0 (length xs)). intros ys _. split.
    - apply (nth_ext _ _ (0,0,0,0) (0,0,0,0)); [rewrite Len, map_length, seq_length; reflexivity|].
      intros i Hi. rewrite Len in Hi.
      assert (E : forall f : nat -> R * R * R * R, nth i (map f (seq 0 (length xs))) (0,0,0,0) = f i).
      { intros f. rewrite (nth_indep _ _ (f 0%nat)) by (rewrite map_length, seq_length; assumption). rewrite map_nth, seq_nth by assumption. reflexivity. }
      rewrite E. change (nth i (cubic_system b0 b1 xs ys) (0, 0, 0, 0)) with (sys ys i). rewrite (Parts u ys i).
      destruct (sys ys i) as [[[? ?] ?] ?]. reflexivity.
    - intros i. unfold sys, cubic_system.
      destruct (Nat.eqb (length xs) 3 && _)%bool.
      + unfold parabola_rows. destruct i as [|[|[|[|i]]]]; cbn [nth row_rhs]; rewrite ?slope_at_lin by assumption; rn; ring.
      + destruct (Nat.lt_ge_cases i (length xs)) as [Hi|Hi].
        * assert (E : forall f : nat -> R * R * R * R, nth i (map f (seq 0 (length xs))) (0,0,0,0) = f i).
          { intros f. rewrite (nth_indep _ _ (f 0%nat)) by (rewrite map_length, seq_length; assumption). rewrite map_nth, seq_nth by assumption. reflexivity. }
          rewrite !E. destruct (Nat.eqb i 0); [|destruct (Nat.eqb i (length xs - 1))].
          -- unfold start_row. destruct b0 as [|v|v]; cbn in Z0; [destruct (Nat.eqb (length xs) 2)| |]; cbn [row_rhs];
               rewrite ?slope_at_lin, ?nth_lcomb by assumption; try rewrite Z0; rn; unfold Rdiv; ring.
          -- unfold end_row. destruct b1 as [|v|v]; cbn in Z1; [destruct (Nat.eqb (length xs) 2)| |]; cbn [row_rhs];
               rewrite ?slope_at_lin, ?nth_lcomb by assumption; try rewrite Z1; rn; unfold Rdiv; ring.
          -- unfold inner_row. cbn [row_rhs]. rewrite !slope_at_lin by assumption. rn. ring.
        * rewrite !nth_overflow by (rewrite map_length, seq_length; assumption). cbn. ring. }
  destruct G as (lo & di & up & r & l & G).
  destruct (G u ltac:(auto)) as [-> Hr]. destruct (G w ltac:(auto)) as [-> _]. destruct (G (lcomb a b u w) ltac:(auto)) as [-> _].
  destruct (tri_solve_lin lo di up (r u) (r w) a b l 0 0 0) as (T & L1 & L2).
  rewrite (map_ext _ (fun k => (lo k, di k, up k, a * r u k + b * r w k))) by (intros i; rewrite Hr; reflexivity).
  replace (a * 0 + b * 0) with 0 in T by ring. change (@n0 R RNum) with 0. rewrite T, nth_lcomb by congruence. reflexivity.
Qed.

Lemma spl0_lin b0 b1 xs n v : length xs = n -> zero_bc b0 -> zero_bc b1 -> lin_fun n (fun ys => spl0 b0 b1 xs ys v).
Proof.
  intros L Z0 Z1 a b u w Lu Lw. unfold spl0, pw, cp0, pc2, pc3, deriv_at. cbv beta zeta.
  rewrite !nth_lcomb, !cubic_derivs_lin by (assumption || congruence). unfold Rdiv. ring.
Qed.

(** Constants: all the slopes vanish, and so do the derivatives. *)
Lemma tri_solve_zero rows : (forall q, In q rows -> row_rhs q = 0) -> forall cp, tri_solve cp 0 rows = repeat 0 (length rows).
Proof.
  induction rows as [|[[[lo di] up] r] rows IH]; intros H cp; [reflexivity|]. cbn [tri_solve length repeat].
  assert (E : r = 0) by apply (H (lo, di, up, r) (or_introl eq_refl)). subst r. rn.
  replace ((0 - lo * 0) / (di - lo * cp)) with 0 by (unfold Rdiv; ring).
  rewrite IH by (intros q Hq; apply H; right; assumption). apply f_equal2; [|reflexivity].
  destruct (length rows); cbn [repeat]; ring.
Qed.

Lemma nth_ones c n k : (k < n)%nat -> nth k (repeat c n) 0 = c.
Proof. intros H. rewrite (nth_indep _ 0 c) by (rewrite repeat_length; assumption). apply nth_repeat. Qed.

Lemma slope_const xs c n k : (S k < n)%nat -> slope_at xs (repeat c n) k = 0.
Proof. intros H. unfold slope_at. rn. rewrite !nth_ones by lia. unfold Rdiv. ring. Qed.

Lemma cubic_derivs_const b0 b1 xs c k : zero_bc b0 -> zero_bc b1 -> (2 <= length xs)%nat ->
  nth k (cubic_derivs b0 b1 xs (repeat c (length xs))) 0 = 0.
Proof.
  intros Z0 Z1 H. unfold cubic_derivs. change (@n0 R RNum) with 0. rewrite tri_solve_zero.
  - destruct (Nat.lt_ge_cases k (length (cubic_system b0 b1 xs (repeat c (length xs))))) as [Hk|Hk].
    + apply nth_repeat.
    + apply nth_overflow. rewrite repeat_length. assumption.
  - intros q Hq. unfold cubic_system in Hq. destruct (Nat.eqb (length xs) 3 && _)%bool eqn:E3.
    + apply andb_true_iff in E3 as [E3 _]. apply Nat.eqb_eq in E3. unfold parabola_rows in Hq.
      rewrite !slope_const in Hq by lia. cbn [In] in Hq. destruct Hq as [<- |[<- |[<- |[]]]]; cbn [row_rhs]; rn; ring.
    + apply in_map_iff in Hq as (i & <- & Hi). apply in_seq in Hi.
      destruct (Nat.eqb_spec i 0) as [E0|E0]; [|destruct (Nat.eqb_spec i (length xs - 1)) as [E1|E1]].
      * unfold start_row. destruct b0 as [|v|v]; cbn in Z0.
        -- destruct (Nat.eqb_spec (length xs) 2); cbn [row_rhs]; rewrite !slope_const by lia; rn; unfold Rdiv; ring.
        -- exact Z0.
        -- cbn [row_rhs]. rewrite Z0. change (@n0 R RNum) with 0. rewrite !nth_ones by lia. rn. ring.
      * unfold end_row. destruct b1 as [|v|v]; cbn in Z1.
        -- destruct (Nat.eqb_spec (length xs) 2); cbn [row_rhs]; rewrite !slope_const by lia; rn; unfold Rdiv; ring.
        -- exact Z1.
        -- cbn [row_rhs]. rewrite Z1. change (@n0 R RNum) with 0. rewrite !nth_ones by lia. rn. ring.
      * unfold inner_row. cbn [row_rhs]. rewrite !slope_const by lia. rn. ring.
Qed.

Lemma spl0_const b0 b1 xs c v : zero_bc b0 -> zero_bc b1 -> increasing xs -> (2 <= length xs)%nat ->
  spl0 b0 b1 xs (repeat c (length xs)) v = c.
Proof.
  intros Z0 Z1 I H. destruct (SplineProofs4.piece_exists xs I H v) as (k & Hk & Ek & _).
  unfold spl0, pw, cp0, pc2, pc3, deriv_at. cbv beta zeta. rewrite Ek, !cubic_derivs_const, !nth_ones by (assumption || lia).
  unfold Rdiv. ring.
Qed.

(** ** Smoothing splines *)
Lemma vdot_lcomb a b q : forall u w, length u = length w -> vdot q (lcomb a b u w) = a * vdot q u + b * vdot q w.
Proof.
  induction q as [|x q IH]; intros u w L; [cbn; ring|]. destruct u as [|y u], w as [|z w]; try discriminate L; [cbn; ring|].
  injection L as L. change (lcomb a b (y :: u) (z :: w)) with ((y * a + z * b) :: lcomb a b u w).
  rewrite !vdot_cons, IH by assumption. ring.
Qed.

Section Csaps.
  Variables (xs ws : list R) (p : R).
  Hypothesis I : increasing xs.
  Hypothesis H2 : (2 <= length xs)%nat.
  Hypothesis W : forall i, (i < length xs)%nat -> 0 < nth i ws 0.
  Hypothesis P : 0 <= p <= 1.

  Lemma csaps_u_lin a b u w k : (3 <= length xs)%nat -> length u = length w ->
    nth k (csaps_u xs ws p (lcomb a b u w)) 0 = a * nth k (csaps_u xs ws p u) 0 + b * nth k (csaps_u xs ws p w) 0.
  Proof.
    intros H3 L. unfold csaps_u. change (@n0 R RNum) with 0. rewrite !nth_pad.
    destruct (sys_rows xs ws H3 p u) as [U1 U2]. destruct (sys_rows xs ws H3 p w) as [W1 W2].
    destruct (sys_rows xs ws H3 p (lcomb a b u w)) as [S1 S2].
    destruct (gauss_ok _ _ U1 U2 (sys_pos_def xs ws I H3 W p P u)) as [Lu Hu].
    destruct (gauss_ok _ _ W1 W2 (sys_pos_def xs ws I H3 W p P w)) as [Lw Hw].
    assert (E : lcomb a b (gauss (unknowns xs) (csaps_system xs ws p u)) (gauss (unknowns xs) (csaps_system xs ws p w))
                = gauss (unknowns xs) (csaps_system xs ws p (lcomb a b u w))).
    { apply gauss_unique; try assumption; [apply sys_pos_def; assumption|rewrite lcomb_length; congruence|].
      intros r Hr. unfold csaps_system in Hr. apply in_map_iff in Hr as (i & <- & Hi).
      rewrite vdot_lcomb by congruence.
      set (coefs := map _ _).
      assert (G : forall y, length (gauss (unknowns xs) (csaps_system xs ws p y)) = unknowns xs ->
        (forall r, In r (csaps_system xs ws p y) -> vdot r (gauss (unknowns xs) (csaps_system xs ws p y)) = nth (unknowns xs) r 0) ->
        forall z, vdot (coefs ++ [z]) (gauss (unknowns xs) (csaps_system xs ws p y)) = slope_at xs y (S i) - slope_at xs y i).
      { intros y Ly Hy z. transitivity (vdot (coefs ++ [slope_at xs y (S i) - slope_at xs y i]) (gauss (unknowns xs) (csaps_system xs ws p y))).
        - assert (Lc : length coefs = unknowns xs) by (unfold coefs; rewrite map_length, seq_length; reflexivity).
          revert Ly. rewrite <- Lc. generalize (gauss (length coefs) (csaps_system xs ws p y)). generalize coefs.
          intros cs. induction cs as [|d cs IH]; intros [|e l] Le; try discriminate Le; [reflexivity|].
          injection Le as Le. specialize (IH l Le). cbn [app]. rewrite !vdot_cons, IH. reflexivity.
        - rewrite Hy.
          + rewrite app_nth2; unfold coefs; rewrite map_length, seq_length; [|lia]. rewrite Nat.sub_diag. reflexivity.
          + unfold csaps_system. apply in_map_iff. exists i. split; [reflexivity|assumption]. }
      rewrite (G u Lu Hu), (G w Lw Hw). rewrite app_nth2; unfold coefs; rewrite map_length, seq_length; [|lia].
      rewrite Nat.sub_diag. cbn [nth]. rewrite !slope_at_lin by assumption. rn. ring. }
    rewrite <- E. destruct k as [|k]; cbn [pad]; [ring|]. rewrite nth_lcomb by congruence. reflexivity.
  Qed.

  Lemma csaps_val_lin v : lin_fun (length xs) (fun ys => csaps_val xs ws p ys v).
  Proof.
    intros a b u w Lu Lw. unfold csaps_val. destruct (Nat.eqb_spec (length xs) 2) as [E|E].
    - rewrite !nth_lcomb by congruence. unfold Rdiv. ring.
    - assert (H3 : (3 <= length xs)%nat) by lia. assert (L : length u = length w) by congruence.
      assert (U := fun k => csaps_u_lin a b u w k H3 L).
      set (l := lcomb a b u w) in *.
      assert (D : forall k, nth k (csaps_d1 xs (csaps_u xs ws p l)) 0
          = a * nth k (csaps_d1 xs (csaps_u xs ws p u)) 0 + b * nth k (csaps_d1 xs (csaps_u xs ws p w)) 0).
      { intros k. unfold csaps_d1. change (@n0 R RNum) with 0. rewrite !nth_pad. destruct k as [|k]; cbn [pad]; [ring|].
        destruct (Nat.lt_ge_cases k (length xs - 1)) as [Hk|Hk].
        - rewrite !nth_seq_map by assumption. rewrite !U. rn. unfold Rdiv. ring.
        - rewrite !nth_overflow by (rewrite map_length, seq_length; assumption). ring. }
      assert (F : forall k, csaps_fit xs ws p l (csaps_u xs ws p l) k
          = a * csaps_fit xs ws p u (csaps_u xs ws p u) k + b * csaps_fit xs ws p w (csaps_u xs ws p w) k).
      { intros k. unfold csaps_fit. cbv zeta. change (@n0 R RNum) with 0. rewrite !D. unfold l. rewrite nth_lcomb by assumption. rn. unfold Rdiv. ring. }
      unfold csaps_coeffs, poly_eval. cbv zeta. change (@n0 R RNum) with 0. rewrite !F, !U. rn. unfold Rdiv. ring.
  Qed.

  Lemma csaps_val_const v c : csaps_val xs ws p (repeat c (length xs)) v = c.
  Proof.
    rewrite (csaps_val_affine xs ws I H2 W p P _ c 0 v); [ring|]. intros k Hk. rewrite nth_ones by assumption. ring.
  Qed.
End Csaps.

(** ** Linear interpolation *)
Lemma interp_at_weights n (xs : list R) v : increasing xs -> (2 <= length xs)%nat ->
  exists a, bsum a (length xs) = 1 /\ (inside xs v -> forall k, 0 <= a k) /\
    forall ys j, length ys = length xs -> dims n ys -> (j < n)%nat ->
      nth j (interp_at xs ys v) 0 = bsum (fun k => a k * nth j (nth k ys []) 0) (length xs).
Proof.
  intros I H. destruct (InterpProofs.piece_exists xs v I H) as (k & Hk & Hl & Hr).
  set (t := (v - nth k xs 0) / (nth (S k) xs 0 - nth k xs 0)).
  assert (Hd := I k Hk).
  exists (fun i => (if Nat.eqb i k then 1 - t else 0) * 1 + (if Nat.eqb i (S k) then t else 0) * 1).
  assert (Q : forall F, bsum (fun i => ((if Nat.eqb i k then 1 - t else 0) * 1 + (if Nat.eqb i (S k) then t else 0) * 1) * F i) (length xs)
    = (1 - t) * F k + t * F (S k)).
  { intros F. rewrite (bsum_ext _ (fun i => (if Nat.eqb i k then 1 - t else 0) * F i + (if Nat.eqb i (S k) then t else 0) * F i)) by (intros; ring).
    rewrite bsum_plus, !bsum_one. rewrite !(proj2 (Nat.ltb_lt _ _)) by lia. reflexivity. }
  split; [|split].
  - specialize (Q (fun _ => 1)). rewrite (bsum_ext _ (fun i => ((if Nat.eqb i k then 1 - t else 0) * 1 + (if Nat.eqb i (S k) then t else 0) * 1) * 1)) by (intros; ring).
    rewrite Q. ring.
  - intros [Ia Ib] i.
    assert (T0 : 0 <= t).
    { apply Rmult_le_pos; [|apply Rlt_le, Rinv_0_lt_compat; lra]. destruct Hl as [-> |Hl]; lra. }
    assert (T1 : t <= 1).
    { apply (Rmult_le_reg_r (nth (S k) xs 0 - nth k xs 0)); [lra|]. unfold t, Rdiv. rewrite Rmult_assoc, Rinv_l by lra.
      destruct Hr as [Hr|Hr]; [|lra]. replace (length xs - 1)%nat with (S k) in Ib by lia. lra. }
    destruct (Nat.eqb i k), (Nat.eqb i (S k)); lra.
  - intros ys j L D Hj. destruct (interp_at_piece n xs ys v k I L D Hk Hl Hr) as [_ A]. rewrite A. fold t.
    rewrite (Q (fun i => nth j (nth i ys []) 0)). ring.
Qed.

(** One coordinate at a time. *)
Lemma interp_at_coord n (xs : list R) ys v j : increasing xs -> (2 <= length xs)%nat -> length ys = length xs -> dims n ys -> (j < n)%nat ->
  nth j (interp_at xs ys v) 0 = nth 0 (interp_at xs (map (fun q => [nth j q 0]) ys) v) 0.
Proof.
  intros I H L D Hj. destruct (InterpProofs.piece_exists xs v I H) as (k & Hk & Hl & Hr).
  destruct (interp_at_piece n xs ys v k I L D Hk Hl Hr) as [_ A].
  assert (L' : length (map (fun q => [nth j q 0]) ys) = length xs) by (rewrite map_length; assumption).
  assert (D' : dims 1 (map (fun q : list R => [nth j q 0]) ys)) by (intros q Hq; apply in_map_iff in Hq as (y & <- & _); reflexivity).
  destruct (interp_at_piece 1 xs _ v k I L' D' Hk Hl Hr) as [_ A']. rewrite A, A'.
  rewrite !(nth_map_in (fun q => [nth j q 0]) ys _ []) by lia. reflexivity.
Qed.

Definition lin_weight (xs : list R) (v : R) (k : nat) : R :=
  nth 0 (interp_at xs (map (fun y => [y]) (spike (length xs) k)) v) 0.

Lemma lin_weight_spec (xs : list R) v : increasing xs -> (2 <= length xs)%nat ->
  bsum (lin_weight xs v) (length xs) = 1 /\ (inside xs v -> forall k, 0 <= lin_weight xs v k) /\
  forall n ys j, length ys = length xs -> dims n ys -> (j < n)%nat ->
    nth j (interp_at xs ys v) 0 = bsum (fun k => lin_weight xs v k * nth j (nth k ys []) 0) (length xs).
Proof.
  intros I H. destruct (interp_at_weights 1 xs v I H) as (b & B1 & B2 & B3).
  assert (E : forall k, lin_weight xs v k = if Nat.ltb k (length xs) then b k else 0).
  { intros k. unfold lin_weight.
    rewrite B3; [|rewrite map_length; apply spike_length|intros q Hq; apply in_map_iff in Hq as (y & <- & _); reflexivity|lia].
    rewrite (bsum_ext _ (fun i => (if Nat.eqb i k then 1 else 0) * b i)).
    - rewrite bsum_one. destruct (Nat.ltb k (length xs)); ring.
    - intros i Hi. rewrite (nth_map_in _ _ i 0) by (rewrite spike_length; assumption). cbn [nth].
      unfold spike. rewrite (nth_seq_map (fun i => if Nat.eqb i k then 1 else 0)) by assumption. ring. }
  assert (Q : forall F, bsum (fun k => lin_weight xs v k * F k) (length xs) = bsum (fun k => b k * F k) (length xs)).
  { intros F. apply bsum_ext. intros i Hi. rewrite E, (proj2 (Nat.ltb_lt _ _)) by assumption. reflexivity. }
  split; [|split].
  - rewrite <- B1. apply bsum_ext. intros i Hi. rewrite E, (proj2 (Nat.ltb_lt _ _)) by assumption. reflexivity.
  - intros Hv k. rewrite E. destruct (Nat.ltb k (length xs)); [apply B2; assumption|lra].
  - intros n ys j L D Hj. rewrite (interp_at_coord n) by assumption.
    rewrite B3; [|rewrite map_length; assumption|intros q Hq; apply in_map_iff in Hq as (y & <- & _); reflexivity|lia].
    rewrite Q. apply bsum_ext. intros i Hi. rewrite (nth_map_in _ _ i []) by lia. reflexivity.
Qed.

(** ** Homogeneity of the PCHIP derivatives *)
Lemma same_sign_scale s a b : s <> 0 -> @same_sign R RNum (s * a) (s * b) = same_sign a b.
Proof.
  intros N. unfold same_sign. cbn [n0 nltb neqb RNum].
  assert (E : forall x, Reqb (s * x) 0 = Reqb x 0).
  { intros x. apply eq_true_iff_eq. rewrite !Reqb_iff. split; [intros Q; apply Rmult_integral in Q as [|]; [contradiction|assumption]|intros ->; ring]. }
  rewrite !E. destruct (Rdichotomy s 0 N) as [Hs|Hs].
  - assert (P : forall x, Rltb 0 (s * x) = Rltb x 0) by (intros x; apply eq_true_iff_eq; rewrite !Rltb_iff; split; intros; nra).
    assert (P' : forall x, Rltb (s * x) 0 = Rltb 0 x) by (intros x; apply eq_true_iff_eq; rewrite !Rltb_iff; split; intros; nra).
    rewrite !P, !P'. f_equal. apply orb_comm.
  - assert (P : forall x, Rltb 0 (s * x) = Rltb 0 x) by (intros x; apply eq_true_iff_eq; rewrite !Rltb_iff; split; intros; nra).
    assert (P' : forall x, Rltb (s * x) 0 = Rltb x 0) by (intros x; apply eq_true_iff_eq; rewrite !Rltb_iff; split; intros; nra).
    rewrite !P, !P'. reflexivity.
Qed.

Lemma pchip_edge_scale s h0 h1 m0 m1 : @pchip_edge R RNum h0 h1 (s * m0) (s * m1) = s * pchip_edge h0 h1 m0 m1.
Proof.
  destruct (Req_dec s 0) as [-> |N].
  - unfold pchip_edge. rewrite !Rmult_0_l. cbv zeta. rn.
    replace (((2 * h0 + h1) * 0 - h0 * 0) / (h0 + h1)) with 0 by (unfold Rdiv; ring).
    destruct (negb (same_sign 0 0)); [ring|]. destruct (_ && _)%bool; ring.
  - unfold pchip_edge. cbv zeta. rn.
    replace (((2 * h0 + h1) * (s * m0) - h0 * (s * m1)) / (h0 + h1)) with (s * (((2 * h0 + h1) * m0 - h0 * m1) / (h0 + h1))) by (unfold Rdiv; ring).
    set (d := ((2 * h0 + h1) * m0 - h0 * m1) / (h0 + h1)). rewrite !same_sign_scale by assumption. cbn [nltb RNum].
    destruct (negb (same_sign d m0)); [ring|].
    replace (Rltb (3 * Rabs (s * m0)) (Rabs (s * d))) with (Rltb (3 * Rabs m0) (Rabs d)).
    + destruct (_ && _)%bool; ring.
    + assert (0 < Rabs s) by (apply Rabs_pos_lt; assumption).
      apply eq_true_iff_eq. rewrite !Rltb_iff, !Rabs_mult. split; intros; nra.
Qed.

Lemma pchip_inner_scale s h0 h1 m0 m1 : @pchip_inner R RNum h0 h1 (s * m0) (s * m1) = s * pchip_inner h0 h1 m0 m1.
Proof.
  destruct (Req_dec s 0) as [-> |N].
  - unfold pchip_inner. rewrite !Rmult_0_l. cbn [neqb n0 RNum]. rewrite (proj2 (Reqb_iff 0 0) eq_refl), !orb_true_r. reflexivity.
  - unfold pchip_inner. rewrite !same_sign_scale by assumption. cbn [neqb n0 RNum].
    assert (E : forall x, Reqb (s * x) 0 = Reqb x 0).
    { intros x. apply eq_true_iff_eq. rewrite !Reqb_iff. split; [intros Q; apply Rmult_integral in Q as [|]; [contradiction|assumption]|intros ->; ring]. }
    rewrite !E. destruct (_ || _)%bool eqn:B; [ring|]. apply orb_false_iff in B as [B B0]. apply orb_false_iff in B as [_ B1].
    apply Reqb_false in B0, B1. rn. set (w1 := 2 * h1 + h0). set (w2 := h1 + 2 * h0).
    replace ((w1 / (s * m0) + w2 / (s * m1)) / (w1 + w2)) with (/ s * ((w1 / m0 + w2 / m1) / (w1 + w2))).
    + unfold Rdiv. rewrite Rinv_mult. rewrite Rinv_inv. ring.
    + unfold Rdiv. rewrite !Rinv_mult. ring.
Qed.

Lemma pchip_derivs_affine s t xs ys k : (2 <= length xs)%nat -> length ys = length xs ->
  nth k (pchip_derivs xs (map (fun y => s * y + t) ys)) 0 = s * nth k (pchip_derivs xs ys) 0.
Proof.
  intros H2 L. unfold pchip_derivs. cbv zeta. change (@n0 R RNum) with 0.
  destruct (Nat.lt_ge_cases k (length xs)) as [Hk|Hk].
  2:{ rewrite !nth_overflow by (rewrite map_length, seq_length; assumption). ring. }
  rewrite !nth_seq_map by assumption. rn.
  assert (M : forall i, (S i < length xs)%nat -> (nth (S i) (map (fun y => s * y + t) ys) 0 - nth i (map (fun y => s * y + t) ys) 0) / (nth (S i) xs 0 - nth i xs 0)
     = s * ((nth (S i) ys 0 - nth i ys 0) / (nth (S i) xs 0 - nth i xs 0))).
  { intros i Hi. rewrite !(nth_map_in (fun y => s * y + t) ys _ 0) by lia. unfold Rdiv. ring. }
  destruct (Nat.eqb_spec (length xs) 2); [apply M; lia|].
  destruct (Nat.eqb_spec k 0); [rewrite !M by lia; apply pchip_edge_scale|].
  destruct (Nat.eqb_spec k (length xs - 1)); [rewrite !M by lia; apply pchip_edge_scale|].
  rewrite !M by lia. apply pchip_inner_scale.
Qed.
