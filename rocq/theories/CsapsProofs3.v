(** Smoothing splines: the function computed by the model. *)
From Coq Require Import ZArith String List Bool Arith Lia Reals Lra.
From Verif Require Import Num Py Numeric Curve Vec Geom DiffGeom Intersect Registry Interp Splines Splines2 Csaps Spec GeomSpec.
From Verif Require Import ListFacts VecFacts CurveProofs3 GeomProofs GeomProofs2 DiffGeomProofs2 InterpProofs InterpProofs2 InterpProofs3.
From Verif Require Import SplineProofs SplineProofs2 SplineProofs3 SplineProofs4 SplineProofs5 SplineProofs6 CsapsProofs CsapsProofs2.
Import ListNotations.
Local Open Scope list_scope.
Local Open Scope R_scope.

(** Affine functions are natural splines. *)
Lemma affine_deriv a0 a1 v : derivable_pt_lim (fun v => a0 + a1 * v) v a1.
Proof.
  assert (K : derivable_pt_lim (fun v => a0 + a1 * v) v (0 + a1 * 1)); [|replace (0 + a1 * 1) with a1 in K by ring; exact K].
  apply (derivable_pt_lim_plus (fun _ => a0) (fun v => a1 * v)); [apply derivable_pt_lim_const|].
  apply (derivable_pt_lim_scal (fun v => v)). apply derivable_pt_lim_id.
Qed.
Lemma affine_smooth a0 a1 : two_smooth (fun v => a0 + a1 * v) (fun _ => a1) (fun _ => 0).
Proof.
  split; [intros v; apply affine_deriv|]. split; [intros v; apply derivable_pt_lim_const|]. apply continuity_const. intros u v. reflexivity.
Qed.
Lemma affine_spline xs zs a0 a1 : (forall k, (k < length xs)%nat -> nth k zs 0 = a0 + a1 * nth k xs 0) ->
  spline_fun (D2 0) (D2 0) xs zs (fun v => a0 + a1 * v) (fun _ => a1) (fun _ => 0).
Proof.
  intros H. split; [apply affine_smooth|]. split; [|split].
  - intros k _. exists a0, a1, 0, 0. intros v _. ring.
  - intros k Hk. symmetry. apply H. assumption.
  - split; [intros (_ & E & _); discriminate E|]. intros _. split; reflexivity.
Qed.

Definition smoothing_data (p : R) (xs ws ys zs : list R) (U : nat -> R) (f f1 f2 : R -> R) : Prop :=
  spline_fun (D2 0) (D2 0) xs zs f f1 f2 /\ U O = 0 /\ U (length xs - 1)%nat = 0 /\
  (forall k, (k < length xs)%nat -> f2 (nth k xs 0) = 6 * p * U k) /\
  (forall i, (i < length xs)%nat -> nth i ws 0 * (nth i ys 0 - nth i zs 0) = 6 * (1 - p) * d2_of xs U i).

(** One coordinate of the model. *)
Definition csaps_val (xs ws : list R) (p : R) (ys : list R) (v : R) : R :=
  if Nat.eqb (length xs) 2 then nth 0 ys 0 + (nth 1 ys 0 - nth 0 ys 0) / (nth 1 xs 0 - nth 0 xs 0) * (v - nth 0 xs 0)
  else poly_eval (csaps_coeffs xs ws p ys (piece_of xs v)) (v - nth (piece_of xs v) xs 0).

Lemma csaps_at_nth qnan (xs ws : list R) p rows n v j : (j < n)%nat ->
  nth j (csaps_at qnan xs ws p rows n v) 0 = csaps_val xs ws p (column rows j) v.
Proof.
  intros Hj. unfold csaps_at. rewrite nth_map_seq by assumption. unfold csaps_val. cbn [undefined_at negb andb orb nisnan RNum].
  change (undefined_at true xs v) with false. cbv iota. destruct (Nat.eqb (length xs) 2); [|reflexivity].
  unfold slope_at, step_at. rn. ring.
Qed.
Lemma csaps_at_length qnan (xs ws : list R) p rows n v : length (csaps_at qnan xs ws p rows n v) = n.
Proof. unfold csaps_at. rewrite map_length, seq_length. reflexivity. Qed.

Section Value.
  Variables (xs ws : list R).
  Hypothesis I : increasing xs.
  Hypothesis H2 : (2 <= length xs)%nat.
  Hypothesis W : forall i, (i < length xs)%nat -> 0 < nth i ws 0.
  Variable p : R.
  Hypothesis P : 0 <= p <= 1.
  Variable ys : list R.

  Let two : length xs = 2%nat -> exists a0 a1, (forall v, csaps_val xs ws p ys v = a0 + a1 * v) /\
    forall k, (k < length xs)%nat -> nth k ys 0 = a0 + a1 * nth k xs 0.
  Proof.
    intros E. set (m := (nth 1 ys 0 - nth 0 ys 0) / (nth 1 xs 0 - nth 0 xs 0)). exists (nth 0 ys 0 - m * nth 0 xs 0), m. split.
    - intros v. unfold csaps_val. rewrite E. cbn [Nat.eqb]. fold m. ring.
    - intros [|[|k]] Hk; [ring| |lia]. pose proof (I 0%nat ltac:(lia)). unfold m. field. lra.
  Qed.

  Lemma d2_zero i : d2_of xs (fun _ => 0) i = 0.
  Proof.
    unfold d2_of. assert (Z : forall k, e1_of xs (fun _ => 0) k = 0).
    { intros [|k]; [reflexivity|]. cbn [e1_of]. destruct (Nat.ltb (S k) (length xs)); [|reflexivity]. unfold Rdiv. ring. }
    rewrite !Z. ring.
  Qed.

  Theorem smoothing_exists : exists zs U f f1 f2, smoothing_data p xs ws ys zs U f f1 f2 /\ forall v, csaps_val xs ws p ys v = f v.
  Proof.
    destruct (Nat.eq_dec (length xs) 2) as [E|E].
    - destruct (two E) as (a0 & a1 & V & Y). exists ys, (fun _ => 0), (fun v => a0 + a1 * v), (fun _ => a1), (fun _ => 0).
      split; [|assumption]. split; [apply affine_spline; assumption|]. split; [reflexivity|]. split; [reflexivity|]. split; [intros; ring|].
      intros i Hi. rewrite d2_zero. ring.
    - assert (H3 : (3 <= length xs)%nat) by lia. exists (fitted xs ws p ys), (cu xs ws p ys).
      exists (spl0 (D2 0) (D2 0) xs (fitted xs ws p ys)), (spl1 (D2 0) (D2 0) xs (fitted xs ws p ys)), (spl2 (D2 0) (D2 0) xs (fitted xs ws p ys)).
      split; [|intros v; unfold csaps_val; rewrite (proj2 (Nat.eqb_neq _ _)) by assumption; apply csaps_spline; assumption].
      destruct (cu_ends xs ws I H3 W p P ys) as [U0 Un].
      split; [apply spline_exists; assumption|]. split; [assumption|]. split; [assumption|]. split.
      + intros k Hk. apply smoothing_curvature; assumption.
      + intros i Hi. rewrite fitted_nth by assumption. unfold cz. pose proof (W i Hi). field. lra.
  Qed.

  (** Affine data. *)
  Theorem csaps_val_affine a0 a1 v : (forall k, (k < length xs)%nat -> nth k ys 0 = a0 + a1 * nth k xs 0) ->
    csaps_val xs ws p ys v = a0 + a1 * v.
  Proof.
    intros Y. destruct (Nat.eq_dec (length xs) 2) as [E|E].
    - unfold csaps_val. rewrite E. cbn [Nat.eqb]. rewrite !Y by lia. pose proof (I 0%nat ltac:(lia)). field. lra.
    - assert (H3 : (3 <= length xs)%nat) by lia. unfold csaps_val. rewrite (proj2 (Nat.eqb_neq _ _)) by assumption. rewrite csaps_spline by assumption.
      destruct (sys_rows xs ws H3 p ys) as [L1 L2].
      assert (Z : repeat 0 (unknowns xs) = gauss (unknowns xs) (csaps_system xs ws p ys)).
      { apply gauss_unique; try assumption; [apply sys_pos_def; assumption|apply repeat_length|]. intros r Hr.
        rewrite vdot_zero_r. unfold csaps_system in Hr. apply in_map_iff in Hr as (k & <- & Hk). apply in_seq in Hk.
        rewrite app_nth2, map_length, seq_length, Nat.sub_diag by (rewrite map_length, seq_length; lia). cbn [nth].
        unfold unknowns in Hk. unfold slope_at, step_at. change (@n0 R RNum) with 0. rewrite !Y by lia. rn.
        pose proof (I k ltac:(lia)). pose proof (I (S k) ltac:(lia)). field. lra. }
      assert (Zu : forall k, cu xs ws p ys k = 0).
      { intros k. unfold cu, csaps_u. change (@n0 R RNum) with 0. rewrite nth_pad, <- Z. destruct k as [|k]; [reflexivity|]. cbn [pad].
        destruct (Nat.lt_ge_cases k (unknowns xs)); [apply nth_repeat|apply nth_overflow; rewrite repeat_length; assumption]. }
      symmetry. apply (spline_unique (D2 0) (D2 0) xs (fitted xs ws p ys) (fun v => a0 + a1 * v) (fun _ => a1) (fun _ => 0)); try assumption.
      apply affine_spline. intros k Hk. rewrite fitted_nth by assumption. unfold cz.
      assert (D : d2_of xs (cu xs ws p ys) k = 0).
      { rewrite <- (d2_zero k). unfold d2_of, e1_of. destruct k; rewrite ?Zu; reflexivity. }
      rewrite D, Y by assumption. unfold Rdiv. ring.
  Qed.

  (** No weight on the residuals: a line. *)
  Theorem csaps_val_line : p = 0 -> exists a0 a1, forall v, csaps_val xs ws p ys v = a0 + a1 * v.
  Proof.
    intros Z. destruct (Nat.eq_dec (length xs) 2) as [E|E]; [destruct (two E) as (a0 & a1 & V & _); exists a0, a1; exact V|].
    assert (H3 : (3 <= length xs)%nat) by lia.
    set (z := cz xs ws p ys). set (m := (z 1%nat - z 0%nat) / (nth 1 xs 0 - nth 0 xs 0)).
    assert (M : forall k, (S k < length xs)%nat -> (z (S k) - z k) / (nth (S k) xs 0 - nth k xs 0) = m).
    { induction k as [|k IH]; intros Hk; [reflexivity|]. pose proof (cz_eq xs ws I H3 W p P ys k Hk) as Eq. cbv beta in Eq. fold z in Eq.
      rewrite IH in Eq by lia. rewrite Z, Rmult_0_l in Eq. lra. }
    assert (L : forall k, (k < length xs)%nat -> z k = z 0%nat - m * nth 0 xs 0 + m * nth k xs 0).
    { induction k as [|k IH]; intros Hk; [ring|].
      assert (St : z (S k) = z k + m * (nth (S k) xs 0 - nth k xs 0)) by (rewrite <- (M k Hk); pose proof (I k Hk); field; lra).
      rewrite St, (IH ltac:(lia)). ring. }
    exists (z 0%nat - m * nth 0 xs 0), m. intros v. unfold csaps_val. rewrite (proj2 (Nat.eqb_neq _ _)) by assumption. rewrite csaps_spline by assumption.
    symmetry. apply (spline_unique (D2 0) (D2 0) xs (fitted xs ws p ys) (fun v => z 0%nat - m * nth 0 xs 0 + m * v) (fun _ => m) (fun _ => 0)); try assumption.
    apply affine_spline. intros k Hk. rewrite fitted_nth by assumption. apply L. assumption.
  Qed.
End Value.

Section Facts.
  Variables (p : R) (xs ws ys zs : list R) (U : nat -> R) (f f1 f2 : R -> R).
  Hypothesis I : increasing xs.
  Hypothesis H2 : (2 <= length xs)%nat.
  Hypothesis W : forall i, (i < length xs)%nat -> 0 < nth i ws 0.
  Hypothesis P : 0 <= p <= 1.
  Hypothesis D : smoothing_data p xs ws ys zs U f f1 f2.

  Lemma data_min g g1 g2 : two_smooth g g1 g2 -> penalty p xs ws ys f f2 <= penalty p xs ws ys g g2.
  Proof. intros G. destruct D as (F & U0 & Un & Fu & Fz). exact (penalty_min xs ws ys zs U p f f1 f2 g g1 g2 I H2 W P F U0 Un Fu Fz G). Qed.
  Lemma data_unique g g1 g2 : two_smooth g g1 g2 -> 0 < p < 1 -> penalty p xs ws ys g g2 = penalty p xs ws ys f f2 ->
    forall v, nth 0 xs 0 <= v <= nth (length xs - 1) xs 0 -> g v = f v.
  Proof. intros G. destruct D as (F & U0 & Un & Fu & Fz). exact (penalty_unique xs ws ys zs U p f f1 f2 g g1 g2 I H2 W P F U0 Un Fu Fz G). Qed.
  Lemma data_balance a b : bsum (fun i => (a + b * nth i xs 0) * (nth i ws 0 * (nth i ys 0 - f (nth i xs 0)))) (length xs) = 0.
  Proof.
    destruct D as (F & U0 & Un & Fu & Fz).
    rewrite (bsum_ext _ (fun i => 6 * (1 - p) * ((a + b * nth i xs 0) * d2_of xs U i))).
    - rewrite bsum_scal, d2_orth by assumption. ring.
    - intros i Hi. rewrite (proj1 (proj2 (proj2 F)) i Hi), Fz by assumption. ring.
  Qed.
  Lemma data_points : p = 1 -> forall i, (i < length xs)%nat -> f (nth i xs 0) = nth i ys 0.
  Proof.
    intros E i Hi. destruct D as (F & U0 & Un & Fu & Fz). rewrite (proj1 (proj2 (proj2 F)) i Hi). specialize (Fz i Hi). rewrite E in Fz.
    pose proof (W i Hi). assert (Z : nth i ws 0 * (nth i ys 0 - nth i zs 0) = 0) by lra. apply Rmult_integral in Z as [|]; lra.
  Qed.
  Lemma data_natural : spline_fun (D2 0) (D2 0) xs (map f xs) f f1 f2.
  Proof.
    destruct D as ((F1 & F2 & F3 & F4) & _). split; [assumption|]. split; [assumption|]. split.
    - intros k Hk. rewrite (nth_map_in f xs k 0 0 Hk). reflexivity.
    - destruct F4 as [_ F4]. split; [intros (_ & E & _); discriminate E|]. intros _. apply F4. intros (_ & E & _); discriminate E.
  Qed.
End Facts.

(** Two minimisers. *)
Lemma smoothing_monotone p q (s1 s2 r1 r2 : R) : 0 <= p -> p < q -> q <= 1 ->
  p * s1 + (1 - p) * r1 <= p * s2 + (1 - p) * r2 -> q * s2 + (1 - q) * r2 <= q * s1 + (1 - q) * r1 -> s2 <= s1 /\ r1 <= r2.
Proof.
  intros P0 PQ Q1 A B.
  assert (C : (q - p) * (r1 - r2) <= (q - p) * (s1 - s2)) by lra. apply Rmult_le_reg_l in C; [|lra].
  assert (S : 0 <= s1 - s2).
  { destruct (Rle_lt_dec 0 (s1 - s2)) as [|N]; [assumption|exfalso].
    assert (K1 : (1 - q) * (r1 - r2) <= (1 - q) * (s1 - s2)) by (apply Rmult_le_compat_l; lra). lra. }
  split; [lra|]. assert (K : (1 - p) * (r1 - r2) <= (1 - p) * 0) by (assert (0 <= p * (s1 - s2)) by (apply Rmult_le_pos; lra); lra).
  apply Rmult_le_reg_l in K; lra.
Qed.

(** ** Creation *)

Lemma positive_diff_iff (xs : list R) : forallb (fun d => nltb n0 d) (diff xs) = true <-> increasing xs.
Proof.
  rewrite <- diff_positive_iff. induction (diff xs) as [|d l IH]; [cbn; tauto|]. cbn [forallb existsb]. rewrite andb_true_iff, orb_false_iff, IH.
  assert (K : nltb n0 d = true <-> nleb d n0 = false).
  { cbn [nltb nleb RNum n0]. unfold Rltb, Rleb. destruct (Rlt_dec 0 d), (Rle_dec d 0); split; intros; try reflexivity; try discriminate; lra. }
  tauto.
Qed.

Definition weights_of (weights : option (list R)) (n : nat) : list R := match weights with Some w => w | None => repeat 1 n end.
