(** Smoothing splines: the minimum property. *)
From Coq Require Import List Bool Arith Lia Reals Lra.
From Coquelicot Require Import Coquelicot.
From Verif Require Import Num Splines2 Interp InterpProofs SplineProofs SplineProofs3 SplineProofs4 SplineProofs5 SplineProofs6 SplineProofs7 Csaps CsapsProofs.
Import ListNotations.
Local Open Scope list_scope.
Local Open Scope R_scope.

(** The weighted sum of the squared residuals, and the roughness. *)
Definition residual (xs ws ys : list R) (f : R -> R) : R :=
  bsum (fun i => nth i ws 0 * ((nth i ys 0 - f (nth i xs 0)) * (nth i ys 0 - f (nth i xs 0)))) (length xs).
Definition roughness (xs : list R) (f2 : R -> R) : R := RInt (fun v => f2 v * f2 v) (nth 0 xs 0) (nth (length xs - 1) xs 0).
(** What a smoothing spline minimises. *)
Definition penalty (p : R) (xs ws ys : list R) (f f2 : R -> R) : R :=
  p * residual xs ws ys f + (1 - p) * roughness xs f2.

(** Summation by parts. *)
Lemma parts xs U (e : nat -> R) : (2 <= length xs)%nat ->
  bsum (fun i => e i * d2_of xs U i) (length xs)
  = - bsum (fun j => (U (S j) - U j) / (nth (S j) xs 0 - nth j xs 0) * (e (S j) - e j)) (length xs - 1).
Proof.
  intros H2.
  assert (K : forall k, bsum (fun i => e i * d2_of xs U i) (S k)
    = e k * e1_of xs U (S k) - bsum (fun j => e1_of xs U (S j) * (e (S j) - e j)) k).
  { induction k as [|k IH].
    - cbn [bsum]. unfold d2_of. change (e1_of xs U 0) with 0. ring.
    - change (bsum (fun i => e i * d2_of xs U i) (S (S k))) with (bsum (fun i => e i * d2_of xs U i) (S k) + e (S k) * d2_of xs U (S k)).
      rewrite IH. cbn [bsum]. unfold d2_of. ring. }
  replace (length xs) with (S (length xs - 1)) at 1 by lia. rewrite K.
  replace (e1_of xs U (S (length xs - 1))) with 0.
  2:{ cbn [e1_of]. rewrite (proj2 (Nat.ltb_ge _ _)) by lia. reflexivity. }
  rewrite Rmult_0_r, Rminus_0_l. f_equal. apply bsum_ext. intros j Hj. cbn [e1_of]. rewrite (proj2 (Nat.ltb_lt _ _)) by lia. reflexivity.
Qed.

(** Residuals orthogonal to affine functions. *)
Lemma d2_orth xs U a b : increasing xs -> (2 <= length xs)%nat -> U O = 0 -> U (length xs - 1)%nat = 0 ->
  bsum (fun i => (a + b * nth i xs 0) * d2_of xs U i) (length xs) = 0.
Proof.
  intros I H2 U0 Un. rewrite (parts xs U (fun i => a + b * nth i xs 0)) by assumption.
  rewrite (bsum_ext _ (fun j => b * (U (S j) - U j))).
  2:{ intros j Hj. pose proof (I j ltac:(lia)). field. lra. }
  rewrite bsum_scal. assert (K : forall k, bsum (fun j => U (S j) - U j) k = U k - U O).
  { induction k as [|k IH]; cbn [bsum]; [ring|]. rewrite IH. ring. }
  rewrite K, U0, Un. ring.
Qed.

Section Smoothing.
  Variables (xs ws ys zs : list R) (U : nat -> R) (p : R) (f f1 f2 g g1 g2 : R -> R).
  Hypothesis I : increasing xs.
  Hypothesis H2 : (2 <= length xs)%nat.
  Hypothesis W : forall i, (i < length xs)%nat -> 0 < nth i ws 0.
  Hypothesis P : 0 <= p <= 1.
  Hypothesis F : spline_fun (D2 0) (D2 0) xs zs f f1 f2.
  Hypothesis U0 : U O = 0.
  Hypothesis Un : U (length xs - 1)%nat = 0.
  Hypothesis Fu : forall k, (k < length xs)%nat -> f2 (nth k xs 0) = 6 * p * U k.
  Hypothesis Fz : forall i, (i < length xs)%nat -> nth i ws 0 * (nth i ys 0 - nth i zs 0) = 6 * (1 - p) * d2_of xs U i.
  Hypothesis G : two_smooth g g1 g2.

  Let a := nth 0 xs 0.
  Let b := nth (length xs - 1) xs 0.
  Let e v := g v - f v.
  Let e1 v := g1 v - f1 v.
  Let e2 v := g2 v - f2 v.
  Let De v : derivable_pt_lim e v (e1 v).
  Proof. apply derivable_pt_lim_minus; [apply G|apply F]. Qed.
  Let De1 v : derivable_pt_lim e1 v (e2 v).
  Proof. apply derivable_pt_lim_minus; [apply G|apply F]. Qed.
  Let Cf2 v : continuous f2 v. Proof. apply continuity_cont. apply F. Qed.
  Let Cg2 v : continuous g2 v. Proof. apply continuity_cont. apply G. Qed.
  Let Ce2 v : continuous e2 v. Proof. apply (continuous_minus g2 f2); [apply Cg2|apply Cf2]. Qed.
  Let d k := f1 (nth k xs 0).
  Let y k := nth k zs 0.
  Let E k := (U (S k) - U k) / (nth (S k) xs 0 - nth k xs 0).
  Let Fv i : (i < length xs)%nat -> f (nth i xs 0) = nth i zs 0. Proof. intros Hi. apply F. assumption. Qed.

  Lemma sm_piece k : (S k < length xs)%nat ->
    is_RInt (fun v => f2 v * e2 v) (nth k xs 0) (nth (S k) xs 0)
      (f2 (nth (S k) xs 0) * e1 (nth (S k) xs 0) - f2 (nth k xs 0) * e1 (nth k xs 0)
       - 6 * p * (E k * (e (nth (S k) xs 0) - e (nth k xs 0)))).
  Proof.
    intros Hk. pose proof (I k Hk) as L.
    set (q := fun v => cp2 xs y d k v * e1 v - 6 * pc3 xs y d k * e v).
    assert (Q : is_RInt (fun v => cp2 xs y d k v * e2 v) (nth k xs 0) (nth (S k) xs 0) (minus (q (nth (S k) xs 0)) (q (nth k xs 0)))).
    { apply (is_RInt_derive q).
      - intros v _. apply is_derive_Reals.
        replace (cp2 xs y d k v * e2 v) with ((6 * pc3 xs y d k * e1 v + cp2 xs y d k v * e2 v) - 6 * pc3 xs y d k * e1 v) by ring.
        apply (derivable_pt_lim_minus (fun v => cp2 xs y d k v * e1 v) (fun v => 6 * pc3 xs y d k * e v)).
        + apply (derivable_pt_lim_mult (cp2 xs y d k) e1); [apply cp2_deriv|apply De1].
        + apply (derivable_pt_lim_scal e). apply De.
      - intros v _. apply (continuous_mult (cp2 xs y d k) e2); [|apply Ce2].
        apply (deriv_cont _ (fun _ => 6 * pc3 xs y d k)). intros u. apply cp2_deriv. }
    assert (Fl := f2_left _ _ xs zs f f1 f2 I H2 F k Hk). assert (Fr := f2_right _ _ xs zs f f1 f2 I H2 F k Hk).
    cbv beta in Fl, Fr. fold y in Fl, Fr. change (fun k : nat => f1 (nth k xs 0)) with d in Fl, Fr.
    assert (C : 6 * pc3 xs y d k = 6 * p * E k).
    { unfold E. rewrite Fu in Fl, Fr by lia. unfold cp2 in Fl, Fr. set (c3 := pc3 xs y d k) in *. set (c2 := pc2 xs y d k) in *.
      assert (K : 6 * p * (U (S k) - U k) = 6 * c3 * (nth (S k) xs 0 - nth k xs 0)) by (clear - Fl Fr; lra).
      apply (Rmult_eq_reg_r (nth (S k) xs 0 - nth k xs 0)); [|lra]. rewrite <- K. field. lra. }
    match goal with |- is_RInt _ _ _ ?r => replace r with (minus (q (nth (S k) xs 0)) (q (nth k xs 0))) end.
    2:{ unfold q, minus, plus, opp. cbn. rewrite C, Fl, Fr. ring. }
    apply is_RInt_ext with (2 := Q). intros v Hv. rewrite Rmin_left, Rmax_right in Hv by lra. f_equal.
    symmetry. apply (deriv_right f1 (cp1 xs y d k) v _ _ (nth (S k) xs 0 - v)); [lra| |apply F|apply cp1_deriv].
    intros u Hu. apply (f1_piece _ _ xs zs f f1 f2 I H2 F); [assumption|]. lra.
  Qed.

  Lemma sm_upto k : (k < length xs)%nat ->
    is_RInt (fun v => f2 v * e2 v) a (nth k xs 0)
      (f2 (nth k xs 0) * e1 (nth k xs 0) - f2 a * e1 a - 6 * p * bsum (fun j => E j * (e (nth (S j) xs 0) - e (nth j xs 0))) k).
  Proof.
    induction k as [|k IH]; intros Hk.
    - fold a. match goal with |- is_RInt _ _ _ ?r => replace r with (@zero R_AbelianGroup) by (cbn; ring) end. apply (is_RInt_point (V := R_NormedModule)).
    - match goal with |- is_RInt _ _ _ ?r => replace r
        with (plus (f2 (nth k xs 0) * e1 (nth k xs 0) - f2 a * e1 a - 6 * p * bsum (fun j => E j * (e (nth (S j) xs 0) - e (nth j xs 0))) k)
                   (f2 (nth (S k) xs 0) * e1 (nth (S k) xs 0) - f2 (nth k xs 0) * e1 (nth k xs 0)
                     - 6 * p * (E k * (e (nth (S k) xs 0) - e (nth k xs 0))))) by (unfold plus; cbn; ring) end.
      apply (is_RInt_Chasles (V := R_NormedModule)) with (nth k xs 0); [apply IH; lia|apply sm_piece; assumption].
  Qed.

  Lemma sm_cross : is_RInt (fun v => f2 v * e2 v) a b (6 * p * bsum (fun i => e (nth i xs 0) * d2_of xs U i) (length xs)).
  Proof.
    rewrite (parts xs U (fun i => e (nth i xs 0)) H2).
    assert (K := sm_upto (length xs - 1) ltac:(lia)). fold b in K.
    assert (Z0 : f2 a = 0) by (unfold a; rewrite Fu, U0 by lia; ring).
    assert (Z1 : f2 b = 0) by (unfold b; rewrite Fu, Un by lia; ring).
    rewrite Z0, Z1 in K. match type of K with is_RInt _ _ _ ?r => match goal with |- is_RInt _ _ _ ?r' => replace r' with r by (unfold E; ring) end end.
    exact K.
  Qed.

  Let ex_int (q : R -> R) : (forall v, continuous q v) -> ex_RInt q a b.
  Proof. intros C. apply (ex_RInt_continuous (V := R_CompleteNormedModule)). intros; apply C. Qed.
  Let sq_cont (q : R -> R) : (forall v, continuous q v) -> forall v, continuous (fun v => q v * q v) v.
  Proof. intros C v. apply (continuous_mult q q); apply C. Qed.
  Let lt_ab : a < b.
  Proof. unfold a, b. apply increasing_lt; [assumption|lia]. Qed.

  Lemma sm_rough : roughness xs g2 = roughness xs f2 + roughness xs e2 + 12 * p * bsum (fun i => e (nth i xs 0) * d2_of xs U i) (length xs).
  Proof.
    unfold roughness. fold a b. set (S := bsum (fun i => e (nth i xs 0) * d2_of xs U i) (length xs)).
    assert (Q : is_RInt (fun v => g2 v * g2 v) a b
      (plus (plus (RInt (fun v => f2 v * f2 v) a b) (RInt (fun v => e2 v * e2 v) a b)) (scal 2 (6 * p * S)))).
    { apply (is_RInt_ext (fun v => plus (plus (f2 v * f2 v) (e2 v * e2 v)) (scal 2 (f2 v * e2 v)))).
      - intros v _. unfold plus, scal, e2. cbn. unfold mult. cbn. ring.
      - apply (is_RInt_plus (V := R_NormedModule)); [apply (is_RInt_plus (V := R_NormedModule))|].
        + apply (RInt_correct (V := R_CompleteNormedModule)). apply ex_int, sq_cont, Cf2.
        + apply (RInt_correct (V := R_CompleteNormedModule)). apply ex_int, sq_cont, Ce2.
        + apply (is_RInt_scal (V := R_NormedModule)). exact sm_cross. }
    apply (is_RInt_unique (V := R_CompleteNormedModule)) in Q. rewrite Q. unfold plus, scal. cbn. unfold mult. cbn. ring.
  Qed.

  Lemma sm_resid : residual xs ws ys g = residual xs ws ys f + bsum (fun i => nth i ws 0 * (e (nth i xs 0) * e (nth i xs 0))) (length xs)
    - 12 * (1 - p) * bsum (fun i => e (nth i xs 0) * d2_of xs U i) (length xs).
  Proof.
    unfold residual. match goal with |- _ = ?x + ?y - ?c * ?s => replace (x + y - c * s) with (x + y + - c * s) by ring end.
    rewrite <- bsum_scal, <- !bsum_plus. apply bsum_ext. intros i Hi.
    pose proof (Fz i Hi) as Z. rewrite <- (Fv i Hi) in Z.
    replace (g (nth i xs 0)) with (f (nth i xs 0) + e (nth i xs 0)) by (unfold e; ring).
    replace (- (12 * (1 - p)) * (e (nth i xs 0) * d2_of xs U i)) with (- 2 * e (nth i xs 0) * (6 * (1 - p) * d2_of xs U i)) by ring.
    rewrite <- Z. ring.
  Qed.

  Theorem penalty_split : penalty p xs ws ys g g2
    = penalty p xs ws ys f f2 + p * bsum (fun i => nth i ws 0 * (e (nth i xs 0) * e (nth i xs 0))) (length xs) + (1 - p) * roughness xs e2.
  Proof. unfold penalty. rewrite sm_resid, sm_rough. ring. Qed.

  Let S_nonneg i : (i < length xs)%nat -> 0 <= nth i ws 0 * (e (nth i xs 0) * e (nth i xs 0)).
  Proof. intros Hi. apply Rmult_le_pos; [apply Rlt_le, W, Hi|apply Rle_0_sqr]. Qed.
  Let R_nonneg : 0 <= roughness xs e2.
  Proof.
    apply RInt_ge_0; [apply Rlt_le, lt_ab|apply ex_int, sq_cont, Ce2|]. intros v _. apply Rle_0_sqr.
  Qed.

  Theorem penalty_min : penalty p xs ws ys f f2 <= penalty p xs ws ys g g2.
  Proof.
    rewrite penalty_split. pose proof (bsum_nonneg _ _ S_nonneg) as A.
    pose proof (Rmult_le_pos _ _ (proj1 P) A). pose proof (Rmult_le_pos (1 - p) _ ltac:(lra) R_nonneg). lra.
  Qed.

  Theorem penalty_unique : 0 < p < 1 -> penalty p xs ws ys g g2 = penalty p xs ws ys f f2 -> forall v, a <= v <= b -> g v = f v.
  Proof.
    intros Ps Eq. rewrite penalty_split in Eq. pose proof (bsum_nonneg _ _ S_nonneg) as A.
    assert (B := R_nonneg).
    set (s := bsum _ (length xs)) in *. set (r := roughness xs e2) in *.
    assert (0 <= p * s) by (apply Rmult_le_pos; lra). assert (0 <= (1 - p) * r) by (apply Rmult_le_pos; lra).
    assert (Zs : s = 0) by (assert (Z : p * s = 0) by lra; apply Rmult_integral in Z as [|]; lra).
    assert (Zr : r = 0) by (assert (Z : (1 - p) * r = 0) by lra; apply Rmult_integral in Z as [|]; lra).
    assert (Ze := bsum_zero_inv _ _ S_nonneg Zs).
    assert (Gv : forall k, (k < length xs)%nat -> g (nth k xs 0) = nth k zs 0).
    { intros k Hk. specialize (Ze k Hk). cbv beta in Ze. pose proof (W k Hk). apply Rmult_integral in Ze as [|Ze]; [lra|].
      rewrite <- (Fv k Hk). apply Rmult_integral in Ze as [Ze|Ze]; unfold e in Ze; lra. }
    assert (Z0 : f2 a = 0) by (unfold a; rewrite Fu, U0 by lia; ring).
    assert (Z1 : f2 b = 0) by (unfold b; rewrite Fu, Un by lia; ring).
    assert (Eab : f2 b * (g1 b - f1 b) = f2 a * (g1 a - f1 a)) by (rewrite Z0, Z1; ring).
    apply (energy_unique (D2 0) (D2 0) xs zs f f1 f2 g g1 g2); try assumption.
    change (roughness xs g2 = roughness xs f2). rewrite sm_rough. fold r. rewrite Zr.
    rewrite (bsum_ext _ (fun _ => 0)), bsum_zero; [ring|]. intros i Hi. unfold e. rewrite Gv, Fv by assumption. ring.
  Qed.
End Smoothing.
