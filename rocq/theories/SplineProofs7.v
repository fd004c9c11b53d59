(** The minimum property of the cubic spline. *)
From Coq Require Import List Bool Arith Lia Reals Lra.
From Coquelicot Require Import Coquelicot.
From Verif Require Import Num Splines2 Interp InterpProofs SplineProofs SplineProofs3 SplineProofs4 SplineProofs5 SplineProofs6.
Import ListNotations.
Local Open Scope list_scope.
Local Open Scope R_scope.

Lemma continuity_cont (f : R -> R) : continuity f -> forall v, continuous f v.
Proof. intros C v. apply continuity_pt_filterlim. apply C. Qed.

Lemma deriv_cont (f f1 : R -> R) : (forall v, derivable_pt_lim f v (f1 v)) -> forall v, continuous f v.
Proof. intros D v. apply continuity_pt_filterlim. apply derivable_continuous_pt. exists (f1 v). apply D. Qed.

Section Minimum.
  Variables (b0 b1 : bc1 R) (xs ys : list R) (f f1 f2 g g1 g2 : R -> R).
  Hypothesis I : increasing xs.
  Hypothesis H2 : (2 <= length xs)%nat.
  Hypothesis F : spline_fun b0 b1 xs ys f f1 f2.
  Hypothesis G : two_smooth g g1 g2.
  Hypothesis Gv : forall k, (k < length xs)%nat -> g (nth k xs 0) = nth k ys 0.
  Let a := nth 0 xs 0.
  Let b := nth (length xs - 1) xs 0.
  (** E.g. at each end the spline has no curvature, or g has its derivative; or
      all derivatives agree at both ends. *)
  Hypothesis Eab : f2 b * (g1 b - f1 b) = f2 a * (g1 a - f1 a).

  Let e v := g v - f v.
  Let e1 v := g1 v - f1 v.
  Let e2 v := g2 v - f2 v.
  Let De v : derivable_pt_lim e v (e1 v).
  Proof. apply derivable_pt_lim_minus; [apply G|apply F]. Qed.
  Let De1 v : derivable_pt_lim e1 v (e2 v).
  Proof. apply derivable_pt_lim_minus; [apply G|apply F]. Qed.
  Let Cf2 v : continuous f2 v. Proof. apply continuity_cont. apply F. Qed.
  Let Cg2 v : continuous g2 v. Proof. apply continuity_cont. apply G. Qed.
  Let Ce2 v : continuous e2 v. Proof. apply (continuous_minus g2 f2); [apply Cg2|apply Cf2]. Qed.
  Let d k := f1 (nth k xs 0).
  Let y k := nth k ys 0.

  Lemma cross_piece k : (S k < length xs)%nat ->
    is_RInt (fun v => f2 v * e2 v) (nth k xs 0) (nth (S k) xs 0)
      (f2 (nth (S k) xs 0) * e1 (nth (S k) xs 0) - f2 (nth k xs 0) * e1 (nth k xs 0)).
  Proof.
    intros Hk. pose proof (I k Hk) as L.
    set (q := fun v => cp2 xs y d k v * e1 v - 6 * pc3 xs y d k * e v).
    assert (Zk : e (nth k xs 0) = 0).
    { unfold e. rewrite Gv by lia. rewrite (proj1 (proj2 (proj2 F))) by lia. ring. }
    assert (Zs : e (nth (S k) xs 0) = 0).
    { unfold e. rewrite Gv by lia. rewrite (proj1 (proj2 (proj2 F))) by lia. ring. }
    assert (Q : is_RInt (fun v => cp2 xs y d k v * e2 v) (nth k xs 0) (nth (S k) xs 0) (minus (q (nth (S k) xs 0)) (q (nth k xs 0)))).
    { apply (is_RInt_derive q).
      - intros v _. apply is_derive_Reals.
        replace (cp2 xs y d k v * e2 v) with ((6 * pc3 xs y d k * e1 v + cp2 xs y d k v * e2 v) - 6 * pc3 xs y d k * e1 v) by ring.
        apply (derivable_pt_lim_minus (fun v => cp2 xs y d k v * e1 v) (fun v => 6 * pc3 xs y d k * e v)).
        + apply (derivable_pt_lim_mult (cp2 xs y d k) e1); [apply cp2_deriv|apply De1].
        + apply (derivable_pt_lim_scal e). apply De.
      - intros v _. apply (continuous_mult (cp2 xs y d k) e2); [|apply Ce2].
        apply (deriv_cont _ (fun _ => 6 * pc3 xs y d k)). intros u. apply cp2_deriv. }
    assert (Fl := f2_left b0 b1 xs ys f f1 f2 I H2 F k Hk). assert (Fr := f2_right b0 b1 xs ys f f1 f2 I H2 F k Hk).
    cbv beta in Fl, Fr. fold y in Fl, Fr. change (fun k : nat => f1 (nth k xs 0)) with d in Fl, Fr.
    replace (f2 (nth (S k) xs 0) * e1 (nth (S k) xs 0) - f2 (nth k xs 0) * e1 (nth k xs 0))
      with (minus (q (nth (S k) xs 0)) (q (nth k xs 0))).
    2:{ unfold q, minus, plus, opp. cbn. rewrite Zk, Zs. rewrite Fl, Fr. ring. }
    apply is_RInt_ext with (2 := Q). intros v Hv. rewrite Rmin_left, Rmax_right in Hv by lra. f_equal.
    (* inside the piece f2 is the second derivative of the cubic *)
    symmetry. apply (deriv_right f1 (cp1 xs y d k) v _ _ (nth (S k) xs 0 - v)); [lra| |apply F|apply cp1_deriv].
    intros u Hu. apply (f1_piece b0 b1 xs ys f f1 f2 I H2 F); [assumption|]. lra.
  Qed.

  Lemma cross_upto k : (k < length xs)%nat ->
    is_RInt (fun v => f2 v * e2 v) a (nth k xs 0) (f2 (nth k xs 0) * e1 (nth k xs 0) - f2 a * e1 a).
  Proof.
    induction k as [|k IH]; intros Hk.
    - fold a. replace (f2 a * e1 a - f2 a * e1 a) with (@zero R_AbelianGroup) by (cbn; ring). apply (is_RInt_point (V := R_NormedModule)).
    - replace (f2 (nth (S k) xs 0) * e1 (nth (S k) xs 0) - f2 a * e1 a)
        with (plus (f2 (nth k xs 0) * e1 (nth k xs 0) - f2 a * e1 a)
                   (f2 (nth (S k) xs 0) * e1 (nth (S k) xs 0) - f2 (nth k xs 0) * e1 (nth k xs 0))) by (unfold plus; cbn; ring).
      apply (is_RInt_Chasles (V := R_NormedModule)) with (nth k xs 0); [apply IH; lia|apply cross_piece; assumption].
  Qed.

  Lemma cross_zero : is_RInt (fun v => f2 v * e2 v) a b 0.
  Proof.
    replace 0 with (f2 b * e1 b - f2 a * e1 a).
    - apply cross_upto. lia.
    - unfold e1. lra.
  Qed.

  Let ex_int (p : R -> R) : (forall v, continuous p v) -> ex_RInt p a b.
  Proof. intros C. apply (ex_RInt_continuous (V := R_CompleteNormedModule)). intros; apply C. Qed.
  Let sq_cont (p : R -> R) : (forall v, continuous p v) -> forall v, continuous (fun v => p v * p v) v.
  Proof. intros C v. apply (continuous_mult p p); apply C. Qed.

  Lemma ab : a < b.
  Proof. unfold a, b. apply increasing_lt; [assumption|lia]. Qed.

  (** Pythagoras. *)
  Theorem energy_split :
    RInt (fun v => g2 v * g2 v) a b = RInt (fun v => f2 v * f2 v) a b + RInt (fun v => e2 v * e2 v) a b.
  Proof.
    assert (Q : is_RInt (fun v => g2 v * g2 v) a b
      (plus (plus (RInt (fun v => f2 v * f2 v) a b) (RInt (fun v => e2 v * e2 v) a b)) (scal 2 0))).
    { apply (is_RInt_ext (fun v => plus (plus (f2 v * f2 v) (e2 v * e2 v)) (scal 2 (f2 v * e2 v)))).
      - intros v _. unfold plus, scal, e2. cbn. unfold mult. cbn. ring.
      - apply (is_RInt_plus (V := R_NormedModule)); [apply (is_RInt_plus (V := R_NormedModule))|].
        + apply (RInt_correct (V := R_CompleteNormedModule)). apply ex_int, sq_cont, Cf2.
        + apply (RInt_correct (V := R_CompleteNormedModule)). apply ex_int, sq_cont, Ce2.
        + apply (is_RInt_scal (V := R_NormedModule)). exact cross_zero. }
    apply (is_RInt_unique (V := R_CompleteNormedModule)) in Q. rewrite Q. unfold plus, scal. cbn. unfold mult. cbn. ring.
  Qed.

  Lemma e_energy : 0 <= RInt (fun v => e2 v * e2 v) a b.
  Proof.
    apply RInt_ge_0; [apply Rlt_le, ab|apply ex_int, sq_cont, Ce2|]. intros v _. apply Rle_0_sqr.
  Qed.

  Theorem energy_min : RInt (fun v => f2 v * f2 v) a b <= RInt (fun v => g2 v * g2 v) a b.
  Proof. rewrite energy_split. pose proof e_energy. lra. Qed.

  (** Only the spline itself attains the minimum. *)
  Theorem energy_unique : RInt (fun v => g2 v * g2 v) a b = RInt (fun v => f2 v * f2 v) a b ->
    forall v, a <= v <= b -> g v = f v.
  Proof.
    intros E. rewrite energy_split in E.
    assert (Z : RInt (fun v => e2 v * e2 v) a b = 0) by lra. clear E.
    (* the second derivatives agree on the interval *)
    assert (Z2 : forall v, a < v < b -> e2 v = 0).
    { intros v Hv. destruct (Req_dec (e2 v) 0) as [|N]; [assumption|exfalso].
      assert (P : 0 < e2 v * e2 v) by (apply Rlt_0_sqr; assumption).
      assert (C := sq_cont e2 Ce2 v). apply continuity_pt_filterlim in C.
      destruct (C (e2 v * e2 v / 2) ltac:(lra)) as (dl & Pd & Hd). cbn [Rlimit.dist R_met] in Hd. unfold R_dist in Hd.
      set (r := Rmin (dl / 2) (Rmin (v - a) (b - v))).
      assert (M1 := Rmin_l (dl / 2) (Rmin (v - a) (b - v))). assert (M2 := Rmin_r (dl / 2) (Rmin (v - a) (b - v))).
      assert (M3 := Rmin_l (v - a) (b - v)). assert (M4 := Rmin_r (v - a) (b - v)). fold r in M1, M2.
      assert (Pr : 0 < r) by (unfold r; repeat apply Rmin_pos; lra).
      assert (Lo : forall u, v <= u <= v + r -> e2 v * e2 v / 2 <= e2 u * e2 u).
      { intros u Hu. destruct (Req_dec u v) as [->|Nu]; [lra|].
        assert (K : Rabs (e2 u * e2 u - e2 v * e2 v) < e2 v * e2 v / 2).
        { apply (Hd u). split; [split; [exact Logic.I|congruence]|]. rewrite Rabs_pos_eq; lra. }
        apply Rabs_def2 in K. lra. }
      assert (Xc : forall s t, ex_RInt (fun v => e2 v * e2 v) s t).
      { intros s t. apply (ex_RInt_continuous (V := R_CompleteNormedModule)). intros; apply sq_cont, Ce2. }
      assert (Sp : RInt (fun v => e2 v * e2 v) a b
        = RInt (fun v => e2 v * e2 v) a v + (RInt (fun v => e2 v * e2 v) v (v + r) + RInt (fun v => e2 v * e2 v) (v + r) b)).
      { pose proof (RInt_Chasles (fun v => e2 v * e2 v) v (v + r) b (Xc _ _) (Xc _ _)) as K1.
        pose proof (RInt_Chasles (fun v => e2 v * e2 v) a v b (Xc _ _) (Xc _ _)) as K2.
        change (RInt (fun v => e2 v * e2 v) v (v + r) + RInt (fun v => e2 v * e2 v) (v + r) b = RInt (fun v => e2 v * e2 v) v b) in K1.
        change (RInt (fun v => e2 v * e2 v) a v + RInt (fun v => e2 v * e2 v) v b = RInt (fun v => e2 v * e2 v) a b) in K2. lra. }
      assert (N1 : 0 <= RInt (fun v => e2 v * e2 v) a v) by (apply RInt_ge_0; [lra|apply Xc|intros; apply Rle_0_sqr]).
      assert (N3 : 0 <= RInt (fun v => e2 v * e2 v) (v + r) b) by (apply RInt_ge_0; [lra|apply Xc|intros; apply Rle_0_sqr]).
      assert (N2 : RInt (fun _ => e2 v * e2 v / 2) v (v + r) <= RInt (fun v => e2 v * e2 v) v (v + r)).
      { apply RInt_le; [lra|apply ex_RInt_const|apply Xc|]. intros u Hu. apply Lo. lra. }
      rewrite RInt_const in N2. change ((v + r - v) * (e2 v * e2 v / 2) <= RInt (fun v => e2 v * e2 v) v (v + r)) in N2.
      assert (0 < (v + r - v) * (e2 v * e2 v / 2)) by (apply Rmult_lt_0_compat; lra). lra. }
    (* hence e is affine there, with two zeros *)
    assert (L := ab).
    assert (Za : e a = 0).
    { unfold e, a. rewrite Gv by lia. rewrite (proj1 (proj2 (proj2 F))) by lia. ring. }
    assert (Zb : e b = 0).
    { unfold e, b. rewrite Gv by lia. rewrite (proj1 (proj2 (proj2 F))) by lia. ring. }
    assert (C1 : forall u v, a <= u -> u < v -> v <= b -> e1 u = e1 v).
    { intros u v Hu Huv Hv. destruct (MVT_cor2 e1 e2 u v Huv) as (c & Ec & Hc); [intros; apply De1|].
      rewrite Z2 in Ec by lra. lra. }
    assert (Z1 : forall v, a <= v <= b -> e1 v = 0).
    { destruct (MVT_cor2 e e1 a b L) as (c & Ec & Hc); [intros; apply De|].
      assert (Z1c : e1 c = 0).
      { rewrite Za, Zb in Ec. assert (K : e1 c * (b - a) = 0) by lra. apply Rmult_integral in K. destruct K; lra. }
      intros v Hv. destruct (Rtotal_order v c) as [K|[->|K]]; [rewrite (C1 v c); lra|assumption|rewrite <- (C1 c v); lra]. }
    intros v Hv. assert (Zv : e v = 0).
    { destruct (Req_dec v a) as [->|Nv]; [assumption|].
      destruct (MVT_cor2 e e1 a v) as (c & Ec & Hc); [lra|intros; apply De|]. rewrite Z1 in Ec by lra. lra. }
    unfold e in Zv. lra.
  Qed.
End Minimum.
