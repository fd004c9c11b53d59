(** The periodic spline on the whole line, and the interpolators. *)
From Coq Require Import ZArith String List Bool Arith Lia Reals Lra Psatz.
From Verif Require Import Num Py Numeric Curve Vec Geom DiffGeom Intersect Registry Interp Splines Splines2 Periodic Spec GeomSpec.
From Verif Require Import ListFacts VecFacts CurveProofs3 GeomProofs DiffGeomProofs2 InterpProofs InterpProofs2 InterpProofs3.
From Verif Require Import SplineProofs SplineProofs2 SplineProofs3 SplineProofs4 SplineProofs5 SplineProofs6 PeriodicProofs.
Import ListNotations.
Local Open Scope list_scope.
Local Open Scope R_scope.

(** numpy's remainder for a positive divisor. *)
Definition is_mod (fm : R -> R -> R) : Prop :=
  forall u p, 0 < p -> 0 <= fm u p < p /\ exists k : Z, u = IZR k * p + fm u p.

(** It exists. *)
Definition Rmod (u p : R) : R := u - IZR (Int_part (u / p)) * p.
Lemma Rmod_is_mod : is_mod Rmod.
Proof.
  intros u p Hp. unfold Rmod. split; [|exists (Int_part (u / p)); ring].
  destruct (base_Int_part (u / p)) as [A B]. set (k := IZR (Int_part (u / p))) in *.
  assert (E : u = u / p * p) by (field; lra). split.
  - assert (k * p <= u / p * p) by (apply Rmult_le_compat_r; lra). lra.
  - assert (u / p * p < (k + 1) * p) by (apply Rmult_lt_compat_r; lra). lra.
Qed.

Lemma int_between k : -1 < IZR k < 1 -> k = 0%Z.
Proof. intros [A B]. apply lt_IZR in A. apply lt_IZR in B. lia. Qed.

Lemma mod_unique fm u p r k : is_mod fm -> 0 < p -> 0 <= r < p -> u = IZR k * p + r -> fm u p = r.
Proof.
  intros M Hp Hr E. destruct (M u p Hp) as [B [k' E']].
  assert (D : (IZR k' - IZR k) * p = r - fm u p) by lra.
  assert (Z : (k' - k)%Z = 0%Z).
  { apply int_between. rewrite minus_IZR. split; apply (Rmult_lt_reg_r p); lra. }
  assert (k' = k) by lia. subst k'. lra.
Qed.

Section Wrap.
  Variable fm : R -> R -> R.
  Hypothesis M : is_mod fm.
  Variables a b : R.
  Hypothesis L : a < b.
  Let p := b - a.
  Let w v := a + fm (v - a) p.

  Lemma w_range v : a <= w v < b /\ exists k : Z, v = w v + IZR k * p.
  Proof.
    destruct (M (v - a) p ltac:(unfold p; lra)) as [B [k E]]. split; [unfold w, p in *; lra|]. exists k. unfold w. lra.
  Qed.
  Lemma w_unique v u k : a <= u < b -> v = u + IZR k * p -> w v = u.
  Proof.
    intros Hu E. unfold w. rewrite (mod_unique fm (v - a) p (u - a) k M); unfold p in *; lra.
  Qed.
  Lemma w_shift v k : w (v + IZR k * p) = w v.
  Proof.
    destruct (w_range v) as [B [i E]]. apply (w_unique _ _ (i + k)%Z B). rewrite plus_IZR. lra.
  Qed.
  Lemma w_inside v : a <= v < b -> w v = v.
  Proof. intros H. apply (w_unique v v 0 H). lra. Qed.
  Lemma w_end : w b = a.
  Proof. apply (w_unique b a 1); [lra|]. unfold p. lra. Qed.

  (** Around v the wrapped function is a shifted one on each side. *)
  Lemma w_local (f : R -> R) v : f b = f a -> exists d c1 c2, 0 < d /\
    (forall u, v - d < u <= v -> f (w u) = f (u - c1)) /\ (forall u, v <= u < v + d -> f (w u) = f (u - c2)) /\
    v - c2 = w v /\ (v - c1 = w v \/ (v - c1 = b /\ w v = a)).
  Proof.
    intros Ef. destruct (w_range v) as [B [k E]].
    assert (Hr : forall u, v <= u < v + (b - w v) -> w u = u - IZR k * p).
    { intros u Hu. apply (w_unique u _ k); lra. }
    destruct (Rle_lt_or_eq_dec _ _ (proj1 B)) as [La|Ea].
    - exists (Rmin (b - w v) (w v - a)), (IZR k * p), (IZR k * p).
      assert (M1 := Rmin_l (b - w v) (w v - a)). assert (M2 := Rmin_r (b - w v) (w v - a)).
      split; [apply Rmin_pos; lra|]. split; [|split; [|split; [lra|left; lra]]].
      + intros u Hu. f_equal. apply (w_unique u _ k); lra.
      + intros u Hu. f_equal. apply Hr. lra.
    - exists p, (IZR (k - 1) * p), (IZR k * p). rewrite minus_IZR. split; [unfold p; lra|]. split; [|split; [|split; [lra|right]]].
      + intros u Hu. destruct (Req_dec u v) as [->|Ne].
        * replace (v - (IZR k - 1) * p) with b by (unfold p in *; lra). rewrite <- Ea. symmetry. exact Ef.
        * f_equal. apply (w_unique u _ (k - 1)%Z); rewrite ?minus_IZR; unfold p in *; lra.
      + intros u Hu. f_equal. apply Hr. unfold p in *. lra.
      + unfold p in *. lra.
  Qed.

  Lemma shift_deriv (f : R -> R) v c l : derivable_pt_lim f (v - c) l -> derivable_pt_lim (fun u => f (u - c)) v l.
  Proof.
    intros D eps He. destruct (D eps He) as [d Hd]. exists d. intros k Hk Hs.
    replace (v + k - c) with (v - c + k) by ring. apply Hd; assumption.
  Qed.
  Lemma shift_cont (f : R -> R) v c : continuity_pt f (v - c) -> continuity_pt (fun u => f (u - c)) v.
  Proof.
    intros C. apply (continuity_pt_comp (fun u => u - c) f); [|exact C].
    apply derivable_continuous_pt. exists 1. replace 1 with (1 - 0) by ring.
    apply (derivable_pt_lim_minus (fun u => u) (fun _ => c)); [apply derivable_pt_lim_id|apply derivable_pt_lim_const].
  Qed.

  Lemma wrapped_deriv (f f1 : R -> R) : (forall v, derivable_pt_lim f v (f1 v)) -> f b = f a -> f1 b = f1 a ->
    forall v, derivable_pt_lim (fun u => f (w u)) v (f1 (w v)).
  Proof.
    intros D E E1 v. destruct (w_local f v E) as (d & c1 & c2 & Hd & Hl & Hr & K2 & K1).
    apply (glue_deriv _ (fun u => f (u - c1)) (fun u => f (u - c2)) v _ d Hd Hl Hr).
    - apply shift_deriv. destruct K1 as [-> |[-> ->]]; [apply D|]. rewrite <- E1. apply D.
    - apply shift_deriv. rewrite K2. apply D.
  Qed.
  Lemma wrapped_cont (f : R -> R) : continuity f -> f b = f a -> continuity (fun u => f (w u)).
  Proof.
    intros C E v. destruct (w_local f v E) as (d & c1 & c2 & Hd & Hl & Hr & K2 & K1).
    apply (glue_cont _ (fun u => f (u - c1)) (fun u => f (u - c2)) v d Hd Hl Hr); apply shift_cont, C.
  Qed.
End Wrap.

(** The periodic spline: twice continuously differentiable on the whole line,
    periodic, cubic between the samples, through the samples. *)
Definition closed_fun (xs ys : list R) (f f1 f2 : R -> R) : Prop :=
  let p := nth (length xs - 1) xs 0 - nth 0 xs 0 in
  two_smooth f f1 f2 /\
  (forall v, f (v + p) = f v) /\
  (forall k, (S k < length xs)%nat -> cubic_on f (fun v => nth k xs 0 <= v <= nth (S k) xs 0)) /\
  (forall k, (k < length xs)%nat -> f (nth k xs 0) = nth k ys 0).

Section Closed.
  Variables (fm : R -> R -> R) (xs ys : list R).
  Hypothesis M : is_mod fm.
  Hypothesis I : increasing xs.
  Hypothesis H2 : (2 <= length xs)%nat.
  Let a := nth 0 xs 0.
  Let b := nth (length xs - 1) xs 0.
  Let w := wrap fm xs.
  Lemma ab_lt : a < b.
  Proof. unfold a, b. apply increasing_lt; [assumption|lia]. Qed.
  Lemma wrap_eq v : wrap fm xs v = a + fm (v - a) (b - a).
  Proof. reflexivity. Qed.
  Lemma wrap_inside v : inside xs (wrap fm xs v).
  Proof.
    rewrite wrap_eq. destruct (w_range fm M a b ab_lt v) as [B _]. unfold inside. cbv zeta in B. fold a b. lra.
  Qed.

  Section Exists.
    Hypothesis E : nth (length xs - 1) ys 0 = nth 0 ys 0.
    Theorem closed_exists : closed_fun xs ys (fun v => per0 xs ys (w v)) (fun v => per1 xs ys (w v)) (fun v => per2 xs ys (w v)).
    Proof.
      assert (L := ab_lt). destruct (periodic_exists xs ys I H2) as ((D0 & D1 & C2) & Cu & V & E1 & E2).
      assert (E0 : per0 xs ys b = per0 xs ys a) by (unfold a, b; rewrite !V by lia; assumption).
      assert (Vw : forall v, a <= v <= b -> per0 xs ys (w v) = per0 xs ys v).
      { intros v Hv. destruct (Rle_lt_or_eq_dec _ _ (proj2 Hv)) as [Lv|Ev].
        - f_equal. apply (w_inside fm M a b L v). lra.
        - rewrite Ev. rewrite E0. f_equal. apply (w_end fm M a b L). }
      assert (Xr : forall k, (k < length xs)%nat -> a <= nth k xs 0 <= b).
      { intros k Hk. unfold a, b. split; apply increasing_le; (assumption || lia). }
      split; [|split; [|split]].
      - split; [|split].
        + apply (wrapped_deriv fm M a b L); assumption.
        + apply (wrapped_deriv fm M a b L); assumption.
        + apply (wrapped_cont fm M a b L); assumption.
      - intros v. f_equal. pose proof (w_shift fm M a b L v 1) as K. cbv beta in K. rewrite Rmult_1_l in K. exact K.
      - intros k Hk. destruct (Cu k Hk) as (a0 & a1 & a2 & a3 & Hq). exists a0, a1, a2, a3. intros v Hv.
        pose proof (Xr k ltac:(lia)). pose proof (Xr (S k) Hk). rewrite Vw by lra. apply Hq. apply (in_piece_mid xs); assumption.
      - intros k Hk. rewrite Vw by (apply Xr; assumption). apply V. assumption.
    Qed.
  End Exists.

  Section Unique.
    Variables (f f1 f2 : R -> R).
    Hypothesis F : closed_fun xs ys f f1 f2.
    Let n := length xs.
    Let x k := nth k xs 0.
    Let y k := nth k ys 0.
    Let e k := f1 (x k).
    Let h k := x (S k) - x k.
    Let m k := (y (S k) - y k) / h k.
    Local Notation p0 := (cp0 xs y e).
    Local Notation p1 := (cp1 xs y e).
    Local Notation p2 := (cp2 xs y e).
    Let xlt k : (S k < n)%nat -> x k < x (S k).
    Proof. intros Hk. exact (I k Hk). Qed.
    Let D0 : forall v, derivable_pt_lim f v (f1 v). Proof. apply F. Qed.
    Let D1' : forall v, derivable_pt_lim f1 v (f2 v). Proof. apply F. Qed.

    Lemma c_piece k v : (S k < n)%nat -> x k <= v <= x (S k) -> f v = p0 k v.
    Proof.
      intros Hk Hv. destruct (proj1 (proj2 (proj2 F)) k Hk) as (a0 & a1 & a2 & a3 & Hq). pose proof (xlt k Hk) as L.
      assert (Vk := proj2 (proj2 (proj2 F)) k ltac:(unfold n in *; lia)). assert (Vs := proj2 (proj2 (proj2 F)) (S k) Hk).
      rewrite (Hq v Hv). apply (cp0_hermite xs y e I k a0 a1 a2 a3 Hk).
      - change (nth k ys 0) with (y k) in Vk. rewrite <- Vk. symmetry. apply Hq. fold (x k) (x (S k)). lra.
      - change (nth (S k) ys 0) with (y (S k)) in Vs. rewrite <- Vs. symmetry. apply Hq. fold (x k) (x (S k)). lra.
      - symmetry. apply (deriv_right f (fun v => a0 + a1 * v + a2 * (v * v) + a3 * (v * v * v)) (x k) _ _ (h k)); [unfold h; lra| |apply D0|apply poly_deriv].
        intros u Hu. apply Hq. unfold h, x in *. lra.
      - symmetry. apply (deriv_left f (fun v => a0 + a1 * v + a2 * (v * v) + a3 * (v * v * v)) (x (S k)) _ _ (h k)); [unfold h; lra| |apply D0|apply poly_deriv].
        intros u Hu. apply Hq. unfold h, x in *. lra.
    Qed.
    Lemma c1_piece k v : (S k < n)%nat -> x k <= v <= x (S k) -> f1 v = p1 k v.
    Proof.
      intros Hk Hv. destruct (Rlt_dec v (x (S k))) as [L|L].
      - apply (deriv_right f (p0 k) v _ _ (x (S k) - v)); [lra| |apply D0|apply cp0_deriv]. intros u Hu. apply c_piece; [assumption|lra].
      - pose proof (xlt k Hk). apply (deriv_left f (p0 k) v _ _ (h k)); [unfold h; lra| |apply D0|apply cp0_deriv].
        intros u Hu. apply c_piece; [assumption|]. unfold h in Hu. lra.
    Qed.
    Lemma c2_left k : (S k < n)%nat -> f2 (x k) = p2 k (x k).
    Proof.
      intros Hk. pose proof (xlt k Hk). apply (deriv_right f1 (p1 k) (x k) _ _ (h k)); [unfold h; lra| |apply D1'|apply cp1_deriv].
      intros u Hu. apply c1_piece; [assumption|]. unfold h in Hu. lra.
    Qed.
    Lemma c2_right k : (S k < n)%nat -> f2 (x (S k)) = p2 k (x (S k)).
    Proof.
      intros Hk. pose proof (xlt k Hk). apply (deriv_left f1 (p1 k) (x (S k)) _ _ (h k)); [unfold h; lra| |apply D1'|apply cp1_deriv].
      intros u Hu. apply c1_piece; [assumption|]. unfold h in Hu. lra.
    Qed.

    Let per v : f (v + (b - a)) = f v. Proof. apply F. Qed.
    Lemma c1_per v : f1 (v + (b - a)) = f1 v.
    Proof.
      apply (deriv_right f (fun u => f (u - (b - a))) (v + (b - a)) _ _ 1); [lra| |apply D0|].
      - intros u _. rewrite <- (per (u - (b - a))). f_equal. lra.
      - apply shift_deriv. replace (v + (b - a) - (b - a)) with v by ring. apply D0.
    Qed.
    Lemma c2_per v : f2 (v + (b - a)) = f2 v.
    Proof.
      apply (deriv_right f1 (fun u => f1 (u - (b - a))) (v + (b - a)) _ _ 1); [lra| |apply D1'|].
      - intros u _. rewrite <- (c1_per (u - (b - a))). f_equal. lra.
      - apply shift_deriv. replace (v + (b - a) - (b - a)) with v by ring. apply D1'.
    Qed.
    Lemma per_many (g : R -> R) : (forall v, g (v + (b - a)) = g v) -> forall k v, g (v + IZR k * (b - a)) = g v.
    Proof.
      intros G. assert (N : forall k v, g (v + INR k * (b - a)) = g v).
      { induction k as [|k IH]; intros v; [f_equal; cbn; ring|]. rewrite S_INR. replace (v + (INR k + 1) * (b - a)) with (v + INR k * (b - a) + (b - a)) by ring.
        rewrite G. apply IH. }
      intros k v. destruct (Z_le_dec 0 k) as [P|P].
      - rewrite <- (Z2Nat.id k P), <- INR_IZR_INZ. apply N.
      - rewrite <- (N (Z.to_nat (- k)) (v + IZR k * (b - a))). f_equal. rewrite INR_IZR_INZ, Z2Nat.id, opp_IZR by lia. ring.
    Qed.

    Lemma closed_cyclic : cyclic_eq xs ys e.
    Proof.
      assert (C2l := c2_left). assert (C2r := c2_right). split.
      - intros k Hk. apply (second_iff xs y e I k Hk). change (p2 k (x (S k)) = p2 (S k) (x (S k))). rewrite <- C2r by (unfold n; lia). apply C2l. assumption.
      - assert (Ea : b = a + (b - a)) by ring. assert (E1 := c1_per a). assert (E2 := c2_per a). rewrite <- Ea in E1, E2.
        set (q0 := pw xs (cp0 xs y e)). set (q1 := pw xs (cp1 xs y e)). set (q2 := pw xs (cp2 xs y e)).
        assert (Hr : (S (n - 2) < n)%nat) by (unfold n; lia). assert (Hl : (S 0 < n)%nat) by (unfold n; lia).
        pose proof (xlt _ Hr) as Ln. pose proof (xlt _ Hl) as L0.
        assert (Fl := C2l 0%nat Hl). assert (Fr := C2r (n - 2)%nat Hr).
        pose proof (cp2_left xs y e 0) as Kl. pose proof (cp2_right xs y e I (n - 2) Hr) as Kr. cbv beta in Kl, Kr.
        assert (Kr' : p2 (n - 2)%nat (x (S (n - 2))) = 2 * ((e (n - 2)%nat + 2 * e (S (n - 2)) - 3 * m (n - 2)%nat) / h (n - 2)%nat)) by exact Kr. clear Kr.
        replace (x (S (n - 2))) with (x (n - 1)%nat) in Fr, Ln by (f_equal; lia).
        change (x 0%nat) with a in *. change (x (n - 1)%nat) with b in *.
        assert (El : f2 a = 2 * ((3 * m 0%nat - 2 * e 0%nat - e 1%nat) / h 0%nat)) by (rewrite Fl; exact Kl).
        assert (Er : f2 b = 2 * ((e (n - 2)%nat + 2 * e (n - 1)%nat - 3 * m (n - 2)%nat) / h (n - 2)%nat)).
        { rewrite Fr. transitivity (2 * ((e (n - 2)%nat + 2 * e (S (n - 2)) - 3 * m (n - 2)%nat) / h (n - 2)%nat)).
          - rewrite <- Kr'. apply (f_equal (p2 (n - 2)%nat)). unfold b, x. fold n. replace (S (n - 2)) with (n - 1)%nat by lia. reflexivity.
          - replace (S (n - 2)) with (n - 1)%nat by lia. reflexivity. }
        assert (Es : e (n - 1)%nat = e 0%nat) by exact E1. rewrite Es in Er. rewrite El, Er in E2.
        assert (P0 : 0 < h 0%nat) by (unfold h; change (x 0%nat) with a; lra).
        assert (Pn : 0 < h (n - 2)%nat). { unfold h. replace (S (n - 2)) with (n - 1)%nat by lia. change (x (n - 1)%nat) with b. lra. }
        split; [exact Es|]. fold n.
        change (step_at xs 0) with (h 0%nat). change (step_at xs (n - 2)) with (h (n - 2)%nat). change (slope_at xs ys 0) with (m 0%nat). change (slope_at xs ys (n - 2)) with (m (n - 2)%nat).
        set (A := 3 * m 0%nat - 2 * e 0%nat - e 1%nat) in *. set (B := e (n - 2)%nat + 2 * e 0%nat - 3 * m (n - 2)%nat) in *.
        assert (K' : B * h 0%nat = A * h (n - 2)%nat).
        { replace (B * h 0%nat) with (B / h (n - 2)%nat * (h (n - 2)%nat * h 0%nat)) by (field; lra).
          replace (B / h (n - 2)%nat) with (A / h 0%nat) by lra. field. lra. }
        unfold A, B in K'. lra.
    Qed.

    Theorem closed_unique v : f v = per0 xs ys (w v).
    Proof.
      destruct (w_range fm M a b ab_lt v) as [B [k E]]. cbv zeta in B, E. change (a + fm (v - a) (b - a)) with (w v) in B, E.
      transitivity (f (w v)). { rewrite E at 1. apply (per_many f per). }
      destruct (piece_exists xs I H2 (w v)) as (i & Hi & Ei & Hl & Hr).
      assert (Xi : x i <= w v <= x (S i)).
      { split; [destruct Hl as [-> |Hl]; [apply B|exact Hl]|]. destruct Hr as [Hr|Hr]; [|left; exact Hr].
        replace (S i) with (n - 1)%nat by (unfold n; lia). left. apply B. }
      rewrite (c_piece i (w v) Hi Xi). unfold per0, spl0, pw. rewrite Ei.
      assert (Ee : forall j, (j < n)%nat -> e j = deriv_at (end_slope xs ys) (end_slope xs ys) xs ys j).
      { intros j Hj. rewrite per_deriv_at by assumption. apply (cyclic_unique xs ys I H2); [apply closed_cyclic|apply per_at_ok; assumption|assumption]. }
      unfold cp0, pc2, pc3. rewrite !Ee by (unfold n; lia). reflexivity.
    Qed.
  End Unique.
End Closed.
