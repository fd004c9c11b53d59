(** Piecewise functions and their derivatives; the cubic spline as a function. *)
From Coq Require Import ZArith String List Bool Arith Lia Reals Lra Psatz.
From Verif Require Import Num Py Numeric Curve Vec Geom DiffGeom Intersect Registry Interp Splines Splines2 Spec GeomSpec.
From Verif Require Import ListFacts VecFacts InterpProofs InterpProofs2 SplineProofs SplineProofs2 SplineProofs3.
Import ListNotations.
Local Open Scope list_scope.
Local Open Scope R_scope.

(** ** Gluing *)

Lemma glue_deriv (F f g : R -> R) x l d : 0 < d ->
  (forall v, x - d < v <= x -> F v = f v) -> (forall v, x <= v < x + d -> F v = g v) ->
  derivable_pt_lim f x l -> derivable_pt_lim g x l -> derivable_pt_lim F x l.
Proof.
  intros Hd Hf Hg Df Dg eps He.
  destruct (Df eps He) as [d1 H1], (Dg eps He) as [d2 H2].
  assert (P : 0 < Rmin d (Rmin d1 d2)) by (repeat apply Rmin_pos; [assumption|apply cond_pos|apply cond_pos]).
  exists (mkposreal _ P). cbn [pos]. intros k Hk Hs.
  assert (A1 := Rmin_l d (Rmin d1 d2)). assert (A2 := Rmin_r d (Rmin d1 d2)).
  assert (A3 := Rmin_l d1 d2). assert (A4 := Rmin_r d1 d2).
  destruct (Rle_dec 0 k) as [L|L].
  - rewrite (Hg (x + k)), (Hg x); [apply H2; [assumption|lra]| |]; rewrite ?Rabs_pos_eq in Hs by assumption; lra.
  - rewrite (Hf (x + k)), (Hf x); [apply H1; [assumption|lra]| |]; rewrite ?Rabs_left in Hs by lra; lra.
Qed.

Lemma glue_cont (F f g : R -> R) x d : 0 < d ->
  (forall v, x - d < v <= x -> F v = f v) -> (forall v, x <= v < x + d -> F v = g v) ->
  continuity_pt f x -> continuity_pt g x -> continuity_pt F x.
Proof.
  intros Hd Hf Hg Cf Cg eps He.
  destruct (Cf eps He) as (d1 & P1 & H1), (Cg eps He) as (d2 & P2 & H2).
  assert (P : 0 < Rmin d (Rmin d1 d2)) by (repeat apply Rmin_pos; assumption).
  exists (Rmin d (Rmin d1 d2)). split; [exact P|]. intros k [Hk Hs].
  assert (A1 := Rmin_l d (Rmin d1 d2)). assert (A2 := Rmin_r d (Rmin d1 d2)).
  assert (A3 := Rmin_l d1 d2). assert (A4 := Rmin_r d1 d2).
  cbn [Rlimit.dist R_met] in *. unfold R_dist in *.
  destruct (Rle_dec x k) as [L|L].
  - rewrite (Hg k), (Hg x); [apply (H2 k); split; [assumption|lra]| |]; rewrite ?Rabs_pos_eq in Hs by lra; lra.
  - rewrite (Hf k), (Hf x); [apply (H1 k); split; [assumption|lra]| |]; rewrite ?Rabs_left in Hs by lra; lra.
Qed.

(** A function that agrees with f on one side of x has the derivative of f there. *)
Lemma deriv_right (F f : R -> R) x l l' d : 0 < d -> (forall v, x <= v < x + d -> F v = f v) ->
  derivable_pt_lim F x l -> derivable_pt_lim f x l' -> l = l'.
Proof.
  intros Hd E DF Df. apply cond_eq. intros eps He.
  destruct (DF (eps / 2) ltac:(lra)) as [d1 H1], (Df (eps / 2) ltac:(lra)) as [d2 H2].
  assert (P1 := cond_pos d1). assert (P2 := cond_pos d2).
  set (k := Rmin d (Rmin d1 d2) / 2).
  assert (P : 0 < Rmin d (Rmin d1 d2)) by (repeat apply Rmin_pos; assumption).
  assert (A1 := Rmin_l d (Rmin d1 d2)). assert (A2 := Rmin_r d (Rmin d1 d2)).
  assert (A3 := Rmin_l d1 d2). assert (A4 := Rmin_r d1 d2).
  assert (Pk : 0 < k) by (unfold k; lra).
  specialize (H1 k ltac:(lra)). specialize (H2 k ltac:(lra)).
  rewrite Rabs_pos_eq in H1, H2 by lra. specialize (H1 ltac:(unfold k in *; lra)). specialize (H2 ltac:(unfold k in *; lra)).
  rewrite (E (x + k)), (E x) in H1 by (unfold k in *; lra).
  set (q := (f (x + k) - f x) / k) in *. replace (l - l') with ((q - l') - (q - l)) by ring.
  apply Rle_lt_trans with (1 := Rabs_triang _ _). rewrite Rabs_Ropp. lra.
Qed.

Lemma deriv_left (F f : R -> R) x l l' d : 0 < d -> (forall v, x - d < v <= x -> F v = f v) ->
  derivable_pt_lim F x l -> derivable_pt_lim f x l' -> l = l'.
Proof.
  intros Hd E DF Df. apply cond_eq. intros eps He.
  destruct (DF (eps / 2) ltac:(lra)) as [d1 H1], (Df (eps / 2) ltac:(lra)) as [d2 H2].
  assert (P1 := cond_pos d1). assert (P2 := cond_pos d2).
  set (k := - (Rmin d (Rmin d1 d2) / 2)).
  assert (P : 0 < Rmin d (Rmin d1 d2)) by (repeat apply Rmin_pos; assumption).
  assert (A1 := Rmin_l d (Rmin d1 d2)). assert (A2 := Rmin_r d (Rmin d1 d2)).
  assert (A3 := Rmin_l d1 d2). assert (A4 := Rmin_r d1 d2).
  assert (Pk : k < 0) by (unfold k; lra).
  specialize (H1 k ltac:(lra)). specialize (H2 k ltac:(lra)).
  rewrite Rabs_left in H1, H2 by lra. specialize (H1 ltac:(unfold k in *; lra)). specialize (H2 ltac:(unfold k in *; lra)).
  rewrite (E (x + k)), (E x) in H1 by (unfold k in *; lra).
  set (q := (f (x + k) - f x) / k) in *. replace (l - l') with ((q - l') - (q - l)) by ring.
  apply Rle_lt_trans with (1 := Rabs_triang _ _). rewrite Rabs_Ropp. lra.
Qed.

(** ** Piecewise functions *)

(** Abscissae for which piece k is used; the end pieces are continued. *)
Definition in_piece (xs : list R) (k : nat) (v : R) : Prop :=
  (S k < length xs)%nat /\ (k = 0%nat \/ nth k xs 0 <= v) /\ (S (S k) = length xs \/ v <= nth (S k) xs 0).

Section Pieces.
  Variable xs : list R.
  Hypothesis I : increasing xs.
  Hypothesis H2 : (2 <= length xs)%nat.

  Definition pw (P : nat -> R -> R) (v : R) : R := P (piece_of xs v) v.

  Lemma piece_exists v : exists k, (S k < length xs)%nat /\ piece_of xs v = k /\
    (k = 0%nat \/ nth k xs 0 <= v) /\ (S (S k) = length xs \/ v < nth (S k) xs 0).
  Proof.
    assert (G : forall m, (S m < length xs)%nat ->
      (exists k, (k <= m)%nat /\ (k = 0%nat \/ nth k xs 0 <= v) /\ v < nth (S k) xs 0) \/ nth (S m) xs 0 <= v).
    { induction m as [|m IH]; intros Hm.
      - destruct (Rle_dec (nth 1 xs 0) v) as [L|L]; [right; assumption|].
        left. exists 0%nat. split; [lia|]. split; [left; reflexivity|lra].
      - destruct (IH ltac:(lia)) as [(k & K1 & K2)|K].
        + left. exists k. split; [lia|assumption].
        + destruct (Rle_dec (nth (S (S m)) xs 0) v) as [L|L]; [right; assumption|].
          left. exists (S m). split; [lia|]. split; [right; assumption|lra]. }
    assert (K : exists k, (S k < length xs)%nat /\ (k = 0%nat \/ nth k xs 0 <= v) /\ (S (S k) = length xs \/ v < nth (S k) xs 0)).
    { destruct (G (length xs - 2)%nat ltac:(lia)) as [(k & K1 & K2 & K3)|K].
      - exists k. split; [lia|]. split; [assumption|right; assumption].
      - exists (length xs - 2)%nat. split; [lia|]. split; [|left; lia]. right.
        pose proof (increasing_le _ I (length xs - 2) (S (length xs - 2)) ltac:(lia)). lra. }
    destruct K as (k & K1 & K2 & K3). exists k. split; [assumption|]. split; [apply piece_of_in; assumption|]. split; assumption.
  Qed.

  (** Pieces that agree at the inner samples: the closed pieces can be used. *)
  Definition agree (P : nat -> R -> R) : Prop :=
    forall k, (S (S k) < length xs)%nat -> P k (nth (S k) xs 0) = P (S k) (nth (S k) xs 0).

  Lemma pw_eq P k v : agree P -> in_piece xs k v -> pw P v = P k v.
  Proof.
    intros A (Hk & Hl & Hr). unfold pw.
    destruct Hr as [Hr|Hr]; [rewrite (piece_of_in xs v k) by (assumption || (left; assumption)); reflexivity|].
    destruct (Rle_lt_or_eq_dec _ _ Hr) as [L|E].
    - rewrite (piece_of_in xs v k) by (assumption || (right; assumption)). reflexivity.
    - destruct (Nat.eq_dec (S (S k)) (length xs)) as [El|Nl].
      + rewrite (piece_of_in xs v k) by (assumption || (left; assumption)). reflexivity.
      + rewrite (piece_of_in xs v (S k)); [|assumption|lia|right; lra|right; rewrite E; apply I; lia].
        subst v. symmetry. apply A. lia.
  Qed.

  (** Around v the function is one piece, or the two pieces that meet in v. *)
  Lemma pw_local P v : agree P -> exists d k1 k2, 0 < d /\
    (forall u, v - d < u <= v -> pw P u = P k1 u) /\ (forall u, v <= u < v + d -> pw P u = P k2 u) /\
    piece_of xs v = k2 /\ (S k2 < length xs)%nat /\ (k1 = k2 \/ S k1 = k2 /\ v = nth k2 xs 0).
  Proof.
    intros A. destruct (piece_exists v) as (k & Hk & Ek & Hl & Hr).
    assert (Dr : exists d, 0 < d /\ forall u, v <= u < v + d -> pw P u = P k u).
    { destruct Hr as [Hr|Hr].
      - exists 1. split; [lra|]. intros u Hu. apply pw_eq; [assumption|]. split; [assumption|].
        split; [destruct Hl; [left; assumption|right; lra]|left; assumption].
      - exists (nth (S k) xs 0 - v). split; [lra|]. intros u Hu. apply pw_eq; [assumption|]. split; [assumption|].
        split; [destruct Hl; [left; assumption|right; lra]|right; lra]. }
    destruct Dr as (d2 & P2 & E2).
    assert (Dl : exists d k1, 0 < d /\ (forall u, v - d < u <= v -> pw P u = P k1 u) /\ (k1 = k \/ S k1 = k /\ v = nth k xs 0)).
    { destruct Hl as [Hl|Hl].
      - exists 1, k. split; [lra|]. split; [|left; reflexivity]. intros u Hu. apply pw_eq; [assumption|]. split; [assumption|].
        split; [left; assumption|]. destruct Hr; [left; assumption|right; lra].
      - destruct (Rle_lt_or_eq_dec _ _ Hl) as [L|E].
        + exists (v - nth k xs 0), k. split; [lra|]. split; [|left; reflexivity]. intros u Hu. apply pw_eq; [assumption|]. split; [assumption|].
          split; [right; lra|]. destruct Hr; [left; assumption|right; lra].
        + destruct k as [|k].
          * exists 1, 0%nat. split; [lra|]. split; [|left; reflexivity]. intros u Hu. apply pw_eq; [assumption|]. split; [assumption|].
            split; [left; reflexivity|]. destruct Hr; [left; assumption|right; lra].
          * exists (v - nth k xs 0), k. pose proof (I k ltac:(lia)). split; [lra|]. split; [|right; split; [reflexivity|symmetry; assumption]].
            intros u Hu. apply pw_eq; [assumption|]. split; [lia|]. split; [right; lra|right; lra]. }
    destruct Dl as (d1 & k1 & P1 & E1 & K).
    exists (Rmin d1 d2), k1, k. assert (M1 := Rmin_l d1 d2). assert (M2 := Rmin_r d1 d2).
    split; [apply Rmin_pos; assumption|]. split; [intros u Hu; apply E1; lra|]. split; [intros u Hu; apply E2; lra|].
    split; [assumption|]. split; assumption.
  Qed.

  Lemma pw_deriv P P' : agree P -> agree P' -> (forall k v, derivable_pt_lim (P k) v (P' k v)) ->
    forall v, derivable_pt_lim (pw P) v (pw P' v).
  Proof.
    intros A A' D v. destruct (pw_local P v A) as (d & k1 & k2 & Hd & E1 & E2 & Ek & Hk & K).
    apply (glue_deriv _ (P k1) (P k2) v _ d); try assumption; unfold pw at 1; rewrite Ek; [|apply D].
    destruct K as [->|[<- Ev]]; [apply D|]. subst v. rewrite <- (A' k1 ltac:(lia)). apply D.
  Qed.

  Lemma pw_cont P : agree P -> (forall k v, continuity_pt (P k) v) -> continuity (pw P).
  Proof.
    intros A C v. destruct (pw_local P v A) as (d & k1 & k2 & Hd & E1 & E2 & Ek & Hk & K).
    apply (glue_cont _ (P k1) (P k2) v d); try assumption; apply C.
  Qed.
End Pieces.

(** ** The cubic pieces *)

Section Cubics.
  Variables (xs : list R) (y d : nat -> R).
  Hypothesis I : increasing xs.
  Let x k := nth k xs 0.
  Let h k := x (S k) - x k.
  Let m k := (y (S k) - y k) / h k.

  Definition pc2 k := (3 * m k - 2 * d k - d (S k)) / h k.
  Definition pc3 k := (d k + d (S k) - 2 * m k) / (h k * h k).
  Definition cp0 k v := y k + d k * (v - x k) + pc2 k * ((v - x k) * (v - x k)) + pc3 k * ((v - x k) * (v - x k) * (v - x k)).
  Definition cp1 k v := d k + 2 * pc2 k * (v - x k) + 3 * pc3 k * ((v - x k) * (v - x k)).
  Definition cp2 k v := 2 * pc2 k + 6 * pc3 k * (v - x k).

  Lemma cp0_hval k v : (S k < length xs)%nat -> hval (h k) (y k) (y (S k)) (d k) (d (S k)) (v - x k) = cp0 k v.
  Proof. intros Hk. pose proof (I k Hk). rewrite hval_eq by (unfold h, x; lra). reflexivity. Qed.

  Lemma cp0_deriv k v : derivable_pt_lim (cp0 k) v (cp1 k v).
  Proof.
    unfold cp0. set (s := fun v => v - x k).
    assert (Ds : forall v, derivable_pt_lim s v 1).
    { intros u. unfold s. replace 1 with (1 - 0) by ring.
      apply (derivable_pt_lim_minus (fun v => v) (fun _ => x k)); [apply derivable_pt_lim_id|apply derivable_pt_lim_const]. }
    replace (cp1 k v) with (0 + d k * 1 + pc2 k * (1 * s v + s v * 1) + pc3 k * ((1 * s v + s v * 1) * s v + (s v * s v) * 1)).
    2:{ unfold cp1, s. ring. }
    change (derivable_pt_lim (fct_cte (y k) + (mult_real_fct (d k) s) + mult_real_fct (pc2 k) (s * s) + mult_real_fct (pc3 k) (s * s * s))%F v
      (0 + d k * 1 + pc2 k * (1 * s v + s v * 1) + pc3 k * ((1 * s v + s v * 1) * s v + (s v * s v) * 1))).
    repeat first [apply derivable_pt_lim_plus|apply derivable_pt_lim_const|apply derivable_pt_lim_scal|apply (derivable_pt_lim_mult (s * s)%F)|apply derivable_pt_lim_mult|apply Ds].
  Qed.

  Lemma cp1_deriv k v : derivable_pt_lim (cp1 k) v (cp2 k v).
  Proof.
    unfold cp1. set (s := fun v => v - x k).
    assert (Ds : forall v, derivable_pt_lim s v 1).
    { intros u. unfold s. replace 1 with (1 - 0) by ring.
      apply (derivable_pt_lim_minus (fun v => v) (fun _ => x k)); [apply derivable_pt_lim_id|apply derivable_pt_lim_const]. }
    replace (cp2 k v) with (0 + 2 * pc2 k * 1 + 3 * pc3 k * (1 * s v + s v * 1)).
    2:{ unfold cp2, s. ring. }
    change (derivable_pt_lim (fct_cte (d k) + (mult_real_fct (2 * pc2 k)%R s) + mult_real_fct (3 * pc3 k)%R (s * s))%F v
      (0 + 2 * pc2 k * 1 + 3 * pc3 k * (1 * s v + s v * 1))).
    repeat first [apply derivable_pt_lim_plus|apply derivable_pt_lim_const|apply derivable_pt_lim_scal|apply derivable_pt_lim_mult|apply Ds].
  Qed.

  Lemma cp2_deriv k v : derivable_pt_lim (cp2 k) v (6 * pc3 k).
  Proof.
    set (s := fun v => v - x k).
    assert (Ds : forall v, derivable_pt_lim s v 1).
    { intros u. unfold s. replace 1 with (1 - 0) by ring.
      apply (derivable_pt_lim_minus (fun v => v) (fun _ => x k)); [apply derivable_pt_lim_id|apply derivable_pt_lim_const]. }
    assert (E : derivable_pt_lim (cp2 k) v (0 + 6 * pc3 k * 1)).
    { change (derivable_pt_lim (fct_cte (2 * pc2 k)%R + (mult_real_fct (6 * pc3 k)%R s))%F v (0 + 6 * pc3 k * 1)).
      repeat first [apply derivable_pt_lim_plus|apply derivable_pt_lim_const|apply derivable_pt_lim_scal|apply Ds]. }
    replace (0 + 6 * pc3 k * 1) with (6 * pc3 k) in E by ring. exact E.
  Qed.

  Lemma hpos k : (S k < length xs)%nat -> 0 < h k.
  Proof. intros Hk. pose proof (I k Hk). unfold h, x. lra. Qed.

  Lemma cp0_left k : cp0 k (x k) = y k.
  Proof. unfold cp0. ring. Qed.
  Lemma cp0_right k : (S k < length xs)%nat -> cp0 k (x (S k)) = y (S k).
  Proof. intros Hk. assert (A := hpos k Hk). unfold cp0, pc2, pc3, m. fold (h k). field. lra. Qed.
  Lemma cp1_left k : cp1 k (x k) = d k.
  Proof. unfold cp1. ring. Qed.
  Lemma cp1_right k : (S k < length xs)%nat -> cp1 k (x (S k)) = d (S k).
  Proof. intros Hk. assert (A := hpos k Hk). unfold cp1, pc2, pc3, m. fold (h k). field. lra. Qed.
  Lemma cp2_left k : cp2 k (x k) = 2 * pc2 k.
  Proof. unfold cp2. ring. Qed.
  Lemma cp2_right k : (S k < length xs)%nat -> cp2 k (x (S k)) = 2 * ((d k + 2 * d (S k) - 3 * m k) / h k).
  Proof. intros Hk. assert (A := hpos k Hk). unfold cp2, pc2, pc3, m. fold (h k). field. lra. Qed.

  Lemma cp0_agree : agree xs cp0.
  Proof. intros k Hk. fold (x (S k)). rewrite cp0_right by lia. rewrite cp0_left. reflexivity. Qed.
  Lemma cp1_agree : agree xs cp1.
  Proof. intros k Hk. fold (x (S k)). rewrite cp1_right by lia. rewrite cp1_left. reflexivity. Qed.

  (** Equal second derivatives: the inner equation. *)
  Lemma second_iff k : (S (S k) < length xs)%nat ->
    (cp2 k (x (S k)) = cp2 (S k) (x (S k)) <->
     h (S k) * d k + 2 * (h k + h (S k)) * d (S k) + h k * d (S (S k)) = 3 * (h (S k) * m k + h k * m (S k))).
  Proof.
    intros Hk. assert (A := hpos k ltac:(lia)). assert (B := hpos (S k) Hk).
    rewrite cp2_right by lia. rewrite cp2_left. unfold pc2.
    assert (E : forall p q, p / h k = q / h (S k) <-> p * h (S k) = q * h k).
    { intros p q. split; intros K.
      - replace p with (p / h k * h k) by (field; lra). rewrite K. field. lra.
      - replace p with (q * h k / h (S k)) by (rewrite <- K; field; lra). field. lra. }
    split; intros K.
    - assert (K' : (d k + 2 * d (S k) - 3 * m k) / h k = (3 * m (S k) - 2 * d (S k) - d (S (S k))) / h (S k)) by lra.
      apply E in K'. lra.
    - f_equal. apply E. lra.
  Qed.
End Cubics.
