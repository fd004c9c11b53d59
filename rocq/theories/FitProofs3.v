(** Splines as smooth piecewise polynomials, and their truncated powers. *)
From Coq Require Import ZArith List Bool Arith Lia Reals Lra Psatz.
From Coquelicot Require Import Hierarchy Derive Continuity.
From Verif Require Import Num Py Numeric Curve Vec Csaps Registry Interp Splines Savgol FitSpline Spec.
From Verif Require Import ListFacts VecFacts CurveProofs3 CurvesProofs SmoothProofs InterpProofs CsapsProofs SavgolProofs SavgolProofs2 FitProofs FitProofs2.
Import ListNotations.
Local Open Scope list_scope.
Local Open Scope R_scope.

(** [x] lies between the knots number i - 1 and i (before the first, after the last). *)
Definition piece (ks : list R) (i : nat) (x : R) : Prop :=
  (i = 0%nat \/ nth (i - 1) ks 0 <= x) /\ (i = length ks \/ x <= nth i ks 0).

(** A spline of degree k with simple knots ks: a polynomial of degree at most k
    between neighbouring knots, with k - 1 continuous derivatives. *)
Definition is_spline (k : nat) (ks : list R) (g : R -> R) : Prop :=
  (exists P : nat -> list R, forall i, (i <= length ks)%nat -> length (P i) = S k /\ forall x, piece ks i x -> g x = polyval (P i) x) /\
  (forall d x, (d < k)%nat -> ex_derive_n g d x /\ continuity_pt (Derive_n g d) x).

Lemma piece_some ks x : exists i, (i <= length ks)%nat /\ piece ks i x.
Proof.
  assert (G : forall m, (m <= length ks)%nat -> (exists i, (i <= length ks)%nat /\ piece ks i x) \/ m = 0%nat \/ nth (m - 1) ks 0 <= x).
  { induction m as [|m IH]; intros H; [right; left; reflexivity|]. destruct (IH ltac:(lia)) as [A|A]; [left; exact A|].
    destruct (Rle_lt_dec (nth m ks 0) x) as [L|L].
    - right. right. replace (S m - 1)%nat with m by lia. exact L.
    - left. exists m. split; [lia|]. split; [exact A|]. right. lra. }
  destruct (G (length ks) (Nat.le_refl _)) as [A|A]; [exact A|]. exists (length ks). split; [lia|]. split; [exact A|left; reflexivity].
Qed.

(** ** From pieces to truncated powers *)

Lemma poly_cont (p : list R) x : continuity_pt (polyval p) x.
Proof. apply derivable_continuous_pt. exists (polyval (pder p) x). apply is_derive_Reals, polyval_pder. Qed.
Lemma dpoly_cont (p : list R) d x : continuity_pt (Derive_n (polyval p) d) x.
Proof. apply (continuity_pt_ext (polyval (Nat.iter d pder p))); [intros t; symmetry; apply polyval_iter|apply poly_cont]. Qed.

Lemma side_match g p d u v q : u < v -> u <= q <= v -> (forall x, u < x < v -> g x = polyval p x) -> continuity_pt (Derive_n g d) q ->
  Derive_n g d q = Derive_n (polyval p) d q.
Proof.
  intros H Hq E C. apply Rminus_diag_uniq.
  apply (cont_null (fun x => Derive_n g d x - Derive_n (polyval p) d x) u v q); try assumption.
  - apply continuity_pt_minus; [exact C|apply dpoly_cont].
  - intros x Hx. apply Rminus_diag_eq. apply Derive_n_ext_loc.
    assert (P : 0 < Rmin (x - u) (v - x)) by (apply Rmin_pos; lra).
    exists (mkposreal _ P). intros y Hy. unfold ball in Hy. cbn in Hy. unfold AbsRing_ball, abs, minus, plus, opp in Hy. cbn in Hy.
    apply E. apply Rabs_def2 in Hy. assert (A := Rmin_l (x - u) (v - x)). assert (B := Rmin_r (x - u) (v - x)). lra.
Qed.

Lemma pder_sub (p p' : list R) : length p = length p' -> pder (vsub p p') = vsub (pder p) (pder p').
Proof.
  intros L. assert (Lv : length (vsub p p') = length p) by (unfold vsub; rewrite map2_length; lia).
  apply vec_ext; [unfold vsub at 2; rewrite map2_length, !pder_length; lia|]. intros i.
  rewrite (nth_vsub (pder p)) by (rewrite !pder_length; congruence). rewrite !pder_nth, nth_vsub by assumption. ring.
Qed.
Lemma derive_sub (p p' : list R) d q : length p = length p' ->
  Derive_n (polyval (vsub p p')) d q = Derive_n (polyval p) d q - Derive_n (polyval p') d q.
Proof.
  intros L. rewrite !polyval_iter.
  assert (G : Nat.iter d pder (vsub p p') = vsub (Nat.iter d pder p) (Nat.iter d pder p') /\ length (Nat.iter d pder p) = length (Nat.iter d pder p')).
  { induction d as [|d [IH IL]]; [split; [reflexivity|assumption]|].
    change (Nat.iter (S d) pder (vsub p p')) with (pder (Nat.iter d pder (vsub p p'))). change (Nat.iter (S d) pder p) with (pder (Nat.iter d pder p)). change (Nat.iter (S d) pder p') with (pder (Nat.iter d pder p')).
    rewrite IH, !pder_length. split; [apply pder_sub; assumption|congruence]. }
  destruct G as [-> G]. apply polyval_sub. assumption.
Qed.
Lemma bsum_S_first f n : bsum f (S n) = f 0%nat + bsum (fun j => f (S j)) n.
Proof. induction n as [|n IH]; [cbn; ring|]. cbn [bsum] in *. rewrite IH. ring. Qed.
Lemma bsum_app f n m : bsum f (n + m) = bsum f n + bsum (fun j => f (n + j)%nat) m.
Proof. induction m as [|m IH]; [rewrite Nat.add_0_r; cbn; ring|]. rewrite Nat.add_succ_r. cbn [bsum]. rewrite IH. ring. Qed.

Definition jump (k : nat) (q : R) (p p' : list R) : R := nth k (psubst 1 q (vsub p' p)) 0.
Lemma jump_poly k q p p' : length p = S k -> length p' = S k ->
  (forall d, (d < k)%nat -> Derive_n (polyval p) d q = Derive_n (polyval p') d q) ->
  forall x, polyval p' x = polyval p x + jump k q p p' * (x - q) ^ k.
Proof.
  intros L L' E x. set (D := vsub p' p).
  assert (LD : length D = S k) by (unfold D, vsub; rewrite map2_length; lia).
  assert (Z : forall d, (d < k)%nat -> nth d (psubst 1 q D) 0 = 0).
  { intros d Hd. assert (H : Derive_n (polyval D) d (0 + q) = 0) by (rewrite Rplus_0_l; unfold D; rewrite derive_sub by congruence; rewrite E by assumption; ring).
    rewrite derive_shift, polyval_iter, polyval_iter_0 in H. apply Rmult_integral in H. destruct H as [H|H]; [exfalso; exact (INR_fact_neq_0 d H)|exact H]. }
  assert (Ex : polyval D x = jump k q p p' * (x - q) ^ k).
  { replace x with (1 * (x - q) + q) at 1 by ring. rewrite <- psubst_eval. unfold jump. fold D.
    assert (Lq : length (psubst 1 q D) = S k) by (rewrite psubst_length; assumption).
    clear -Z Lq. generalize (x - q). intros t. revert k Lq Z. generalize (psubst 1 q D). intros l. induction l as [|c l IH]; intros k Lq Z; [discriminate|].
    destruct k as [|k].
    - destruct l; [|discriminate]. cbn. rnum. ring.
    - cbn [polyval nth pow]. assert (c = 0) by (apply (Z 0%nat); lia). subst. rewrite (IH k) by (try (cbn in Lq; lia); intros d Hd; apply (Z (S d)); lia). rnum. ring. }
  rewrite <- Ex. unfold D. rewrite polyval_sub by congruence. ring.
Qed.

Lemma tsum_combine e (ks : list R) (c : nat -> R) x : tsum e (combine ks (map c (seq 0 (length ks)))) x = bsum (fun j => c j * tpow e (x - nth j ks 0)) (length ks).
Proof.
  assert (G : forall s, tsum e (combine ks (map c (seq s (length ks)))) x = bsum (fun j => c (s + j)%nat * tpow e (x - nth j ks 0)) (length ks)).
  { induction ks as [|q ks IH]; intros s; [reflexivity|]. cbn [length seq map combine tsum]. rewrite IH, bsum_S_first. cbn [nth]. rewrite Nat.add_0_r. f_equal.
    apply bsum_ext. intros j _. replace (s + S j)%nat with (S s + j)%nat by lia. reflexivity. }
  apply (G 0%nat).
Qed.

Theorem spline_repr k ks g : (0 < k)%nat -> increasing ks -> is_spline k ks g ->
  exists a c, length a = S k /\ length c = length ks /\ forall x, g x = sp k a (combine ks c) x.
Proof.
  intros Hk I [(P & HP) S].
  set (c := fun j => jump k (nth j ks 0) (P j) (P (Datatypes.S j))).
  assert (J : forall j, (j < length ks)%nat -> forall x, polyval (P (Datatypes.S j)) x = polyval (P j) x + c j * (x - nth j ks 0) ^ k).
  { intros j Hj. destruct (HP j ltac:(lia)) as [L1 E1]. destruct (HP (Datatypes.S j) ltac:(lia)) as [L2 E2]. apply jump_poly; try assumption. intros d Hd.
    destruct (S d (nth j ks 0) Hd) as [_ C].
    set (u := if Nat.eqb j 0 then nth j ks 0 - 1 else nth (j - 1) ks 0).
    set (v := if Nat.eqb (Datatypes.S j) (length ks) then nth j ks 0 + 1 else nth (Datatypes.S j) ks 0).
    assert (Hu : u < nth j ks 0).
    { unfold u. destruct (Nat.eqb_spec j 0); [lra|]. apply (increasing_lt ks I); lia. }
    assert (Hv : nth j ks 0 < v).
    { unfold v. destruct (Nat.eqb_spec (Datatypes.S j) (length ks)); [lra|]. apply (increasing_lt ks I); lia. }
    rewrite <- (side_match g (P j) d u (nth j ks 0) (nth j ks 0)), <- (side_match g (P (Datatypes.S j)) d (nth j ks 0) v (nth j ks 0)); try assumption; try lra.
    - intros x Hx. apply E2. split; [right; replace (Datatypes.S j - 1)%nat with j by lia; lra|]. unfold v in Hx. destruct (Nat.eqb_spec (Datatypes.S j) (length ks)); [left; assumption|right; lra].
    - intros x Hx. apply E1. split; [|right; lra]. unfold u in Hx. destruct (Nat.eqb_spec j 0); [left; assumption|right; lra]. }
  assert (Sum : forall i, (i <= length ks)%nat -> forall x, polyval (P i) x = polyval (P 0%nat) x + bsum (fun j => c j * (x - nth j ks 0) ^ k) i).
  { induction i as [|i IH]; intros Hi x; [cbn; ring|]. rewrite J, IH by lia. cbn [bsum]. ring. }
  exists (P 0%nat), (map c (seq 0 (length ks))). split; [apply HP; lia|]. split; [rewrite map_length, seq_length; reflexivity|].
  intros x. destruct (piece_some ks x) as (i & Hi & Px). destruct (HP i Hi) as [_ E]. rewrite (E x Px), Sum by assumption. unfold sp. f_equal.
  rewrite tsum_combine. destruct Px as [A B]. clear -A B Hi Hk I.
  replace (length ks) with (i + (length ks - i))%nat by lia. rewrite bsum_app.
  rewrite (bsum_ext _ (fun j => c j * tpow k (x - nth j ks 0)) i).
  - rewrite (bsum_ext _ (fun _ => 0) (length ks - i)).
    + rewrite bsum_zero. ring.
    + intros j Hj. destruct B as [B|B]; [lia|]. assert (M := increasing_le ks I i (i + j) ltac:(lia)). rewrite tpow_neg by lra. ring.
  - intros j Hj. destruct A as [A|A]; [lia|]. assert (M := increasing_le ks I j (i - 1) ltac:(lia)).
    destruct (Rle_lt_or_eq_dec (nth j ks 0) x ltac:(lra)) as [H|H].
    + rewrite tpow_pos by lra. reflexivity.
    + rewrite <- H, Rminus_diag_eq by reflexivity. rewrite tpow_neg by lra. rewrite pow_i by assumption. reflexivity.
Qed.

(** ** From truncated powers to pieces *)

Lemma tpow_derive_all e q x : is_derive (fun y => tpow (S (S e)) (y - q)) x (INR (S (S e)) * tpow (S e) (x - q)).
Proof.
  destruct (Req_dec x q) as [->|N]; [|apply tpow_derive; assumption].
  rewrite Rminus_diag_eq by reflexivity. rewrite tpow_neg by lra. rewrite Rmult_0_r. apply is_derive_Reals. intros eps He.
  assert (C := tpow_cont e 0 0). destruct (C eps He) as (al & Ha & Hal). exists (mkposreal al Ha). intros h Hh Hb. cbn in Hb.
  replace (q + h - q) with h by ring. replace (q - q) with 0 by ring. rewrite (tpow_neg _ 0) by lra.
  replace ((tpow (S (S e)) h - 0) / h - 0) with (tpow (S e) (h - 0) - tpow (S e) (0 - 0)).
  - apply Hal. split; [split; [exact Logic.I|lra]|]. cbn. unfold R_dist. rewrite Rminus_0_r. exact Hb.
  - rewrite !Rminus_0_r. rewrite (tpow_neg _ 0) by lra. destruct (Rle_lt_dec h 0) as [L|L].
    + rewrite !tpow_neg by assumption. field. assumption.
    + rewrite !tpow_pos by assumption. cbn [pow]. field. assumption.
Qed.
Lemma tsum_derive_all e cs x : is_derive (tsum (S (S e)) cs) x (tsum (S e) (dcs (S (S e)) cs) x).
Proof.
  induction cs as [|[q c] cs IH]; [apply (@is_derive_const R_AbsRing R_NormedModule)|].
  cbn [tsum dcs map fst snd]. change (map (fun p : R * R => (fst p, INR (S (S e)) * snd p)) cs) with (dcs (S (S e)) cs).
  apply (@is_derive_plus R_AbsRing R_NormedModule); [|exact IH].
  replace (INR (S (S e)) * c * tpow (S e) (x - q)) with (c * (INR (S (S e)) * tpow (S e) (x - q))) by ring.
  apply is_derive_scal. apply tpow_derive_all.
Qed.
Lemma dspn_derive_all d k a cs x : (S d < k)%nat -> is_derive (dspn d k a cs) x (dspn (S d) k a cs x).
Proof.
  intros H. rewrite dspn_split, dspn_S by lia. replace (k - S d)%nat with (S (k - S (S d))) by lia.
  apply (@is_derive_plus R_AbsRing R_NormedModule); [apply polyval_pder|apply tsum_derive_all].
Qed.
Lemma sp_derive_n k a cs d : (d < k)%nat -> forall x, Derive_n (sp k a cs) d x = dspn d k a cs x.
Proof.
  induction d as [|d IH]; intros H x.
  - cbn [Derive_n]. unfold dspn. cbn. rewrite Nat.sub_0_r. reflexivity.
  - cbn [Derive_n]. rewrite (Derive_ext _ _ _ (IH ltac:(lia))). apply is_derive_unique, dspn_derive_all. assumption.
Qed.
Lemma sp_smooth k a cs d x : (d < k)%nat -> ex_derive_n (sp k a cs) d x /\ continuity_pt (Derive_n (sp k a cs) d) x.
Proof.
  intros H. split.
  - destruct d as [|d]; [exact Logic.I|]. cbn [ex_derive_n]. exists (dspn (S d) k a cs x).
    apply (is_derive_ext (dspn d k a cs)); [intros t; symmetry; apply sp_derive_n; lia|]. apply dspn_derive_all. assumption.
  - apply (continuity_pt_ext (dspn d k a cs)); [intros t; symmetry; apply sp_derive_n; assumption|]. apply dspn_cont. assumption.
Qed.

(** The polynomial of a piece. *)
Definition shifted (k : nat) (q : R) : list R := psubst 1 (- q) (repeat 0 k ++ [1]).
Lemma shifted_length k q : length (shifted k q) = S k.
Proof. unfold shifted. rewrite psubst_length, app_length, repeat_length. cbn. lia. Qed.
Lemma shifted_eval k q x : polyval (shifted k q) x = (x - q) ^ k.
Proof.
  unfold shifted. rewrite psubst_eval. replace (1 * x + - q) with (x - q) by ring. generalize (x - q). intros t.
  induction k as [|k IH]; [cbn; rnum; ring|]. cbn [repeat app polyval pow]. rewrite IH. rnum. ring.
Qed.
Fixpoint piece_coeffs (k : nat) (a : list R) (cs : list (R * R)) (i : nat) : list R :=
  match i, cs with
  | S i', (q, c) :: cs' => piece_coeffs k (vadd a (vscale (shifted k q) c)) cs' i'
  | _, _ => a
  end.
Lemma piece_coeffs_length k a cs i : length a = S k -> length (piece_coeffs k a cs i) = S k.
Proof.
  revert a i. induction cs as [|[q c] cs IH]; intros a [|i] L; try assumption. cbn [piece_coeffs]. apply IH.
  unfold vadd, vscale. rewrite map2_length, map_length, shifted_length. lia.
Qed.
Lemma piece_coeffs_eval k (ks : list R) i x : (0 < k)%nat -> increasing ks -> (i <= length ks)%nat -> piece ks i x -> forall a c, length a = S k -> length c = length ks ->
  sp k a (combine ks c) x = polyval (piece_coeffs k a (combine ks c) i) x.
Proof.
  intros Hk. revert i. induction ks as [|q ks IH]; intros i I Hi Px a c La Lc.
  - destruct c; [|discriminate]. cbn [length] in Hi. replace i with 0%nat by lia. unfold sp. cbn. ring.
  - destruct c as [|t c]; [discriminate|]. destruct i as [|i].
    + cbn [combine piece_coeffs]. unfold sp. destruct Px as [_ [H|H]]; [discriminate|]. cbn [nth] in H.
      assert (G : forall l cc, (forall y, In y l -> x <= y) -> tsum k (combine l cc) x = 0).
      { induction l as [|y l IHl]; intros [|z cc] Hl; try reflexivity. cbn [combine tsum]. rewrite IHl by (intros; apply Hl; right; assumption).
        rewrite tpow_neg by (assert (x <= y) by (apply Hl; left; reflexivity); lra). ring. }
      change ((q, t) :: combine ks c) with (combine (q :: ks) (t :: c)). rewrite G; [ring|]. intros y Hy. apply In_nth with (d := 0) in Hy as (j & Hj & <-).
      assert (M := increasing_le (q :: ks) I 0 j ltac:(lia)). cbn [nth] in M. cbn [nth]. lra.
    + cbn [combine piece_coeffs]. rewrite <- IH.
      * unfold sp. cbn [tsum]. rewrite polyval_add, polyval_scale, shifted_eval by (unfold vscale; rewrite map_length, shifted_length; assumption).
        assert (Hq : q <= x).
        { destruct Px as [[A|A] _]; [discriminate|]. replace (S i - 1)%nat with i in A by lia. assert (M := increasing_le (q :: ks) I 0 i ltac:(lia)). cbn [nth] in M. cbn [nth] in A. lra. }
        destruct (Rle_lt_or_eq_dec q x Hq) as [H|H].
        -- rewrite tpow_pos by lra. ring.
        -- rewrite <- H. rewrite tpow_neg by lra. replace (q - q) with 0 by ring. rewrite pow_i by assumption. ring.
      * intros j Hj. apply (I (S j)). cbn [length]. lia.
      * cbn [length] in Hi. lia.
      * destruct Px as [A B]. split.
        -- destruct i as [|i]; [left; reflexivity|right]. destruct A as [A|A]; [discriminate|]. cbn [Nat.sub nth] in *. rewrite ?Nat.sub_0_r in *. exact A.
        -- cbn [length nth] in B. destruct B as [B|B]; [left; lia|right; exact B].
      * unfold vadd, vscale. rewrite map2_length, map_length, shifted_length. lia.
      * cbn in Lc. lia.
Qed.

Theorem sp_is_spline k (ks a c : list R) : (0 < k)%nat -> increasing ks -> length a = S k -> length c = length ks -> is_spline k ks (sp k a (combine ks c)).
Proof.
  intros Hk I La Lc. split; [|intros d x; apply sp_smooth].
  exists (piece_coeffs k a (combine ks c)). intros i Hi. split; [apply piece_coeffs_length; assumption|]. intros x Px. apply piece_coeffs_eval; assumption.
Qed.

(** ** The interpolating spline *)

Section Unique.
  Variables (k : nat) (xs ys ws : list R).
  Hypotheses (Hk : (0 < k)%nat) (I : increasing xs) (Hn : (k < length xs)%nat) (Ly : length ys = length xs) (Lw : length ws = length xs) (Nw : forall w, In w ws -> w <> 0).
  Definition fitted : R -> R := fit_value k (fit_knots k xs) (fit_coeffs k xs ys ws).

  Theorem fitted_spline : is_spline k (fit_knots k xs) fitted.
  Proof.
    destruct (fit_ok k xs Hk I Hn ys ws Ly Lw Nw) as (L & _ & _).
    destruct (split_coeffs k xs Hk Hn (fit_coeffs k xs ys ws)) as (a & c & E & La & Lc); [rewrite L; symmetry; apply dim_eq; assumption|].
    assert (S := sp_is_spline k (fit_knots k xs) a c Hk (knots_increasing k xs Hk I Hn) La Lc).
    assert (F : forall x, fitted x = sp k a (combine (fit_knots k xs) c) x).
    { intros x. unfold fitted, fit_value. rewrite E. apply (basis_dot k xs Hk Hn); assumption. }
    destruct S as [(P & HP) S]. split.
    - exists P. intros i Hi. destruct (HP i Hi) as [A B]. split; [exact A|]. intros x Px. rewrite F. apply B, Px.
    - intros d x Hd. destruct (S d x Hd) as [A B]. split.
      + apply (ex_derive_n_ext _ _ _ _ (fun t => eq_sym (F t))). exact A.
      + apply (continuity_pt_ext (Derive_n (sp k a (combine (fit_knots k xs) c)) d)); [|exact B]. intros t. apply Derive_n_ext. intros u. symmetry. apply F.
  Qed.
  Theorem fitted_at i : (i < length xs)%nat -> fitted (nth i xs 0) = nth i ys 0.
  Proof. apply (fit_ok k xs Hk I Hn ys ws Ly Lw Nw). Qed.
  Theorem fitted_unique g : is_spline k (fit_knots k xs) g -> (forall i, (i < length xs)%nat -> g (nth i xs 0) = nth i ys 0) -> forall x, g x = fitted x.
  Proof.
    intros G H x. destruct (spline_repr k (fit_knots k xs) g Hk (knots_increasing k xs Hk I Hn) G) as (a & c & La & Lc & E).
    destruct (fit_ok k xs Hk I Hn ys ws Ly Lw Nw) as (_ & _ & U).
    unfold fitted. rewrite <- (U (a ++ c)).
    - unfold fit_value. rewrite (basis_dot k xs Hk Hn) by assumption. apply E.
    - rewrite app_length, La, Lc, knots_length. lia.
    - intros i Hi. unfold fit_value. rewrite (basis_dot k xs Hk Hn) by assumption. rewrite <- E. apply H. assumption.
  Qed.
End Unique.
