(** Property C87: the 'spline' interpolator without smoothing. *)
From Coq Require Import ZArith String List Bool Arith Lia FunctionalExtensionality QArith Reals Lra Psatz.
From Coquelicot Require Import Hierarchy Derive Continuity.
From Verif Require Import Num Py Numeric Curve Vec Geom DiffGeom Intersect Registry Interp Splines Splines2 Csaps Savgol FitSpline Spec GeomSpec Fixtures.
From Verif Require Import ListFacts ArrayProofs VecFacts CurveProofs CurveProofs2 CurveProofs3 CurvesProofs GeomProofs SmoothProofs InterpProofs InterpProofs2 InterpProofs3.
From Verif Require Import SplineProofs SplineProofs2 SplineProofs4 SplineProofs5 CsapsProofs CsapsProofs3 AverageProofs SavgolProofs SavgolProofs2 FitProofs FitProofs2 FitProofs3.
From Verif Require Import Properties_Container Properties_Interp Properties_Splines Properties_Splines2 Properties_Splines4 Properties_Affine.
Import ListNotations.
Local Open Scope string_scope.
Local Open Scope list_scope.
Local Open Scope R_scope.

(** ** Specification *)

(** a_0 + a_1 x + a_2 x^2 + ... *)
Definition poly (a : list R) (x : R) : R := bsum (fun m => nth m a 0 * x ^ m) (length a).

(** The interior knots for degree k: all samples but the first and last
    (k + 1) / 2 for an odd degree, midpoints between samples for an even one. *)
Definition knots_of (k : nat) (xs ks : list R) : Prop :=
  length ks = (length xs - k - 1)%nat /\
  forall h l, (l < length ks)%nat ->
    (k = (2 * h + 1)%nat -> nth l ks 0 = nth (l + h + 1) xs 0) /\
    (k = (2 * h)%nat -> nth l ks 0 = (nth (l + h) xs 0 + nth (l + h + 1) xs 0) / 2).

(** A spline of degree k with these knots: between neighbouring knots, before the
    first and after the last one a polynomial of degree at most k; k - 1
    continuous derivatives everywhere. *)
Definition smooth_pieces (k : nat) (ks : list R) (g : R -> R) : Prop :=
  (forall i, (i <= length ks)%nat -> exists a, length a = S k /\
     forall x, (i = 0%nat \/ nth (i - 1) ks 0 <= x) -> (i = length ks \/ x <= nth i ks 0) -> g x = poly a x) /\
  (forall d x, (d < k)%nat -> ex_derive_n g d x /\ continuity_pt (Derive_n g d) x).

(** The one spline through the samples. *)
Definition the_spline (k : nat) (xs ys : list R) (g : R -> R) : Prop :=
  exists ks, knots_of k xs ks /\
    let spec h := smooth_pieces k ks h /\ forall i, (i < length xs)%nat -> h (nth i xs 0) = nth i ys 0 in
    spec g /\ forall h, spec h -> forall x, h x = g x.

(** What the values of ext mean. *)
Definition means (e : xarg) (m : xmode) : Prop :=
  match m with
  | XExtrapolate => e = XInt 0 \/ e = XName "extrapolate"
  | XZeros => e = XInt 1 \/ e = XName "zeros"
  | XRaise => e = XInt 2 \/ e = XName "raise"
  | XConst => e = XInt 3 \/ e = XName "const"
  end.

Definition weights_nonzero (w : option (list R)) : Prop := forall l x, w = Some l -> In x l -> x <> 0.

(** ** Facts *)

Lemma poly_polyval a x : poly a x = polyval a x.
Proof.
  symmetry. rewrite polyval_sum. unfold poly.
  apply vsum_seq.
Qed.

Lemma finite_choice {A} (Q : nat -> A -> Prop) (d : A) n : (forall i, (i < n)%nat -> exists a, Q i a) -> exists f, forall i, (i < n)%nat -> Q i (f i).
Proof.
  induction n as [|n IH]; intros H; [exists (fun _ => d); intros; lia|].
  destruct IH as (f & Hf); [intros; apply H; lia|]. destruct (H n ltac:(lia)) as (a & Ha).
  exists (fun i => if Nat.eqb i n then a else f i). intros i Hi. destruct (Nat.eqb_spec i n); [subst; exact Ha|apply Hf; lia].
Qed.
Lemma smooth_pieces_iff k ks g : smooth_pieces k ks g <-> is_spline k ks g.
Proof.
  split; intros [P S]; (split; [|exact S]).
  - destruct (finite_choice (fun i a => length a = Datatypes.S k /\ forall x, piece ks i x -> g x = polyval a x) [] (Datatypes.S (length ks))) as (f & Hf).
    + intros i Hi. destruct (P i ltac:(lia)) as (a & La & Ha). exists a. split; [exact La|]. intros x [A B]. rewrite <- poly_polyval. apply Ha; assumption.
    + exists f. intros i Hi. apply Hf. lia.
  - destruct P as (P & HP). intros i Hi. destruct (HP i Hi) as [L E]. exists (P i). split; [exact L|]. intros x A B. rewrite poly_polyval. apply E. split; assumption.
Qed.
Lemma knots_of_fit k xs ks : (k < length xs)%nat -> (knots_of k xs ks <-> ks = fit_knots k xs).
Proof.
  intros Hn. assert (F : knots_of k xs (fit_knots k xs)).
  { split; [rewrite knots_length; lia|]. intros h l Hl. rewrite knots_length in Hl. rewrite knot_nth by assumption. assert (E := half_k k). split; intros Ek.
    - assert (O : Nat.odd k = true) by (apply Nat.odd_spec; exists h; assumption). rewrite O in E |- *. assert (Eh : (k / 2 = h)%nat) by lia. rewrite Eh. replace (h + 1 + l)%nat with (l + h + 1)%nat by lia. reflexivity.
    - assert (O : Nat.odd k = false) by (rewrite <- Nat.negb_even; apply negb_false_iff, Nat.even_spec; exists h; assumption). rewrite O in E |- *.
      replace (k / 2 + 1 + l)%nat with (l + h + 1)%nat by lia. replace (k / 2 + l)%nat with (l + h)%nat by lia. lra. }
  split; [|intros ->; exact F]. intros [L1 K1]. destruct F as [L2 K2]. apply (nth_ext _ _ 0 0); [congruence|]. intros l Hl.
  destruct (Nat.Even_or_Odd k) as [(h & Eh)|(h & Eh)].
  - rewrite (proj2 (K1 h l Hl) Eh), (proj2 (K2 h l ltac:(lia)) Eh). reflexivity.
  - rewrite (proj1 (K1 h l Hl) Eh), (proj1 (K2 h l ltac:(lia)) Eh). reflexivity.
Qed.
Lemma the_spline_fitted k xs ys ws : (0 < k)%nat -> increasing xs -> (k < length xs)%nat -> length ys = length xs -> length ws = length xs ->
  (forall w, In w ws -> w <> 0) -> the_spline k xs ys (fitted k xs ys ws).
Proof.
  intros Hk I Hn Ly Lw Nw. exists (fit_knots k xs). split; [apply knots_of_fit; [assumption|reflexivity]|]. split.
  - split; [apply smooth_pieces_iff, fitted_spline; assumption|]. intros i. apply fitted_at; assumption.
  - intros h [S V] x. apply fitted_unique; try assumption. apply smooth_pieces_iff. exact S.
Qed.
Lemma the_spline_unique k xs ys g h : (k < length xs)%nat -> the_spline k xs ys g -> the_spline k xs ys h -> forall x, g x = h x.
Proof.
  intros Hn (ks & K & Sg & _) (ks' & K' & _ & U) x. apply knots_of_fit in K; [|assumption]. apply knots_of_fit in K'; [|assumption]. subst. apply U. exact Sg.
Qed.

Lemma means_iff e m : xmode_of e = Ok m <-> means e m.
Proof.
  destruct e as [z|s]; cbn [xmode_of].
  - repeat match goal with |- context [Z.eqb z ?k] => destruct (Z.eqb_spec z k) as [->|?] end; destruct m; cbn [means]; split; intros H; try congruence; try tauto;
      try (left; congruence); destruct H as [H|H]; congruence.
  - repeat match goal with |- context [String.eqb s ?k] => destruct (String.eqb_spec s k) as [->|?] end; destruct m; cbn [means]; split; intros H; try congruence; try tauto;
      try (right; congruence); destruct H as [H|H]; congruence.
Qed.
Lemma strict_diff xs : existsb (fun d => negb (n0 <? d)%num) (diff xs) = false <-> increasing xs.
Proof.
  rewrite <- (positive_diff_iff xs). rewrite <- (negb_involutive (existsb _ _)), negb_false_iff.
  assert (E : forall l : list R, negb (existsb (fun d => negb (n0 <? d)%num) l) = forallb (fun d => (n0 <? d)%num) l).
  { induction l as [|d l IH]; [reflexivity|]. cbn [existsb forallb]. rewrite negb_orb, negb_involutive, IH. reflexivity. }
  rewrite E. reflexivity.
Qed.

(** The arguments and curves for which the splines exist. *)
Definition fit_args (junk : R) (k : Z) (w : option (list R)) (ext : xarg) (c : curve R) : Prop :=
  increasing (c_tval junk c) /\ weights_fit w (c_size c) /\ (1 <= k <= 5)%Z /\ (exists m, means ext m) /\ (k < Z.of_nat (c_size c))%Z.

Definition fit_weights (w : option (list R)) (n : nat) : list R := match w with Some w' => w' | None => repeat 1 n end.
Lemma fit_weights_ok w n : weights_fit w n -> length (fit_weights w n) = n.
Proof. intros H. destruct w as [l|]; [apply H; reflexivity|apply repeat_length]. Qed.
Lemma fit_weights_nonzero w n : weights_nonzero w -> forall x, In x (fit_weights w n) -> x <> 0.
Proof. intros H x Hx. destruct w as [l|]; [apply (H l x eq_refl Hx)|]. apply repeat_spec in Hx. lra. Qed.

Lemma univariate_eq smoothing k w ext m (xs ys : list R) : increasing xs -> length ys = length xs -> weights_fit w (length xs) -> (1 <= k <= 5)%Z -> means ext m ->
  (k < Z.of_nat (length xs))%Z -> univariate smoothing k 0 w ext xs ys =
  Ok (splev m (nth 0 xs 0) (nth (length xs - 1) xs 0) (fitted (Z.to_nat k) xs ys (fit_weights w (length xs)))).
Proof.
  intros I L Hw Hk Hm Hn. unfold univariate. change (nltb n0 0) with (Rltb 0 0).
  assert (E0 : Rltb 0 0 = false) by (unfold Rltb; destruct (Rlt_dec 0 0); [lra|reflexivity]). rewrite E0. rewrite (proj2 (strict_diff xs) I).
  rewrite L, Nat.eqb_refl. cbn [negb].
  assert (Ew : match w with Some w' => negb (Nat.eqb (length w') (length xs)) | None => false end = false).
  { destruct w as [l|]; [|reflexivity]. rewrite (Hw l eq_refl), Nat.eqb_refl. reflexivity. }
  rewrite Ew. rewrite (proj2 (Z.leb_le 1 k)), (proj2 (Z.leb_le k 5)) by lia. cbn [andb negb].
  assert (E1 : negb (n0 <=? (0 : R))%num = false) by (change (nleb n0 0) with (Rleb 0 0); unfold Rleb; destruct (Rle_dec 0 0); [reflexivity|lra]).
  rewrite E1. rewrite (proj2 (means_iff ext m) Hm). cbn [rbind]. destruct (Nat.leb_spec (length xs) (Z.to_nat k)) as [H|H]; [lia|]. reflexivity.
Qed.
Lemma univariate_fails smoothing k w ext (xs ys : list R) f : length ys = length xs -> univariate smoothing k 0 w ext xs ys = Ok f ->
  increasing xs /\ weights_fit w (length xs) /\ (1 <= k <= 5)%Z /\ (exists m, means ext m) /\ (k < Z.of_nat (length xs))%Z.
Proof.
  intros L. unfold univariate. change (nltb n0 0) with (Rltb 0 0).
  assert (E0 : Rltb 0 0 = false) by (unfold Rltb; destruct (Rlt_dec 0 0); [lra|reflexivity]). rewrite E0.
  destruct (existsb _ (diff xs)) eqn:Ed; [discriminate|]. apply strict_diff in Ed. rewrite L, Nat.eqb_refl. cbn [negb].
  destruct (match w with Some w' => negb (Nat.eqb (length w') (length xs)) | None => false end) eqn:Ew; [discriminate|].
  destruct (negb ((1 <=? k)%Z && (k <=? 5)%Z)) eqn:Ek; [discriminate|]. apply negb_false_iff, andb_true_iff in Ek as [K1 K2]. apply Z.leb_le in K1, K2.
  destruct (negb _); [discriminate|]. destruct (xmode_of ext) as [m|e] eqn:Em; [|discriminate]. cbn [rbind].
  destruct (Nat.leb_spec (length xs) (Z.to_nat k)) as [H|H]; [discriminate|]. intros _. split; [exact Ed|]. split.
  - intros l ->. apply negb_false_iff, Nat.eqb_eq in Ew. exact Ew.
  - split; [lia|]. split; [exists m; apply means_iff; exact Em|lia].
Qed.

(** The interpolator can be created exactly for valid arguments; otherwise
    InterpolationError, whatever the grid. *)
Theorem C87_spline_iff : forall junk few smoothing k w ext (r : registry (icreate R)) name (c : curve R),
  wf c -> c_rows c <> [] -> reg_find r name = Some (fit_spline junk smoothing k 0 w ext) ->
  ((exists f, get_interpolator r name c = Ok f) <-> fit_args junk k w ext c) /\
  (~ fit_args junk k w ext c -> forall s, interpolate junk few r name c s = Raise InterpolationError).
Proof.
  intros junk few smoothing k w ext r name c W N F. assert (L := tval_length junk c W N).
  assert (A : (exists f, fit_spline junk smoothing k 0 w ext c = Ok f) <-> fit_args junk k w ext c).
  { unfold fit_spline, spline. split.
    - intros [f E]. destruct (rseq (map (univariate smoothing k 0 w ext (c_tval junk c)) (c_values_all c))) as [fs|e] eqn:Es; [|discriminate].
      apply rseq_ok_iff in Es. unfold c_values_all in Es. destruct W as [W _]. destruct (c_ndim c) as [|n] eqn:En; [lia|]. cbn [seq map] in Es.
      destruct fs as [|f0 fs]; [discriminate|]. cbn [map] in Es. injection Es as Es _. apply univariate_fails in Es; [|rewrite map_length; symmetry; exact L].
      unfold fit_args. rewrite <- L. exact Es.
    - intros (I & Hw & Hk & (m & Hm) & Hn). rewrite <- L in Hw, Hn.
      rewrite (proj2 (rseq_ok_iff _ (map (fun ys => splev m (nth 0 (c_tval junk c) 0) (nth (length (c_tval junk c) - 1) (c_tval junk c) 0)
        (fitted (Z.to_nat k) (c_tval junk c) ys (fit_weights w (length (c_tval junk c))))) (c_values_all c)))).
      + eexists. reflexivity.
      + rewrite map_map. apply map_ext_in. intros ys Hy. unfold c_values_all in Hy. apply in_map_iff in Hy as (j & <- & _).
        apply univariate_eq; try assumption. rewrite map_length. symmetry. exact L. }
  unfold interpolate, get_interpolator. rewrite F. split.
  - rewrite <- A. destruct (fit_spline junk smoothing k 0 w ext c); split; intros [f E]; try discriminate; eexists; reflexivity.
  - intros H s. destruct (fit_spline junk smoothing k 0 w ext c) eqn:E; [|reflexivity]. exfalso. apply H, A. eexists. reflexivity.
Qed.
Print Assumptions C87_spline_iff.

(** A negative smoothing factor is refused. *)
Theorem C87_negative : forall junk few smoothing k smooth w ext (r : registry (icreate R)) name (c : curve R) s,
  wf c -> c_rows c <> [] -> smooth < 0 -> reg_find r name = Some (fit_spline junk smoothing k smooth w ext) ->
  interpolate junk few r name c s = Raise InterpolationError.
Proof.
  intros junk few smoothing k smooth w ext r name c s W N H F. unfold interpolate, get_interpolator. rewrite F.
  destruct (fit_spline junk smoothing k smooth w ext c) as [f|e] eqn:E; [exfalso|reflexivity]. unfold fit_spline, spline in E.
  destruct (rseq (map (univariate smoothing k smooth w ext (c_tval junk c)) (c_values_all c))) as [fs|e] eqn:Es; [|discriminate].
  apply rseq_ok_iff in Es. unfold c_values_all in Es. destruct W as [W _]. destruct (c_ndim c) as [|n] eqn:En; [lia|]. cbn [seq map] in Es.
  destruct fs as [|f0 fs]; [discriminate|]. cbn [map] in Es. injection Es as Es _. unfold univariate in Es.
  assert (Z : negb (n0 <=? smooth)%num = true) by (change (nleb n0 smooth) with (Rleb 0 smooth); unfold Rleb; destruct (Rle_dec 0 smooth); [lra|reflexivity]).
  rewrite Z in Es. repeat match type of Es with (if ?b then _ else _) = _ => destruct b; try discriminate Es end.
Qed.
Print Assumptions C87_negative.

(** With a positive smoothing factor (the fit itself is an oracle): repeated
    parameters are accepted, decreasing ones are not. *)
Lemma weak_diff (xs : list R) : existsb (fun d => negb (n0 <=? d)%num) (diff xs) = false <-> forall i, (S i < length xs)%nat -> nth i xs 0 <= nth (S i) xs 0.
Proof.
  induction xs as [|a [|b xs] IH]; [split; [cbn; intros; lia|reflexivity]..|].
  cbn [diff existsb]. rewrite orb_false_iff, IH, negb_false_iff. change (nleb n0 (b - a)%num) with (Rleb 0 (b - a)). rewrite Rleb_iff. split.
  - intros [H1 H2] [|i] Hi; [cbn; lra|]. apply (H2 i). cbn in *. lia.
  - intros H. split; [specialize (H 0%nat ltac:(cbn; lia)); cbn in H; lra|]. intros i Hi. apply (H (S i)). cbn in *. lia.
Qed.
Lemma univariate_smooth smoothing k smooth w ext (xs ys : list R) : length ys = length xs -> 0 < smooth ->
  (exists f, univariate smoothing k smooth w ext xs ys = Ok f) <->
  (forall i, (S i < length xs)%nat -> nth i xs 0 <= nth (S i) xs 0) /\ weights_fit w (length xs) /\ (1 <= k <= 5)%Z /\ (exists m, means ext m) /\
  (k < Z.of_nat (length xs))%Z /\ exists f, smoothing (Z.to_nat k) smooth (fit_weights w (length xs)) xs ys = Ok f.
Proof.
  intros L Hs. unfold univariate. change (nltb n0 smooth) with (Rltb 0 smooth). rewrite (proj2 (Rltb_iff 0 smooth) Hs).
  change (nleb n0 smooth) with (Rleb 0 smooth). rewrite (proj2 (Rleb_iff 0 smooth)) by lra. rewrite L, Nat.eqb_refl. cbn [negb].
  change (match w with Some w' => w' | None => repeat n1 (length xs) end) with (fit_weights w (length xs)).
  rewrite <- weak_diff. split.
  - intros [f E]. destruct (existsb _ (diff xs)); [discriminate|].
    destruct (match w with Some w' => negb (Nat.eqb (length w') (length xs)) | None => false end) eqn:Ew; [discriminate|].
    destruct (negb ((1 <=? k)%Z && (k <=? 5)%Z)) eqn:Ek; [discriminate|]. apply negb_false_iff, andb_true_iff in Ek as [K1 K2]. apply Z.leb_le in K1, K2.
    destruct (xmode_of ext) as [m|e] eqn:Em; [|discriminate]. cbn [rbind] in E.
    destruct (Nat.leb_spec (length xs) (Z.to_nat k)) as [H|H]; [discriminate|]. split; [reflexivity|]. split.
    { intros l ->. apply negb_false_iff, Nat.eqb_eq in Ew. exact Ew. }
    split; [lia|]. split; [exists m; apply means_iff; exact Em|]. split; [lia|].
    destruct (smoothing _ _ _ _ _) as [g|]; [eexists; reflexivity|discriminate].
  - intros (-> & Hw & Hk & (m & Hm) & Hn & f & Ef).
    assert (Ew : match w with Some w' => negb (Nat.eqb (length w') (length xs)) | None => false end = false).
    { destruct w as [l|]; [|reflexivity]. rewrite (Hw l eq_refl), Nat.eqb_refl. reflexivity. }
    rewrite Ew. rewrite (proj2 (Z.leb_le 1 k)), (proj2 (Z.leb_le k 5)) by lia. cbn [andb negb]. rewrite (proj2 (means_iff ext m) Hm). cbn [rbind].
    destruct (Nat.leb_spec (length xs) (Z.to_nat k)) as [H|H]; [lia|]. rewrite Ef. eexists. reflexivity.
Qed.
Theorem C87_smoothing_iff : forall junk smoothing k smooth w ext (r : registry (icreate R)) name (c : curve R),
  wf c -> c_rows c <> [] -> 0 < smooth -> reg_find r name = Some (fit_spline junk smoothing k smooth w ext) ->
  let t := c_tval junk c in
  (exists f, get_interpolator r name c = Ok f) <->
  (forall i, (S i < c_size c)%nat -> nth i t 0 <= nth (S i) t 0) /\ weights_fit w (c_size c) /\ (1 <= k <= 5)%Z /\ (exists m, means ext m) /\
  (k < Z.of_nat (c_size c))%Z /\
  forall j, (j < c_ndim c)%nat -> exists f, smoothing (Z.to_nat k) smooth (fit_weights w (c_size c)) t (map (fun p => nth j p 0) (c_rows c)) = Ok f.
Proof.
  intros junk smoothing k smooth w ext r name c W N Hs F t. assert (L := tval_length junk c W N). fold t in L.
  assert (U := fun j => univariate_smooth smoothing k smooth w ext t (map (fun p => nth j p 0) (c_rows c)) ltac:(rewrite map_length; symmetry; exact L) Hs).
  rewrite L in U.
  assert (A : (exists f, get_interpolator r name c = Ok f) <-> forall j, (j < c_ndim c)%nat -> exists f, univariate smoothing k smooth w ext t (map (fun p => nth j p 0) (c_rows c)) = Ok f).
  { unfold get_interpolator. rewrite F. unfold fit_spline, spline. fold t.
    assert (B : (exists fs, rseq (map (univariate smoothing k smooth w ext t) (c_values_all c)) = Ok fs) <->
                forall j, (j < c_ndim c)%nat -> exists f, univariate smoothing k smooth w ext t (map (fun p => nth j p 0) (c_rows c)) = Ok f).
    { unfold c_values_all. rewrite map_map. split.
      - intros [fs E] j Hj. apply rseq_ok_iff in E. exists (nth j fs (fun _ => Raise OtherError)).
        assert (Q := f_equal (@length _) E). rewrite !map_length, seq_length in Q.
        apply (f_equal (fun l => nth j l (Raise OtherError))) in E.
        rewrite (nth_map_in _ (seq 0 (c_ndim c)) j 0%nat) in E by (rewrite seq_length; assumption). rewrite seq_nth in E by assumption.
        rewrite (nth_map_in Ok fs j (fun _ => Raise OtherError)) in E by lia. exact E.
      - intros H. destruct (finite_choice (fun j f => univariate smoothing k smooth w ext t (map (fun p => nth j p 0) (c_rows c)) = Ok f) (fun _ => Raise OtherError) (c_ndim c) H) as (f & Hf).
        exists (map f (seq 0 (c_ndim c))). apply rseq_ok_iff. rewrite map_map. apply map_ext_in. intros j Hj. apply in_seq in Hj. apply Hf. lia. }
    rewrite <- B. destruct (rseq _) as [fs|e]; split; intros [f E]; try discriminate; eexists; reflexivity. }
  rewrite A. split.
  - intros H. destruct (proj1 (U 0%nat) (H 0%nat ltac:(destruct W; lia))) as (H1 & H2 & H3 & H4 & H5 & _). repeat split; try assumption; try lia.
    intros j Hj. exact (proj2 (proj2 (proj2 (proj2 (proj2 (proj1 (U j) (H j Hj))))))).
  - intros (H1 & H2 & H3 & H4 & H5 & H6) j Hj. apply U. repeat split; try assumption; try lia. apply H6. exact Hj.
Qed.
Print Assumptions C87_smoothing_iff.
(** A curve that stops: its second parameter is repeated. *)
Example C87_smoothing_ex : let c := mkCurve [[0; 0]; [1; 1]; [1; 1]; [2; 0]] 2 DFloat (Some [0; 1; 1; 2]) in
  wf c /\ (exists f, get_interpolator [("spline", fit_spline 0 (fun _ _ _ _ _ => Ok (fun x => x)) 3 (/ 2) None (XInt 0))] "spline" c = Ok f) /\
  ~ fit_args 0 3 None (XInt 0) c.
Proof.
  set (c := mkCurve _ _ _ _). assert (W : wf c).
  { split; [|split]; cbn; [lia| |intros t H; injection H as <-; reflexivity]. intros p Hp; repeat (destruct Hp as [<-|Hp]; [reflexivity|]); destruct Hp. }
  split; [exact W|]. split.
  - apply (C87_smoothing_iff 0 (fun _ _ _ _ _ => Ok (fun x => x)) 3 (/ 2) None (XInt 0) _ "spline" c W); [discriminate|lra|reflexivity|].
    split; [intros [|[|[|i]]] Hi; cbn in *; try lra; lia|]. split; [intros l Hl; discriminate|]. split; [lia|].
    split; [exists XExtrapolate; left; reflexivity|]. split; [cbn; lia|]. intros j Hj. eexists. reflexivity.
  - intros [I _]. specialize (I 1%nat ltac:(cbn; lia)). cbn in I. lra.
Qed.

(** The result: every coordinate is the value of the one spline of degree k
    through the samples.  Outside of the parameters the end pieces are continued,
    or the value is zero, or that of the first or last point. *)
Theorem C87_spline : forall junk few smoothing k w ext m (r : registry (icreate R)) name (c : curve R) s g,
  wf c -> (2 <= c_size c)%nat -> fit_args junk k w ext c -> weights_nonzero w -> means ext m ->
  reg_find r name = Some (fit_spline junk smoothing k 0 w ext) -> get_grid junk few c s = Ok g ->
  (m = XRaise -> forall v, In v g -> inside (c_tval junk c) v) ->
  exists (f : nat -> R -> R) rows,
    (forall j, (j < c_ndim c)%nat -> the_spline (Z.to_nat k) (c_tval junk c) (map (fun p => nth j p 0) (c_rows c)) (f j)) /\
    interpolate junk few r name c s
      = Ok (mkCurve (map (map (cast (c_dtype c))) rows) (c_ndim c) (c_dtype c) (if isparametric c then Some g else None)) /\
    length rows = length g /\ dims (c_ndim c) rows /\
    forall i j, (i < length g)%nat -> (j < c_ndim c)%nat ->
      (m = XExtrapolate \/ inside (c_tval junk c) (nth i g 0) -> nth j (nth i rows []) 0 = f j (nth i g 0)) /\
      (m = XZeros -> ~ inside (c_tval junk c) (nth i g 0) -> nth j (nth i rows []) 0 = 0) /\
      (m = XConst -> nth i g 0 < nth 0 (c_tval junk c) 0 -> nth j (nth i rows []) 0 = nth j (nth 0 (c_rows c) []) 0) /\
      (m = XConst -> nth (c_size c - 1) (c_tval junk c) 0 < nth i g 0 -> nth j (nth i rows []) 0 = nth j (nth (c_size c - 1) (c_rows c) []) 0).
Proof.
  intros junk few smoothing k w ext m r name c s g W H (I & Hw & Hk & _ & Hn) Nw Hm F G Hr.
  assert (N := size_nonempty c ltac:(lia)). assert (L := tval_length junk c W N).
  set (xs := c_tval junk c) in *. set (col := fun j => map (fun p => nth j p 0) (c_rows c)).
  assert (Lc : forall j, length (col j) = length xs) by (intros j; unfold col; rewrite map_length; symmetry; exact L).
  set (f := fun j => fitted (Z.to_nat k) xs (col j) (fit_weights w (length xs))).
  assert (S : forall j, the_spline (Z.to_nat k) xs (col j) (f j)).
  { intros j. apply the_spline_fitted; try assumption; try lia; [apply Lc|apply fit_weights_ok; rewrite L; assumption|apply fit_weights_nonzero; assumption]. }
  set (tb := nth 0 xs 0). set (te := nth (length xs - 1) xs 0).
  set (out := fun v : R => ((v <? tb) || (te <? v))%num).
  assert (Out : forall v, out v = false <-> inside xs v).
  { intros v. unfold out, inside. change (nltb v tb) with (Rltb v tb). change (nltb te v) with (Rltb te v). fold tb te.
    unfold Rltb. destruct (Rlt_dec v tb), (Rlt_dec te v); cbn; split; intros; try discriminate; try reflexivity; lra. }
  set (at_ := fun (h : R -> R) (v : R) => match m with XExtrapolate | XRaise => h v | XZeros => if out v then 0 else h v
                | XConst => h (if (v <? tb)%num then tb else if (te <? v)%num then te else v) end).
  assert (Sv : forall h, splev m tb te h g = Ok (map (at_ h) g)).
  { intros h. unfold splev, at_. destruct m; try reflexivity. assert (E : existsb (fun x : R => ((x <? tb) || (te <? x))%num) g = false); [|rewrite E; reflexivity].
    destruct (existsb _ g) eqn:E; [|reflexivity]. apply existsb_exists in E as (v & Hv & Ev). fold (out v) in Ev. rewrite (proj2 (Out v) (Hr eq_refl v Hv)) in Ev. discriminate. }
  destruct (C69_spline junk few (univariate smoothing k 0 w ext) r name c s g (fun j => splev m tb te (f j)) (fun j => map (at_ (f j)) g) W H F G) as (rows & Er & Lr & Dr & A).
  { intros j Hj. split; [|split; [apply Sv|left; apply map_length]]. apply univariate_eq; try assumption; fold xs; rewrite ?L; try assumption. rewrite <- L. apply Lc. }
  exists f, rows. split; [intros j Hj; apply S|]. split; [exact Er|]. split; [exact Lr|]. split; [exact Dr|]. intros i j Hi Hj.
  destruct (A i j Hi Hj) as [A1 _]. rewrite A1 by apply map_length. rewrite (nth_map_in (at_ (f j)) g i 0 0 Hi). set (v := nth i g 0).
  assert (Ends : tb <= te) by (apply increasing_le; [assumption|lia]).
  assert (B : Rltb v tb = true <-> v < tb) by apply Rltb_iff. assert (B' : Rltb te v = true <-> te < v) by apply Rltb_iff.
  assert (V : forall q, (q < length xs)%nat -> f j (nth q xs 0) = nth j (nth q (c_rows c) []) 0).
  { intros q Hq. destruct (S j) as (ks & _ & (_ & Sp) & _). rewrite Sp by assumption. unfold col. apply (nth_map_in (fun p => nth j p 0) (c_rows c) q [] 0). unfold c_size in L. lia. }
  unfold at_. split; [|split; [|split]].
  - intros [->|Hv]; [reflexivity|]. destruct m; try reflexivity; [rewrite (proj2 (Out v) Hv); reflexivity|].
    change (nltb v tb) with (Rltb v tb). change (nltb te v) with (Rltb te v). destruct Hv as [H1 H2]. fold tb in H1. fold te in H2.
    destruct (Rltb v tb); [assert (v < tb) by (apply B; reflexivity); lra|]. destruct (Rltb te v); [assert (te < v) by (apply B'; reflexivity); lra|]. reflexivity.
  - intros -> Hv. destruct (out v) eqn:E; [reflexivity|]. exfalso. apply Hv, Out, E.
  - intros -> Hv. change (nltb v tb) with (Rltb v tb). rewrite (proj2 B Hv). apply V. lia.
  - intros -> Hv. change (nltb v tb) with (Rltb v tb). change (nltb te v) with (Rltb te v). rewrite <- L in Hv. fold te in Hv.
    destruct (Rltb v tb); [assert (v < tb) by (apply B; reflexivity); lra|]. rewrite (proj2 B' Hv). rewrite <- L. apply V. lia.
Qed.
Print Assumptions C87_spline.

(** 'raise': a grid with a value outside of the parameters is refused. *)
Theorem C87_raise : forall junk few smoothing k w ext (r : registry (icreate R)) name (c : curve R) s g v,
  wf c -> (2 <= c_size c)%nat -> fit_args junk k w ext c -> means ext XRaise ->
  reg_find r name = Some (fit_spline junk smoothing k 0 w ext) -> get_grid junk few c s = Ok g -> In v g -> ~ inside (c_tval junk c) v ->
  interpolate junk few r name c s = Raise InterpolationError.
Proof.
  intros junk few smoothing k w ext r name c s g v W H (I & Hw & Hk & _ & Hn) Hm F G Hv Ho.
  assert (N := size_nonempty c ltac:(lia)). assert (L := tval_length junk c W N).
  apply (C69_spline_errors junk few (univariate smoothing k 0 w ext) r name c s g 0%nat W H); [destruct W; lia|exact F|exact G|]. right.
  eexists. split; [apply (univariate_eq smoothing k w ext XRaise); try assumption; rewrite ?map_length, ?L; try assumption; reflexivity|]. left.
  unfold splev. destruct (existsb _ g) eqn:E; [eexists; reflexivity|]. exfalso. apply Ho.
  assert (E' : forall x, In x g -> ((x <? nth 0 (c_tval junk c) 0) || (nth (length (c_tval junk c) - 1) (c_tval junk c) 0 <? x))%num = false).
  { intros x Hx. destruct ((x <? nth 0 (c_tval junk c) 0) || (nth (length (c_tval junk c) - 1) (c_tval junk c) 0 <? x))%num eqn:Ex; [|reflexivity].
    assert (existsb (fun x : R => ((x <? nth 0 (c_tval junk c) 0) || (nth (length (c_tval junk c) - 1) (c_tval junk c) 0 <? x))%num) g = true) by (apply existsb_exists; exists x; auto). congruence. }
  specialize (E' v Hv). apply orb_false_iff in E' as [E1 E2]. split.
  - destruct (Rle_lt_dec (nth 0 (c_tval junk c) 0) v) as [|B]; [assumption|]. apply Rltb_iff in B. unfold nltb in E1. cbn [RNum] in E1. congruence.
  - destruct (Rle_lt_dec v (nth (length (c_tval junk c) - 1) (c_tval junk c) 0)) as [|B]; [assumption|]. apply Rltb_iff in B. unfold nltb in E2. cbn [RNum] in E2. congruence.
Qed.
Print Assumptions C87_raise.

(** The points of the curve are reproduced, with every ext. *)
Theorem C87_points : forall junk few smoothing k w ext (r : registry (icreate R)) name (c c' : curve R) s g,
  wf c -> (2 <= c_size c)%nat -> fit_args junk k w ext c -> weights_nonzero w -> c_dtype c = DFloat ->
  reg_find r name = Some (fit_spline junk smoothing k 0 w ext) -> get_grid junk few c s = Ok g ->
  interpolate junk few r name c s = Ok c' ->
  forall i q, (i < length g)%nat -> (q < c_size c)%nat -> nth i g 0 = nth q (c_tval junk c) 0 ->
    nth i (c_rows c') [] = nth q (c_rows c) [].
Proof.
  intros junk few smoothing k w ext r name c c' s g W H Ar Nw Dt F G E i q Hi Hq Eg.
  assert (N := size_nonempty c ltac:(lia)). assert (L := tval_length junk c W N).
  destruct Ar as (I & Hw & Hk & (m & Hm) & Hn).
  assert (Ar : fit_args junk k w ext c) by (repeat split; try assumption; try lia; exists m; assumption).
  assert (Hr : m = XRaise -> forall v, In v g -> inside (c_tval junk c) v).
  { intros -> v Hv. destruct (Classical_Prop.classic (inside (c_tval junk c) v)) as [|O]; [assumption|]. exfalso.
    rewrite (C87_raise junk few smoothing k w ext r name c s g v) in E by assumption. discriminate. }
  destruct (C87_spline junk few smoothing k w ext m r name c s g W H Ar Nw Hm F G Hr) as (f & rows & S & Er & Lr & Dr & A).
  rewrite Er in E. injection E as <-. cbn [c_rows]. rewrite Dt, map_cast_float.
  assert (L1 : length (nth i rows []) = c_ndim c) by (apply Dr, nth_In; lia).
  assert (L2 : length (nth q (c_rows c) []) = c_ndim c) by (apply W, nth_In; assumption).
  apply vec_ext; [congruence|]. intros j. destruct (Nat.lt_ge_cases j (c_ndim c)) as [Hj|Hj]; [|rewrite !nth_overflow by lia; reflexivity].
  destruct (A i j Hi Hj) as [A1 _]. rewrite A1, Eg.
  - destruct (S j Hj) as (ks & _ & (_ & Sp) & _). rewrite Sp by lia. apply (nth_map_in (fun p => nth j p 0) (c_rows c) q [] 0 Hq).
  - right. rewrite Eg. split; apply increasing_le; try assumption; lia.
Qed.
Print Assumptions C87_points.

(** Weights do not matter: without smoothing all choices give the same curve. *)
Theorem C87_weights : forall junk few smoothing k w w' ext (r r' : registry (icreate R)) name name' (c : curve R) s,
  wf c -> (2 <= c_size c)%nat -> weights_fit w (c_size c) -> weights_fit w' (c_size c) -> weights_nonzero w -> weights_nonzero w' ->
  reg_find r name = Some (fit_spline junk smoothing k 0 w ext) -> reg_find r' name' = Some (fit_spline junk smoothing k 0 w' ext) ->
  interpolate junk few r name c s = interpolate junk few r' name' c s.
Proof.
  intros junk few smoothing k w w' ext r r' name name' c s W H Hw Hw' Nw Nw' F F'.
  assert (N := size_nonempty c ltac:(lia)). assert (L := tval_length junk c W N).
  destruct (Classical_Prop.classic (fit_args junk k w ext c)) as [Ar|NA].
  - assert (Ar' : fit_args junk k w' ext c) by (destruct Ar as (I & _ & R'); split; [assumption|]; split; assumption).
    unfold interpolate, get_interpolator. rewrite F, F'.
    replace (fit_spline junk smoothing k 0 w' ext c) with (fit_spline junk smoothing k 0 w ext c); [reflexivity|].
    unfold fit_spline, spline. f_equal. f_equal. apply map_ext_in. intros ys Hy. unfold c_values_all in Hy. apply in_map_iff in Hy as (j & <- & _).
    destruct Ar as (I & _ & Hk & (m & Hm) & Hn). rewrite <- L in Hw, Hw', Hn.
    assert (Ly : length (map (fun r : list R => nth j r n0) (c_rows c)) = length (c_tval junk c)) by (rewrite map_length; symmetry; exact L).
    rewrite !(univariate_eq smoothing k _ ext m) by assumption. f_equal. f_equal. apply functional_extensionality. intros x.
    apply (the_spline_unique (Z.to_nat k) (c_tval junk c) (map (fun r : list R => nth j r n0) (c_rows c))); [lia| |];
      (apply the_spline_fitted; try assumption; try lia; [apply fit_weights_ok; assumption|apply fit_weights_nonzero; assumption]).
  - assert (NA' : ~ fit_args junk k w' ext c) by (intros (I & _ & R'); apply NA; split; [assumption|]; split; assumption).
    rewrite (proj2 (C87_spline_iff junk few smoothing k w ext r name c W N F) NA), (proj2 (C87_spline_iff junk few smoothing k w' ext r' name' c W N F') NA'). reflexivity.
Qed.
Print Assumptions C87_weights.

(** Polynomials of degree at most k are reproduced, also by extrapolation. *)
Lemma polyval_pad (a : list R) n x : polyval (a ++ repeat 0 n) x = polyval a x.
Proof.
  induction a as [|c a IH]; cbn [app polyval]; [|rewrite IH; reflexivity]. induction n as [|n IH]; [reflexivity|]. cbn [repeat polyval]. rewrite IH. rnum. ring.
Qed.
Lemma poly_smooth_pieces k ks a : (length a <= S k)%nat -> smooth_pieces k ks (poly a).
Proof.
  intros L. split.
  - intros i Hi. exists (a ++ repeat 0 (S k - length a)). split; [rewrite app_length, repeat_length; lia|]. intros x _ _. rewrite !poly_polyval, polyval_pad. reflexivity.
  - intros d x _. split.
    + apply (ex_derive_n_ext (polyval a)); [intros t; symmetry; apply poly_polyval|]. apply polyval_ex.
    + apply (continuity_pt_ext (Derive_n (polyval a) d)); [|apply dpoly_cont]. intros t. apply Derive_n_ext. intros u. symmetry. apply poly_polyval.
Qed.
Theorem C87_polynomial : forall junk few smoothing k w ext (r : registry (icreate R)) name (c c' : curve R) s g j a,
  wf c -> (2 <= c_size c)%nat -> fit_args junk k w ext c -> weights_nonzero w -> c_dtype c = DFloat ->
  reg_find r name = Some (fit_spline junk smoothing k 0 w ext) -> get_grid junk few c s = Ok g ->
  interpolate junk few r name c s = Ok c' -> (j < c_ndim c)%nat -> (Z.of_nat (length a) <= k + 1)%Z ->
  (forall q, (q < c_size c)%nat -> nth j (nth q (c_rows c) []) 0 = poly a (nth q (c_tval junk c) 0)) ->
  forall i, (i < length g)%nat -> (means ext XExtrapolate \/ inside (c_tval junk c) (nth i g 0)) ->
    nth j (nth i (c_rows c') []) 0 = poly a (nth i g 0).
Proof.
  intros junk few smoothing k w ext r name c c' s g j a W H Ar Nw Dt F G E Hj La Hp i Hi Hx.
  assert (N := size_nonempty c ltac:(lia)). assert (L := tval_length junk c W N).
  destruct Ar as (I & Hw & Hk & (m & Hm) & Hn).
  assert (Ar : fit_args junk k w ext c) by (repeat split; try assumption; try lia; exists m; assumption).
  assert (Hr : m = XRaise -> forall v, In v g -> inside (c_tval junk c) v).
  { intros -> v Hv. destruct (Classical_Prop.classic (inside (c_tval junk c) v)) as [|O]; [assumption|]. exfalso.
    rewrite (C87_raise junk few smoothing k w ext r name c s g v) in E by assumption. discriminate. }
  destruct (C87_spline junk few smoothing k w ext m r name c s g W H Ar Nw Hm F G Hr) as (f & rows & S & Er & Lr & Dr & A).
  rewrite Er in E. injection E as <-. cbn [c_rows]. rewrite Dt, map_cast_float.
  destruct (A i j Hi Hj) as [A1 _]. rewrite A1.
  - destruct (S j Hj) as (ks & _ & _ & U). symmetry. apply U. split; [apply poly_smooth_pieces; lia|]. intros q Hq.
    rewrite <- Hp by lia. symmetry. apply (nth_map_in (fun p => nth j p 0) (c_rows c) q [] 0). unfold c_size in L. lia.
  - destruct Hx as [Hx|Hx]; [left|right; assumption]. apply means_iff in Hx, Hm. congruence.
Qed.
Print Assumptions C87_polynomial.

(** As many points as coefficients: one polynomial. *)
Theorem C87_one_piece : forall junk few smoothing k w ext (r : registry (icreate R)) name (c c' : curve R) s g j,
  wf c -> (2 <= c_size c)%nat -> fit_args junk k w ext c -> weights_nonzero w -> c_dtype c = DFloat -> Z.of_nat (c_size c) = (k + 1)%Z ->
  means ext XExtrapolate ->
  reg_find r name = Some (fit_spline junk smoothing k 0 w ext) -> get_grid junk few c s = Ok g ->
  interpolate junk few r name c s = Ok c' -> (j < c_ndim c)%nat ->
  exists a, length a = c_size c /\
    (forall q, (q < c_size c)%nat -> poly a (nth q (c_tval junk c) 0) = nth j (nth q (c_rows c) []) 0) /\
    forall i, (i < length g)%nat -> nth j (nth i (c_rows c') []) 0 = poly a (nth i g 0).
Proof.
  intros junk few smoothing k w ext r name c c' s g j W H Ar Nw Dt Sz Hm F G E Hj.
  assert (N := size_nonempty c ltac:(lia)). assert (L := tval_length junk c W N).
  destruct (C87_spline junk few smoothing k w ext XExtrapolate r name c s g W H Ar Nw Hm F G ltac:(discriminate)) as (f & rows & S & Er & Lr & Dr & A).
  rewrite Er in E. injection E as <-. cbn [c_rows]. rewrite Dt, map_cast_float.
  destruct (S j Hj) as (ks & (Lk & _) & ((P & _) & V) & _). assert (Z : length ks = 0%nat) by lia. destruct (P 0%nat ltac:(lia)) as (a & La & Ea).
  exists a. split; [lia|].
  assert (Ex : forall x, f j x = poly a x) by (intros x; apply Ea; [left; reflexivity|left; congruence]). split.
  - intros q Hq. rewrite <- Ex, V by lia. apply (nth_map_in (fun p => nth j p 0) (c_rows c) q [] 0 Hq).
  - intros i Hi. destruct (A i j Hi Hj) as [A1 _]. rewrite A1 by (left; reflexivity). apply Ex.
Qed.
Print Assumptions C87_one_piece.

(** Degree one is linear interpolation. *)
Lemma the_spline_1 xs ys f i v : increasing xs -> (2 <= length xs)%nat -> the_spline 1 xs ys f -> (S i < length xs)%nat ->
  (i = 0%nat \/ nth i xs 0 <= v) -> (S (S i) = length xs \/ v <= nth (S i) xs 0) ->
  f v = nth i ys 0 + (v - nth i xs 0) / (nth (S i) xs 0 - nth i xs 0) * (nth (S i) ys 0 - nth i ys 0).
Proof.
  intros I H (ks & (Lk & K) & ((P & _) & V) & _) Hi A B. destruct (P i ltac:(lia)) as (a & La & Ea).
  assert (Kn : forall l, (l < length ks)%nat -> nth l ks 0 = nth (S l) xs 0).
  { intros l Hl. rewrite (proj1 (K 0%nat l Hl) eq_refl). f_equal. lia. }
  assert (Pa : forall x, poly a x = nth 0 a 0 + nth 1 a 0 * x).
  { intros x. unfold poly. rewrite La. cbn [bsum pow]. ring. }
  assert (D := I i ltac:(lia)).
  assert (Lo : i = 0%nat \/ nth (i - 1) ks 0 <= nth i xs 0).
  { destruct i as [|i]; [left; reflexivity|right]. rewrite Kn by lia. replace (S (S i - 1)) with (S i) by lia. lra. }
  assert (Hi' : i = length ks \/ nth (S i) xs 0 <= nth i ks 0).
  { destruct (Nat.eq_dec (S (S i)) (length xs)) as [Z|Z]; [left; lia|right]. rewrite Kn by lia. lra. }
  rewrite (Ea v).
  - rewrite Pa. rewrite <- (V i), <- (V (S i)) by lia. rewrite (Ea (nth i xs 0)), (Ea (nth (S i) xs 0)), !Pa.
    + field. lra.
    + destruct Lo; [left; assumption|right; lra].
    + exact Hi'.
    + exact Lo.
    + destruct Hi'; [left; assumption|right; lra].
  - destruct A as [A|A]; [left; assumption|]. destruct Lo; [left; assumption|right; lra].
  - destruct B as [B|B]; [left; lia|]. destruct Hi'; [left; assumption|right; lra].
Qed.
Theorem C87_linear : forall junk few smoothing w ext (r r' : registry (icreate R)) name name' (c : curve R) s,
  wf c -> (2 <= c_size c)%nat -> increasing (c_tval junk c) -> weights_fit w (c_size c) -> weights_nonzero w -> means ext XExtrapolate ->
  reg_find r name = Some (fit_spline junk smoothing 1 0 w ext) -> reg_find r' name' = Some (linear junk few) ->
  interpolate junk few r name c s = interpolate junk few r' name' c s.
Proof.
  intros junk few smoothing w ext r r' name name' c s W H I Hw Nw Hm F F'.
  assert (N := size_nonempty c ltac:(lia)). assert (L := tval_length junk c W N).
  assert (Ar : fit_args junk 1 w ext c) by (repeat split; try assumption; try lia; exists XExtrapolate; assumption).
  destruct (get_grid junk few c s) as [g|e] eqn:G.
  - destruct (C87_spline junk few smoothing 1 w ext XExtrapolate r name c s g W H Ar Nw Hm F G ltac:(discriminate)) as (f & rows & Sp & -> & Lr & Dr & A).
    destruct (C54_linear junk few r' name' c s g W H I F' G) as (rows' & -> & Lr' & Dr' & A').
    assert (E : rows = rows'); [|rewrite E; reflexivity].
    apply (nth_ext _ _ [] []); [congruence|]. intros i Hi.
    apply vec_ext; [rewrite (Dr _ (nth_In _ _ Hi)); symmetry; apply Dr', nth_In; lia|]. intros j.
    destruct (Nat.lt_ge_cases j (c_ndim c)) as [Hj|Hj].
    + destruct (A i j ltac:(lia) Hj) as [A1 _]. rewrite A1 by (left; reflexivity).
      destruct (piece_some (fit_knots 1 (c_tval junk c)) (nth i g 0)) as (q & Hq & P1 & P2). rewrite knots_length in Hq, P2.
      assert (Q1 : q = 0%nat \/ nth q (c_tval junk c) 0 <= nth i g 0).
      { destruct P1 as [P1|P1]; [left; assumption|]. destruct q as [|q]; [left; reflexivity|right]. rewrite knot_nth in P1 by lia.
        change (Nat.odd 1) with true in P1. cbv iota in P1. replace (1 / 2 + 1 + (S q - 1))%nat with (S q) in P1 by (cbn; lia). exact P1. }
      assert (Q2 : S (S q) = c_size c \/ nth i g 0 <= nth (S q) (c_tval junk c) 0).
      { destruct P2 as [P2|P2]; [left; lia|]. destruct (Nat.eq_dec (S (S q)) (c_size c)) as [Z|Z]; [left; assumption|right]. rewrite knot_nth in P2 by lia.
        change (Nat.odd 1) with true in P2. cbv iota in P2. replace (1 / 2 + 1 + q)%nat with (S q) in P2 by (cbn; lia). exact P2. }
      assert (T := the_spline_1 (c_tval junk c) (map (fun p => nth j p 0) (c_rows c)) (f j) q (nth i g 0) I ltac:(lia) (Sp j Hj) ltac:(lia) Q1 ltac:(rewrite L; exact Q2)).
      rewrite T. destruct (A' i q ltac:(lia) ltac:(lia) Q1 Q2) as [_ A2]. rewrite A2.
      rewrite !(nth_map_in (fun p => nth j p 0) (c_rows c) _ [] 0) by (unfold c_size in *; lia). ring.
    + rewrite !nth_overflow; [reflexivity| |]; [rewrite (Dr' (nth i rows' [])) by (apply nth_In; lia)|rewrite (Dr _ (nth_In _ _ Hi))]; lia.
  - destruct (linear_eq junk few c W H I) as (fl & El & _). destruct (proj1 (C87_spline_iff junk few smoothing 1 w ext r name c W N F)) as [_ C].
    destruct (C Ar) as (f & Ef). unfold interpolate. rewrite Ef. unfold get_interpolator. rewrite F', El. cbn [rbind]. unfold interp_call. rewrite G. reflexivity.
Qed.
Print Assumptions C87_linear.

(** Degree three is the cubic spline with the condition 'not-a-knot'. *)
Lemma cubic_poly_4 a0 a1 a2 a3 v : poly [a0; a1; a2; a3] v = a0 + a1 * v + a2 * (v * v) + a3 * (v * v * v).
Proof. unfold poly. cbn [length bsum nth pow]. ring. Qed.
Lemma two_smooth_derives f f1 f2 : two_smooth f f1 f2 -> forall d x, (d < 3)%nat -> ex_derive_n f d x /\ continuity_pt (Derive_n f d) x.
Proof.
  intros (D1 & D2 & C2) d x Hd.
  assert (E1 : forall y, Derive f y = f1 y) by (intros y; apply is_derive_unique, is_derive_Reals, D1).
  assert (E2 : forall y, Derive (Derive f) y = f2 y).
  { intros y. rewrite (Derive_ext _ _ _ E1). apply is_derive_unique, is_derive_Reals, D2. }
  destruct d as [|[|[|d]]]; [| | |lia].
  - split; [exact Logic.I|]. apply derivable_continuous_pt. exists (f1 x). apply D1.
  - split; [exists (f1 x); apply is_derive_Reals, D1|]. apply (continuity_pt_ext f1); [intros y; symmetry; apply E1|]. apply derivable_continuous_pt. exists (f2 x). apply D2.
  - split.
    + exists (f2 x). apply (is_derive_ext f1); [intros y; symmetry; apply E1|]. apply is_derive_Reals, D2.
    + apply (continuity_pt_ext f2); [intros y; symmetry; apply E2|]. apply C2.
Qed.
Lemma nak_pieces xs ys f f1 f2 ks : increasing xs -> (4 <= length xs)%nat -> knots_of 3 xs ks -> SplineProofs5.spline_fun Nak Nak xs ys f f1 f2 -> smooth_pieces 3 ks f.
Proof.
  intros I H (Lk & K) (T & P & _ & _ & Ec). split; [|apply (two_smooth_derives f f1 f2 T)].
  destruct Ec as [[_ St] [_ E]]; [intros (Z & _); lia|]. specialize (St ltac:(lia)). specialize (E ltac:(lia)).
  assert (Kn : forall l, (l < length ks)%nat -> nth l ks 0 = nth (l + 2) xs 0).
  { intros l Hl. rewrite (proj1 (K 1%nat l Hl) eq_refl). f_equal. lia. }
  assert (Q : forall D : R -> Prop, cubic_on f D -> exists a, length a = 4%nat /\ forall x, D x -> f x = poly a x).
  { intros D (a0 & a1 & a2 & a3 & Ha). exists [a0; a1; a2; a3]. split; [reflexivity|]. intros x Hx. rewrite cubic_poly_4. apply Ha, Hx. }
  intros i Hi. destruct (Nat.eq_dec (length ks) 0) as [Z|Z].
  - (* four samples: both end pieces, which overlap *)
    destruct St as (a0 & a1 & a2 & a3 & Ha). destruct E as (b0 & b1 & b2 & b3 & Hb). replace (length xs - 3)%nat with 1%nat in Hb by lia.
    destruct (cubic_zero (a0 - b0) (a1 - b1) (a2 - b2) (a3 - b3) (nth 1 xs 0) (nth 2 xs 0)) as (Z3 & Z2 & Z1 & Z0); [apply I; lia| |].
    + intros v Hv. transitivity (f v - f v); [|ring]. rewrite Ha at 1 by lra. rewrite Hb by lra. ring.
    + exists [a0; a1; a2; a3]. split; [reflexivity|]. intros x _ _. rewrite cubic_poly_4. destruct (Rle_lt_dec x (nth 2 xs 0)) as [L|L]; [apply Ha; assumption|].
      rewrite Hb by (assert (nth 1 xs 0 < nth 2 xs 0) by (apply I; lia); lra). replace b0 with a0 by lra. replace b1 with a1 by lra. replace b2 with a2 by lra. replace b3 with a3 by lra. reflexivity.
  - destruct (Nat.eq_dec i 0) as [->|Ni]; [|destruct (Nat.eq_dec i (length ks)) as [->|Ne]].
    + destruct (Q _ St) as (a & La & Ea). exists a. split; [exact La|]. intros x _ [B|B]; [lia|]. apply Ea. rewrite Kn in B by lia. exact B.
    + destruct (Q _ E) as (a & La & Ea). exists a. split; [exact La|]. intros x [A|A] _; [lia|]. apply Ea. rewrite Kn in A by lia. replace (length xs - 3)%nat with (length ks - 1 + 2)%nat by lia. exact A.
    + destruct (Q _ (P (i + 1)%nat ltac:(lia))) as (a & La & Ea). exists a. split; [exact La|]. intros x [A|A] [B|B]; try lia. apply Ea.
      rewrite Kn in A, B by lia. split; [lia|]. split; [right; replace (i + 1)%nat with (i - 1 + 2)%nat by lia; exact A|right; replace (S (i + 1)) with (i + 2)%nat by lia; exact B].
Qed.
Theorem C87_cubic : forall junk few qnan periodic smoothing w ext (r r' : registry (icreate R)) name name' (c : curve R) s,
  wf c -> (4 <= c_size c)%nat -> increasing (c_tval junk c) -> weights_fit w (c_size c) -> weights_nonzero w -> means ext XExtrapolate ->
  reg_find r name = Some (fit_spline junk smoothing 3 0 w ext) ->
  reg_find r' name' = Some (cubic junk qnan periodic (BCName "not-a-knot") true) ->
  interpolate junk few r name c s = interpolate junk few r' name' c s.
Proof.
  intros junk few qnan periodic smoothing w ext r r' name name' c s W H I Hw Nw Hm F F'.
  assert (N := size_nonempty c ltac:(lia)). assert (L := tval_length junk c W N). assert (H2 : (2 <= c_size c)%nat) by lia.
  assert (Ar : fit_args junk 3 w ext c) by (repeat split; try assumption; try lia; exists XExtrapolate; assumption).
  assert (Vb : bc_ok (c_ndim c) (BCName "not-a-knot")) by (cbn; auto).
  destruct (get_grid junk few c s) as [g|e] eqn:G.
  - destruct (C87_spline junk few smoothing 3 w ext XExtrapolate r name c s g W H2 Ar Nw Hm F G ltac:(discriminate)) as (f & rows & S & -> & Lr & Dr & A).
    destruct (C75_cubic junk few qnan periodic (BCName "not-a-knot") true r' name' c s g W H2 I eq_refl Vb F' G)
      as (h & h1 & h2 & rows' & Hs' & -> & Lr' & Dr' & A' & _).
    assert (E : rows = rows'); [|rewrite E; reflexivity].
    apply (nth_ext _ _ [] []); [congruence|]. intros i Hi.
    apply vec_ext; [rewrite (Dr _ (nth_In _ _ Hi)); symmetry; apply Dr', nth_In; lia|]. intros j.
    destruct (Nat.lt_ge_cases j (c_ndim c)) as [Hj|Hj].
    + destruct (A i j ltac:(lia) Hj) as [A1 _]. rewrite A1 by (left; reflexivity). rewrite A' by (try assumption; try lia; left; reflexivity).
      destruct (S j Hj) as (ks & Kn & _ & U). symmetry. apply U. destruct (Hs' j Hj) as [Sp _]. split.
      * apply (nak_pieces (c_tval junk c) (map (fun p => nth j p 0) (c_rows c)) (h j) (h1 j) (h2 j)); try assumption. lia.
      * apply Sp.
    + rewrite !nth_overflow; [reflexivity| |]; [rewrite (Dr' (nth i rows' [])) by (apply nth_In; lia)|rewrite (Dr _ (nth_In _ _ Hi))]; lia.
  - destruct (proj1 (C75_cubic_iff junk few qnan periodic (BCName "not-a-knot") true r' name' c W eq_refl F')) as [_ C'].
    destruct (C' (conj H2 (conj I Vb))) as (f' & Ef'). destruct (proj1 (C87_spline_iff junk few smoothing 3 w ext r name c W N F)) as [_ C].
    destruct (C Ar) as (f & Ef). unfold interpolate. rewrite Ef, Ef'. cbn [rbind]. unfold interp_call. rewrite G. reflexivity.
Qed.
Print Assumptions C87_cubic.

(** ** Averages *)

Lemma lcomb_fit k xs ws a b u v : (0 < k)%nat -> increasing xs -> (k < length xs)%nat -> length u = length xs -> length v = length xs -> length ws = length xs ->
  (forall w, In w ws -> w <> 0) -> forall x, fitted k xs (lcomb a b u v) ws x = a * fitted k xs u ws x + b * fitted k xs v ws x.
Proof.
  intros Hk I Hn Lu Lv Lw Nw x.
  destruct (fit_ok k xs Hk I Hn u ws Lu Lw Nw) as (L1 & V1 & _). destruct (fit_ok k xs Hk I Hn v ws Lv Lw Nw) as (L2 & V2 & _).
  assert (Ll : length (lcomb a b u v) = length xs) by (rewrite lcomb_length; congruence).
  destruct (fit_ok k xs Hk I Hn (lcomb a b u v) ws Ll Lw Nw) as (L3 & V3 & U).
  set (cf := vadd (vscale (fit_coeffs k xs u ws) a) (vscale (fit_coeffs k xs v ws) b)).
  assert (Lcf : length cf = length xs) by (unfold cf, vadd; rewrite map2_length, !vscale_length; lia).
  assert (Fv : forall y, fit_value k (fit_knots k xs) cf y = a * fitted k xs u ws y + b * fitted k xs v ws y).
  { intros y. unfold fitted, fit_value, cf. rewrite vdot_add_l by (rewrite !vscale_length; congruence). rewrite !vdot_scale_l. reflexivity. }
  unfold fitted at 1. rewrite <- (U cf Lcf).
  - apply Fv.
  - intros i Hi. rewrite Fv. unfold fitted. rewrite V1, V2 by assumption. rewrite nth_lcomb by congruence. reflexivity.
Qed.

Theorem C87_average : forall junk few smoothing k w ext m, means ext m -> weights_nonzero w ->
  averaging junk few (fit_spline junk smoothing k 0 w ext) (fit_args junk k w ext)
    (fun xs v => m = XExtrapolate \/ m = XConst \/ inside xs v) (fun _ => True).
Proof.
  intros junk few smoothing k w ext m Hm Nw.
  set (mv := fun (xs : list R) v => match m with XConst => Rmax (nth 0 xs 0) (Rmin v (nth (length xs - 1) xs 0)) | _ => v end).
  exists (fun xs v q => fitted (Z.to_nat k) xs (spike (length xs) q) (fit_weights w (length xs)) (mv xs v)). split; [exact Logic.I|].
  intros r name c s g W H Dt I Ar F G Hg.
  assert (N := size_nonempty c ltac:(lia)). assert (L := tval_length junk c W N). set (xs := c_tval junk c) in *.
  destruct Ar as (_ & Hw & Hk & (m' & Hm') & Hn). assert (Em : m' = m) by (apply means_iff in Hm, Hm'; congruence). subst m'.
  assert (Ar : fit_args junk k w ext c) by (repeat split; try assumption; try lia; exists m; assumption).
  assert (Hr : m = XRaise -> forall v, In v g -> inside xs v).
  { intros -> v Hv. destruct (Hg v Hv) as [|[|]]; [discriminate|discriminate|assumption]. }
  assert (Lw : length (fit_weights w (length xs)) = length xs) by (apply fit_weights_ok; rewrite L; assumption).
  assert (Nz := fit_weights_nonzero w (length xs) Nw).
  assert (Lf : forall x, lin_fun (length xs) (fun ys => fitted (Z.to_nat k) xs ys (fit_weights w (length xs)) x)).
  { intros x a b u v Lu Lv. apply lcomb_fit; try assumption; lia. }
  assert (One : forall x, fitted (Z.to_nat k) xs (repeat 1 (length xs)) (fit_weights w (length xs)) x = 1).
  { intros x. symmetry. rewrite <- (fitted_unique (Z.to_nat k) xs (repeat 1 (length xs)) (fit_weights w (length xs))) with (g := poly [1]); try assumption; try lia.
    - unfold poly. cbn. ring.
    - apply repeat_length.
    - apply smooth_pieces_iff, poly_smooth_pieces. cbn. lia.
    - intros i Hi. unfold poly. cbn. rewrite (nth_indep _ 0 1) by (rewrite repeat_length; assumption). rewrite nth_repeat. ring. }
  split.
  - intros v _. rewrite <- L. exact (lin_fun_one _ _ (Lf (mv xs v)) (One (mv xs v))).
  - destruct (C87_spline junk few smoothing k w ext m r name c s g W H Ar Nw Hm F G Hr) as (f & rows & S & Er & Lr & Dr & A).
    eexists. split; [exact Er|]. cbn [c_rows c_t]. rewrite Dt, map_cast_float. split; [exact Lr|]. split; [exact Dr|]. split; [reflexivity|].
    intros i j Hi Hj. destruct (A i j Hi Hj) as (A1 & _ & A3 & A4).
    assert (Fj : forall x, f j x = bsum (fun q => fitted (Z.to_nat k) xs (spike (length xs) q) (fit_weights w (length xs)) x * nth j (nth q (c_rows c) []) 0) (c_size c)).
    { intros x. rewrite (the_spline_unique (Z.to_nat k) xs (map (fun p => nth j p 0) (c_rows c)) (f j) (fitted (Z.to_nat k) xs (map (fun p => nth j p 0) (c_rows c)) (fit_weights w (length xs)))).
      - rewrite (lin_fun_weights _ _ (Lf x)) by (rewrite map_length; symmetry; exact L). rewrite <- L. apply bsum_ext. intros q Hq. f_equal.
        apply (nth_map_in (fun p => nth j p 0) (c_rows c) q [] 0). unfold c_size in L. lia.
      - lia.
      - apply S. assumption.
      - apply the_spline_fitted; try assumption; try lia. rewrite map_length. symmetry. exact L. }
    rewrite <- Fj. set (v := nth i g 0) in *.
    assert (Ends : nth 0 xs 0 <= nth (length xs - 1) xs 0) by (apply increasing_le; [assumption|lia]).
    assert (V : forall q, (q < length xs)%nat -> f j (nth q xs 0) = nth j (nth q (c_rows c) []) 0).
    { intros q Hq. destruct (S j Hj) as (ks & _ & (_ & Sp) & _). rewrite Sp by assumption. apply (nth_map_in (fun p => nth j p 0) (c_rows c) q [] 0). unfold c_size in L. lia. }
    destruct (Classical_Prop.classic (m = XConst)) as [Ec|Nc].
    + subst m. unfold mv. destruct (Rlt_le_dec v (nth 0 xs 0)) as [B|B]; [|destruct (Rlt_le_dec (nth (length xs - 1) xs 0) v) as [B'|B']].
      * rewrite A3 by (auto; reflexivity). rewrite Rmin_left, Rmax_left by lra. symmetry. apply V. lia.
      * rewrite A4 by (try reflexivity; rewrite <- L; assumption). rewrite Rmin_right, Rmax_right by lra. rewrite <- L. symmetry. apply V. lia.
      * rewrite A1 by (right; split; assumption). rewrite Rmin_left, Rmax_right by lra. reflexivity.
    + assert (Ev : mv xs v = v) by (unfold mv; destruct m; try reflexivity; congruence). rewrite Ev. apply A1.
      destruct (Hg v (nth_In g 0 Hi)) as [|[|]]; [left; assumption|contradiction|right; assumption].
Qed.
Print Assumptions C87_average.

(** Degrees, weights, ext and errors, over the rationals. *)
Definition no_smoothing {T} : nat -> T -> list T -> list T -> list T -> res (T -> T) := fun _ _ _ _ _ => Raise OtherError.
Definition uq (k : Z) (w : option (list Q)) (e : xarg) (xs g : list Q) : res (list Q) :=
  do f <- univariate no_smoothing k 0%Q w e xs [0; 1; 0; 2; 1]%Q ; do v <- f g ; Ok (map Qred v).
Definition x5 : list Q := [0; 1; 2; 4; 5]%Q.
Definition g5 : list Q := [-1; 0; 1; 3; 4; 6]%Q.
Example C87_ex :
  uq 1 None (XInt 0) x5 g5 = Ok [-1; 0; 1; 1; 2; 0]%Q /\
  uq 2 None (XInt 0) x5 g5 = Ok [-135 # 37; 0; 1; 33 # 37; 2; -78 # 37]%Q /\
  uq 2 (Some [1; 2; 3; -4; 1 # 2]%Q) (XInt 0) x5 g5 = Ok [-135 # 37; 0; 1; 33 # 37; 2; -78 # 37]%Q /\
  uq 3 None (XInt 0) x5 g5 = Ok [-113 # 14; 0; 1; 11 # 14; 2; -34 # 7]%Q /\
  uq 4 None (XInt 0) x5 g5 = Ok [-10; 0; 1; 2 # 5; 2; -10]%Q /\
  uq 2 None (XName "zeros") x5 g5 = Ok [0; 0; 1; 33 # 37; 2; 0]%Q /\
  uq 2 None (XName "const") x5 g5 = Ok [0; 0; 1; 33 # 37; 2; 1]%Q /\
  uq 2 None (XName "raise") x5 g5 = Raise ValueError /\
  uq 2 None (XName "raise") x5 [0; 3]%Q = Ok [0; 33 # 37]%Q /\
  uq 2 None (XName "Const") x5 g5 = Raise ValueError /\ uq 2 None (XInt 4) x5 g5 = Raise ValueError /\
  uq 0 None (XInt 0) x5 g5 = Raise ValueError /\ uq 6 None (XInt 0) x5 g5 = Raise ValueError /\ uq 5 None (XInt 0) x5 g5 = Raise OtherError /\
  uq 2 (Some [1; 2]%Q) (XInt 0) x5 g5 = Raise ValueError /\ uq 2 None (XInt 0) [0; 1; 1; 4; 5]%Q g5 = Raise ValueError.
Proof. vm_compute. repeat split. Qed.

(** The hypotheses of the theorems are met. *)
Definition fitreg : registry (icreate R) :=
  [("two", fit_spline 0 no_smoothing 2 0 (Some [1; 2; 3]) (XName "extrapolate")); ("one", fit_spline 0 no_smoothing 1 0 None (XInt 0));
   ("raise", fit_spline 0 no_smoothing 1 0 None (XName "raise")); ("linear", linear 0 (fun _ => true))].
Example C87_ex_hyp : wf rt3 /\ fit_args 0 2 (Some [1; 2; 3]) (XName "extrapolate") rt3 /\ weights_nonzero (Some [1; 2; 3]) /\
  ~ fit_args 0 3 None (XInt 0) rt3 /\ get_grid 0 (fun _ => true) rt3 (SArr [0; 2; 7]) = Ok [0; 2; 7] /\ ~ inside (c_tval 0 rt3) 7 /\
  interpolate 0 (fun _ => true) fitreg "raise" rt3 (SArr [0; 2; 7]) = Raise InterpolationError /\
  interpolate 0 (fun _ => true) fitreg "one" rt3 (SArr [0; 2; 7]) = interpolate 0 (fun _ => true) fitreg "linear" rt3 (SArr [0; 2; 7]) /\
  (exists a c', length a = 3%nat /\ interpolate 0 (fun _ => true) fitreg "two" rt3 (SArr [0; 2; 7]) = Ok c' /\ poly a 1 = nth 0 (nth 1 (c_rows rt3) []) 0 /\
     nth 0 (nth 1 (c_rows c') []) 0 = poly a 2).
Proof.
  assert (W := rt3_wf). assert (I := rt3_increasing 0).
  assert (Gr : get_grid 0 (fun _ => true) rt3 (SArr [0; 2; 7]) = Ok [0; 2; 7]).
  { apply C53_validation_iff. split; [discriminate|]. intros [|[|i]] Hi; cbn in *; try lia; lra. }
  assert (A1 : fit_args 0 2 (Some [1; 2; 3]) (XName "extrapolate") rt3).
  { split; [exact I|]. split; [intros l E; injection E as <-; reflexivity|]. split; [lia|]. split; [exists XExtrapolate; cbn; auto|cbn; lia]. }
  assert (N1 : weights_nonzero (Some [1; 2; 3])) by (intros l x E; injection E as <-; intros [<- |[<- |[<- |[]]]]; lra).
  assert (N0 : weights_nonzero None) by (intros l x E; discriminate).
  assert (F0 : weights_fit None (c_size rt3)) by (intros l E; discriminate).
  assert (O : ~ inside (c_tval 0 rt3) 7) by (unfold inside; cbn; lra).
  split; [exact W|]. split; [exact A1|]. split; [exact N1|]. split; [intros (_ & _ & _ & _ & Z); cbn in Z; lia|]. split; [exact Gr|]. split; [exact O|]. split; [|split].
  - apply (C87_raise 0 (fun _ => true) no_smoothing 1 None (XName "raise") fitreg "raise" rt3 (SArr [0; 2; 7]) [0; 2; 7] 7); try assumption; try reflexivity.
    + cbn. lia.
    + split; [exact I|]. split; [exact F0|]. split; [lia|]. split; [exists XRaise; cbn; auto|cbn; lia].
    + cbn. auto.
    + cbn. auto.
  - apply (C87_linear 0 (fun _ => true) no_smoothing None (XInt 0)); try assumption; try reflexivity; [cbn; lia|cbn; auto].
  - destruct (C87_spline 0 (fun _ => true) no_smoothing 2 (Some [1; 2; 3]) (XName "extrapolate") XExtrapolate fitreg "two" rt3 (SArr [0; 2; 7]) [0; 2; 7] W ltac:(cbn; lia) A1 N1
      ltac:(cbn; auto) eq_refl Gr ltac:(discriminate)) as (f & rows & _ & E & _).
    destruct (C87_one_piece 0 (fun _ => true) no_smoothing 2 (Some [1; 2; 3]) (XName "extrapolate") fitreg "two" rt3 _ (SArr [0; 2; 7]) [0; 2; 7] 0 W ltac:(cbn; lia) A1 N1
      eq_refl eq_refl ltac:(cbn; auto) eq_refl Gr E ltac:(cbn; lia)) as (a & La & P & V).
    exists a. eexists. split; [exact La|]. split; [exact E|]. split; [exact (P 1%nat ltac:(cbn; lia))|exact (V 1%nat ltac:(cbn; lia))].
Qed.
