(** Property C86: Savitzky-Golay smoothing. *)
From Coq Require Import ZArith String List Bool Arith Lia QArith Reals Lra Psatz.
From Coquelicot Require Import Derive.
From Verif Require Import Num Py Numeric Curve Vec Csaps Registry Smooth Savgol Spec GeomSpec.
From Verif Require Import ListFacts ArrayProofs VecFacts CurveProofs CurveProofs2 CurveProofs3 CurvesProofs SmoothProofs CsapsProofs SavgolProofs SavgolProofs2.
From Verif Require Import Properties_Container Properties_Smooth.
Import ListNotations.
Local Open Scope string_scope.
Local Open Scope list_scope.
Local Open Scope R_scope.

(** The polynomial a_0 + a_1 x + a_2 x^2 + ... *)
Definition poly (a : list R) (x : R) : R := sum_upto (length a) (fun m => nth m a 0 * x ^ m).
(** Squared deviations from the data f at the places s, ..., s + w - 1. *)
Definition misfit (f : Z -> R) (s : Z) (w : nat) (a : list R) : R :=
  sum_upto w (fun k => (poly a (IZR (s + Z.of_nat k)) - f (s + Z.of_nat k)%Z) ^ 2).
(** [a] is the one polynomial of degree at most [p] with the least deviation. *)
Definition best_fit (f : Z -> R) (s : Z) (w p : nat) (a : list R) : Prop :=
  length a = S p /\ forall b, length b = S p -> b <> a -> misfit f s w a < misfit f s w b.

Lemma poly_polyval a x : poly a x = polyval a x.
Proof. symmetry. apply polyval_sum. Qed.
Lemma misfit_Z f s w a : misfit f s w a = misfitZ f s w a.
Proof. unfold misfit, sum_upto. apply (sum_ext (A := nat)). intros k _. rewrite poly_polyval. reflexivity. Qed.
Lemma best_fit_iff f s w p a : best_fit f s w p a <-> bestZ f s w p a.
Proof. unfold best_fit, bestZ. split; intros [L B]; (split; [assumption|]); intros b Lb N; specialize (B b Lb N); rewrite !misfit_Z in *; assumption. Qed.
Lemma derive_poly a d x : Derive_n (poly a) d x = Derive_n (polyval a) d x.
Proof. apply Derive_n_ext. apply poly_polyval. Qed.

(** [m] is the method 'savgol' with window 2h+1, order p, derivative d. *)
Definition savgol_method (m : smethod R) (h p d : nat) (delta : R) (mode : string) (cval : R) : Prop :=
  m = savgol (2 * Z.of_nat h + 1) (Z.of_nat p) (Z.of_nat d) delta mode cval.

Definition sg_result (m : option bmode) (cval : R) (h p d : nat) (delta : R) (c : curve R) : curve R :=
  mkCurve (map (sg_row m cval (c_rows c) (c_ndim c) h p d delta) (seq 0 (c_size c))) (c_ndim c) DFloat None.
Lemma savgol_smooth r name sm h p d delta mode m cval c : wf c -> c_rows c <> [] -> reg_find r name = Some sm ->
  savgol_method sm h p d delta mode cval -> (p < 2 * h + 1)%nat -> (delta <> 0 \/ d = 0%nat \/ (p < d)%nat) -> sg_mode mode = Some m ->
  (m = None -> (2 * h + 1 <= c_size c)%nat) -> smooth r name c = Ok (sg_result m cval h p d delta c).
Proof.
  intros W N F -> Hp Hd Hm Hn. unfold smooth, reg_get. rewrite F. cbn [rbind]. unfold savgol, savgol_filter.
  rewrite (savgol_scipy_ok h p d delta mode m) by assumption. cbn [rmap rbind].
  set (rows := map _ _). assert (L : length rows = length (c_rows c)) by (unfold rows; rewrite map_length; apply seq_length). rewrite <- L.
  rewrite curve_init_array.
  - rewrite CurveProofs2.map_cast_float. reflexivity.
  - intros E. rewrite E in L. destruct (c_rows c); [contradiction|discriminate].
  - apply W.
  - intros x Hx. apply in_map_iff in Hx as (i & <- & _). apply sg_row_length.
Qed.
Lemma sg_result_nth m cval h p d delta c i : (i < c_size c)%nat ->
  nth i (c_rows (sg_result m cval h p d delta c)) [] = sg_row m cval (c_rows c) (c_ndim c) h p d delta i.
Proof.
  intros Hi. unfold sg_result. cbn [c_rows]. set (g := sg_row _ _ _ _ _ _ _ _). rewrite (nth_indep _ [] (g 0%nat)) by (rewrite map_length, seq_length; assumption).
  rewrite map_nth, seq_nth by assumption. reflexivity.
Qed.
Lemma sg_result_size m cval h p d delta c : c_size (sg_result m cval h p d delta c) = c_size c.
Proof. unfold c_size, sg_result. cbn [c_rows]. rewrite map_length, seq_length. reflexivity. Qed.

Lemma nonempty_size (c : curve R) n : (n < c_size c)%nat -> c_rows c <> [].
Proof. unfold c_size. destruct (c_rows c); cbn; [lia|discriminate]. Qed.

(** ** C86 Savitzky-Golay smoothing *)

(** Mode 'interp', the default: a float curve of as many points; coordinate j of
    point i is the d-th derivative at i, divided by delta^d, of the polynomial of
    degree at most p that fits best the coordinates j of the 2h+1 points around i
    (near the ends: of the first or last 2h+1 points). *)
Theorem C86_fit : forall (r : registry (smethod R)) name m h p d delta cval (c : curve R),
  wf c -> reg_find r name = Some m -> savgol_method m h p d delta "interp" cval ->
  (p < 2 * h + 1)%nat -> delta <> 0 -> (2 * h + 1 <= c_size c)%nat ->
  exists c', smooth r name c = Ok c' /\ wf c' /\
    c_size c' = c_size c /\ c_ndim c' = c_ndim c /\ c_dtype c' = DFloat /\ c_t c' = None /\
    forall i j, (i < c_size c)%nat -> (j < c_ndim c)%nat ->
      exists a, best_fit (fun t => nth j (nth (Z.to_nat t) (c_rows c) []) 0)
                  (Z.max 0 (Z.min (Z.of_nat i - Z.of_nat h) (Z.of_nat (c_size c) - (2 * Z.of_nat h + 1)))) (2 * h + 1) p a /\
        nth j (nth i (c_rows c') []) 0 = Derive_n (poly a) d (INR i) / delta ^ d.
Proof.
  intros r name m h p d delta cval c W F M Hp Hd Hn. exists (sg_result None cval h p d delta c).
  split. { apply (savgol_smooth r name m h p d delta "interp"); auto. apply (nonempty_size c 0). lia. }
  split. { split; [apply W|]. split; [|discriminate]. intros x Hx. apply in_map_iff in Hx as (i & <- & _). apply sg_row_length. }
  split; [apply sg_result_size|]. split; [reflexivity|]. split; [reflexivity|]. split; [reflexivity|].
  intros i j Hi Hj.
  destruct (best_exists (fun t => nth j (nth (Z.to_nat t) (c_rows c) []) 0) (xstart None (c_size c) h i) (2 * h + 1) p ltac:(lia)) as [a B].
  exists a. split; [apply best_fit_iff; exact B|]. rewrite sg_result_nth, derive_poly by assumption.
  apply (sg_fit None); auto.
Qed.
Print Assumptions C86_fit.

(** The other modes: the fit is to the 2h+1 places around i of the line extended
    as the mode says (C58_boundary). *)
Theorem C86_modes : forall (r : registry (smethod R)) name m h p d delta mode b cval (c : curve R),
  wf c -> c_rows c <> [] -> reg_find r name = Some m -> savgol_method m h p d delta mode cval ->
  (p < 2 * h + 1)%nat -> delta <> 0 ->
  In (mode, b) [("nearest", BNearest); ("mirror", BMirror); ("wrap", BWrap); ("constant", BConstant)] ->
  exists c', smooth r name c = Ok c' /\ wf c' /\
    c_size c' = c_size c /\ c_ndim c' = c_ndim c /\ c_dtype c' = DFloat /\ c_t c' = None /\
    forall i j, (i < c_size c)%nat -> (j < c_ndim c)%nat ->
      exists a, best_fit (fun t => match ext_index b (c_size c) t with Some k => nth j (nth k (c_rows c) []) 0 | None => cval end)
                  (Z.of_nat i - Z.of_nat h) (2 * h + 1) p a /\
        nth j (nth i (c_rows c') []) 0 = Derive_n (poly a) d (INR i) / delta ^ d.
Proof.
  intros r name m h p d delta mode b cval c W N F M Hp Hd Hb.
  assert (Em : sg_mode mode = Some (Some b)) by (destruct Hb as [E|[E|[E|[E|[]]]]]; injection E as <- <-; reflexivity).
  exists (sg_result (Some b) cval h p d delta c).
  split. { apply (savgol_smooth r name m h p d delta mode); auto. discriminate. }
  split. { split; [apply W|]. split; [|discriminate]. intros x Hx. apply in_map_iff in Hx as (i & <- & _). apply sg_row_length. }
  split; [apply sg_result_size|]. split; [reflexivity|]. split; [reflexivity|]. split; [reflexivity|].
  intros i j Hi Hj.
  destruct (best_exists (fun t => match ext_index b (c_size c) t with Some k => nth j (nth k (c_rows c) []) 0 | None => cval end)
              (Z.of_nat i - Z.of_nat h) (2 * h + 1) p ltac:(lia)) as [a B].
  exists a. split; [apply best_fit_iff; exact B|]. rewrite sg_result_nth, derive_poly by assumption.
  apply (sg_fit (Some b)); auto; [discriminate|]. eapply bestZ_ext; [|exact B]. intros k _. cbn beta. cbn [xrow]. unfold ext_row, c_size.
  destruct (ext_index _ _ _); [reflexivity|]. symmetry. rewrite (nth_indep _ 0 cval) by (rewrite repeat_length; assumption). apply nth_repeat.
Qed.
Print Assumptions C86_modes.

(** Curves whose coordinate j is a polynomial in the index, of degree at most p,
    keep it (d = 0), or get its derivative, at all points in mode 'interp'. *)
Theorem C86_polynomial : forall (r : registry (smethod R)) name m h p d delta cval (c c' : curve R) j q,
  wf c -> reg_find r name = Some m -> savgol_method m h p d delta "interp" cval ->
  (p < 2 * h + 1)%nat -> delta <> 0 -> (2 * h + 1 <= c_size c)%nat -> smooth r name c = Ok c' ->
  (j < c_ndim c)%nat -> (length q <= S p)%nat ->
  (forall i, (i < c_size c)%nat -> nth j (nth i (c_rows c) []) 0 = poly q (INR i)) ->
  forall i, (i < c_size c)%nat -> nth j (nth i (c_rows c') []) 0 = Derive_n (poly q) d (INR i) / delta ^ d.
Proof.
  intros r name m h p d delta cval c c' j q W F M Hp Hd Hn E Hj Lq Hq i Hi.
  destruct (C86_fit r name m h p d delta cval c W F M Hp Hd Hn) as (c2 & E2 & _ & _ & _ & _ & _ & H).
  rewrite E in E2. assert (c2 = c') by congruence. subst c2. destruct (H i j Hi Hj) as (a & B & ->). f_equal. rewrite !derive_poly.
  apply best_fit_iff in B. eapply fit_exact_derive; [exact Lq| |exact B]. intros k Hk.
  pose proof (xstart_in None (c_size c) h i k eq_refl Hn Hk) as X. cbn [xstart] in X. rewrite <- poly_polyval.
  set (z := (Z.max _ _ + Z.of_nat k)%Z) in *. rewrite Hq by lia. f_equal. rewrite INR_IZR_INZ. f_equal. lia.
Qed.
Print Assumptions C86_polynomial.

(** The modes that savgol_filter knows. *)
Definition all_modes : list string := ["interp"; "nearest"; "mirror"; "wrap"; "constant"].

(** At the points whose window lies inside the curve all modes agree. *)
Theorem C86_interior : forall (r r' : registry (smethod R)) name m m' h p d delta mode mode' cval cval' (c c1 c2 : curve R),
  wf c -> reg_find r name = Some m -> savgol_method m h p d delta mode cval ->
  reg_find r' name = Some m' -> savgol_method m' h p d delta mode' cval' ->
  (p < 2 * h + 1)%nat -> delta <> 0 -> (2 * h + 1 <= c_size c)%nat ->
  In mode all_modes -> In mode' all_modes -> smooth r name c = Ok c1 -> smooth r' name c = Ok c2 ->
  forall i, (h <= i)%nat -> (i + h < c_size c)%nat -> nth i (c_rows c1) [] = nth i (c_rows c2) [].
Proof.
  intros r r' name m m' h p d delta mode mode' cval cval' c c1 c2 W F M F' M' Hp Hd Hn Hm Hm' E1 E2 i Hi Hi'.
  assert (Sg : forall s, In s all_modes -> exists b, sg_mode s = Some b).
  { intros s [<-|[<-|[<-|[<-|[<-|[]]]]]]; eexists; reflexivity. }
  destruct (Sg mode Hm) as [b Eb]. destruct (Sg mode' Hm') as [b' Eb']. assert (N : c_rows c <> []) by (apply (nonempty_size c i); lia).
  rewrite (savgol_smooth r name m h p d delta mode b cval c) in E1 by auto.
  rewrite (savgol_smooth r' name m' h p d delta mode' b' cval' c) in E2 by auto.
  assert (c1 = sg_result b cval h p d delta c) by congruence. assert (c2 = sg_result b' cval' h p d delta c) by congruence. subst c1 c2.
  rewrite !sg_result_nth by lia. apply vec_ext; [rewrite !sg_row_length; reflexivity|]. intros j.
  destruct (Nat.lt_ge_cases j (c_ndim c)) as [Hj|Hj]; [|rewrite !nth_overflow by (rewrite sg_row_length; assumption); reflexivity].
  destruct (best_exists (fun t => nth j (nth (Z.to_nat t) (c_rows c) []) 0) (Z.of_nat i - Z.of_nat h) (2 * h + 1) p ltac:(lia)) as [a B].
  assert (X : forall b cv, nth j (sg_row b cv (c_rows c) (c_ndim c) h p d delta i) 0 = Derive_n (polyval a) d (INR i) / delta ^ d).
  { intros b0 cv. apply sg_fit; auto; [unfold c_size in *; lia|].
    replace (xstart b0 (length (c_rows c)) h i) with (Z.of_nat i - Z.of_nat h)%Z by (unfold c_size in *; destruct b0; cbn [xstart]; lia).
    eapply bestZ_ext; [|exact B]. intros k Hk. cbn beta. f_equal. destruct b0; cbn [xrow]; [|reflexivity].
    unfold ext_row. rewrite ext_index_in by (unfold c_size in *; lia). reflexivity. }
  rewrite !X. reflexivity.
Qed.
Print Assumptions C86_interior.
Lemma sg_mode_all s : In s all_modes -> exists b, sg_mode s = Some b /\ (b = None <-> s = "interp") /\ (b = Some BConstant <-> s = "constant").
Proof. intros [<-|[<-|[<-|[<-|[<-|[]]]]]]; eexists; (split; [reflexivity|split; split; (reflexivity || discriminate)]). Qed.

Lemma finite_choice {X : Type} (P : nat -> X -> Prop) (x0 : X) : (forall i, exists l, P i l) ->
  forall n, exists l : nat -> X, forall i, (i < n)%nat -> P i (l i).
Proof.
  intros H n. induction n as [|n [l Hl]]; [exists (fun _ => x0); intros; lia|]. destruct (H n) as [l' Hl'].
  exists (fun i => if Nat.eqb i n then l' else l i). intros i Hi. destruct (Nat.eqb_spec i n) as [->|]; [exact Hl'|]. apply Hl. lia.
Qed.

(** Except in mode 'constant', point i of the result is a combination of the
    points of the curve whose coefficients depend on nothing but the number of
    points and the parameters; they sum up to 1 (for derivatives: to 0). *)
Theorem C86_linear : forall h p d delta mode cval n,
  (p < 2 * h + 1)%nat -> delta <> 0 -> (2 * h + 1 <= n)%nat -> In mode all_modes -> mode <> "constant" ->
  exists L : nat -> nat -> R,
    (forall i, (i < n)%nat -> sum_upto n (L i) = if Nat.eqb d 0 then 1 else 0) /\
    forall (r : registry (smethod R)) name m (c c' : curve R), wf c -> c_size c = n -> reg_find r name = Some m ->
      savgol_method m h p d delta mode cval -> smooth r name c = Ok c' ->
      forall i j, (i < n)%nat -> (j < c_ndim c)%nat ->
        nth j (nth i (c_rows c') []) 0 = sum_upto n (fun k => L i k * nth j (nth k (c_rows c) []) 0).
Proof.
  intros h p d delta mode cval n Hp Hd Hn Hm Nc. destruct (sg_mode_all mode Hm) as (b & Eb & Ei & Ec).
  (* the source of place t *)
  set (src := fun t : Z => match b with Some b0 => match ext_index b0 n t with Some k => k | None => 0%nat end | None => Z.to_nat t end).
  assert (Hsrc : forall i k, (i < n)%nat -> (k < 2 * h + 1)%nat -> (src (xstart b n h i + Z.of_nat k)%Z < n)%nat).
  { intros i k Hi Hk. unfold src. destruct b as [b0|]; [|pose proof (xstart_in None n h i k eq_refl Hn Hk); lia].
    destruct (ext_index _ _ _) eqn:E; [|lia]. apply ext_index_lt in E; [assumption|lia]. }
  assert (Hx : forall cv rows ncol t, length rows = n -> xrow b cv rows ncol t = nth (src t) rows []).
  { intros cv rows ncol t Lr. unfold src. destruct b as [b0|]; cbn [xrow]; [|reflexivity]. unfold ext_row. rewrite Lr.
    destruct (ext_index_some b0 n t) as (q & ->); [|reflexivity]. intros ->. apply Nc, Ec. reflexivity. }
  assert (HW : forall i, exists l : nat -> R, forall f a, bestZ f (xstart b n h i) (2 * h + 1) p a ->
     Derive_n (polyval a) d (INR i) = vsum (map (fun k => l k * f (xstart b n h i + Z.of_nat k)%Z) (seq 0 (2 * h + 1)))).
  { intros i. apply best_weights. lia. }
  assert (CH : exists l : nat -> nat -> R, forall i, (i < n)%nat -> forall f a, bestZ f (xstart b n h i) (2 * h + 1) p a ->
     Derive_n (polyval a) d (INR i) = vsum (map (fun k => l i k * f (xstart b n h i + Z.of_nat k)%Z) (seq 0 (2 * h + 1)))).
  { exact (finite_choice (fun i l => forall f a, bestZ f (xstart b n h i) (2 * h + 1) p a ->
      Derive_n (polyval a) d (INR i) = vsum (map (fun k => l k * f (xstart b n h i + Z.of_nat k)%Z) (seq 0 (2 * h + 1)))) (fun _ => 0) HW n). }
  destruct CH as [l Hl].
  set (L := fun i q => vsum (map (fun k => if Nat.eqb (src (xstart b n h i + Z.of_nat k)%Z) q then l i k / delta ^ d else 0) (seq 0 (2 * h + 1)))).
  assert (HL : forall i (g : nat -> R), (i < n)%nat ->
    vsum (map (fun k => l i k * g (src (xstart b n h i + Z.of_nat k)%Z)) (seq 0 (2 * h + 1))) / delta ^ d = vsum (map (fun q => L i q * g q) (seq 0 n))).
  { intros i g Hi. unfold Rdiv. rewrite <- sum_scale_r. unfold L.
    rewrite (sum_ext (fun q => _ * g q) (fun q => vsum (map (fun k => (if Nat.eqb (src (xstart b n h i + Z.of_nat k)%Z) q then l i k / delta ^ d else 0) * g q) (seq 0 (2 * h + 1))))).
    2:{ intros q _. rewrite sum_scale_r. reflexivity. }
    rewrite sum_swap. apply sum_ext. intros k Hk. apply in_seq in Hk. specialize (Hsrc i k Hi ltac:(lia)). set (q0 := src _) in *.
    rewrite vsum_seq. rewrite (bsum_ext _ (fun q => (if Nat.eqb q q0 then l i k / delta ^ d else 0) * g q)) by (intros q _; rewrite Nat.eqb_sym; reflexivity).
    rewrite (bsum_one (l i k / delta ^ d) g q0 n), (proj2 (Nat.ltb_lt q0 n)) by assumption. unfold Rdiv. ring. }
  exists L. split.
  - intros i Hi. unfold sum_upto. change (total (map (L i) (seq 0 n))) with (vsum (map (L i) (seq 0 n))).
    rewrite (sum_ext (L i) (fun q => L i q * 1)) by (intros; ring). rewrite <- (HL i (fun _ => 1) Hi).
    destruct (best_exists (fun _ => 1) (xstart b n h i) (2 * h + 1) p ltac:(lia)) as [a B]. pose proof (Hl i Hi _ _ B) as E. cbn beta in E. rewrite <- E.
    rewrite (fit_exact_derive _ _ _ p [1] a d (INR i)) with (3 := B); [|cbn; lia|intros k _; cbn; rnum; ring].
    destruct (Nat.eqb_spec d 0) as [->|Nd]; [cbn; rnum; field|]. rewrite derive_high by (cbn; lia). unfold Rdiv. ring.
  - intros r name m c c' W Hc F M E i j Hi Hj. assert (N : c_rows c <> []) by (apply (nonempty_size c i); lia).
    rewrite (savgol_smooth r name m h p d delta mode b cval c) in E by (auto; intros _; lia).
    assert (c' = sg_result b cval h p d delta c) by congruence. subst c'. rewrite sg_result_nth by lia.
    destruct (best_exists (fun t => nth j (nth (src t) (c_rows c) []) 0) (xstart b n h i) (2 * h + 1) p ltac:(lia)) as [a B].
    unfold c_size in Hc. rewrite (sg_fit b cval (c_rows c) (c_ndim c) h p d delta i j a); try assumption.
    + rewrite (Hl i Hi _ _ B). cbn beta. exact (HL i (fun k => nth j (nth k (c_rows c) []) 0) Hi).
    + intros _. lia.
    + lia.
    + rewrite Hc. eapply bestZ_ext; [|exact B]. intros k _. cbn beta. rewrite Hx by assumption. reflexivity.
Qed.
Print Assumptions C86_linear.

(** Affine maps of the space commute with smoothing; derivatives transform by
    the linear part. *)
Theorem C86_affine : forall (r : registry (smethod R)) name m h p d delta mode cval (c c2 : curve R) A t,
  wf c -> reg_find r name = Some m -> savgol_method m h p d delta mode cval ->
  (p < 2 * h + 1)%nat -> delta <> 0 -> (2 * h + 1 <= c_size c)%nat -> In mode all_modes -> mode <> "constant" ->
  (2 <= length A)%nat -> length t = length A -> (forall a, In a A -> length a = c_ndim c) ->
  wf c2 -> c_rows c2 = map (affine A t) (c_rows c) ->
  exists e e2, smooth r name c = Ok e /\ smooth r name c2 = Ok e2 /\
    c_rows e2 = map (affine A (if Nat.eqb d 0 then t else repeat 0 (length t))) (c_rows e).
Proof.
  intros r name m h p d delta mode cval c c2 A t W F M Hp Hd Hn Hm Nc LA Lt HA W2 E2.
  destruct (sg_mode_all mode Hm) as (b & Eb & _). assert (N : c_rows c <> []) by (apply (nonempty_size c 0); lia).
  assert (N2 : c_rows c2 <> []) by (rewrite E2; destruct (c_rows c); [contradiction|discriminate]).
  assert (Sz : c_size c2 = c_size c) by (unfold c_size; rewrite E2, map_length; reflexivity).
  assert (S1 := savgol_smooth r name m h p d delta mode b cval c W N F M Hp (or_introl Hd) Eb (fun _ => Hn)).
  assert (S2 : smooth r name c2 = Ok (sg_result b cval h p d delta c2)) by (apply (savgol_smooth r name m h p d delta mode); auto; intros _; lia).
  exists (sg_result b cval h p d delta c), (sg_result b cval h p d delta c2). split; [assumption|]. split; [assumption|].
  destruct (C86_linear h p d delta mode cval (c_size c) Hp Hd Hn Hm Nc) as (L & SL & HL).
  assert (H1 := HL r name m c _ W eq_refl F M S1). assert (H2 := HL r name m c2 _ W2 Sz F M S2). clear HL.
  set (t' := if Nat.eqb d 0 then t else repeat 0 (length t)).
  assert (Lt' : length t' = length A) by (unfold t'; destruct (Nat.eqb d 0); rewrite ?repeat_length; assumption).
  assert (La : forall u x, length u = length A -> length (affine A u x) = length A) by (intros u x Lu; unfold affine; rewrite map2_length; lia).
  assert (Nd : c_ndim c2 = length A).
  { destruct (c_rows c) as [|x l] eqn:Er; [contradiction|]. destruct W2 as (_ & W2 & _). rewrite <- (W2 (affine A t x)); [apply La; assumption|]. rewrite E2. left. reflexivity. }
  assert (Haf : forall u x j, length u = length A -> (j < length A)%nat -> nth j (affine A u x) 0 = inner (nth j A []) x + nth j u 0).
  { intros u x j Lu Hj. unfold affine. rewrite (nth_map2 _ A u j [] 0) by lia. reflexivity. }
  apply (nth_ext _ _ [] (affine A t' [])); [rewrite map_length; exact Sz || (fold (c_size (sg_result b cval h p d delta c2)); fold (c_size (sg_result b cval h p d delta c)); rewrite !sg_result_size; exact Sz)|].
  intros i Hi. fold (c_size (sg_result b cval h p d delta c2)) in Hi. rewrite sg_result_size, Sz in Hi. rewrite map_nth.
  apply vec_ext; [rewrite La, sg_result_nth, sg_row_length by (rewrite ?Sz; assumption); assumption|]. intros j.
  destruct (Nat.lt_ge_cases j (length A)) as [Hj|Hj].
  2:{ rewrite !nth_overflow; [reflexivity|rewrite La by assumption; lia|rewrite sg_result_nth, sg_row_length by (rewrite Sz; assumption); lia]. }
  rewrite H2 by (rewrite ?Nd; assumption). rewrite Haf by assumption.
  assert (Aj : length (nth j A []) = c_ndim c) by (apply HA, nth_In; assumption).
  rewrite (inner_sum (c_ndim c)); [|assumption|rewrite sg_result_nth by assumption; apply sg_row_length].
  unfold sum_upto. change total with (@vsum R RNum).
  rewrite (sum_ext (fun k => L i k * nth j (nth k (c_rows c2) []) 0)
    (fun k => vsum (map (fun l => nth l (nth j A []) 0 * (L i k * nth l (nth k (c_rows c) []) 0)) (seq 0 (c_ndim c))) + L i k * nth j t 0)).
  - rewrite sum_plus, sum_scale_r, sum_swap. f_equal.
    + apply sum_ext. intros l Hl. apply in_seq in Hl. rewrite H1 by (assumption || lia). unfold sum_upto. change total with (@vsum R RNum). apply sum_scale.
    + specialize (SL i Hi). unfold sum_upto in SL. change total with (@vsum R RNum) in SL. rewrite SL. unfold t'. destruct (Nat.eqb d 0); [ring|]. rewrite nth_repeat. ring.
  - intros k Hk. apply in_seq in Hk. rewrite E2. rewrite (nth_indep _ [] (affine A t [])) by (rewrite map_length; unfold c_size in Hk; lia).
    rewrite map_nth, Haf by assumption. rewrite (inner_sum (c_ndim c)); [|assumption|apply W, nth_In; unfold c_size in Hk; lia].
    rewrite Rmult_plus_distr_l. f_equal. rewrite <- sum_scale. apply sum_ext. intros l _. ring.
Qed.
Print Assumptions C86_affine.
(** Turning the curve round turns the result round; derivatives of odd order
    change their sign. *)
Theorem C86_reverse : forall (r : registry (smethod R)) name m h p d delta mode cval (c cr e : curve R),
  wf c -> c_rows c <> [] -> reg_find r name = Some m -> savgol_method m h p d delta mode cval ->
  (p < 2 * h + 1)%nat -> delta <> 0 -> In mode all_modes -> (mode = "interp" -> (2 * h + 1 <= c_size c)%nat) ->
  c_reverse c = Ok cr -> smooth r name c = Ok e ->
  exists er, smooth r name cr = Ok er /\ c_size er = c_size e /\
    forall i j, (i < c_size c)%nat -> nth j (nth i (c_rows er) []) 0 = (-1) ^ d * nth j (nth (c_size c - 1 - i) (c_rows e) []) 0.
Proof.
  intros r name m h p d delta mode cval c cr e W N F M Hp Hd Hm Hn Er Ee.
  destruct (sg_mode_all mode Hm) as (b & Eb & Ei & _). assert (Hn' : b = None -> (2 * h + 1 <= c_size c)%nat) by (intros Hb; apply Hn, Ei, Hb).
  destruct (C07_reverse R c W) as (c2 & E2 & Erows & _ & _ & End & W2). rewrite Er in E2. assert (c2 = cr) by congruence. subst c2. specialize (End N).
  assert (Sz : c_size cr = c_size c) by (unfold c_size; rewrite Erows; apply rev_length).
  assert (N2 : c_rows cr <> []).
  { rewrite Erows. intros Q. apply (f_equal (@rev _)) in Q. rewrite rev_involutive in Q. contradiction. }
  rewrite (savgol_smooth r name m h p d delta mode b cval c) in Ee by auto. assert (e = sg_result b cval h p d delta c) by congruence. subst e.
  exists (sg_result b cval h p d delta cr).
  split; [apply (savgol_smooth r name m h p d delta mode); auto; rewrite Sz; assumption|]. split; [rewrite !sg_result_size; assumption|].
  intros i j Hi. rewrite !sg_result_nth by lia. rewrite Erows, End.
  destruct (Nat.lt_ge_cases j (c_ndim c)) as [Hj|Hj]; [|rewrite !nth_overflow by (rewrite sg_row_length; assumption); ring].
  rewrite <- sg_row_rev by (unfold c_size in *; auto; lia). fold (c_size c). replace (c_size c - 1 - (c_size c - 1 - i))%nat with i by lia. reflexivity.
Qed.
Print Assumptions C86_reverse.

(** The orders p and p+1 give the same points, except at the ends in mode
    'interp', if p and the order d of the derivative are both even or both odd. *)
Theorem C86_parity : forall (r r' : registry (smethod R)) name m m' h p d delta mode cval (c c1 c2 : curve R),
  wf c -> c_rows c <> [] -> reg_find r name = Some m -> savgol_method m h p d delta mode cval ->
  reg_find r' name = Some m' -> savgol_method m' h (S p) d delta mode cval ->
  (S p < 2 * h + 1)%nat -> delta <> 0 -> In mode all_modes -> (mode = "interp" -> (2 * h + 1 <= c_size c)%nat) ->
  Nat.even (p + d) = true -> smooth r name c = Ok c1 -> smooth r' name c = Ok c2 ->
  forall i, (i < c_size c)%nat -> mode <> "interp" \/ (h <= i /\ i + h < c_size c)%nat -> nth i (c_rows c1) [] = nth i (c_rows c2) [].
Proof.
  intros r r' name m m' h p d delta mode cval c c1 c2 W N F M F' M' Hp Hd Hm Hn Ev E1 E2 i Hi Hin.
  destruct (sg_mode_all mode Hm) as (b & Eb & Ei & _). assert (Hn' : b = None -> (2 * h + 1 <= c_size c)%nat) by (intros Hb; apply Hn, Ei, Hb).
  rewrite (savgol_smooth r name m h p d delta mode b cval c) in E1 by (auto; lia).
  rewrite (savgol_smooth r' name m' h (S p) d delta mode b cval c) in E2 by auto.
  assert (c1 = sg_result b cval h p d delta c) by congruence. assert (c2 = sg_result b cval h (S p) d delta c) by congruence. subst c1 c2.
  rewrite !sg_result_nth by assumption.
  assert (Wp : weights (2 * h + 1) (S p) d delta = weights (2 * h + 1) p d delta) by (apply weights_parity; [lia|assumption]).
  destruct b as [b0|]; cbn [sg_row]; [rewrite Wp; reflexivity|]. destruct Hin as [Hin|Hin]; [exfalso; apply Hin, Ei; reflexivity|].
  unfold interp_row. rewrite (proj2 (Nat.ltb_ge i h)), (proj2 (Nat.ltb_lt i _)), Wp by (unfold c_size in *; lia). reflexivity.
Qed.
Print Assumptions C86_parity.

(** Order 0: the mean of the points of the window; the first and the last h+1
    points coincide in mode 'interp'. *)
Theorem C86_average : forall (r : registry (smethod R)) name m h delta mode cval (c c' : curve R),
  wf c -> c_rows c <> [] -> reg_find r name = Some m -> savgol_method m h 0 0 delta mode cval ->
  In mode all_modes -> (mode = "interp" -> (2 * h + 1 <= c_size c)%nat) -> smooth r name c = Ok c' ->
  (forall i j, (h <= i)%nat -> (i + h < c_size c)%nat -> (j < c_ndim c)%nat ->
     nth j (nth i (c_rows c') []) 0 = sum_upto (2 * h + 1) (fun k => nth j (nth (i - h + k) (c_rows c) []) 0) / INR (2 * h + 1)) /\
  (mode = "interp" -> forall i, (i <= h)%nat ->
     nth i (c_rows c') [] = nth h (c_rows c') [] /\ nth (c_size c - 1 - i) (c_rows c') [] = nth (c_size c - 1 - h) (c_rows c') []).
Proof.
  intros r name m h delta mode cval c c' W N F M Hm Hn E.
  destruct (sg_mode_all mode Hm) as (b & Eb & Ei & _). assert (Hn' : b = None -> (2 * h + 1 <= c_size c)%nat) by (intros Hb; apply Hn, Ei, Hb).
  rewrite (savgol_smooth r name m h 0 0 delta mode b cval c) in E by (auto; lia).
  assert (c' = sg_result b cval h 0 0 delta c) by congruence. subst c'.
  assert (V : forall i j, (i < c_size c)%nat -> (j < c_ndim c)%nat -> nth j (sg_row b cval (c_rows c) (c_ndim c) h 0 0 delta i) 0
     = vsum (map (fun k => nth j (xrow b cval (c_rows c) (c_ndim c) (xstart b (c_size c) h i + Z.of_nat k)) 0) (seq 0 (2 * h + 1))) / INR (2 * h + 1)).
  { intros i j Hi Hj.
    destruct (best_exists (fun t => nth j (xrow b cval (c_rows c) (c_ndim c) t) 0) (xstart b (c_size c) h i) (2 * h + 1) 0 ltac:(lia)) as [a B].
    rewrite (sg_fit b cval (c_rows c) (c_ndim c) h 0 0 delta i j a); auto; [|lia]. rewrite (best_mean _ _ (2 * h + 1) a ltac:(lia) B).
    cbn [Derive_n pow polyval]. rnum. field. apply not_0_INR. lia. }
  split.
  - intros i j H1 H2 Hj. rewrite sg_result_nth, V by lia. f_equal. unfold sum_upto. apply (sum_ext (A := nat)). intros k Hk. apply in_seq in Hk. f_equal.
    assert (Es : xstart b (c_size c) h i = (Z.of_nat i - Z.of_nat h)%Z) by (destruct b; cbn [xstart]; lia). rewrite Es.
    destruct b; cbn [xrow]; [unfold ext_row; rewrite ext_index_in by (unfold c_size in *; lia)|]; f_equal; lia.
  - intros Em i Hi. apply Ei in Em. subst b. specialize (Hn' eq_refl).
    assert (X : forall i i', (i < c_size c)%nat -> (i' < c_size c)%nat -> xstart None (c_size c) h i = xstart None (c_size c) h i' ->
      nth i (c_rows (sg_result None cval h 0 0 delta c)) [] = nth i' (c_rows (sg_result None cval h 0 0 delta c)) []).
    { intros a a' Ha Ha' Ex. rewrite !sg_result_nth by assumption. apply vec_ext; [rewrite !sg_row_length; reflexivity|]. intros j.
      destruct (Nat.lt_ge_cases j (c_ndim c)) as [Hj|Hj]; [|rewrite !nth_overflow by (rewrite sg_row_length; assumption); reflexivity].
      rewrite !V, Ex by assumption. reflexivity. }
    split; apply X; cbn [xstart]; lia.
Qed.
Print Assumptions C86_average.

(** The greatest order, 2h: the curve itself. *)
Theorem C86_identity : forall (r : registry (smethod R)) name m h delta mode cval (c c' : curve R),
  wf c -> c_rows c <> [] -> reg_find r name = Some m -> savgol_method m h (2 * h) 0 delta mode cval ->
  In mode all_modes -> (mode = "interp" -> (2 * h + 1 <= c_size c)%nat) -> smooth r name c = Ok c' -> c_rows c' = c_rows c.
Proof.
  intros r name m h delta mode cval c c' W N F M Hm Hn E.
  destruct (sg_mode_all mode Hm) as (b & Eb & Ei & _). assert (Hn' : b = None -> (2 * h + 1 <= c_size c)%nat) by (intros Hb; apply Hn, Ei, Hb).
  rewrite (savgol_smooth r name m h (2 * h) 0 delta mode b cval c) in E by (auto; lia).
  assert (c' = sg_result b cval h (2 * h) 0 delta c) by congruence. subst c'.
  apply (nth_ext _ _ [] []); [apply sg_result_size|]. intros i Hi. fold (c_size (sg_result b cval h (2 * h) 0 delta c)) in Hi. rewrite sg_result_size in Hi.
  rewrite sg_result_nth by assumption. assert (Lr : length (nth i (c_rows c) []) = c_ndim c) by (apply W, nth_In; assumption).
  apply vec_ext; [rewrite sg_row_length; congruence|]. intros j.
  destruct (Nat.lt_ge_cases j (c_ndim c)) as [Hj|Hj]; [|rewrite !nth_overflow by (rewrite ?sg_row_length, ?Lr; assumption); reflexivity].
  destruct (best_exists (fun t => nth j (xrow b cval (c_rows c) (c_ndim c) t) 0) (xstart b (c_size c) h i) (2 * h + 1) (2 * h) ltac:(lia)) as [a B].
  rewrite (sg_fit b cval (c_rows c) (c_ndim c) h (2 * h) 0 delta i j a); auto; [|lia].
  cbn [Derive_n pow]. replace (2 * h + 1)%nat with (S (2 * h)) in B by lia.
  assert (K : exists k, (k < S (2 * h))%nat /\ (xstart b (c_size c) h i + Z.of_nat k)%Z = Z.of_nat i).
  { exists (Z.to_nat (Z.of_nat i - xstart b (c_size c) h i)). destruct b; cbn [xstart]; [lia|]. specialize (Hn' eq_refl). lia. }
  destruct K as (k & Hk & Ek). pose proof (best_interpolates _ _ _ _ B k Hk) as P. cbn beta in P. rewrite Ek in P. rewrite INR_IZR_INZ, P. unfold Rdiv. rewrite Rinv_1, Rmult_1_r.
  destruct b; cbn [xrow]; [unfold ext_row; rewrite ext_index_in by (unfold c_size in *; lia)|]; rewrite Nat2Z.id; reflexivity.
Qed.
Print Assumptions C86_identity.

(** The errors, for non-negative orders: ValueError, SmoothingError, or neither. *)
Theorem C86_errors : forall (r : registry (smethod R)) name w p d delta mode cval (c : curve R),
  wf c -> c_rows c <> [] -> reg_find r name = Some (savgol w p d delta mode cval) -> (0 <= p)%Z ->
  (~ In mode all_modes \/ (w <= p)%Z \/ Z.even w = true \/ (d < 0)%Z -> smooth r name c = Raise ValueError) /\
  (In mode all_modes -> (p < w)%Z -> Z.odd w = true -> (0 <= d)%Z ->
     ((0 < d <= p)%Z /\ delta = 0 -> smooth r name c = Raise SmoothingError) /\
     (~ ((0 < d <= p)%Z /\ delta = 0) ->
        (mode = "interp" /\ (Z.of_nat (c_size c) < w)%Z -> smooth r name c = Raise ValueError) /\
        (~ (mode = "interp" /\ (Z.of_nat (c_size c) < w)%Z) -> exists c', smooth r name c = Ok c'))).
Proof.
  intros r name w p d delta mode cval c W N F Hp.
  assert (R0 : smooth r name c = match savgol_scipy w p d delta mode cval (c_ndim c) (c_rows c) with
     | Ok a => curve_init (SArray a DFloat) None None None None
     | Raise ValueError => Raise ValueError | Raise TypeError => Raise TypeError | Raise _ => Raise SmoothingError end).
  { unfold smooth, reg_get. rewrite F. cbn [rbind]. unfold savgol, savgol_filter. destruct (savgol_scipy _ _ _ _ _ _ _ _); reflexivity. }
  assert (Hmodes : existsb (String.eqb mode) savgol_modes = true <-> In mode all_modes).
  { unfold savgol_modes, all_modes. cbn [existsb In]. rewrite !orb_true_iff, !String.eqb_eq. intuition (congruence || auto). }
  assert (Hev : forall z, (z mod 2 =? 0)%Z = Z.even z).
  { intros z. rewrite Zmod_even. destruct (Z.even z); reflexivity. }
  split.
  - intros H. rewrite R0. unfold savgol_scipy. destruct (existsb (String.eqb mode) savgol_modes) eqn:E1; cbn [negb]; [|reflexivity].
    destruct H as [H|H]; [exfalso; apply H, Hmodes; reflexivity|]. rewrite Hev.
    destruct (Z.leb_spec w p) as [H1|H1]; [reflexivity|]. destruct H as [H|H]; [lia|].
    destruct (Z.even w) eqn:Ew; [reflexivity|]. destruct H as [H|H]; [discriminate|]. cbn [orb].
    rewrite (proj2 (Z.leb_gt w 0)) by lia. rewrite (proj2 (Z.ltb_ge p d)), (proj2 (Z.ltb_lt d 0)) by lia. reflexivity.
  - intros Hm Hw Ho Hd. assert (Ex : exists h, w = (2 * Z.of_nat h + 1)%Z).
    { apply Z.odd_spec in Ho as (q & ->). exists (Z.to_nat q). lia. }
    destruct Ex as (h & ->). destruct (sg_mode_all mode Hm) as (b & Eb & Ei & _).
    split; [|intros Hz; split].
    + intros ((H1 & H2) & ->). rewrite R0. unfold savgol_scipy. rewrite (proj2 Hmodes Hm). cbn [negb]. rewrite Hev.
      rewrite (proj2 (Z.leb_gt _ p)) by lia. rewrite <- Z.negb_odd, Ho. rewrite (proj2 (Z.leb_gt (2 * Z.of_nat h + 1) 0)) by lia. cbn [negb orb].
      rewrite (proj2 (Z.ltb_ge p d)), (proj2 (Z.ltb_ge d 0)) by lia. rewrite npow_R, pow_i by lia.
      replace (neqb 0 n0) with true; [reflexivity|]. symmetry. apply Reqb_iff. reflexivity.
    + intros (-> & Hs). rewrite R0. unfold savgol_scipy. cbn [savgol_modes existsb String.eqb Ascii.eqb Bool.eqb orb negb]. rewrite Hev.
      rewrite (proj2 (Z.leb_gt _ p)) by lia. rewrite <- Z.negb_odd, Ho. rewrite (proj2 (Z.leb_gt (2 * Z.of_nat h + 1) 0)) by lia. cbn [negb orb].
      assert (C : exists w, (if (p <? d)%Z then Ok (repeat n0 (Z.to_nat (2 * Z.of_nat h + 1)))
               else if (d <? 0)%Z then Raise ValueError
               else if neqb (npow delta (Z.to_nat d)) n0 then Raise OtherError
               else Ok (savgol_coeffs (Z.to_nat (2 * Z.of_nat h + 1)) (Z.to_nat p) (Z.to_nat d) delta)) = Ok w).
      { destruct (Z.ltb_spec p d); [eexists; reflexivity|]. rewrite (proj2 (Z.ltb_ge d 0)) by lia.
        destruct (neqb (npow delta (Z.to_nat d)) n0) eqn:E; [|eexists; reflexivity]. exfalso. apply Reqb_iff in E.
        destruct (Z.eq_dec d 0) as [->|]; [cbn in E; lra|]. destruct (Req_EM_T delta 0) as [->|Nz]; [apply Hz; split; [lia|reflexivity]|].
        revert E. apply npow_nonzero. assumption. }
      destruct C as (cs & ->). cbn [rbind]. change (String.eqb "interp" "interp") with true. cbv iota.
      rewrite (proj2 (Nat.ltb_lt _ _)) by (unfold c_size in Hs; lia). reflexivity.
    + intros Hs. eexists. apply (savgol_smooth r name _ h (Z.to_nat p) (Z.to_nat d) delta mode b cval c W N F).
      * unfold savgol_method. rewrite !Z2Nat.id by lia. reflexivity.
      * lia.
      * destruct (Req_EM_T delta 0) as [->|]; [right|left; assumption]. destruct (Z.eq_dec d 0) as [->|]; [left; reflexivity|right].
        assert (~ (0 < d <= p)%Z) by (intros K; apply Hz; split; [exact K|reflexivity]). lia.
      * assumption.
      * intros Hb. apply Ei in Hb. assert (~ (Z.of_nat (c_size c) < 2 * Z.of_nat h + 1)%Z) by tauto. lia.
Qed.
Print Assumptions C86_errors.

(** A negative order is no error outside mode 'interp': the result is zero, like
    that of every derivative beyond the order. *)
Theorem C86_zero : forall (r : registry (smethod R)) name h p d delta mode cval (c : curve R),
  wf c -> c_rows c <> [] -> reg_find r name = Some (savgol (2 * Z.of_nat h + 1) p d delta mode cval) ->
  (p < 2 * Z.of_nat h + 1)%Z -> (p < d)%Z -> In mode all_modes -> mode <> "interp" ->
  exists c', smooth r name c = Ok c' /\ c_size c' = c_size c /\ c_ndim c' = c_ndim c /\ forall i j, nth j (nth i (c_rows c') []) 0 = 0.
Proof.
  intros r name h p d delta mode cval c W N F Hw Hd Hm Ni.
  set (z := fun i : nat => conv_row (match bmode_of mode with Ok b => b | _ => BNearest end) cval (repeat 0 (2 * h + 1)) (c_rows c) (c_ndim c) i).
  assert (Z0 : forall i, z i = repeat 0 (c_ndim c)).
  { intros i. unfold z. rewrite conv_row_comb. apply vec_ext; [rewrite comb_length, repeat_length; reflexivity|]. intros j. rewrite nth_repeat.
    destruct (Nat.lt_ge_cases j (c_ndim c)) as [Hj|Hj]; [|apply nth_overflow; rewrite comb_length; assumption].
    rewrite comb_nth by assumption. rewrite (sum_ext _ (fun _ => 0)) by (intros k _; rewrite nth_repeat; ring). apply sum_zero. }
  set (rows := map z (seq 0 (length (c_rows c)))). assert (L : length rows = length (c_rows c)) by (unfold rows; rewrite map_length; apply seq_length).
  exists (mkCurve rows (c_ndim c) DFloat None). split; [|split; [exact L|split; [reflexivity|]]].
  - unfold smooth, reg_get. rewrite F. cbn [rbind]. unfold savgol, savgol_filter, savgol_scipy.
    assert (Em : existsb (String.eqb mode) savgol_modes = true) by (destruct Hm as [<-|[<-|[<-|[<-|[<-|[]]]]]]; reflexivity). rewrite Em. cbn [negb].
    rewrite (proj2 (Z.leb_gt (2 * Z.of_nat h + 1) p)) by lia.
    assert (E2 : ((2 * Z.of_nat h + 1) mod 2 = 1)%Z) by (replace (2 * Z.of_nat h + 1)%Z with (1 + Z.of_nat h * 2)%Z by lia; rewrite Z.mod_add by lia; reflexivity).
    rewrite E2. change (1 =? 0)%Z with false. rewrite (proj2 (Z.leb_gt (2 * Z.of_nat h + 1) 0)) by lia. cbn [orb].
    rewrite (proj2 (Z.ltb_lt p d)) by lia. cbn [rbind]. replace (Z.to_nat (2 * Z.of_nat h + 1)) with (2 * h + 1)%nat by lia.
    rewrite (proj2 (String.eqb_neq mode "interp")) by assumption. unfold convolve1d.
    destruct (repeat n0 (2 * h + 1)) as [|x l] eqn:Er; [apply (f_equal (@length R)) in Er; rewrite repeat_length in Er; cbn in Er; lia|]. rewrite <- Er. clear Er x l.
    assert (Eb : exists b, bmode_of mode = Ok b) by (destruct Hm as [<-|[<-|[<-|[<-|[<-|[]]]]]]; try (eexists; reflexivity); contradiction).
    destruct Eb as (b & Eb). rewrite Eb. cbn [rbind rmap].
    replace (map (fun i => map (cast DFloat) (conv_row b cval (repeat n0 (2 * h + 1)) (c_rows c) (c_ndim c) i)) (seq 0 (length (c_rows c)))) with rows.
    2:{ unfold rows, z. rewrite Eb. apply map_ext. intros i. symmetry. apply map_id. }
    rewrite <- L. rewrite curve_init_array.
    + rewrite CurveProofs2.map_cast_float. reflexivity.
    + intros Q. rewrite Q in L. destruct (c_rows c); [contradiction|discriminate].
    + apply W.
    + intros x Hx. apply in_map_iff in Hx as (i & <- & _). rewrite Z0. apply repeat_length.
  - intros i j. cbn [c_rows]. destruct (Nat.lt_ge_cases i (length rows)) as [Hi|Hi]; [|rewrite (nth_overflow rows) by assumption; destruct j; reflexivity].
    unfold rows. rewrite (nth_indep _ [] (z 0%nat)) by (fold rows; assumption). rewrite map_nth, Z0. apply nth_repeat.
Qed.
Print Assumptions C86_zero.

(** In mode 'interp' it is one, whatever the other parameters. *)
Theorem C86_negative : forall (r : registry (smethod R)) name w p d delta cval (c : curve R),
  reg_find r name = Some (savgol w p d delta "interp" cval) -> (p < 0)%Z -> smooth r name c = Raise ValueError.
Proof.
  intros r name w p d delta cval c F Hp. unfold smooth, reg_get. rewrite F. cbn [rbind]. unfold savgol, savgol_filter.
  assert (E : savgol_scipy w p d delta "interp" cval (c_ndim c) (c_rows c) = Raise ValueError); [|rewrite E; reflexivity].
  unfold savgol_scipy. change (existsb (String.eqb "interp") savgol_modes) with true. cbn [negb].
  destruct ((w <=? p) || (w mod 2 =? 0) || (w <=? 0))%Z eqn:Ew; [reflexivity|].
  apply orb_false_iff in Ew as [_ Ew]. apply Z.leb_gt in Ew.
  destruct (Z.ltb_spec p d); cbn [rbind].
  - change (String.eqb "interp" "interp") with true. cbn iota. destruct (Nat.ltb _ _); [reflexivity|].
    destruct (Z.to_nat w) as [|m] eqn:Em; [lia|]. cbn [repeat convolve1d]. change (bmode_of "constant") with (Ok BConstant). cbn [rbind].
    rewrite (proj2 (Z.ltb_lt p 0)) by assumption. reflexivity.
  - rewrite (proj2 (Z.ltb_lt d 0)) by lia. reflexivity.
Qed.
Print Assumptions C86_negative.
Example C86_negative_ex : smooth [("savgol", savgol 3 (-1) 0 1 "interp" 0)] "savgol" rzig = Raise ValueError.
Proof. apply C86_negative with (w := 3%Z) (p := (-1)%Z) (d := 0%Z) (delta := 1) (cval := 0); [reflexivity|lia]. Qed.

(** Unlike a non-negative window (C58_convex) the filter may leave the convex
    hull, and it moves the end points. *)
Definition bump : curve Q := mkCurve [[0; 1]; [1; 0]; [2; 0]; [3; 0]; [4; 0]; [5; 6]]%Q 2 DFloat None.
Theorem C86_convex_refuted : exists c', smooth [("savgol", savgol 5 2 0 1%Q "interp" 0%Q)] "savgol" bump = Ok c' /\
  (forall x, In x (c_rows bump) -> 0 <= nth 1 x 0)%Q /\ (nth 1 (nth 2 (c_rows c') []) 0 < 0)%Q /\
  ~ (nth 1 (nth 0 (c_rows c') []) 0 == nth 1 (nth 0 (c_rows bump) []) 0)%Q.
Proof.
  eexists. split; [vm_compute; reflexivity|]. split; [|split].
  - intros x Hx. cbn in Hx. repeat (destruct Hx as [<-|Hx]; [vm_compute; discriminate|]). destruct Hx.
  - vm_compute. reflexivity.
  - vm_compute. discriminate.
Qed.
Print Assumptions C86_convex_refuted.

(** The derivative is taken with respect to the index, not to the parameter of the
    curve: a straight line traversed at speed 1 by its parameter t = (0, 1, 3, 6, 10)
    does not get the tangent (1, 0). *)
Theorem C86_parameter_refuted : exists c', 
  smooth [("savgol", savgol 3 1 1 1%Q "interp" 0%Q)] "savgol"
    (mkCurve [[0; 0]; [1; 0]; [3; 0]; [6; 0]; [10; 0]]%Q 2 DFloat (Some [0; 1; 3; 6; 10]%Q)) = Ok c' /\
  ~ (nth 0 (nth 2 (c_rows c') []) 0 == 1)%Q.
Proof. eexists. split; [vm_compute; reflexivity|]. vm_compute. discriminate. Qed.
Print Assumptions C86_parameter_refuted.

(** The filter at work. *)
Definition exact_rows (r : res (curve Q)) : res (list (list Q)) := rmap (fun c => map (map Qred) (c_rows c)) r.
Example C86_ex_smooth : exact_rows (smooth [("savgol", savgol 5 2 0 1%Q "interp" 0%Q)] "savgol" bump)
  = Ok [[0; 31 # 35]; [1; 9 # 35]; [2; - 3 # 35]; [3; - 18 # 35]; [4; 54 # 35]; [5; 186 # 35]]%Q.
Proof. vm_compute. reflexivity. Qed.
Example C86_ex_derivative : exact_rows (smooth [("savgol", savgol 5 2 1 2%Q "nearest" 0%Q)] "savgol" bump)
  = Ok [[1 # 4; - 3 # 20]; [2 # 5; - 3 # 20]; [1 # 2; - 1 # 10]; [1 # 2; 3 # 5]; [2 # 5; 9 # 10]; [1 # 4; 9 # 10]]%Q.
Proof. vm_compute. reflexivity. Qed.
Example C86_ex_errors :
  smooth [("savgol", savgol 5 2 0 1%Q "reflect" 0%Q)] "savgol" bump = Raise ValueError /\
  smooth [("savgol", savgol 4 2 0 1%Q "interp" 0%Q)] "savgol" bump = Raise ValueError /\
  smooth [("savgol", savgol 3 3 0 1%Q "interp" 0%Q)] "savgol" bump = Raise ValueError /\
  smooth [("savgol", savgol 7 2 0 1%Q "interp" 0%Q)] "savgol" bump = Raise ValueError /\
  smooth [("savgol", savgol 5 2 1 0%Q "interp" 0%Q)] "savgol" bump = Raise SmoothingError /\
  smooth [("savgol", savgol 5 2 (-1) 1%Q "interp" 0%Q)] "savgol" bump = Raise ValueError.
Proof. vm_compute. repeat split. Qed.

(** The hypotheses of the theorems are met. *)
Example C86_ex_hyp : wf rzig /\ c_rows rzig <> [] /\ (1 < 2 * 1 + 1)%nat /\ (2 * 1 + 1 <= c_size rzig)%nat /\ In "interp" all_modes /\ "interp" <> "constant" /\
  savgol_method (savgol 3 1 1 2 "interp" 0) 1 1 1 2 "interp" 0 /\ Nat.even (1 + 1) = true /\
  (forall i, (i < c_size rzig)%nat -> nth 0 (nth i (c_rows rzig) []) 0 = poly [0; 1] (INR i)) /\
  exists c', smooth [("savgol", savgol 3 1 1 2 "interp" 0)] "savgol" rzig = Ok c' /\ nth 0 (nth 0 (c_rows c') []) 0 = 1 / 2.
Proof.
  assert (P : forall i, (i < c_size rzig)%nat -> nth 0 (nth i (c_rows rzig) []) 0 = poly [0; 1] (INR i)).
  { intros i Hi. unfold rzig, c_size in *. cbn [c_rows length] in *. do 4 (destruct i as [|i]; [unfold poly, sum_upto, total; cbn; lra|]). lia. }
  split; [apply rzig_wf|]. split; [discriminate|]. split; [lia|]. split; [cbn; lia|]. split; [cbn; tauto|]. split; [discriminate|]. split; [reflexivity|].
  split; [reflexivity|]. split; [exact P|].
  destruct (C86_fit [("savgol", savgol 3 1 1 2 "interp" 0)] "savgol" _ 1 1 1 2 0 rzig rzig_wf eq_refl eq_refl ltac:(lia) ltac:(lra) ltac:(cbn; lia)) as (c' & E & _).
  exists c'. split; [exact E|].
  rewrite (C86_polynomial [("savgol", savgol 3 1 1 2 "interp" 0)] "savgol" _ 1 1 1 2 0 rzig c' 0 [0; 1] rzig_wf eq_refl eq_refl
    ltac:(lia) ltac:(lra) ltac:(cbn; lia) E ltac:(cbn; lia) ltac:(cbn; lia) P 0 ltac:(cbn; lia)).
  rewrite derive_poly, polyval_iter. cbn. unfold Rdiv. rnum. field.
Qed.
