(** Property C104: smoothing of (disturbed) samples of a smooth curve. *)
From Coq Require Import ZArith String List Bool Arith Lia PrimFloat Reals Lra Psatz.
From Coquelicot Require Import Derive.
From Verif Require Import Num Py Numeric Curve Vec Csaps Registry Smooth Savgol Spec GeomSpec.
From Verif Require Import ListFacts ArrayProofs VecFacts CurveProofs CurveProofs2 CurveProofs3 SmoothProofs CsapsProofs SavgolProofs SavgolProofs2 SmoothLenProofs SampleProofs SmoothConvProofs.
From Verif Require Import Properties_Container Properties_Smooth Properties_Savgol.
Import ListNotations.
Local Open Scope string_scope.
Local Open Scope list_scope.
Local Open Scope R_scope.

(** The points of [c] are those of the curve with coordinates [f] at a, a + h,
    a + 2h, ..., up to [eta] in every coordinate. *)
Definition disturbed (c : curve R) (f : nat -> R -> R) (a h eta : R) : Prop :=
  0 < h /\ forall i j, (i < c_size c)%nat -> (j < c_ndim c)%nat -> Rabs (nth j (nth i (c_rows c) []) 0 - f j (a + h * INR i)) <= eta.
(** D j m is the m-th derivative of coordinate j up to the order [p], and D j p
    is bounded by [M], between the first and the last parameter. *)
Definition smooth_to (c : curve R) (a h : R) (D : nat -> nat -> R -> R) (p : nat) (M : R) : Prop :=
  forall j v, (j < c_ndim c)%nat -> a <= v <= a + h * INR (c_size c - 1) ->
    (forall m, (m < p)%nat -> derivable_pt_lim (D j m) v (D j (S m) v)) /\ Rabs (D j p v) <= M.
(** The mean r-th power of the distance from the middle of the window. *)
Definition moment (w : list R) (r : nat) : R :=
  sum_upto (length w) (fun k => nth k w 0 / total w * Rabs (INR k - INR (length w / 2)) ^ r).

Lemma moment_ns w r : moment w r = ns (fun k => nth k w 0 / vsum w * Rabs (INR k - INR (length w / 2)) ^ r) (length w).
Proof. unfold moment, sum_upto. apply vsum_ns. Qed.

Lemma smoothed_coord b cval w (c : curve R) i j : c_dtype c = DFloat -> (i < c_size c)%nat -> (j < c_ndim c)%nat ->
  nth j (nth i (c_rows (smoothed b cval w c)) []) 0 =
  ns (fun k => nth k w 0 / vsum w * nth j (ext_row b cval (c_rows c) (c_ndim c) (Z.of_nat i + (Z.of_nat (length w / 2) - Z.of_nat k))) 0) (length w).
Proof.
  intros Dt Hi Hj. unfold smoothed. cbn [c_rows]. rewrite Dt. set (g := fun i : nat => _). rewrite (nth_indep _ [] (g 0%nat)) by (rewrite map_length, seq_length; exact Hi).
  rewrite map_nth, seq_nth by exact Hi. unfold g. change (map (cast (T := R) DFloat)) with (map (fun y : R => y)). rewrite map_id, conv_row_comb, comb_nth, vsum_ns, normalise_length by exact Hj.
  apply ns_ext. intros k _. rewrite normalise_nth. cbn [Nat.add]. f_equal. f_equal. f_equal. lia.
Qed.

Lemma size_pos (c : curve R) i : (i < c_size c)%nat -> c_rows c <> [].
Proof. unfold c_size. destruct (c_rows c); cbn; [lia|discriminate]. Qed.
Lemma at_in (c : curve R) a h i : 0 < h -> (i < c_size c)%nat -> a <= a + h * INR i <= a + h * INR (c_size c - 1).
Proof.
  intros Ph Hi. assert (0 <= INR i) by apply pos_INR. assert (INR i <= INR (c_size c - 1)) by (apply le_INR; lia). nra.
Qed.
Lemma INR_diff i q : INR q - INR i = IZR (Z.of_nat q - Z.of_nat i).
Proof. rewrite minus_IZR, <- !INR_IZR_INZ. reflexivity. Qed.

(** ** C104 Smoothing of samples of a smooth curve *)

(** Window smoothing with non-negative weights, any of the boundary modes that
    continue the curve by its own points near the end: first order everywhere. *)
Theorem C104_window : forall gw (r : registry (smethod R)) name m mode cval w (c : curve R) D a h eta M,
  wf c -> c_rows c <> [] -> c_dtype c = DFloat -> reg_find r name = Some m -> window_method gw m mode cval w ->
  In mode ["reflect"; "nearest"; "mirror"] -> (forall x, In x w -> 0 <= x) -> total w <> 0 ->
  disturbed c (fun j => D j 0%nat) a h eta -> smooth_to c a h D 1 M ->
  exists c', smooth r name c = Ok c' /\ forall i j, (i < c_size c)%nat -> (j < c_ndim c)%nat ->
    Rabs (nth j (nth i (c_rows c') []) 0 - D j 0%nat (a + h * INR i)) <= eta + M * h * moment w 1.
Proof.
  intros gw r name m mode cval w c D a h eta M W N Dt F Me Hm Pw Tw (Ph & Ds) Sm.
  assert (Nw : w <> []) by (intros ->; apply Tw; reflexivity). change (vsum w <> 0) in Tw.
  assert (B : exists b, bmode_of mode = Ok b /\ (b = BReflect \/ b = BNearest \/ b = BMirror)) by (destruct Hm as [<-|[<-|[<-|[]]]]; eexists; split; try reflexivity; auto).
  destruct B as (b & Eb & Hb). exists (smoothed b cval w c). split; [apply (window_method_smooth gw r name m mode); assumption|].
  intros i j Hi Hj. rewrite smoothed_coord by assumption. set (x := a + h * INR i).
  assert (M0 : 0 <= M) by (pose proof (proj2 (Sm j x Hj (at_in c a h i Ph Hi))) as Q; pose proof (Rabs_pos (D j 1%nat x)); lra).
  eapply Rle_trans; [apply (average_first w Tw Pw _ _ (fun k => eta + M * h * Rabs (INR k - INR (length w / 2)) ^ 1))|].
  - intros k Hk. set (o := (Z.of_nat (length w / 2) - Z.of_nat k)%Z). unfold ext_row. destruct (ext_index b (length (c_rows c)) (Z.of_nat i + o)) as [q|] eqn:Eq.
    + destruct (ext_near b (length (c_rows c)) i o q Hb Hi Eq) as (Hq & Near). pose proof (Ds q j Hq Hj) as K.
      pose proof (taylor1 a (a + h * INR (c_size c - 1)) (D j 0%nat) (D j 1%nat) M x (a + h * INR q) ltac:(intros v Hv; apply (Sm j v Hj Hv); lia) ltac:(intros v Hv; apply (Sm j v Hj Hv)) (at_in c a h i Ph Hi) (at_in c a h q Ph Hq)) as T.
      assert (X : Rabs (a + h * INR q - x) <= h * Rabs (INR k - INR (length w / 2))).
      { unfold x. replace (a + h * INR q - (a + h * INR i)) with (h * (INR q - INR i)) by ring. rewrite Rabs_mult, (Rabs_right h) by lra. apply Rmult_le_compat_l; [lra|].
        rewrite !INR_diff, <- !abs_IZR. apply IZR_le. unfold o in Near. lia. }
      replace (nth j (nth q (c_rows c) []) 0 - D j 0%nat x) with ((nth j (nth q (c_rows c) []) 0 - D j 0%nat (a + h * INR q)) + (D j 0%nat (a + h * INR q) - D j 0%nat x)) by ring.
      eapply Rle_trans; [apply Rabs_triang|]. assert (M * Rabs (a + h * INR q - x) <= M * (h * Rabs (INR k - INR (length w / 2)))) by (apply Rmult_le_compat_l; assumption).
      cbn [pow]. lra.
    + exfalso. destruct Hb as [->|[->| ->]]; unfold ext_index in Eq; [discriminate|discriminate|]. destruct (Nat.eqb _ _) in Eq; discriminate.
  - right. rewrite moment_ns. set (n := length w).
    transitivity (ns (fun k => nth k w 0 / vsum w * eta) n + ns (fun k => nth k w 0 / vsum w * Rabs (INR k - INR (n / 2)) ^ 1 * (M * h)) n).
    + rewrite <- ns_add. apply ns_ext. intros k _. ring.
    + rewrite !ns_scale. unfold n. rewrite (v_sum w Tw). ring.
Qed.
Print Assumptions C104_window.

(** Symmetric windows are of second order where the window lies inside the curve,
    whatever the boundary mode. *)
Theorem C104_window_inside : forall gw (r : registry (smethod R)) name m mode b cval w q (c : curve R) D a h eta M,
  wf c -> c_rows c <> [] -> c_dtype c = DFloat -> reg_find r name = Some m -> window_method gw m mode cval w -> bmode_of mode = Ok b ->
  (forall x, In x w -> 0 <= x) -> total w <> 0 -> rev w = w -> length w = (2 * q + 1)%nat ->
  disturbed c (fun j => D j 0%nat) a h eta -> smooth_to c a h D 2 M ->
  exists c', smooth r name c = Ok c' /\ forall i j, (q <= i)%nat -> (i + q < c_size c)%nat -> (j < c_ndim c)%nat ->
    Rabs (nth j (nth i (c_rows c') []) 0 - D j 0%nat (a + h * INR i)) <= eta + M * h ^ 2 / 2 * moment w 2.
Proof.
  intros gw r name m mode b cval w q c D a h eta M W N Dt F Me Eb Pw Tw Sy Lw (Ph & Ds) Sm.
  assert (Nw : w <> []) by (intros ->; apply Tw; reflexivity). change (vsum w <> 0) in Tw.
  exists (smoothed b cval w c). split; [apply (window_method_smooth gw r name m mode); assumption|].
  intros i j Hq Hi Hj. rewrite smoothed_coord by (assumption || lia). assert (Eh : (length w / 2 = q)%nat) by (rewrite Lw; apply half).
  rewrite (sym_sum w _ Sy). set (x := a + h * INR i).
  eapply Rle_trans; [apply (average_first w Tw Pw _ _ (fun k => eta + M * h ^ 2 / 2 * Rabs (INR k - INR (length w / 2)) ^ 2))|].
  - intros k Hk. rewrite Eh.
    assert (V : forall l, (l < length w)%nat -> exists u, u = (i + q - l)%nat /\ (u < c_size c)%nat /\
       ext_row b cval (c_rows c) (c_ndim c) (Z.of_nat i + (Z.of_nat q - Z.of_nat l)) = nth u (c_rows c) []).
    { intros l Hl. exists (i + q - l)%nat. split; [reflexivity|]. split; [lia|]. unfold ext_row. rewrite ext_index_in by (unfold c_size in *; lia). f_equal. lia. }
    destruct (V k Hk) as (u & Eu & Hu & ->). destruct (V (length w - 1 - k)%nat ltac:(lia)) as (u' & Eu' & Hu' & ->).
    pose proof (Ds u j Hu Hj) as K1. pose proof (Ds u' j Hu' Hj) as K2.
    assert (T : forall u, (u < c_size c)%nat -> Rabs (D j 0%nat (a + h * INR u) - D j 0%nat x - (a + h * INR u - x) * D j 1%nat x) <= M * Rabs (a + h * INR u - x) ^ 2 / 2).
    { intros v Hv. apply (taylor2 a (a + h * INR (c_size c - 1)) (D j 0%nat) (D j 1%nat) (D j 2%nat) M x (a + h * INR v));
        [intros y Hy; apply (Sm j y Hj Hy); lia|intros y Hy; apply (Sm j y Hj Hy); lia|intros y Hy; apply (Sm j y Hj Hy)|apply at_in; [exact Ph|lia]|apply at_in; assumption]. }
    pose proof (T u Hu) as T1. pose proof (T u' Hu') as T2. set (d := INR k - INR q).
    assert (E1 : a + h * INR u - x = - (h * d)) by (unfold x, d; rewrite Eu, minus_INR, plus_INR by lia; ring).
    assert (E2 : a + h * INR u' - x = h * d).
    { unfold x, d. replace u' with (i + k - q)%nat by lia. rewrite minus_INR, plus_INR by lia. ring. }
    rewrite E1 in T1. rewrite E2 in T2. rewrite Rabs_Ropp in T1. rewrite Rabs_mult, (Rabs_right h), Rpow_mult_distr in T1, T2 by lra.
    apply Rabs_lt_le_inv in T1. apply Rabs_lt_le_inv in T2. apply Rabs_lt_le_inv in K1. apply Rabs_lt_le_inv in K2. apply Rabs_le. fold d. lra.
  - right. rewrite moment_ns. set (n := length w).
    transitivity (ns (fun k => nth k w 0 / vsum w * eta) n + ns (fun k => nth k w 0 / vsum w * Rabs (INR k - INR (n / 2)) ^ 2 * (M * h ^ 2 / 2)) n).
    + rewrite <- ns_add. apply ns_ext. intros k _. ring.
    + rewrite !ns_scale. unfold n. rewrite (v_sum w Tw). ring.
Qed.
Print Assumptions C104_window_inside.

(** No constant could be smaller: a coordinate alpha + beta x + gamma x^2 moves by
    exactly gamma h^2 times the second moment. *)
Theorem C104_window_exact : forall gw (r : registry (smethod R)) name m mode b cval w q (c : curve R) j alpha beta gamma a h,
  wf c -> c_rows c <> [] -> c_dtype c = DFloat -> reg_find r name = Some m -> window_method gw m mode cval w -> bmode_of mode = Ok b ->
  total w <> 0 -> rev w = w -> length w = (2 * q + 1)%nat -> (j < c_ndim c)%nat ->
  (forall i, (i < c_size c)%nat -> nth j (nth i (c_rows c) []) 0 = alpha + beta * (a + h * INR i) + gamma * (a + h * INR i) ^ 2) ->
  exists c', smooth r name c = Ok c' /\ forall i, (q <= i)%nat -> (i + q < c_size c)%nat ->
    nth j (nth i (c_rows c') []) 0 = nth j (nth i (c_rows c) []) 0 + gamma * h ^ 2 * moment w 2.
Proof.
  intros gw r name m mode b cval w q c j al be ga a h W N Dt F Me Eb Tw Sy Lw Hj Hr.
  assert (Nw : w <> []) by (intros ->; apply Tw; reflexivity). change (vsum w <> 0) in Tw.
  exists (smoothed b cval w c). split; [apply (window_method_smooth gw r name m mode); assumption|].
  intros i Hq Hi. rewrite smoothed_coord by (assumption || lia). assert (Eh : (length w / 2 = q)%nat) by (rewrite Lw; apply half).
  rewrite (sym_sum w _ Sy). set (y := nth j (nth i (c_rows c) []) 0).
  rewrite (ns_ext _ (fun k => nth k w 0 / vsum w * y + nth k w 0 / vsum w * Rabs (INR k - INR (length w / 2)) ^ 2 * (ga * h ^ 2))).
  - rewrite ns_add, !ns_scale, (v_sum w Tw), moment_ns. ring.
  - intros k Hk. rewrite Eh.
    assert (V : forall l, (l < length w)%nat -> nth j (ext_row b cval (c_rows c) (c_ndim c) (Z.of_nat i + (Z.of_nat q - Z.of_nat l))) 0 = nth j (nth (i + q - l) (c_rows c) []) 0).
    { intros l Hl. unfold ext_row. rewrite ext_index_in by (unfold c_size in *; lia). f_equal. f_equal. lia. }
    rewrite (V k Hk), (V (length w - 1 - k)%nat ltac:(lia)). unfold y. rewrite !Hr by lia. rewrite pow2_abs.
    replace (i + q - (length w - 1 - k))%nat with (i + k - q)%nat by lia. rewrite !minus_INR, !plus_INR by lia. field. exact Tw.
Qed.
Print Assumptions C104_window_exact.

(** Savitzky-Golay smoothing (mode 'interp') with order p: order p + 1 at every
    point, ends included; an explicit constant, and only the square root of the
    window size multiplies the disturbance. *)
Lemma savgol_residual (c : curve R) D a h eta M p q i j k : disturbed c (fun j => D j 0%nat) a h eta -> smooth_to c a h D (S p) M ->
  (i < c_size c)%nat -> (j < c_ndim c)%nat -> (k < c_size c)%nat -> Rabs (INR k - INR i) <= INR q ->
  Rabs (nth j (nth k (c_rows c) []) 0 - polyval (tpoly (D j) p (a + h * INR i) h (INR i)) (INR k)) <= eta + M * (h * INR q) ^ S p / INR (fact (S p)).
Proof.
  intros (Ph & Ds) Sm Hi Hj Hk Hq. rewrite tpoly_value.
  pose proof (taylor_n a (a + h * INR (c_size c - 1)) (a + h * INR i) (a + h * INR k) (at_in c a h i Ph Hi) (at_in c a h k Ph Hk) p (D j) M
    ltac:(intros m Hm v Hv; apply (Sm j v Hj Hv); lia) ltac:(intros v Hv; apply (Sm j v Hj Hv))) as T.
  replace (a + h * INR k - (a + h * INR i)) with (h * (INR k - INR i)) in T by ring. pose proof (Ds k j Hk Hj) as K.
  assert (M0 : 0 <= M) by (pose proof (proj2 (Sm j _ Hj (at_in c a h i Ph Hi))) as Q; pose proof (Rabs_pos (D j (S p) (a + h * INR i))); lra).
  assert (Pw : Rabs (h * (INR k - INR i)) ^ S p <= (h * INR q) ^ S p).
  { apply pow_incr. split; [apply Rabs_pos|]. rewrite Rabs_mult, (Rabs_right h) by lra. apply Rmult_le_compat_l; lra. }
  assert (F := fact_pos (S p)). assert (G : M * Rabs (h * (INR k - INR i)) ^ S p / INR (fact (S p)) <= M * (h * INR q) ^ S p / INR (fact (S p))).
  { apply Rmult_le_compat_r; [left; apply Rinv_0_lt_compat, F|]. apply Rmult_le_compat_l; assumption. }
  replace (nth j (nth k (c_rows c) []) 0 - tsum (D j) p (a + h * INR i) (h * (INR k - INR i)))
    with ((nth j (nth k (c_rows c) []) 0 - D j 0%nat (a + h * INR k)) + (D j 0%nat (a + h * INR k) - tsum (D j) p (a + h * INR i) (h * (INR k - INR i)))) by ring.
  eapply Rle_trans; [apply Rabs_triang|]. lra.
Qed.

Theorem C104_savgol : forall (r : registry (smethod R)) name m q p delta cval (c : curve R) D a h eta M,
  wf c -> reg_find r name = Some m -> savgol_method m q p 0 delta "interp" cval ->
  (p < 2 * q + 1)%nat -> (2 * q + 1 <= c_size c)%nat -> delta <> 0 ->
  disturbed c (fun j => D j 0%nat) a h eta -> smooth_to c a h D (S p) M ->
  exists c', smooth r name c = Ok c' /\ forall i j, (i < c_size c)%nat -> (j < c_ndim c)%nat ->
    Rabs (nth j (nth i (c_rows c') []) 0 - D j 0%nat (a + h * INR i))
      <= sqrt (INR (2 * q + 1)) * (eta + M * (h * INR (2 * q)) ^ S p / INR (fact (S p))) /\
    ((q <= i)%nat -> (i + q < c_size c)%nat -> Rabs (nth j (nth i (c_rows c') []) 0 - D j 0%nat (a + h * INR i))
      <= sqrt (INR (2 * q + 1)) * (eta + M * (h * INR q) ^ S p / INR (fact (S p)))).
Proof.
  intros r name m q p delta cval c D a h eta M W F Me Hp Hn Hd Ds Sm.
  destruct (C86_fit r name m q p 0 delta cval c W F Me Hp Hd Hn) as (c' & E & _ & _ & _ & _ & _ & H). exists c'. split; [exact E|].
  assert (Ph := proj1 Ds).
  assert (G : forall u i j, (i < c_size c)%nat -> (j < c_ndim c)%nat ->
     (forall k, (k < 2 * q + 1)%nat -> Rabs (IZR (Z.max 0 (Z.min (Z.of_nat i - Z.of_nat q) (Z.of_nat (c_size c) - (2 * Z.of_nat q + 1))) + Z.of_nat k) - INR i) <= INR u) ->
     Rabs (nth j (nth i (c_rows c') []) 0 - D j 0%nat (a + h * INR i)) <= sqrt (INR (2 * q + 1)) * (eta + M * (h * INR u) ^ S p / INR (fact (S p)))).
  { intros u i j Hi Hj Hu. destruct (H i j Hi Hj) as (al & Bf & ->). apply best_fit_iff in Bf. cbn [Derive_n pow]. rewrite poly_polyval. unfold Rdiv at 1. rewrite Rinv_1, Rmult_1_r.
    set (s := Z.max _ _) in *. set (T := tpoly (D j) p (a + h * INR i) h (INR i)).
    replace (D j 0%nat (a + h * INR i)) with (polyval T (IZR (Z.of_nat i))) by (unfold T; rewrite tpoly_value, <- INR_IZR_INZ; replace (h * (INR i - INR i)) with 0 by ring; apply tsum_0).
    rewrite INR_IZR_INZ.
    assert (Rs : forall k, (k < 2 * q + 1)%nat -> Rabs (nth j (nth (Z.to_nat (s + Z.of_nat k)) (c_rows c) []) 0 - polyval T (IZR (s + Z.of_nat k))) <= eta + M * (h * INR u) ^ S p / INR (fact (S p))).
    { intros k Hk. specialize (Hu k Hk). set (z := (s + Z.of_nat k)%Z) in *. replace (IZR z) with (INR (Z.to_nat z)) in * by (rewrite INR_IZR_INZ; f_equal; unfold z, s; lia).
      apply savgol_residual; try assumption. unfold z, s. lia. }
    apply (best_value_error (fun t : Z => nth j (nth (Z.to_nat t) (c_rows c) []) 0) s (2 * q + 1) p al T (Z.of_nat i)); [exact Bf|apply tpoly_length|unfold s; lia| |exact Rs].
    eapply Rle_trans; [|exact (Rs 0%nat ltac:(lia))]. apply Rabs_pos. }
  intros i j Hi Hj. split.
  - apply G; try assumption. intros k Hk. rewrite !INR_IZR_INZ, <- minus_IZR, <- abs_IZR. apply IZR_le. lia.
  - intros H1 H2. apply G; try assumption. intros k Hk. rewrite !INR_IZR_INZ, <- minus_IZR, <- abs_IZR. apply IZR_le. lia.
Qed.
Print Assumptions C104_savgol.

(** With delta = h the d-th derivative is approximated with order p + 1 - d at
    every point; the constant depends on the window, the order and d only. *)
Theorem C104_savgol_derivative : forall q p d, (p < 2 * q + 1)%nat -> (d <= p)%nat -> exists C, 0 <= C /\
  forall (r : registry (smethod R)) name m cval (c : curve R) D a h eta M,
  wf c -> reg_find r name = Some m -> savgol_method m q p d h "interp" cval -> (2 * q + 1 <= c_size c)%nat ->
  disturbed c (fun j => D j 0%nat) a h eta -> smooth_to c a h D (S p) M ->
  exists c', smooth r name c = Ok c' /\ forall i j, (i < c_size c)%nat -> (j < c_ndim c)%nat ->
    Rabs (nth j (nth i (c_rows c') []) 0 - D j d (a + h * INR i)) <= C * (eta / h ^ d + M * h ^ (S p - d)).
Proof.
  intros q p d Hp Hd. destruct (fit_constant (2 * q + 1) p d ltac:(lia)) as (C & C0 & HC).
  set (K := INR (2 * q) ^ S p / INR (fact (S p))).
  assert (K0 : 0 <= K) by (apply Rmult_le_pos; [apply pow_le, pos_INR|left; apply Rinv_0_lt_compat, fact_pos]).
  exists (C * (1 + K)). split; [apply Rmult_le_pos; lra|].
  intros r name m cval c D a h eta M W F Me Hn Ds Sm. assert (Ph := proj1 Ds).
  destruct (C86_fit r name m q p d h cval c W F Me Hp ltac:(lra) Hn) as (c' & E & _ & _ & _ & _ & _ & H). exists c'. split; [exact E|].
  intros i j Hi Hj. destruct (H i j Hi Hj) as (al & Bf & ->). apply best_fit_iff in Bf. rewrite derive_poly.
  set (s := Z.max _ _) in *. set (T := tpoly (D j) p (a + h * INR i) h (INR i)).
  assert (Rs : forall k, (k < 2 * q + 1)%nat -> Rabs (nth j (nth (Z.to_nat (s + Z.of_nat k)) (c_rows c) []) 0 - polyval T (IZR (s + Z.of_nat k))) <= eta + M * (h * INR (2 * q)) ^ S p / INR (fact (S p))).
  { intros k Hk. set (z := (s + Z.of_nat k)%Z) in *. replace (IZR z) with (INR (Z.to_nat z)) by (rewrite INR_IZR_INZ; f_equal; unfold z, s; lia).
    apply savgol_residual; try assumption; [unfold z, s; lia|]. rewrite !INR_IZR_INZ, <- minus_IZR, <- abs_IZR. apply IZR_le. unfold z, s. lia. }
  pose proof (HC (fun t : Z => nth j (nth (Z.to_nat t) (c_rows c) []) 0) s (Z.of_nat i) al T _ ltac:(unfold s; lia) Bf (tpoly_length _ _ _ _ _) Rs) as Q.
  rewrite <- INR_IZR_INZ in Q. unfold T in Q. rewrite tpoly_derive in Q by exact Hd.
  assert (Hh : 0 < h ^ d) by (apply pow_lt, Ph).
  assert (Eta : 0 <= eta) by (destruct Ds as (_ & Ds); pose proof (Ds i j Hi Hj) as X; pose proof (Rabs_pos (nth j (nth i (c_rows c) []) 0 - D j 0%nat (a + h * INR i))); lra).
  assert (M0 : 0 <= M) by (pose proof (proj2 (Sm j _ Hj (at_in c a h i Ph Hi))) as X; pose proof (Rabs_pos (D j (S p) (a + h * INR i))); lra).
  set (V := Derive_n (polyval al) d (INR i)) in *.
  replace (V / h ^ d - D j d (a + h * INR i)) with ((V - h ^ d * D j d (a + h * INR i)) / h ^ d) by (field; lra).
  unfold Rdiv at 1. rewrite Rabs_mult, Rabs_inv, (Rabs_right (h ^ d)) by lra.
  apply (Rmult_le_reg_r (h ^ d)); [exact Hh|]. rewrite Rmult_assoc, Rinv_l, Rmult_1_r by lra.
  eapply Rle_trans; [exact Q|].
  assert (Ep : h ^ S p = h ^ (S p - d) * h ^ d) by (rewrite <- pow_add; f_equal; lia).
  rewrite Rpow_mult_distr, Ep. set (A := h ^ (S p - d)). assert (A0 : 0 <= A) by (apply pow_le; lra).
  replace (C * (1 + K) * (eta / h ^ d + M * A) * h ^ d) with (C * ((1 + K) * (eta + M * A * h ^ d))) by (field; lra).
  apply Rmult_le_compat_l; [exact C0|]. unfold Rdiv. replace (M * (A * h ^ d * INR (2 * q) ^ S p) * / INR (fact (S p))) with (K * (M * A * h ^ d)) by (unfold K, Rdiv; ring).
  assert (0 <= M * A * h ^ d) by (apply Rmult_le_pos; [apply Rmult_le_pos; assumption|lra]). nra.
Qed.
Print Assumptions C104_savgol_derivative.

(** Even orders gain one more at the points whose window lies inside. *)
Theorem C104_savgol_even : forall (r : registry (smethod R)) name m q p delta cval (c : curve R) D a h eta M,
  wf c -> reg_find r name = Some m -> savgol_method m q p 0 delta "interp" cval -> Nat.even p = true ->
  (S p < 2 * q + 1)%nat -> (2 * q + 1 <= c_size c)%nat -> delta <> 0 ->
  disturbed c (fun j => D j 0%nat) a h eta -> smooth_to c a h D (S (S p)) M ->
  exists c', smooth r name c = Ok c' /\ forall i j, (q <= i)%nat -> (i + q < c_size c)%nat -> (j < c_ndim c)%nat ->
    Rabs (nth j (nth i (c_rows c') []) 0 - D j 0%nat (a + h * INR i))
      <= sqrt (INR (2 * q + 1)) * (eta + M * (h * INR q) ^ S (S p) / INR (fact (S (S p)))).
Proof.
  intros r name m q p delta cval c D a h eta M W F Me Ev Hp Hn Hd Ds Sm.
  set (m' := savgol (2 * Z.of_nat q + 1) (Z.of_nat (S p)) (Z.of_nat 0) delta "interp" cval : smethod R).
  set (r' := [(name, m')] : registry (smethod R)).
  assert (F' : reg_find r' name = Some m') by (unfold r'; cbn [reg_find]; rewrite String.eqb_refl; reflexivity).
  destruct (C104_savgol r' name m' q (S p) delta cval c D a h eta M W F' eq_refl Hp Hn Hd Ds Sm) as (c2 & E2 & H2).
  destruct (C86_fit r name m q p 0 delta cval c W F Me ltac:(lia) Hd Hn) as (c1 & E1 & _). exists c1. split; [exact E1|].
  intros i j H1 H3 Hj. rewrite (C86_parity r r' name m m' q p 0 delta "interp" cval c c1 c2 W (size_pos c i ltac:(lia)) F Me F' eq_refl Hp Hd (or_introl eq_refl) (fun _ => Hn) ltac:(rewrite Nat.add_0_r; exact Ev) E1 E2 i ltac:(lia) (or_intror (conj H1 H3))).
  apply H2; assumption || lia.
Qed.
Print Assumptions C104_savgol_even.

(** ** Examples: the parabola at 0, 1/4, ..., 1, one point disturbed by 1/100 *)

Definition bowl (e : R) : curve R := mkCurve [[0; 0]; [/ 4; / 16]; [/ 2; / 4 + e]; [3 / 4; 9 / 16]; [1; 1]] 2 DFloat None.
Definition bowl_at (j m : nat) (x : R) : R :=
  match j, m with
  | O, O => x | O, S O => 1 | O, _ => 0
  | _, O => x * x | _, S O => 2 * x | _, S (S O) => 2 | _, _ => 0
  end.
Lemma bowl_wf e : wf (bowl e).
Proof. split; [apply le_n|]. split; [intros p Hp; repeat (destruct Hp as [<-|Hp]; [reflexivity|]); destruct Hp|discriminate]. Qed.
Lemma bowl_disturbed e : disturbed (bowl e) (fun j => bowl_at j 0) 0 (/ 4) (Rabs e).
Proof.
  split; [lra|]. intros i j Hi Hj. cbn in Hi, Hj. pose proof (Rabs_pos e) as P.
  assert (Z : forall x, x = 0 -> Rabs x <= Rabs e) by (intros x ->; rewrite Rabs_R0; exact P).
  assert (K : forall x, x = e -> Rabs x <= Rabs e) by (intros x ->; lra).
  destruct i as [|[|[|[|[|i]]]]]; destruct j as [|[|j]]; try lia; cbn [bowl c_rows nth bowl_at INR]; (apply Z; lra) || (apply K; lra).
Qed.
Lemma bowl_smooth e p M : (p = 1%nat \/ p = 2%nat) -> 2 <= M -> smooth_to (bowl e) 0 (/ 4) bowl_at p M.
Proof.
  intros Hp HM j v Hj Hv. cbn in Hj. change (c_size (bowl e) - 1)%nat with 4%nat in Hv. cbn [INR] in Hv.
  assert (Dx : derivable_pt_lim (fun x => x * x) v (2 * v)).
  { replace (2 * v) with (1 * v + v * 1) by ring. exact (derivable_pt_lim_mult id id v _ _ (derivable_pt_lim_id v) (derivable_pt_lim_id v)). }
  assert (D2 : derivable_pt_lim (fun x => 2 * x) v 2).
  { pose proof (derivable_pt_lim_scal id 2 v _ (derivable_pt_lim_id v)) as Q. rewrite Rmult_1_r in Q. exact Q. }
  split.
  - intros m Hm. assert (m < 2)%nat by lia. destruct j as [|[|j]]; try lia; destruct m as [|[|m]]; try lia.
    + exact (derivable_pt_lim_id v).
    + exact (derivable_pt_lim_const 1 v).
    + exact Dx.
    + exact D2.
  - destruct Hp as [-> | ->]; destruct j as [|[|j]]; try lia; cbn [bowl_at]; apply Rabs_le; lra.
Qed.
Definition tri3 : list R := [1; 2; 1].
Lemma tri3_pos x : In x tri3 -> 0 <= x.
Proof. intros [<-|[<-|[<-|[]]]]; lra. Qed.
Lemma tri3_total : total tri3 = 4.
Proof. unfold total, tri3. cbn. rnum. lra. Qed.
Lemma tri3_moment r : (0 < r)%nat -> moment tri3 r = / 2.
Proof.
  intros Hr. rewrite moment_ns. change (vsum tri3) with (total tri3). rewrite tri3_total. cbn [length tri3]. change (3 / 2)%nat with 1%nat. cbn [ns tri3 nth INR].
  replace (0 - 1) with (- (1)) by ring. replace (1 - 1) with 0 by ring. replace (1 + 1 - 1) with 1 by ring.
  rewrite Rabs_Ropp, Rabs_R1, Rabs_R0, pow1, pow_i by exact Hr. lra.
Qed.

Example C104_window_ex : exists c', smooth [("w", from_window "reflect" 0 tri3)] "w" (bowl (/ 100)) = Ok c' /\
  forall i, (i < 5)%nat -> Rabs (nth 1 (nth i (c_rows c') []) 0 - (0 + / 4 * INR i) * (0 + / 4 * INR i)) <= 26 / 100.
Proof.
  destruct (C104_window (fun _ _ => Raise ValueError) [("w", from_window "reflect" 0 tri3)] "w" _ "reflect" 0 tri3 (bowl (/ 100)) bowl_at 0 (/ 4) (Rabs (/ 100)) 2
    (bowl_wf _) ltac:(discriminate) eq_refl eq_refl (from_window_method "reflect" 0 tri3) ltac:(left; reflexivity) tri3_pos ltac:(rewrite tri3_total; lra)
    (bowl_disturbed _) (bowl_smooth _ 1 2 ltac:(auto) ltac:(lra))) as (c' & E & H). exists c'. split; [exact E|].
  intros i Hi. pose proof (H i 1%nat Hi ltac:(cbn; lia)) as K. rewrite tri3_moment, (Rabs_right (/ 100)) in K by (lia || lra). change (bowl_at 1 0 ?x) with (x * x) in K. eapply Rle_trans; [exact K|lra].
Qed.

Example C104_window_inside_ex : exists c', smooth [("w", from_window "constant" 7 tri3)] "w" (bowl (/ 100)) = Ok c' /\
  forall i, (1 <= i)%nat -> (i < 4)%nat -> Rabs (nth 1 (nth i (c_rows c') []) 0 - (0 + / 4 * INR i) * (0 + / 4 * INR i)) <= / 100 + / 32.
Proof.
  destruct (C104_window_inside (fun _ _ => Raise ValueError) [("w", from_window "constant" 7 tri3)] "w" _ "constant" BConstant 7 tri3 1 (bowl (/ 100)) bowl_at 0 (/ 4) (Rabs (/ 100)) 2
    (bowl_wf _) ltac:(discriminate) eq_refl eq_refl (from_window_method "constant" 7 tri3) eq_refl tri3_pos ltac:(rewrite tri3_total; lra) eq_refl eq_refl
    (bowl_disturbed _) (bowl_smooth _ 2 2 ltac:(auto) ltac:(lra))) as (c' & E & H). exists c'. split; [exact E|].
  intros i H1 Hi. pose proof (H i 1%nat H1 ltac:(cbn; lia) ltac:(cbn; lia)) as K. rewrite tri3_moment, (Rabs_right (/ 100)) in K by (lia || lra). change (bowl_at 1 0 ?x) with (x * x) in K. eapply Rle_trans; [exact K|lra].
Qed.

Example C104_window_exact_ex : exists c', smooth [("w", from_window "wrap" 0 tri3)] "w" (bowl 0) = Ok c' /\ nth 1 (nth 2 (c_rows c') []) 0 = / 4 + / 32.
Proof.
  destruct (C104_window_exact (fun _ _ => Raise ValueError) [("w", from_window "wrap" 0 tri3)] "w" _ "wrap" BWrap 0 tri3 1 (bowl 0) 1 0 0 1 0 (/ 4)
    (bowl_wf _) ltac:(discriminate) eq_refl eq_refl (from_window_method "wrap" 0 tri3) eq_refl ltac:(rewrite tri3_total; lra) eq_refl eq_refl ltac:(cbn; lia)) as (c' & E & H).
  - intros i Hi. cbn in Hi. destruct i as [|[|[|[|[|i]]]]]; try lia; cbn [bowl c_rows nth INR]; lra.
  - exists c'. split; [exact E|]. rewrite (H 2%nat ltac:(lia) ltac:(cbn; lia)), tri3_moment by lia. cbn [bowl c_rows nth]. lra.
Qed.

Example C104_savgol_ex : exists c', smooth [("s", savgol 3 1 0 1 "interp" 0)] "s" (bowl (/ 100)) = Ok c' /\
  forall i, (i < 5)%nat -> Rabs (nth 1 (nth i (c_rows c') []) 0 - (0 + / 4 * INR i) * (0 + / 4 * INR i)) <= sqrt 3 * (/ 100 + / 4).
Proof.
  destruct (C104_savgol [("s", savgol 3 1 0 1 "interp" 0)] "s" _ 1 1 1 0 (bowl (/ 100)) bowl_at 0 (/ 4) (Rabs (/ 100)) 2
    (bowl_wf _) eq_refl eq_refl ltac:(lia) ltac:(cbn; lia) ltac:(lra) (bowl_disturbed _) (bowl_smooth _ 2 2 ltac:(auto) ltac:(lra))) as (c' & E & H). exists c'. split; [exact E|].
  intros i Hi. pose proof (proj1 (H i 1%nat Hi ltac:(cbn; lia))) as K. rewrite (Rabs_right (/ 100)) in K by lra. change (bowl_at 1 0 ?x) with (x * x) in K.
  cbn [Nat.mul Nat.add INR fact pow] in K. replace (1 + 1 + 1) with 3 in K by lra. eapply Rle_trans; [exact K|]. apply Rmult_le_compat_l; [apply sqrt_pos|lra].
Qed.

Example C104_savgol_derivative_ex : exists C c', smooth [("s", savgol 3 1 1 (/ 4) "interp" 0)] "s" (bowl (/ 100)) = Ok c' /\
  forall i, (i < 5)%nat -> Rabs (nth 1 (nth i (c_rows c') []) 0 - 2 * (0 + / 4 * INR i)) <= C * (/ 100 / / 4 + 2 * / 4).
Proof.
  destruct (C104_savgol_derivative 1 1 1 ltac:(lia) ltac:(lia)) as (C & _ & G). exists C.
  destruct (G [("s", savgol 3 1 1 (/ 4) "interp" 0)] "s" _ 0 (bowl (/ 100)) bowl_at 0 (/ 4) (Rabs (/ 100)) 2
    (bowl_wf _) eq_refl eq_refl ltac:(cbn; lia) (bowl_disturbed _) (bowl_smooth _ 2 2 ltac:(auto) ltac:(lra))) as (c' & E & H). exists c'. split; [exact E|].
  intros i Hi. pose proof (H i 1%nat Hi ltac:(cbn; lia)) as K. rewrite (Rabs_right (/ 100)) in K by lra. cbn [Nat.sub] in K. rewrite !pow_1 in K. exact K.
Qed.

Example C104_savgol_even_ex : exists c', smooth [("s", savgol 3 0 0 1 "interp" 0)] "s" (bowl (/ 100)) = Ok c' /\
  forall i, (1 <= i)%nat -> (i < 4)%nat -> Rabs (nth 1 (nth i (c_rows c') []) 0 - (0 + / 4 * INR i) * (0 + / 4 * INR i)) <= sqrt 3 * (/ 100 + / 16).
Proof.
  destruct (C104_savgol_even [("s", savgol 3 0 0 1 "interp" 0)] "s" _ 1 0 1 0 (bowl (/ 100)) bowl_at 0 (/ 4) (Rabs (/ 100)) 2
    (bowl_wf _) eq_refl eq_refl eq_refl ltac:(lia) ltac:(cbn; lia) ltac:(lra) (bowl_disturbed _) (bowl_smooth _ 2 2 ltac:(auto) ltac:(lra))) as (c' & E & H). exists c'. split; [exact E|].
  intros i H1 Hi. pose proof (H i 1%nat H1 ltac:(cbn; lia) ltac:(cbn; lia)) as K. rewrite (Rabs_right (/ 100)) in K by lra. change (bowl_at 1 0 ?x) with (x * x) in K.
  cbn [Nat.mul Nat.add INR fact pow] in K. replace (1 + 1 + 1) with 3 in K by lra. eapply Rle_trans; [exact K|]. apply Rmult_le_compat_l; [apply sqrt_pos|lra].
Qed.
