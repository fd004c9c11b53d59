(** Property C97: what window smoothing does to lengths and distances. *)
From Coq Require Import ZArith String List Bool Arith Lia PrimFloat Reals Lra Psatz.
From Verif Require Import Num Py Numeric Curve Vec Geom DiffGeom Registry Smooth Windows Spec GeomSpec WindowSpec.
From Verif Require Import ListFacts ArrayProofs VecFacts CurveProofs CurveProofs2 CurveProofs3 GeomProofs DiffGeomProofs SmoothProofs.
From Verif Require Import WindowProofs WindowProofs2 SmoothLenProofs Properties_Container Properties_Smooth Properties_Window.
Import ListNotations.
Local Open Scope string_scope.
Local Open Scope list_scope.
Local Open Scope R_scope.

(** How much the weights exceed their sum: 1 for non-negative weights. *)
Definition spread (w : list R) : R := total (map Rabs w) / Rabs (total w).

Lemma spread_ns (w : list R) : total w <> 0 -> ns (fun k => Rabs (nth k (normalise w) 0)) (length w) = spread w.
Proof.
  intros T. unfold spread. rewrite (ns_ext _ (fun k => Rabs (nth k w 0) * / Rabs (total w))).
  - rewrite ns_scale. unfold Rdiv. f_equal. rewrite <- vsum_ns. change (total (map Rabs w)) with (vsum (map Rabs w)). f_equal.
    transitivity (map Rabs (map (fun k => nth k w 0) (seq 0 (length w)))); [rewrite map_map; reflexivity|]. rewrite map_nth_seq. reflexivity.
  - intros k _. rewrite normalise_nth. unfold Rdiv. rewrite Rabs_mult, Rabs_inv. reflexivity.
Qed.
Lemma spread_one (w : list R) : total w <> 0 -> (forall x, In x w -> 0 <= x) -> spread w = 1.
Proof.
  intros T P. unfold spread. assert (E : map Rabs w = w) by (rewrite <- (map_id w) at 2; apply map_ext_in; intros x Hx; apply Rabs_right, Rle_ge, P, Hx).
  rewrite E. assert (0 <= total w).
  { clear - P. induction w as [|x w IH]; [cbn; lra|]. pose proof (P x ltac:(left; reflexivity)). pose proof (IH ltac:(intros y Hy; apply P; right; exact Hy)). change (total (x :: w)) with (x + total w). lra. }
  rewrite Rabs_right by lra. field. assumption.
Qed.

Lemma smoothed_rows b cval w (c : curve R) : c_dtype c = DFloat ->
  c_rows (smoothed b cval w c) = map (conv_row b cval (normalise w) (c_rows c) (c_ndim c)) (seq 0 (c_size c)).
Proof. intros D. unfold smoothed. cbn [c_rows]. rewrite D. apply map_ext. intros i. apply map_id. Qed.
Lemma smoothed_arclen junk b cval w (c : curve R) : wf c -> c_rows c <> [] -> c_dtype c = DFloat ->
  c_arclen junk (smoothed b cval w c) = polyline (map (conv_row b cval (normalise w) (c_rows c) (c_ndim c)) (seq 0 (c_size c))).
Proof.
  intros W N Dt.
  assert (D : dims (c_ndim c) (c_rows (smoothed b cval w c))).
  { rewrite smoothed_rows by assumption. intros x Hx. apply in_map_iff in Hx as (i & <- & _). unfold conv_row. rewrite map_length. apply seq_length. }
  rewrite (arclen_polyline (c_ndim c)); [rewrite smoothed_rows by assumption; reflexivity|exact D|].
  apply c_bool_wf; [split; [apply W|]; split; [exact D|discriminate]|].
  rewrite smoothed_rows by assumption. unfold c_size. destruct (c_rows c); [contradiction|discriminate].
Qed.

(** ** C97 Lengths and distances under window smoothing *)

(** For any window: the smoothed curve is at most [spread w] times as long as the
    part of the extended line that it averages over. *)
Theorem C97_bound : forall junk gw (r : registry (smethod R)) name m mode b cval w (c : curve R),
  wf c -> c_rows c <> [] -> c_dtype c = DFloat -> reg_find r name = Some m -> window_method gw m mode cval w ->
  bmode_of mode = Ok b -> w <> [] -> total w <> 0 ->
  exists c', smooth r name c = Ok c' /\
    c_arclen junk c' <= spread w *
      match b with
      | BNearest => c_arclen junk c
      | BReflect | BMirror => 2 * c_arclen junk c
      | BWrap => c_arclen junk c + dist (nth (c_size c - 1) (c_rows c) []) (nth 0 (c_rows c) [])
      | BConstant => dist (repeat cval (c_ndim c)) (nth 0 (c_rows c) []) + c_arclen junk c
                     + dist (nth (c_size c - 1) (c_rows c) []) (repeat cval (c_ndim c))
      end.
Proof.
  intros junk gw r name m mode b cval w c W N Dt F M Hm Nw Tw.
  exists (smoothed b cval w c). split; [apply (window_method_smooth gw r name m mode); assumption|].
  assert (D : dims (c_ndim c) (c_rows c)) by (intros p Hp; apply W; assumption).
  rewrite smoothed_arclen, (arclen_polyline (c_ndim c) junk c) by (assumption || (apply c_bool_wf; assumption)).
  eapply Rle_trans; [apply (conv_steps (c_rows c) (c_ndim c) cval D N b)|]. rewrite normalise_length, <- (spread_ns w Tw), <- ns_scale.
  apply ns_le. intros k Hk. apply Rmult_le_compat_l; [apply Rabs_pos|].
  destruct b; [apply reflect_steps|apply nearest_steps|apply mirror_steps|apply wrap_steps|apply constant_steps]; assumption.
Qed.
Print Assumptions C97_bound.

Lemma pair_bound (v : list R) (Sd : nat -> R) L : rev v = v ->
  (forall k, (k < length v)%nat -> Sd k + Sd (length v - 1 - k)%nat <= 2 * L) ->
  ns (fun k => Rabs (nth k v 0) * Sd k) (length v) <= ns (fun k => Rabs (nth k v 0)) (length v) * L.
Proof.
  intros Sy H. set (m := length v) in *.
  assert (V : forall k, (k < m)%nat -> nth (m - 1 - k) v 0 = nth k v 0).
  { intros k Hk. rewrite <- Sy at 1. rewrite rev_nth by (unfold m in *; lia). f_equal. unfold m in *. lia. }
  assert (E : ns (fun k => Rabs (nth k v 0) * Sd k) m = ns (fun k => Rabs (nth k v 0) * Sd (m - 1 - k)%nat) m).
  { rewrite ns_rev. apply ns_ext. intros k Hk. rewrite V by assumption. reflexivity. }
  assert (K : ns (fun k => Rabs (nth k v 0) * Sd k) m + ns (fun k => Rabs (nth k v 0) * Sd (m - 1 - k)%nat) m <= ns (fun k => Rabs (nth k v 0)) m * (2 * L)).
  { rewrite <- ns_add, <- ns_scale. apply ns_le. intros k Hk. pose proof (Rmult_le_compat_l _ _ _ (Rabs_pos (nth k v 0)) (H k Hk)). lra. }
  lra.
Qed.

(** A symmetric window does better: in the modes reflect and mirror the boundary adds nothing. *)
Theorem C97_symmetric : forall junk gw (r : registry (smethod R)) name m mode cval w (c : curve R),
  wf c -> c_rows c <> [] -> c_dtype c = DFloat -> reg_find r name = Some m -> window_method gw m mode cval w ->
  mode = "reflect" \/ mode = "mirror" -> w <> [] -> total w <> 0 -> rev w = w ->
  exists c', smooth r name c = Ok c' /\ c_arclen junk c' <= spread w * c_arclen junk c.
Proof.
  intros junk gw r name m mode cval w c W N Dt F M Hm Nw Tw Sw.
  assert (D : dims (c_ndim c) (c_rows c)) by (intros p Hp; apply W; assumption).
  assert (Sv : rev (normalise w) = normalise w) by (rewrite <- normalise_rev, Sw; reflexivity).
  assert (P : (0 < length w)%nat) by (apply nonempty_pos; assumption).
  assert (Pe : forall k, (k < length w)%nat ->
     (Z.of_nat (length w / 2) - Z.of_nat (length w - 1 - k))%Z = (if Nat.odd (length w) then - (Z.of_nat (length w / 2) - Z.of_nat k) else 1 - (Z.of_nat (length w / 2) - Z.of_nat k))%Z).
  { intros k Hk. pose proof (Nat.div_mod (length w) 2 ltac:(lia)) as E. pose proof (Nat.mod_upper_bound (length w) 2 ltac:(lia)) as U.
    destruct (Nat.odd (length w)) eqn:O.
    - apply Nat.odd_spec in O as (h & O). assert (length w / 2 = h)%nat by lia. lia.
    - assert (Ev : Nat.even (length w) = true) by (rewrite <- Nat.negb_odd, O; reflexivity). apply Nat.even_spec in Ev as (h & Ev). assert (length w / 2 = h)%nat by lia. lia. }
  destruct Hm as [->| ->].
  - exists (smoothed BReflect cval w c). split; [apply (window_method_smooth gw r name m "reflect"); try assumption; reflexivity|].
    rewrite smoothed_arclen, (arclen_polyline (c_ndim c) junk c) by (assumption || (apply c_bool_wf; assumption)).
    eapply Rle_trans; [apply (conv_steps (c_rows c) (c_ndim c) cval D N)|]. rewrite <- (spread_ns w Tw), <- (normalise_length w).
    apply (pair_bound (normalise w) (fun k => zs (xstep (c_rows c) (c_ndim c) cval BReflect) (Z.of_nat (length (normalise w) / 2) - Z.of_nat k) (length (c_rows c) - 1))); [exact Sv|].
    rewrite normalise_length. intros k Hk. rewrite Pe by assumption. destruct (Nat.odd (length w)); [apply reflect_pair|apply reflect_pair_even]; assumption.
  - exists (smoothed BMirror cval w c). split; [apply (window_method_smooth gw r name m "mirror"); try assumption; reflexivity|].
    rewrite smoothed_arclen, (arclen_polyline (c_ndim c) junk c) by (assumption || (apply c_bool_wf; assumption)).
    destruct (Nat.odd (length w)) eqn:O.
    + eapply Rle_trans; [apply (conv_steps (c_rows c) (c_ndim c) cval D N)|]. rewrite <- (spread_ns w Tw), <- (normalise_length w).
      apply (pair_bound (normalise w) (fun k => zs (xstep (c_rows c) (c_ndim c) cval BMirror) (Z.of_nat (length (normalise w) / 2) - Z.of_nat k) (length (c_rows c) - 1))); [exact Sv|].
      rewrite normalise_length. intros k Hk. rewrite Pe by assumption. right. apply mirror_pair; assumption.
    + destruct (Nat.le_gt_cases 2 (length (c_rows c))) as [H2|H2].
      * assert (Ev : Nat.even (length w) = true) by (rewrite <- Nat.negb_odd, O; reflexivity). apply Nat.even_spec in Ev as (h & Ev).
        eapply Rle_trans; [apply (conv_steps_mirror_even (c_rows c) (c_ndim c) cval D N (normalise w) h); [exact Sv|rewrite normalise_length; exact Ev|exact H2]|].
        rewrite <- (spread_ns w Tw), <- (normalise_length w).
        apply (pair_bound (normalise w) (fun k => zs (xstep (c_rows c) (c_ndim c) cval BMirror) (Z.of_nat (length (normalise w) / 2) - Z.of_nat k) (length (c_rows c) - 2))); [exact Sv|].
        rewrite normalise_length. intros k Hk. rewrite Pe by assumption. apply mirror_pair_even; assumption.
      * assert (E1 : c_size c = 1%nat) by (unfold c_size; pose proof (nonempty_pos _ N); lia). rewrite E1. cbn [seq map polyline].
        pose proof (polyline_nonneg (c_rows c)). rewrite <- (spread_ns w Tw).
        apply Rmult_le_pos; [|assumption]. apply Rle_trans with (ns (fun _ => 0) (length w)); [|apply ns_le; intros; apply Rabs_pos].
        clear. induction (length w) as [|q IH]; cbn; lra.
Qed.
Print Assumptions C97_symmetric.

(** Non-negative weights never lengthen the curve in mode nearest, and symmetric ones not
    in the modes reflect and mirror. *)
Theorem C97_no_longer : forall junk gw (r : registry (smethod R)) name m mode cval w (c : curve R),
  wf c -> c_rows c <> [] -> c_dtype c = DFloat -> reg_find r name = Some m -> window_method gw m mode cval w ->
  w <> [] -> total w <> 0 -> (forall x, In x w -> 0 <= x) ->
  mode = "nearest" \/ (rev w = w /\ (mode = "reflect" \/ mode = "mirror")) ->
  exists c', smooth r name c = Ok c' /\ c_arclen junk c' <= c_arclen junk c.
Proof.
  intros junk gw r name m mode cval w c W N Dt F M Nw Tw Pw H.
  rewrite <- (Rmult_1_l (c_arclen junk c)), <- (spread_one w Tw Pw). destruct H as [->|[Sw H]].
  - exact (C97_bound junk gw r name m "nearest" BNearest cval w c W N Dt F M eq_refl Nw Tw).
  - exact (C97_symmetric junk gw r name m mode cval w c W N Dt F M H Nw Tw Sw).
Qed.
Print Assumptions C97_no_longer.

(** In particular the windows of scipy known by name, other than the flat top one. *)
Theorem C97_named : forall junk pf ks wn w m (r : registry (smethod R)) name mode cval (c : curve R),
  wf c -> c_rows c <> [] -> c_dtype c = DFloat -> In wn (aliases w) -> pf wn = None -> w <> Flattop -> (1 <= m)%nat -> (m = 2%nat -> zero_ended w = false) ->
  reg_find r name = Some (fun c => window_filter (get_window pf ks) c (Z.of_nat m) (WName wn) mode cval) ->
  In mode ["nearest"; "reflect"; "mirror"] ->
  exists c', smooth r name c = Ok c' /\ c_arclen junk c' <= c_arclen junk c.
Proof.
  intros junk pf ks wn w m r name mode cval c W N D H P Nw M Z F Hm. destruct (named_window pf ks wn w m H P) as (v & E & L).
  assert (Nv : v <> []) by (intros ->; cbn in L; lia). assert (WM := named_method pf ks wn w m v mode cval H P E).
  assert (T : total v <> 0) by (intros Q; apply (C88_total_zero pf ks wn w m v H P M E) in Q as [Q1 Q2]; rewrite (Z Q1) in Q2; discriminate).
  apply (C97_no_longer junk _ r name _ mode cval v c W N D F WM Nv T).
  - intros x Hx. apply (In_nth _ _ 0) in Hx as (k & Hk & <-). rewrite L in Hk. destruct (Nat.le_gt_cases 2 m) as [M2|M2].
    + apply (C88_sign pf ks wn w m v k H P Nw M2 E Hk).
    + assert (M1 : m = 1%nat) by lia. rewrite M1 in E. pose proof (proj2 (C88_small_sizes pf ks wn w H P)) as E1. change 1%Z with (Z.of_nat 1) in E1. rewrite E in E1. injection E1 as ->.
      destruct k; [cbn; lra|lia].
  - destruct Hm as [Hm|[Hm|[Hm|[]]]]; [left; symmetry; exact Hm| |]; right; (split; [apply (C88_symmetric pf ks wn w m v H P E)|auto]).
Qed.
Print Assumptions C97_named.

(** Neighbouring points come no farther apart than [spread w] times the longest chord ... *)
Theorem C97_steps : forall gw (r : registry (smethod R)) name m mode cval w (c : curve R) h,
  wf c -> c_rows c <> [] -> c_dtype c = DFloat -> reg_find r name = Some m -> window_method gw m mode cval w ->
  In mode ["reflect"; "mirror"; "nearest"] -> w <> [] -> total w <> 0 -> 0 <= h ->
  (forall i, (S i < c_size c)%nat -> dist (nth i (c_rows c) []) (nth (S i) (c_rows c) []) <= h) ->
  exists c', smooth r name c = Ok c' /\ c_size c' = c_size c /\
    (forall i, (S i < c_size c)%nat -> dist (nth i (c_rows c') []) (nth (S i) (c_rows c') []) <= spread w * h) /\
    (** ... and no point moves farther than half a window of such steps. *)
    (forall i, (i < c_size c)%nat -> dist (nth i (c_rows c') []) (nth i (c_rows c) []) <= spread w * (INR (length w / 2) * h)).
Proof.
  intros gw r name m mode cval w c h W N Dt F M Hm Nw Tw Hh Hs.
  assert (B : exists b, bmode_of mode = Ok b /\ (b = BReflect \/ b = BMirror \/ b = BNearest)).
  { destruct Hm as [<-|[<-|[<-|[]]]]; eexists; (split; [reflexivity|auto]). }
  destruct B as (b & Eb & B).
  exists (smoothed b cval w c). split; [apply (window_method_smooth gw r name m mode); assumption|].
  assert (D : dims (c_ndim c) (c_rows c)) by (intros p Hp; apply W; assumption).
  assert (Er : forall i, (i < c_size c)%nat -> nth i (c_rows (smoothed b cval w c)) [] = conv_row b cval (normalise w) (c_rows c) (c_ndim c) i).
  { intros i Hi. rewrite smoothed_rows by assumption.
    rewrite (nth_indep _ [] (conv_row b cval (normalise w) (c_rows c) (c_ndim c) 0)) by (rewrite map_length, seq_length; assumption).
    rewrite map_nth, seq_nth by assumption. reflexivity. }
  assert (St := all_steps (c_rows c) (c_ndim c) cval D N b h B Hh Hs).
  split; [unfold smoothed, c_size; cbn [c_rows]; rewrite map_length, seq_length; reflexivity|].
  rewrite <- (spread_ns w Tw). split.
  - intros i Hi. rewrite !Er by lia. rewrite !conv_row_comb, normalise_length.
    eapply Rle_trans; [apply comb_dist; intros k Hk; split; apply ext_row_length; assumption|]. rewrite <- ns_scale. apply ns_le. intros k Hk.
    apply Rmult_le_compat_l; [apply Rabs_pos|]. specialize (St (Z.of_nat i + Z.of_nat (length w / 2) - Z.of_nat k)%Z). unfold xstep, xrow in St.
    replace (Z.of_nat (S i) + Z.of_nat (length w / 2) - Z.of_nat k)%Z with (Z.of_nat i + Z.of_nat (length w / 2) - Z.of_nat k + 1)%Z by lia. exact St.
  - intros i Hi. rewrite Er by assumption. rewrite conv_row_comb, normalise_length.
    assert (S1 : ns (fun k => nth k (normalise w) 0) (length w) = 1).
    { rewrite <- (normalise_length w), <- vsum_ns, (map_nth_seq 0 (normalise w)). apply normalise_sum. exact Tw. }
    rewrite <- (comb_const (c_ndim c) (fun k => nth k (normalise w) 0) (nth i (c_rows c) []) (length w)) at 1; [|apply D, nth_In; exact Hi|exact S1].
    eapply Rle_trans; [apply comb_dist; intros k Hk; split; [apply ext_row_length; assumption|apply D, nth_In; exact Hi]|].
    rewrite <- ns_scale. apply ns_le. intros k Hk. apply Rmult_le_compat_l; [apply Rabs_pos|].
    assert (Ei : nth i (c_rows c) [] = xrow (c_rows c) (c_ndim c) cval b (Z.of_nat i)).
    { rewrite xrow_in by (unfold c_size in Hi; lia). rewrite Nat2Z.id. reflexivity. }
    fold (xrow (c_rows c) (c_ndim c) cval b (Z.of_nat i + Z.of_nat (length w / 2) - Z.of_nat k)). rewrite Ei.
    pose proof (Nat.div_mod (length w) 2 ltac:(lia)) as E2. pose proof (Nat.mod_upper_bound (length w) 2 ltac:(lia)) as U2.
    assert (Le : forall q, (q <= length w / 2)%nat -> INR q * h <= INR (length w / 2) * h) by (intros q Hq; apply Rmult_le_compat_r; [exact Hh|apply le_INR; exact Hq]).
    destruct (Nat.le_gt_cases k (length w / 2)) as [K|K].
    + rewrite dist_sym by (rewrite !xrow_length by assumption; reflexivity).
      replace (Z.of_nat i + Z.of_nat (length w / 2) - Z.of_nat k)%Z with (Z.of_nat i + Z.of_nat (length w / 2 - k))%Z by lia.
      eapply Rle_trans; [apply (walk (c_rows c) (c_ndim c) cval D N b h St)|apply Le; lia].
    + replace (Z.of_nat i) with (Z.of_nat i + Z.of_nat (length w / 2) - Z.of_nat k + Z.of_nat (k - length w / 2))%Z at 2 by lia.
      eapply Rle_trans; [apply (walk (c_rows c) (c_ndim c) cval D N b h St)|apply Le; lia].
Qed.
Print Assumptions C97_steps.

(** A zigzag and the windows [1, 2, 1] and [1, 1]. *)
Example C97_ex : wf rzig /\ c_rows rzig <> [] /\ c_dtype rzig = DFloat /\
  reg_find [("w", from_window "reflect" 0 [1; 2; 1])] "w" = Some (from_window "reflect" 0 [1; 2; 1]) /\
  window_method (fun _ _ => Raise ValueError) (from_window "reflect" 0 [1; 2; 1]) "reflect" 0 [1; 2; 1] /\
  total [1; 2; 1] <> 0 /\ rev [1; 2; 1] = [1; 2; 1] /\ spread [1; 2; 1] = 1 /\ total [1; 1] <> 0 /\ rev [1; 1] = [1; 1] /\
  (forall i, (S i < c_size rzig)%nat -> dist (nth i (c_rows rzig) []) (nth (S i) (c_rows rzig) []) <= 4) /\ spread [-1; 3; -1] = 5.
Proof.
  split; [apply rzig_wf|]. split; [discriminate|]. split; [reflexivity|]. split; [reflexivity|]. split; [apply from_window_method|].
  split; [cbn; lra|]. split; [reflexivity|]. split; [apply spread_one; [cbn; lra|intros x [<-|[<-|[<-|[]]]]; lra]|].
  split; [cbn; lra|]. split; [reflexivity|]. split.
  - assert (Q : forall a, a <= 16 -> sqrt a <= 4).
    { intros a Ha. replace 4 with (sqrt (4 * 4)) by (apply sqrt_square; lra). apply sqrt_le_1_alt. lra. }
    intros [|[|[|i]]] H; cbn in H; try lia; unfold dist, norm; cbn [nth rzig c_rows minus map2 inner]; apply Q; lra.
  - unfold spread, total. cbn [map fold_right]. rewrite !(Rabs_left (-1)) by lra. rewrite !Rabs_right by lra. field.
Qed.
Definition line4 : curve float := mkCurve [[fz 0; fz 0]; [fz 1; fz 0]; [fz 2; fz 0]; [fz 12; fz 0]] 2 DFloat None.
Example C97_ex_float : exists c', smooth [("w", window_of [fz 1; fz 2; fz 1] "reflect")] "w" zigzag = Ok c' /\
  (c_arclen nan c' <? c_arclen nan zigzag)%float = true.
Proof. eexists. split; vm_compute; reflexivity. Qed.

(** Each condition is needed.  An asymmetric window in mode reflect: *)
Theorem C97_asymmetric_refuted : exists c', smooth [("w", window_of [fz 1; fz 0; fz 0; fz 0; fz 0] "reflect")] "w" line4 = Ok c' /\
  c_arclen nan line4 = fz 12 /\ c_arclen nan c' = fz 20.
Proof. eexists. split; [vm_compute; reflexivity|]. split; vm_compute; reflexivity. Qed.
Print Assumptions C97_asymmetric_refuted.
(** and in mode mirror, where the factor 2 of C97_bound is nearly reached: *)
Theorem C97_mirror_refuted : exists c', smooth [("w", window_of [fz 1; fz 0; fz 0; fz 0; fz 0] "mirror")] "w" line4 = Ok c' /\
  c_arclen nan line4 = fz 12 /\ c_arclen nan c' = fz 21.
Proof. eexists. split; [vm_compute; reflexivity|]. split; vm_compute; reflexivity. Qed.
Print Assumptions C97_mirror_refuted.
(** Mode wrap on a curve that is not closed: *)
Theorem C97_wrap_refuted : exists c', smooth [("w", window_of [fz 1; fz 0; fz 0] "wrap")] "w" line4 = Ok c' /\
  c_arclen nan c' = fz 23.
Proof. eexists. split; vm_compute; reflexivity. Qed.
Print Assumptions C97_wrap_refuted.
(** Mode constant: three equal points become a curve of length 5. *)
Theorem C97_constant_refuted : exists c', smooth [("w", window_of [fz 1; fz 2; fz 1] "constant")] "w"
    (mkCurve [[fz 10; fz 0]; [fz 10; fz 0]; [fz 10; fz 0]] 2 DFloat None) = Ok c' /\
  c_rows c' = [[fq 15 2; fz 0]; [fz 10; fz 0]; [fq 15 2; fz 0]] /\ c_arclen nan c' = fz 5.
Proof. eexists. split; [vm_compute; reflexivity|]. split; vm_compute; reflexivity. Qed.
Print Assumptions C97_constant_refuted.
(** Negative weights. *)
Theorem C97_negative_refuted : exists c', smooth [("w", window_of [fz (-1); fz 3; fz (-1)] "nearest")] "w"
    (mkCurve [[fz 0; fz 0]; [fz 4; fz 0]; [fz 0; fz 0]] 2 DFloat None) = Ok c' /\
  c_arclen nan (mkCurve [[fz 0; fz 0]; [fz 4; fz 0]; [fz 0; fz 0]] 2 DFloat None) = fz 8 /\ c_arclen nan c' = fz 32.
Proof. eexists. split; [vm_compute; reflexivity|]. split; vm_compute; reflexivity. Qed.
Print Assumptions C97_negative_refuted.
