(** Property C88: the windows obtained by name. *)
From Coq Require Import ZArith String List Bool Arith Lia PrimFloat Reals Lra Psatz.
From Verif Require Import Num Py Numeric Curve Vec Registry Interp Smooth Windows Spec GeomSpec WindowSpec Fixtures.
From Verif Require Import ListFacts ArrayProofs VecFacts CurveProofs CurveProofs2 CurveProofs3 SmoothProofs InterpProofs WindowProofs WindowProofs2.
From Verif Require Import Properties_Container Properties_Smooth.
Import ListNotations.
Local Open Scope string_scope.
Local Open Scope list_scope.
Local Open Scope R_scope.

Lemma total_vsum l : total l = vsum l.
Proof. reflexivity. Qed.

Lemma lookup name w : In name (aliases w) -> exists n, find (fun e => String.eqb (fst e) name) win_equiv = Some (n, w).
Proof. intros H. exists name. destruct w; repeat (destruct H as [<-|H]; [reflexivity|]); destruct H. Qed.
Lemma lookup_some name n w : find (fun e => String.eqb (fst e) name) win_equiv = Some (n, w) -> In name (aliases w).
Proof.
  intros E. apply find_some in E as [I E]. cbn [fst] in E. apply String.eqb_eq in E. subst n.
  repeat (destruct I as [E|I]; [injection E as <- <-; cbn; tauto|]). destruct I.
Qed.
Lemma get_window_eq pf ks name w m : In name (aliases w) -> pf name = None -> (2 <= m)%nat -> get_window pf ks name (Z.of_nat m) = Ok (window_values w m).
Proof.
  intros H P M. unfold get_window. destruct (lookup name w H) as (n & E). rewrite P, E. unfold guarded.
  destruct (Z.ltb_spec (Z.of_nat m) 0); [lia|]. destruct (Z.leb_spec (Z.of_nat m) 1); [lia|]. rewrite Nat2Z.id. reflexivity.
Qed.

(** ** C88 *)

(** The values, by the distance from the middle. *)
Theorem C88_values : forall pf ks name w m, In name (aliases w) -> pf name = None -> (2 <= m)%nat ->
  exists v, get_window pf ks name (Z.of_nat m) = Ok v /\ length v = m /\ forall k, (k < m)%nat -> nth k v 0 = taper w m (half_steps m k).
Proof.
  intros pf ks name w m H P M. exists (window_values w m). split; [apply get_window_eq; assumption|]. split; [apply window_length; assumption|].
  intros k K. apply window_nth; assumption.
Qed.
Print Assumptions C88_values.

(** Sizes 0 and 1, errors, and names that are numbers. *)
Theorem C88_small_sizes : forall pf ks name w, In name (aliases w) -> pf name = None ->
  get_window pf ks name 0 = Ok [] /\ get_window pf ks name 1 = Ok [1].
Proof. intros pf ks name w H P. unfold get_window. destruct (lookup name w H) as (n & E). rewrite P, E. split; reflexivity. Qed.
Print Assumptions C88_small_sizes.
Theorem C88_errors : forall pf ks name size e,
  get_window pf ks name size = Raise e <-> e = ValueError /\ ((size < 0)%Z \/ (pf name = None /\ forall w, ~ In name (aliases w))).
Proof.
  intros pf ks name size e. assert (G : forall f, guarded f size = Raise e <-> e = ValueError /\ (size < 0)%Z).
  { intros f. unfold guarded. destruct (Z.ltb_spec size 0); [|destruct (Z.leb_spec size 1)]; split; intros Q; try discriminate; try (destruct Q; lia).
    - injection Q as <-. auto.
    - destruct Q as [-> _]. reflexivity. }
  unfold get_window. destruct (pf name) as [b|]; [rewrite G; split; [intros [H1 H2]; auto|intros [H1 [H2|[H2 _]]]; [auto|discriminate]]|].
  destruct (find _ win_equiv) as [[n w]|] eqn:E.
  - apply lookup_some in E as I. rewrite G. split; [intros [H1 H2]; auto|].
    intros [H1 [H2|[_ H2]]]; [auto|destruct (H2 w I)].
  - split.
    + intros Q. injection Q as <-. split; [reflexivity|]. right. split; [reflexivity|]. intros w I. destruct (lookup name w I) as (n & E'). rewrite E' in E. discriminate.
    + intros [-> _]. reflexivity.
Qed.
Print Assumptions C88_errors.
Theorem C88_number_name : forall pf ks name b m, pf name = Some b -> (2 <= m)%nat -> get_window pf ks name (Z.of_nat m) = Ok (ks b m).
Proof.
  intros pf ks name b m H M. unfold get_window. rewrite H. unfold guarded.
  destruct (Z.ltb_spec (Z.of_nat m) 0); [lia|]. destruct (Z.leb_spec (Z.of_nat m) 1); [lia|]. rewrite Nat2Z.id. reflexivity.
Qed.
Print Assumptions C88_number_name.

(** Every window is symmetric. *)
Lemma values_symmetric w m : (2 <= m)%nat -> rev (window_values w m) = window_values w m.
Proof.
  intros M. assert (L := window_length w m M). apply (nth_ext _ _ 0 0); [apply rev_length|]. intros k K. rewrite rev_length, L in K.
  rewrite rev_nth by lia. rewrite L, !window_nth by lia. replace (m - S k)%nat with (m - 1 - k)%nat by lia. rewrite half_steps_mirror by assumption. reflexivity.
Qed.
Lemma window_cases pf ks name w m v : In name (aliases w) -> pf name = None -> get_window pf ks name (Z.of_nat m) = Ok v ->
  ((m <= 1)%nat /\ v = repeat 1 m) \/ ((2 <= m)%nat /\ v = window_values w m).
Proof.
  intros H P E. destruct (le_lt_dec m 1) as [L|L].
  - left. split; [assumption|]. destruct (C88_small_sizes pf ks name w H P) as [Z0 Z1].
    destruct m as [|[|m]]; [| |lia]; change (Z.of_nat 0) with 0%Z in E; change (Z.of_nat 1) with 1%Z in E; [rewrite Z0 in E|rewrite Z1 in E]; injection E as <-; reflexivity.
  - right. split; [lia|]. rewrite (get_window_eq pf ks name w m H P L) in E. injection E as <-. reflexivity.
Qed.
Theorem C88_symmetric : forall pf ks name w m v, In name (aliases w) -> pf name = None -> get_window pf ks name (Z.of_nat m) = Ok v ->
  rev v = v.
Proof.
  intros pf ks name w m v H P E. destruct (window_cases _ _ _ _ _ _ H P E) as [[L ->]|[L ->]]; [|apply values_symmetric; assumption].
  destruct m as [|[|m]]; [reflexivity|reflexivity|lia].
Qed.
Print Assumptions C88_symmetric.

(** All but the flat top window are non-negative, and zero only at the ends of
    the Bartlett-Hann, Bartlett, Blackman, Bohman and Hann windows. *)
Theorem C88_sign : forall pf ks name w m v k, In name (aliases w) -> pf name = None -> w <> Flattop -> (2 <= m)%nat ->
  get_window pf ks name (Z.of_nat m) = Ok v -> (k < m)%nat ->
  0 <= nth k v 0 /\ (nth k v 0 = 0 <-> zero_ended w = true /\ (k = 0 \/ k = m - 1)%nat).
Proof.
  intros pf ks name w m v k H P N M E K. rewrite (get_window_eq pf ks name w m H P M) in E. injection E as <-.
  rewrite window_nth by assumption. rewrite <- ratio_one by assumption.
  assert (D : zero_ended w = true /\ ratio m k = 1 \/ (zero_ended w = true -> ratio m k <> 1)).
  { destruct (zero_ended w); [|right; discriminate]. destruct (Req_dec (ratio m k) 1); [left; auto|right; auto]. }
  destruct D as [[Z R]|D].
  - rewrite taper_end by assumption. split; [lra|]. split; auto.
  - pose proof (taper_pos w m k N M K D). split; [lra|]. split; [lra|]. intros [Z R]. exfalso. apply (D Z R).
Qed.
Print Assumptions C88_sign.
(** The flat top window has negative values: at both ends, of every size. *)
Theorem C88_flattop_refuted : forall pf ks m, pf "flattop" = None -> (2 <= m)%nat ->
  exists v, get_window pf ks "flattop" (Z.of_nat m) = Ok v /\ nth 0 v 0 < 0 /\ nth (m - 1) v 0 < 0.
Proof.
  intros pf ks m P M. exists (window_values Flattop m). assert (H : In "flattop" (aliases Flattop)) by (cbn; tauto).
  split; [apply get_window_eq; assumption|]. rewrite !window_nth by lia. cbn [taper]. fold (ratio m 0) (ratio m (m - 1)).
  rewrite (proj2 (ratio_one m 0 M ltac:(lia))), (proj2 (ratio_one m (m - 1) M ltac:(lia))) by auto. rewrite cos_2, cos_3, cos_4, Rmult_1_r, cos_PI. lra.
Qed.
Print Assumptions C88_flattop_refuted.

(** Values do not grow with the distance from the middle. *)
Theorem C88_shape : forall pf ks name w m v i j, In name (aliases w) -> pf name = None -> w <> Flattop -> (2 <= m)%nat ->
  get_window pf ks name (Z.of_nat m) = Ok v -> (i < m)%nat -> (j < m)%nat ->
  Rabs (2 * INR i - (INR m - 1)) <= Rabs (2 * INR j - (INR m - 1)) -> nth j v 0 <= nth i v 0.
Proof.
  intros pf ks name w m v i j H P N M E I J D. rewrite (get_window_eq pf ks name w m H P M) in E. injection E as <-.
  rewrite !window_nth by assumption. apply taper_decr; assumption.
Qed.
Print Assumptions C88_shape.

(** ** Totals *)

Lemma sum_INR n : 2 * vsum (map INR (seq 0 n)) = INR n * (INR n - 1).
Proof.
  induction n as [|n IH]; [cbn; ring|]. rewrite seq_S, map_app, vsum_app. cbn [map Nat.add]. rewrite vsum_cons. change (vsum []) with 0. rewrite S_INR. lra.
Qed.

(** The sum of the values of the cosine sums: the mean value times the size, and
    the value at the ends less the mean. *)
Theorem C88_total : forall pf ks name w m v, In name (aliases w) -> pf name = None -> get_window pf ks name (Z.of_nat m) = Ok v ->
  match w with
  | Boxcar => total v = INR m
  | Hann => (3 <= m)%nat -> total v = (INR m - 1) / 2
  | Hamming => (3 <= m)%nat -> total v = 0.54 * INR m - 0.46
  | Blackman => (4 <= m)%nat -> total v = 0.42 * (INR m - 1)
  | BlackmanHarris => (5 <= m)%nat -> total v = 0.35875 * INR m - 0.35869
  | Nuttall => (5 <= m)%nat -> total v = 0.3635819 * INR m - 0.3632191
  | Flattop => (6 <= m)%nat -> total v = 0.21557895 * INR m - 0.216000001
  | _ => True
  end.
Proof.
  intros pf ks name w m v H P E. destruct (window_cases _ _ _ _ _ _ H P E) as [[L ->]|[L ->]].
  - destruct w; try exact I; try (intros; lia). destruct m as [|[|m]]; [cbn; ring|cbn; ring|lia].
  - rewrite total_vsum. destruct w; try exact I; cbn [window_values]; try (intros M; rewrite general_cosine_total by (cbn; lia); cbn [length Nat.sub seq map nth pow]; rewrite ?vsum_cons; change (vsum []) with 0; lra).
    clear. induction m as [|m IH]; [reflexivity|]. cbn [repeat]. rewrite vsum_cons, IH, S_INR. ring.
Qed.
Print Assumptions C88_total.

Lemma vsum_nonneg (l : list R) : (forall k, (k < length l)%nat -> 0 <= nth k l 0) -> 0 <= vsum l.
Proof.
  induction l as [|x l IH]; intros H; [cbn; lra|]. rewrite vsum_cons. pose proof (H 0%nat ltac:(cbn; lia)). cbn [nth] in *.
  assert (0 <= vsum l); [|lra]. apply IH. intros k Hk. apply (H (S k)). cbn. lia.
Qed.
Lemma vsum_pos (l : list R) i : (forall k, (k < length l)%nat -> 0 <= nth k l 0) -> (i < length l)%nat -> 0 < nth i l 0 -> 0 < vsum l.
Proof.
  revert i. induction l as [|x l IH]; intros i H Hi Pi; [cbn in Hi; lia|]. rewrite vsum_cons.
  assert (Hl : forall k, (k < length l)%nat -> 0 <= nth k l 0) by (intros k Hk; apply (H (S k)); cbn; lia).
  pose proof (H 0%nat ltac:(cbn; lia)) as H0. pose proof (vsum_nonneg l Hl). destruct i as [|i]; cbn [nth] in *; [lra|].
  pose proof (IH i Hl ltac:(cbn in Hi; lia) Pi). lra.
Qed.

Lemma cos_third : cos (PI * (1 / 3)) = / 2.
Proof. replace (PI * (1 / 3)) with (PI / 3) by field. rewrite cos_PI3. lra. Qed.

Lemma vsum_values w m : (2 <= m)%nat -> vsum (window_values w m) = vsum (map (fun k => taper w m (half_steps m k)) (seq 0 m)).
Proof.
  intros M. rewrite <- sum_nth, window_length by assumption. apply sum_ext. intros k K. apply in_seq in K. apply window_nth; lia.
Qed.

Lemma flattop_total m : (2 <= m)%nat -> vsum (window_values Flattop m) <> 0.
Proof.
  intros M. destruct (le_lt_dec 6 m) as [H|H].
  - cbn [window_values]. rewrite general_cosine_total by (cbn; lia). cbn [length Nat.sub seq map nth pow]. rewrite ?vsum_cons. change (vsum []) with 0.
    apply le_INR in H. replace (INR 6) with 6 in H by (cbn; lra). lra.
  - rewrite vsum_values by assumption. unfold half_steps. assert (A1 : forall x, 0 <= x -> Rabs x = x) by (intros; apply Rabs_right; lra). 
    assert (A2 : forall x, x <= 0 -> Rabs x = - x) by (intros; apply Rabs_left1; lra).
    destruct m as [|[|[|[|[|[|m]]]]]]; try lia; cbn [seq map]; rewrite ?vsum_cons; change (vsum []) with 0; cbn [taper INR]; rewrite ?cos_2, ?cos_3, ?cos_4.
    + rewrite (A2 (2 * 0 - _)), (A1 (2 * 1 - _)) by lra.
      replace (- (2 * 0 - (1 + 1 - 1)) / (1 + 1 - 1)) with 1 by field. replace ((2 * 1 - (1 + 1 - 1)) / (1 + 1 - 1)) with 1 by field.
      rewrite Rmult_1_r, cos_PI. lra.
    + rewrite (A2 (2 * 0 - _)), (A1 (2 * 1 - _)), (A1 (2 * (1 + 1) - _)) by lra.
      replace (- (2 * 0 - (1 + 1 + 1 - 1)) / (1 + 1 + 1 - 1)) with 1 by field. replace ((2 * (1 + 1) - (1 + 1 + 1 - 1)) / (1 + 1 + 1 - 1)) with 1 by field.
      replace ((2 * 1 - (1 + 1 + 1 - 1)) / (1 + 1 + 1 - 1)) with 0 by field.
      rewrite Rmult_1_r, Rmult_0_r, cos_PI, cos_0. lra.
    + rewrite (A2 (2 * 0 - _)), (A2 (2 * 1 - _)), (A1 (2 * (1 + 1) - _)), (A1 (2 * (1 + 1 + 1) - _)) by lra.
      replace (- (2 * 0 - (1 + 1 + 1 + 1 - 1)) / (1 + 1 + 1 + 1 - 1)) with 1 by field. replace ((2 * (1 + 1 + 1) - (1 + 1 + 1 + 1 - 1)) / (1 + 1 + 1 + 1 - 1)) with 1 by field.
      replace (- (2 * 1 - (1 + 1 + 1 + 1 - 1)) / (1 + 1 + 1 + 1 - 1)) with (1 / 3) by field. replace ((2 * (1 + 1) - (1 + 1 + 1 + 1 - 1)) / (1 + 1 + 1 + 1 - 1)) with (1 / 3) by field.
      rewrite Rmult_1_r, cos_PI, cos_third. lra.
    + rewrite (A2 (2 * 0 - _)), (A2 (2 * 1 - _)), (A1 (2 * (1 + 1) - _)), (A1 (2 * (1 + 1 + 1) - _)), (A1 (2 * (1 + 1 + 1 + 1) - _)) by lra.
      replace (- (2 * 0 - (1 + 1 + 1 + 1 + 1 - 1)) / (1 + 1 + 1 + 1 + 1 - 1)) with 1 by field. replace ((2 * (1 + 1 + 1 + 1) - (1 + 1 + 1 + 1 + 1 - 1)) / (1 + 1 + 1 + 1 + 1 - 1)) with 1 by field.
      replace (- (2 * 1 - (1 + 1 + 1 + 1 + 1 - 1)) / (1 + 1 + 1 + 1 + 1 - 1)) with (/ 2) by field. replace ((2 * (1 + 1 + 1) - (1 + 1 + 1 + 1 + 1 - 1)) / (1 + 1 + 1 + 1 + 1 - 1)) with (/ 2) by field.
      replace ((2 * (1 + 1) - (1 + 1 + 1 + 1 + 1 - 1)) / (1 + 1 + 1 + 1 + 1 - 1)) with 0 by field.
      rewrite Rmult_1_r, Rmult_0_r. change (PI * / 2) with (PI / 2). rewrite cos_PI, cos_PI2, cos_0. lra.
Qed.

(** The window can be normalised, except the five above of size 2, which are
    [0, 0]; in particular the default window 'hann'. *)
Theorem C88_total_zero : forall pf ks name w m v, In name (aliases w) -> pf name = None -> (1 <= m)%nat -> get_window pf ks name (Z.of_nat m) = Ok v ->
  (total v = 0 <-> m = 2%nat /\ zero_ended w = true).
Proof.
  intros pf ks name w m v H P M E. destruct (window_cases _ _ _ _ _ _ H P E) as [[L ->]|[L ->]].
  { assert (m = 1%nat) by lia. subst. cbn. split; [lra|]. intros [Q _]. discriminate. }
  rewrite total_vsum. assert (Q := window_length w m L).
  assert (D : w = Flattop \/ w <> Flattop) by (destruct w; (left; reflexivity) || (right; discriminate)). destruct D as [->|N].
  { split; [intros Z; exfalso; exact (flattop_total m L Z)|]. intros [_ Z]. discriminate. }
  assert (S := fun k K => C88_sign pf ks name w m _ k H P N L E K).
  split.
  - intros Z. destruct (Nat.eq_dec m 2) as [->|Nm].
    + split; [reflexivity|]. destruct (zero_ended w) eqn:Ez; [reflexivity|exfalso].
      destruct (S 0%nat ltac:(lia)) as [S1 S2]. assert (nth 0 (window_values w 2) 0 <> 0) by (intros C; apply S2 in C as [C _]; congruence).
      assert (0 < vsum (window_values w 2)); [|lra]. apply (vsum_pos _ 0); [|lia|lra]. intros k K. apply S. lia.
    + exfalso. destruct (S 1%nat ltac:(lia)) as [S1 S2]. assert (nth 1 (window_values w m) 0 <> 0) by (intros C; apply S2 in C as [_ C]; lia).
      assert (0 < vsum (window_values w m)); [|lra]. apply (vsum_pos _ 1); [|lia|lra]. intros k K. apply S. lia.
  - intros [-> Z]. destruct (S 0%nat ltac:(lia)) as [_ S0]. destruct (S 1%nat ltac:(lia)) as [_ S1].
    destruct (window_values w 2) as [|a [|b [|c l]]]; try discriminate Q. cbn [nth] in *. rewrite !vsum_cons, (proj2 S0), (proj2 S1) by auto. cbn. lra.
Qed.
Print Assumptions C88_total_zero.

(** ** Smoothing with a window given by name *)

Lemma named_method pf ks name w m v mode cval : In name (aliases w) -> pf name = None -> get_window pf ks name (Z.of_nat m) = Ok v ->
  window_method (get_window pf ks) (fun c => window_filter (get_window pf ks) c (Z.of_nat m) (WName name) mode cval) mode cval v.
Proof. intros H P E. exists (Z.of_nat m), (WName name). split; [reflexivity|exact E]. Qed.

Lemma named_window pf ks name w m : In name (aliases w) -> pf name = None -> exists v, get_window pf ks name (Z.of_nat m) = Ok v /\ length v = m.
Proof.
  intros H P. destruct (le_lt_dec 2 m) as [L|L].
  - exists (window_values w m). split; [apply get_window_eq; assumption|apply window_length; assumption].
  - destruct (C88_small_sizes pf ks name w H P) as [Z0 Z1]. destruct m as [|[|m]]; [exists []|exists [1]|lia]; auto.
Qed.

(** The curve stays in its convex hull. *)
Theorem C88_hull : forall pf ks wn w m (r : registry (smethod R)) name mode b cval (c : curve R),
  wf c -> c_rows c <> [] -> c_dtype c = DFloat -> In wn (aliases w) -> pf wn = None -> w <> Flattop -> (1 <= m)%nat -> (m = 2%nat -> zero_ended w = false) ->
  reg_find r name = Some (fun c => window_filter (get_window pf ks) c (Z.of_nat m) (WName wn) mode cval) -> bmode_of mode = Ok b -> b <> BConstant ->
  exists c', smooth r name c = Ok c' /\ c_size c' = c_size c /\
    forall a s, length a = c_ndim c -> (forall x, In x (c_rows c) -> inner a x <= s) -> forall x, In x (c_rows c') -> inner a x <= s.
Proof.
  intros pf ks wn w m r name mode b cval c W N D H P Nw M Z F Hm Nb. destruct (named_window pf ks wn w m H P) as (v & E & L).
  assert (Nv : v <> []) by (intros ->; cbn in L; lia). assert (WM := named_method pf ks wn w m v mode cval H P E).
  assert (T : total v <> 0) by (intros Q; apply (C88_total_zero pf ks wn w m v H P M E) in Q as [Q1 Q2]; rewrite (Z Q1) in Q2; discriminate).
  exists (smoothed b cval v c). assert (S := window_method_smooth _ _ _ _ _ _ _ _ c W N F WM Hm Nv).
  split; [exact S|]. split; [unfold smoothed, c_size; cbn [c_rows]; rewrite map_length, seq_length; reflexivity|]. intros a s La Hs x Hx.
  assert (Pv : forall y, In y v -> 0 <= y).
  { intros y Hy. apply (In_nth _ _ 0) in Hy as (k & Hk & <-). destruct (window_cases _ _ _ _ _ _ H P E) as [[L1 ->]|[L2 _]].
    - rewrite repeat_length in Hk. rewrite (nth_indep _ 0 1) by (rewrite repeat_length; assumption). rewrite nth_repeat. lra.
    - apply (C88_sign pf ks wn w m v k H P Nw L2 E). lia. }
  apply (C58_convex _ _ _ _ _ _ _ _ c _ a s W N D F WM Hm Nv T Pv S La Hs); [contradiction|assumption].
Qed.
Print Assumptions C88_hull.

(** With an odd size, smoothing commutes with reversal. *)
Theorem C88_reverse : forall pf ks wn w m (r : registry (smethod R)) name mode b cval (c cr d : curve R),
  wf c -> c_rows c <> [] -> In wn (aliases w) -> pf wn = None -> Nat.odd m = true ->
  reg_find r name = Some (fun c => window_filter (get_window pf ks) c (Z.of_nat m) (WName wn) mode cval) -> bmode_of mode = Ok b ->
  c_reverse c = Ok cr -> smooth r name c = Ok d -> smooth r name cr = c_reverse d.
Proof.
  intros pf ks wn w m r name mode b cval c cr d W N H P O F Hm Er Ed. destruct (named_window pf ks wn w m H P) as (v & E & L).
  assert (WM := named_method pf ks wn w m v mode cval H P E).
  apply (C58_reverse (get_window pf ks) (get_window pf ks) r r name _ _ mode cval v c cr d W N F WM F); [|exists b; exact Hm|rewrite L; exact O|exact Er|exact Ed].
  rewrite (C88_symmetric pf ks wn w m v H P E). exact WM.
Qed.
Print Assumptions C88_reverse.

(** Size 1, and size 3 of the windows that vanish at the ends, do nothing. *)
Theorem C88_identity : forall pf ks wn w m (r : registry (smethod R)) name mode b cval (c : curve R),
  wf c -> c_rows c <> [] -> int_data c -> In wn (aliases w) -> pf wn = None -> (m = 1%nat \/ m = 3%nat /\ zero_ended w = true) ->
  reg_find r name = Some (fun c => window_filter (get_window pf ks) c (Z.of_nat m) (WName wn) mode cval) -> bmode_of mode = Ok b ->
  exists c', smooth r name c = Ok c' /\ c_rows c' = c_rows c.
Proof.
  intros pf ks wn w m r name mode b cval c W N I H P M F Hm. destruct (named_window pf ks wn w m H P) as (v & E & L).
  assert (Nv : v <> []) by (intros ->; cbn in L; lia). assert (WM := named_method pf ks wn w m v mode cval H P E).
  exists (smoothed b cval v c). split; [apply (window_method_smooth _ _ _ _ _ _ _ _ c W N F WM Hm Nv)|].
  assert (Ev : exists z, z <> 0 /\ (v = [z] \/ v = [0; z; 0])).
  { destruct M as [->|[-> Z]].
    - exists 1. split; [lra|]. left. destruct (window_cases _ _ _ _ _ _ H P E) as [[_ ->]|[Q _]]; [reflexivity|lia].
    - assert (Nf : w <> Flattop) by (intros ->; discriminate).
      assert (S := fun k K => C88_sign pf ks wn w 3 v k H P Nf ltac:(lia) E K). destruct v as [|x [|z [|y [|]]]]; try discriminate L.
      pose proof (proj2 (S 0%nat ltac:(lia))) as S0. pose proof (proj2 (S 1%nat ltac:(lia))) as S1. pose proof (proj2 (S 2%nat ltac:(lia))) as S2. cbn [nth] in *.
      exists z. split; [intros C; apply S1 in C as [_ C]; lia|]. right. rewrite (proj2 S0), (proj2 S2) by auto. reflexivity. }
  destruct Ev as (z & Nz & Ev). unfold smoothed. cbn [c_rows]. apply (nth_ext _ _ [] []); [rewrite map_length, seq_length; reflexivity|].
  intros i Hi. rewrite map_length, seq_length in Hi. set (f := fun i => _).
  rewrite (nth_indep _ [] (f 0%nat)) by (rewrite map_length, seq_length; assumption). rewrite map_nth, seq_nth by assumption. unfold f. cbn [Nat.add].
  assert (Hr : In (nth i (c_rows c) []) (c_rows c)) by (apply nth_In; assumption).
  assert (Lp : length (nth i (c_rows c) []) = c_ndim c) by (apply W; assumption).
  assert (X : ext_row b cval (c_rows c) (c_ndim c) (Z.of_nat i) = nth i (c_rows c) []).
  { unfold ext_row. rewrite ext_index_in by (unfold c_size in Hi; lia). rewrite Nat2Z.id. reflexivity. }
  assert (Ec : conv_row b cval (normalise v) (c_rows c) (c_ndim c) i = nth i (c_rows c) []).
  { rewrite conv_row_comb. apply vec_ext; [rewrite comb_length; congruence|]. intros j.
    destruct (Nat.lt_ge_cases j (c_ndim c)) as [J|J]; [|rewrite !nth_overflow by (rewrite ?comb_length; lia); reflexivity].
    rewrite comb_nth by assumption. destruct Ev as [-> | ->].
    - cbn [normalise map length seq]. rewrite vsum_cons. cbn [nth vsum fold_right]. change (1 / 2)%nat with 0%nat. change (Z.of_nat 0) with 0%Z. rewrite Z.add_0_r, Z.sub_0_r, X. rnum. field. lra.
    - cbn [normalise map length seq]. rewrite !vsum_cons. cbn [nth vsum fold_right]. change (3 / 2)%nat with 1%nat. change (Z.of_nat 1) with 1%Z. rewrite Z.add_simpl_r, X. rnum. field. lra. }
  rewrite Ec. clear Ec. rewrite <- (map_id (nth i (c_rows c) [])) at 2. apply map_ext_in. intros x Hx.
  destruct (c_dtype c) eqn:D; [|reflexivity]. apply (I D (nth i (c_rows c) [])); assumption.
Qed.
Print Assumptions C88_identity.

(** A symmetric window leaves the interior of an evenly sampled straight line
    where it is if its size is odd, and moves it half a step forward if its size
    is even. *)
Lemma symmetric_moment (w : list R) : rev w = w -> 2 * vsum (map (fun k => nth k w 0 * INR k) (seq 0 (length w))) = (INR (length w) - 1) * vsum w.
Proof.
  intros Sy. set (m := length w). set (X := vsum _). assert (E : X = vsum (map (fun k => nth k w 0 * (INR m - 1 - INR k)) (seq 0 m))).
  { unfold X. rewrite sum_reindex. apply sum_ext. intros k Hk. apply in_seq in Hk. rewrite <- Sy at 1. rewrite rev_nth by (fold m; lia). fold m.
    replace (m - S (m - 1 - k))%nat with k by lia. rewrite !minus_INR by lia. change (INR 1) with 1. reflexivity. }
  assert (E2 : X + X = (INR m - 1) * vsum w); [|lra]. rewrite E at 2. unfold X. rewrite <- sum_plus, <- (sum_nth w). fold m. rewrite <- sum_scale. apply sum_ext. intros k _. ring.
Qed.
Theorem C88_half_step : forall gw (r : registry (smethod R)) name meth mode cval w (c : curve R) a d,
  wf c -> c_dtype c = DFloat -> reg_find r name = Some meth -> window_method gw meth mode cval w ->
  In mode ["reflect"; "nearest"; "mirror"; "wrap"] -> w <> [] -> total w <> 0 -> rev w = w ->
  (forall i j, (i < c_size c)%nat -> (j < c_ndim c)%nat -> nth j (nth i (c_rows c) []) 0 = nth j a 0 + INR i * nth j d 0) ->
  c_rows c <> [] ->
  exists c', smooth r name c = Ok c' /\
    forall i j, (length w - 1 <= i + length w / 2)%nat -> (i + length w / 2 < c_size c)%nat -> (j < c_ndim c)%nat ->
      nth j (nth i (c_rows c') []) 0 = nth j a 0 + (INR i + if Nat.even (length w) then / 2 else 0) * nth j d 0.
Proof.
  intros gw r name meth mode cval w c a d W D F WM Hm Nw T Sy A N.
  destruct (C58_window_average gw r name meth mode cval w c W N F WM Hm Nw T) as (c' & src & E & _ & _ & _ & _ & _ & _ & Hs & V).
  exists c'. split; [exact E|]. intros i j H1 H2 Hj. rewrite V by lia. rewrite D. cbn [cast].
  set (m := length w) in *. set (h := (m / 2)%nat) in *. unfold sum_upto. rewrite total_vsum.
  rewrite (sum_ext _ (fun k => (nth j a 0 + (INR i + INR h) * nth j d 0) / total w * nth k w 0 + - (nth j d 0 / total w) * (nth k w 0 * INR k))).
  2:{ intros k Hk. apply in_seq in Hk. rewrite Hs by lia. rewrite A by lia. rewrite minus_INR, plus_INR by lia. field. exact T. }
  rewrite sum_plus, !sum_scale. fold m. unfold m at 1. rewrite sum_nth. assert (M := symmetric_moment w Sy). fold m in M.
  change (vsum w) with (total w) in *. set (X := vsum _) in *. assert (Ex : X = (INR m - 1) / 2 * total w) by lra. rewrite Ex.
  assert (Eh : INR m = 2 * INR h + if Nat.even m then 0 else 1).
  { pose proof (Nat.div_mod m 2 ltac:(lia)) as Q. fold h in Q. destruct (Nat.even m) eqn:Em.
    - apply Nat.even_spec in Em as (q & Eq). assert (m = 2 * h)%nat by (unfold h; rewrite Eq, Nat.mul_comm, Nat.div_mul; lia). rewrite H at 1. rewrite mult_INR. cbn. lra.
    - assert (O : Nat.Odd m) by (apply Nat.odd_spec; rewrite <- Nat.negb_even, Em; reflexivity). destruct O as (q & Eq).
      assert (h = q) by (unfold h; rewrite Eq; symmetry; apply Nat.div_unique with 1%nat; lia). rewrite H, Eq, plus_INR, mult_INR. cbn. lra. }
  destruct (Nat.even m); rewrite Eh; field; exact T.
Qed.
Print Assumptions C88_half_step.

(** Size 0 is refused by the convolution. *)
Theorem C88_empty_window : forall pf ks wn w (r : registry (smethod R)) name mode cval (c : curve R), In wn (aliases w) -> pf wn = None ->
  reg_find r name = Some (fun c => window_filter (get_window pf ks) c 0 (WName wn) mode cval) -> smooth r name c = Raise SmoothingError.
Proof.
  intros pf ks wn w r name mode cval c H P F. unfold smooth, reg_get. rewrite F. cbn [rbind]. unfold window_filter.
  rewrite (proj1 (C88_small_sizes pf ks wn w H P)). reflexivity.
Qed.
Print Assumptions C88_empty_window.

(** ** Examples *)

Example C88_ex : let gw := get_window (fun _ => None) (fun _ _ => []) in
  gw "hann" 2%Z = Ok [0; 0] /\ gw "hann" 3%Z = Ok [0; 1; 0] /\ gw "triang" 4%Z = Ok [1 / 4; 3 / 4; 3 / 4; 1 / 4] /\
  gw "bartlett" 5%Z = Ok [0; 1 / 2; 1; 1 / 2; 0] /\ gw "gaussian" 5%Z = Raise ValueError /\ gw "boxcar" (-1)%Z = Raise ValueError.
Proof.
  assert (L3 : linspace_nat (- PI) PI 3 = [- PI; 0; PI]).
  { apply (nth_ext _ _ 0 0); [apply linspace_length|]. intros k Hk. rewrite linspace_length in Hk. rewrite linspace_nth by lia.
    destruct k as [|[|[|k]]]; [cbn; lra..|lia]. }
  assert (L2 : linspace_nat (- PI) PI 2 = [- PI; PI]).
  { apply (nth_ext _ _ 0 0); [apply linspace_length|]. intros k Hk. rewrite linspace_length in Hk. rewrite linspace_nth by lia.
    destruct k as [|[|k]]; [cbn; lra..|lia]. }
  assert (G : forall name w m, In name (aliases w) -> (2 <= m)%nat -> get_window (fun _ => None) (fun _ _ => []) name (Z.of_nat m) = Ok (window_values w m))
    by (intros; apply get_window_eq; [assumption|reflexivity|assumption]).
  cbv zeta. change 2%Z with (Z.of_nat 2). change 3%Z with (Z.of_nat 3). change 4%Z with (Z.of_nat 4). change 5%Z with (Z.of_nat 5).
  rewrite !(G "hann" Hann), (G "triang" Triang), (G "bartlett" Bartlett) by (cbn; tauto || lia). cbn [window_values].
  change (Z.of_nat 2) with 2%Z. change (Z.of_nat 3) with 3%Z. change (Z.of_nat 4) with 4%Z. change (Z.of_nat 5) with 5%Z.
  unfold general_cosine. rewrite L2, L3. cbn [map fold_left seq length nth]. change (INR 0) with 0. change (INR 1) with 1.
  rewrite !Rmult_0_l, !Rmult_1_l, cos_neg, cos_PI, cos_0. split; [|split; [|split; [|split; [|split; reflexivity]]]]; f_equal.
  - f_equal; [lra|]. f_equal. lra.
  - f_equal; [lra|]. f_equal; [lra|]. f_equal. lra.
  - unfold triang. cbn [Nat.even Nat.add Nat.div Nat.divmod fst Nat.sub seq map rev app]. replace (INR 1) with 1 by reflexivity. replace (INR 2) with 2 by (cbn; lra). replace (INR 4) with 4 by (cbn; lra).
    f_equal; [lra|]. f_equal; [lra|]. f_equal; [lra|]. f_equal. lra.
  - unfold bartlett, arange. cbn [seq map]. replace (INR 0) with 0 by reflexivity. replace (INR 1) with 1 by reflexivity. replace (INR 2) with 2 by (cbn; lra). replace (INR 3) with 3 by (cbn; lra).
    replace (INR 4) with 4 by (cbn; lra). replace (INR 5) with 5 by (cbn; lra). unfold Rleb. repeat match goal with |- context [Rle_dec ?x ?y] => destruct (Rle_dec x y); try lra end.
    f_equal; [lra|]. f_equal; [lra|]. f_equal; [lra|]. f_equal; [lra|]. f_equal. lra.
Qed.
(** The zero total of 'blackman' of size 2 is one of exact arithmetic: in
    binary64 its values are -1.4e-17. *)
Example C88_blackman_rounding : let x := ((0x1.ae147ae147ae1p-2 + 0.5 * -1) + 0x1.47ae147ae147bp-4 * 1)%float in (PrimFloat.ltb x 0 = true /\ x / (x + x) = 0.5)%float.
Proof. vm_compute. split; reflexivity. Qed.
Example C88_ex_hyp : let gw := get_window (fun _ => None) (fun _ _ => []) in
  exists c', smooth [("window", fun c => window_filter gw c 3 (WName "hann") "reflect" 0)] "window" rzig = Ok c' /\ c_rows c' = c_rows rzig.
Proof.
  apply (C88_identity (fun _ => None) (fun _ _ => []) "hann" Hann 3 _ "window" "reflect" BReflect 0 rzig); try reflexivity; try discriminate.
  - apply rzig_wf.
  - cbn. tauto.
  - right. split; reflexivity.
Qed.
