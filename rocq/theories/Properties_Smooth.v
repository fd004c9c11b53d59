(** Properties C58-C59: window smoothing and smoothing dispatch. *)
From Coq Require Import ZArith String List Bool Arith Lia PrimFloat Reals Lra Psatz.
From Verif Require Import Num Py Numeric Curve Vec Registry Smooth Spec GeomSpec.
From Verif Require Import ListFacts ArrayProofs VecFacts CurveProofs CurveProofs2 CurveProofs3 SmoothProofs Properties_Container.
Import ListNotations.
Local Open Scope string_scope.
Local Open Scope list_scope.
Local Open Scope R_scope.

(** Sum of a list of reals, and of f 0, ..., f (n-1). *)
Definition total (l : list R) : R := fold_right Rplus 0 l.
Definition sum_upto (n : nat) (f : nat -> R) : R := total (map f (seq 0 n)).

(** [m] is the window smoothing method with these parameters, and the window
    that scipy or the callable supplies is the float array [w]. *)
Definition window_method (gw : string -> Z -> res (list R)) (m : smethod R) (mode : string) (cval : R) (w : list R) : Prop :=
  exists size wt, (m = fun c => window_filter gw c size wt mode cval) /\
    match wt with WCall f => f size = Ok (WFloat w) | WName s => gw s size = Ok w end.

Lemma nonempty_pos {A} (l : list A) : l <> [] -> (0 < length l)%nat.
Proof. destruct l; [contradiction|cbn; lia]. Qed.

Lemma window_method_smooth gw r name m mode b cval w c :
  wf c -> c_rows c <> [] -> reg_find r name = Some m -> window_method gw m mode cval w -> bmode_of mode = Ok b -> w <> [] ->
  smooth r name c = Ok (smoothed b cval w c).
Proof. intros W N F (size & wt & -> & Hw) Hm Nw. exact (smooth_window gw r name c size wt mode b cval w W N F Hw Hm Nw). Qed.

(** A method whose callable supplies [w]. *)
Definition from_window (mode : string) (cval : R) (w : list R) : smethod R :=
  fun c => window_filter (fun _ _ => Raise ValueError) c 3 (WCall (fun _ => Ok (WFloat w))) mode cval.
Lemma from_window_method mode cval w : window_method (fun _ _ => Raise ValueError) (from_window mode cval w) mode cval w.
Proof. exists 3%Z, (WCall (fun _ => Ok (WFloat w))). split; reflexivity. Qed.

Definition rzig : curve R := mkCurve [[0; 0]; [1; 3]; [2; 0]; [3; 3]] 2 DFloat (Some [0; 1; 2; 3]).
Lemma rzig_wf : wf rzig.
Proof.
  split; [|split]; cbn; [lia| |intros t H; injection H as <-; reflexivity].
  intros p Hp; repeat (destruct Hp as [<-|Hp]; [reflexivity|]); destruct Hp.
Qed.
Definition zigzag : curve float :=
  mkCurve [[fz 0; fz 0]; [fz 1; fz 3]; [fz 2; fz 0]; [fz 3; fz 3]] 2 DFloat (Some [fz 0; fz 1; fz 2; fz 3]).
Definition window_of (w : list float) (mode : string) : smethod float :=
  fun c => window_filter (fun _ _ => Raise ValueError) c 3 (WCall (fun _ => Ok (WFloat w))) mode (fz 0).

(** ** C58 Window smoothing *)

(** The smoothed curve: same number of points, dimension and dtype, never
    parametric; point i is the weighted mean, with the weights of the window, of
    the points i + m/2 - k (those outside supplied by the boundary mode),
    truncated for integer curves. *)
Theorem C58_window_average : forall gw (r : registry (smethod R)) name m mode cval w (c : curve R),
  wf c -> c_rows c <> [] -> reg_find r name = Some m -> window_method gw m mode cval w ->
  In mode ["reflect"; "nearest"; "mirror"; "wrap"] -> w <> [] -> total w <> 0 ->
  exists c' (src : nat -> nat -> nat), smooth r name c = Ok c' /\
    c_size c' = c_size c /\ c_ndim c' = c_ndim c /\ c_dtype c' = c_dtype c /\ c_t c' = None /\ wf c' /\
    (forall i k, (src i k < c_size c)%nat) /\
    (forall i k, (k <= i + length w / 2)%nat -> (i + length w / 2 - k < c_size c)%nat -> src i k = (i + length w / 2 - k)%nat) /\
    forall i j, (i < c_size c)%nat -> (j < c_ndim c)%nat ->
      nth j (nth i (c_rows c') []) 0
      = cast (c_dtype c) (sum_upto (length w) (fun k => nth k w 0 / total w * nth j (nth (src i k) (c_rows c) []) 0)).
Proof.
  intros gw r name m mode cval w c W N F M Hm Nw Tw.
  assert (B : exists b, bmode_of mode = Ok b /\ b <> BConstant).
  { destruct Hm as [<-|[<-|[<-|[<-|[]]]]]; eexists; (split; [reflexivity|discriminate]). }
  destruct B as (b & B & Nb).
  exists (smoothed b cval w c),
    (fun i k => match ext_index b (c_size c) (Z.of_nat i + Z.of_nat (length w / 2) - Z.of_nat k) with Some p => p | None => 0%nat end).
  split; [apply (window_method_smooth gw r name m mode); assumption|].
  assert (Nz : (0 < c_size c)%nat) by (unfold c_size; destruct (c_rows c); [contradiction|cbn; lia]).
  unfold smoothed. cbn [c_ndim c_dtype c_t]. unfold c_size at 1. cbn [c_rows]. rewrite map_length, seq_length.
  split; [reflexivity|]. split; [reflexivity|]. split; [reflexivity|]. split; [reflexivity|]. split; [|split; [|split]].
  - split; [apply W|]. cbn [c_rows c_ndim c_t]. split; [|discriminate]. intros p Hp. apply in_map_iff in Hp as (i & <- & _).
    rewrite map_length, conv_row_comb. apply comb_length.
  - intros i k. destruct (ext_index _ _ _) eqn:E; [|assumption]. exact (ext_index_lt _ _ _ _ Nz E).
  - intros i k H1 H2. rewrite ext_index_in by lia. lia.
  - intros i j Hi Hj. set (f := fun i => map (cast (c_dtype c)) (conv_row b cval (normalise w) (c_rows c) (c_ndim c) i)).
    rewrite (nth_indep _ [] (f 0%nat)) by (rewrite map_length, seq_length; assumption). rewrite map_nth, seq_nth by assumption.
    unfold f. rewrite (nth_indep _ 0 (cast (c_dtype c) 0)) by (rewrite map_length, conv_row_comb, comb_length; assumption).
    rewrite map_nth. f_equal. rewrite conv_row_comb, comb_nth by assumption. rewrite normalise_length. cbn [Nat.add].
    unfold sum_upto. apply (sum_ext (A := nat)). intros k _. rewrite normalise_nth. f_equal. unfold ext_row.
    destruct (ext_index_some b (length (c_rows c)) (Z.of_nat i + Z.of_nat (length w / 2) - Z.of_nat k) Nb) as (p & Ep).
    unfold c_size. rewrite Ep. reflexivity.
Qed.
Print Assumptions C58_window_average.

(** Which point stands outside the curve, for the boundary modes. *)
Theorem C58_boundary : forall n, (0 < n)%nat -> let z := Z.of_nat n in
  (forall b j, (0 <= j < z)%Z -> ext_index b n j = Some (Z.to_nat j)) /\
  (forall j, ext_index BReflect n (-1 - j) = ext_index BReflect n j /\ ext_index BReflect n (j + 2 * z) = ext_index BReflect n j) /\
  (forall j, ext_index BMirror n (- j) = ext_index BMirror n j /\ ext_index BMirror n (j + 2 * (z - 1)) = ext_index BMirror n j) /\
  (forall j, ext_index BWrap n (j + z) = ext_index BWrap n j) /\
  (forall j, (j < 0)%Z -> ext_index BNearest n j = Some 0%nat) /\
  (forall j, (z <= j)%Z -> ext_index BNearest n j = Some (n - 1)%nat) /\
  (forall j, (j < 0 \/ z <= j)%Z -> ext_index BConstant n j = None).
Proof.
  intros n Hn z. split; [intros b j H; apply ext_index_in; assumption|]. split; [|split; [|split; [|split; [|split]]]].
  - intros j. cbn [ext_index]. fold z. pose proof (Z.mod_pos_bound j (2 * z) ltac:(lia)) as B. pose proof (Z.div_mod j (2 * z) ltac:(lia)) as D.
    set (k := (j mod (2 * z))%Z) in *. set (q := (j / (2 * z))%Z) in *. split.
    + rewrite (mod_eq _ _ (2 * z - 1 - k)); [|lia|exists (- q - 1)%Z; lia].
      destruct (Z.ltb_spec (2 * z - 1 - k) z), (Z.ltb_spec k z); f_equal; lia.
    + rewrite (mod_eq _ _ k); [reflexivity|lia|exists (q + 1)%Z; lia].
  - intros j. cbn [ext_index]. fold z. destruct (Nat.eqb_spec n 1) as [E|E]; [split; reflexivity|].
    pose proof (Z.mod_pos_bound j (2 * (z - 1)) ltac:(lia)) as B. pose proof (Z.div_mod j (2 * (z - 1)) ltac:(lia)) as D.
    set (k := (j mod (2 * (z - 1)))%Z) in *. set (q := (j / (2 * (z - 1)))%Z) in *. split.
    + destruct (Z.eq_dec k 0) as [K|K].
      * rewrite (mod_eq _ _ 0); [rewrite K; reflexivity|lia|exists (- q)%Z; lia].
      * rewrite (mod_eq _ _ (2 * (z - 1) - k)); [|lia|exists (- q - 1)%Z; lia].
        destruct (Z.ltb_spec (2 * (z - 1) - k) z), (Z.ltb_spec k z); f_equal; lia.
    + rewrite (mod_eq _ _ k); [reflexivity|lia|exists (q + 1)%Z; lia].
  - intros j. cbn [ext_index]. fold z. rewrite <- (Z.mul_1_l z) at 1. rewrite Z_mod_plus_full. reflexivity.
  - intros j H. cbn [ext_index]. f_equal. lia.
  - intros j H. cbn [ext_index]. f_equal. lia.
  - intros j H. cbn [ext_index]. fold z. destruct (Z.leb_spec 0 j), (Z.ltb_spec j z); try reflexivity. lia.
Qed.
Print Assumptions C58_boundary.

Lemma smoothed_float_row b cval w c x : c_dtype c = DFloat -> In x (c_rows (smoothed b cval w c)) ->
  exists i, (i < c_size c)%nat /\ x = conv_row b cval (normalise w) (c_rows c) (c_ndim c) i.
Proof.
  intros D H. unfold smoothed in H. cbn [c_rows] in H. rewrite D in H. apply in_map_iff in H as (i & <- & Hi). apply in_seq in Hi.
  exists i. split; [lia|]. apply map_id.
Qed.

(** The five modes and nothing else. *)
Theorem C58_modes : forall mode b, bmode_of mode = Ok b <->
  In (mode, b) [("reflect", BReflect); ("nearest", BNearest); ("mirror", BMirror); ("wrap", BWrap); ("constant", BConstant)].
Proof.
  intros mode b. unfold bmode_of. split.
  - repeat (match goal with |- context [String.eqb mode ?s] => destruct (String.eqb_spec mode s) as [->|] end; [intros [= <-]; cbn; tauto|]). discriminate.
  - intros [E|[E|[E|[E|[E|[]]]]]]; injection E as <- <-; reflexivity.
Qed.
Print Assumptions C58_modes.
Example C58_modes_ex : bmode_of "constant" = Ok BConstant /\ bmode_of "Constant" = Raise OtherError /\ bmode_of "interp" = Raise OtherError.
Proof. repeat split. Qed.

(** A non-negative window keeps every half-space containing the curve, hence the
    curve stays in its convex hull (in mode constant: if the fill point is in
    the half-space too). *)
Theorem C58_convex : forall gw (r : registry (smethod R)) name m mode b cval w (c c' : curve R) a s,
  wf c -> c_rows c <> [] -> c_dtype c = DFloat -> reg_find r name = Some m -> window_method gw m mode cval w ->
  bmode_of mode = Ok b -> w <> [] -> total w <> 0 -> (forall x, In x w -> 0 <= x) -> smooth r name c = Ok c' ->
  length a = c_ndim c -> (forall x, In x (c_rows c) -> inner a x <= s) ->
  (b = BConstant -> inner a (repeat cval (c_ndim c)) <= s) ->
  forall x, In x (c_rows c') -> inner a x <= s.
Proof.
  intros gw r name m mode b cval w c c' a s W N D F M Hm Nw Tw Pw E La Hs Hc x Hx.
  rewrite (window_method_smooth gw r name m mode b cval w c) in E by assumption. injection E as <-.
  apply smoothed_float_row in Hx as (i & Hi & ->); [|assumption]. rewrite conv_row_comb.
  assert (Dr : dims (c_ndim c) (c_rows c)) by (intros p Hp; apply W; assumption).
  rewrite inner_comb; [|assumption|intros k _; apply ext_row_length; assumption].
  assert (P : forall k, 0 <= nth k (normalise w) 0).
  { intros k. rewrite normalise_nth. assert (0 < vsum w).
    { assert (0 <= vsum w). { clear - Pw. induction w as [|y w IH]; [apply Rle_refl|]. rewrite vsum_cons.
        pose proof (Pw y (or_introl eq_refl)). specialize (IH (fun z Hz => Pw z (or_intror Hz))). lra. }
      assert (vsum w <> 0) by exact Tw. lra. }
    apply Rmult_le_pos; [|apply Rlt_le, Rinv_0_lt_compat; assumption].
    destruct (Nat.lt_ge_cases k (length w)) as [K|K]; [apply Pw, nth_In; assumption|]. rewrite nth_overflow by assumption. lra. }
  apply Rle_trans with (vsum (map (fun k => nth k (normalise w) 0 * s) (seq 0 (length (normalise w))))).
  - apply sum_le. intros k _. apply Rmult_le_compat_l; [apply P|]. unfold ext_row.
    destruct (ext_index b (length (c_rows c)) _) as [p|] eqn:Ep.
    + apply Hs, nth_In, (ext_index_lt _ _ _ _ (nonempty_pos _ N) Ep).
    + destruct b; try (cbn [ext_index] in Ep; try destruct (Nat.eqb (length (c_rows c)) 1); discriminate). apply Hc. reflexivity.
  - rewrite sum_scale_r, sum_nth, normalise_sum by exact Tw. lra.
Qed.
Print Assumptions C58_convex.

(** Constant curves are left alone (modes other than constant). *)
Theorem C58_fixes_constant : forall gw (r : registry (smethod R)) name m mode b cval w (c c' : curve R) p,
  wf c -> c_rows c <> [] -> int_data c -> reg_find r name = Some m -> window_method gw m mode cval w ->
  bmode_of mode = Ok b -> b <> BConstant -> w <> [] -> total w <> 0 ->
  (forall x, In x (c_rows c) -> x = p) -> smooth r name c = Ok c' -> c_rows c' = c_rows c.
Proof.
  intros gw r name m mode b cval w c c' p W N I F M Hm Nb Nw Tw Hp E.
  rewrite (window_method_smooth gw r name m mode b cval w c) in E by assumption. injection E as <-.
  unfold smoothed. cbn [c_rows]. apply (nth_ext _ _ [] []); [rewrite map_length, seq_length; reflexivity|].
  intros i Hi. rewrite map_length, seq_length in Hi. set (f := fun i => _).
  rewrite (nth_indep _ [] (f 0%nat)) by (rewrite map_length, seq_length; assumption). rewrite map_nth, seq_nth by assumption. unfold f.
  assert (Hr : In (nth i (c_rows c) []) (c_rows c)) by (apply nth_In; assumption).
  assert (Lp : length p = c_ndim c) by (rewrite <- (Hp _ Hr); apply W; assumption).
  rewrite (Hp _ Hr). cbn [Nat.add].
  assert (Ec : conv_row b cval (normalise w) (c_rows c) (c_ndim c) i = p).
  { rewrite conv_row_comb. apply vec_ext; [rewrite comb_length; congruence|]. intros j.
    destruct (Nat.lt_ge_cases j (c_ndim c)) as [J|J]; [|rewrite !nth_overflow by (rewrite ?comb_length; lia); reflexivity].
    rewrite comb_nth by assumption. rewrite (sum_ext _ (fun k => nth k (normalise w) 0 * nth j p 0)).
    - rewrite sum_scale_r, sum_nth, normalise_sum by exact Tw. ring.
    - intros k _. f_equal. unfold ext_row. destruct (ext_index_some b (length (c_rows c)) (Z.of_nat i + Z.of_nat (length (normalise w) / 2) - Z.of_nat k) Nb) as (q & Eq).
      rewrite Eq. rewrite (Hp (nth q (c_rows c) [])); [reflexivity|]. apply nth_In, (ext_index_lt _ _ _ _ (nonempty_pos _ N) Eq). }
  rewrite Ec. clear Ec. rewrite <- (map_id p) at 2. apply map_ext_in. intros x Hx.
  destruct (c_dtype c) eqn:D; [|reflexivity]. apply (I D p); [rewrite <- (Hp _ Hr); assumption|assumption].
Qed.
Print Assumptions C58_fixes_constant.

(** x |-> A x + t *)
Definition affine (A : list (list R)) (t : list R) (x : list R) : list R := map2 (fun a s => inner a x + s) A t.

(** Smoothing commutes with every affine map of the space, translations,
    rotations and scalings included. *)
Theorem C58_affine : forall gw (r : registry (smethod R)) name m mode b cval w (c c2 : curve R) A t,
  wf c -> c_rows c <> [] -> c_dtype c = DFloat -> reg_find r name = Some m -> window_method gw m mode cval w ->
  bmode_of mode = Ok b -> b <> BConstant -> w <> [] -> total w <> 0 ->
  (2 <= length A)%nat -> length t = length A -> (forall a, In a A -> length a = c_ndim c) ->
  wf c2 -> c_rows c2 = map (affine A t) (c_rows c) -> c_dtype c2 = DFloat ->
  exists d d2, smooth r name c = Ok d /\ smooth r name c2 = Ok d2 /\ c_rows d2 = map (affine A t) (c_rows d).
Proof.
  intros gw r name m mode b cval w c c2 A t W N D F M Hm Nb Nw Tw LA Lt HA W2 E2 D2.
  assert (N2 : c_rows c2 <> []) by (rewrite E2; destruct (c_rows c); [contradiction|discriminate]).
  exists (smoothed b cval w c), (smoothed b cval w c2).
  split; [apply (window_method_smooth gw r name m mode); assumption|]. split; [apply (window_method_smooth gw r name m mode); assumption|].
  unfold smoothed. cbn [c_rows]. rewrite map_map, D, D2. unfold c_size. rewrite E2, map_length.
  assert (La : forall x, length (affine A t x) = length A) by (intros x; unfold affine; rewrite map2_length; lia).
  assert (Nd : c_ndim c2 = length A).
  { destruct (c_rows c) as [|p l] eqn:Er; [contradiction|]. destruct W2 as (_ & W2 & _). rewrite <- (W2 (affine A t p)); [apply La|]. rewrite E2. left. reflexivity. }
  rewrite Nd. apply map_ext_in. intros i Hi. cbn [cast]. rewrite !map_id, !conv_row_comb.
  assert (Dr : dims (c_ndim c) (c_rows c)) by (intros p Hp; apply W; assumption).
  apply vec_ext; [rewrite comb_length, La; reflexivity|]. intros j.
  destruct (Nat.lt_ge_cases j (length A)) as [J|J]; [|rewrite !nth_overflow by (rewrite ?comb_length, ?La; lia); reflexivity].
  assert (Haf : forall x, nth j (affine A t x) 0 = inner (nth j A []) x + nth j t 0).
  { intros x. unfold affine. rewrite (nth_map2 _ A t j [] 0) by lia. reflexivity. }
  rewrite Haf, comb_nth by assumption. rewrite inner_comb; [|apply HA, nth_In; assumption|intros k _; apply ext_row_length; assumption].
  rewrite <- (Rmult_1_l (nth j t 0)), <- (normalise_sum w Tw), <- (sum_nth (normalise w)), <- sum_scale_r, <- sum_plus.
  apply sum_ext. intros k _. rewrite <- Rmult_plus_distr_l. f_equal. unfold ext_row. rewrite map_length.
  destruct (ext_index_some b (length (c_rows c)) (Z.of_nat i + Z.of_nat (length (normalise w) / 2) - Z.of_nat k) Nb) as (q & Eq).
  rewrite Eq. rewrite (nth_indep (map _ _) [] (affine A t [])) by (rewrite map_length; apply (ext_index_lt _ _ _ _ (nonempty_pos _ N) Eq)).
  rewrite map_nth, Haf. reflexivity.
Qed.
Print Assumptions C58_affine.

(** Only the shape of the window matters, not its scale; in particular it is
    harmless that the window array is normalised in place and reused. *)
Theorem C58_window_scale : forall gw gw' (r r' : registry (smethod R)) name m m' mode cval w s (c : curve R),
  wf c -> c_rows c <> [] -> reg_find r name = Some m -> window_method gw m mode cval w ->
  reg_find r' name = Some m' -> window_method gw' m' mode cval (map (fun x => s * x) w) ->
  (exists b, bmode_of mode = Ok b) -> w <> [] -> total w <> 0 -> s <> 0 -> smooth r' name c = smooth r name c.
Proof.
  intros gw gw' r r' name m m' mode cval w s c W N F M F' M' (b & Hm) Nw Tw Hs.
  rewrite (window_method_smooth gw r name m mode b cval w) by assumption.
  rewrite (window_method_smooth gw' r' name m' mode b cval (map (fun x => s * x) w)) by (try assumption; intros Q; apply map_eq_nil in Q; contradiction).
  unfold smoothed. rewrite normalise_scale by assumption. reflexivity.
Qed.
Print Assumptions C58_window_scale.

(** For windows of odd length: smoothing the reversed curve with the reversed
    window is reversing the smoothed curve. *)
Theorem C58_reverse : forall gw gw' (r r' : registry (smethod R)) name m m' mode cval w (c cr d : curve R),
  wf c -> c_rows c <> [] -> reg_find r name = Some m -> window_method gw m mode cval w ->
  reg_find r' name = Some m' -> window_method gw' m' mode cval (rev w) ->
  (exists b, bmode_of mode = Ok b) -> Nat.odd (length w) = true ->
  c_reverse c = Ok cr -> smooth r name c = Ok d -> smooth r' name cr = c_reverse d.
Proof.
  intros gw gw' r r' name m m' mode cval w c cr d W N F M F' M' (b & Hm) Ow Er Ed.
  assert (Nw : w <> []) by (intros ->; discriminate).
  destruct (C07_reverse R c W) as (c2 & E2 & Erows & _ & Edt & End & W2). rewrite Er in E2. injection E2 as <-. specialize (End N).
  assert (N2 : c_rows cr <> []).
  { rewrite Erows. intros Q. apply (f_equal (@length _)) in Q. rewrite rev_length in Q. destruct (c_rows c); [contradiction|discriminate]. }
  rewrite (window_method_smooth gw r name m mode b cval w) in Ed by assumption. injection Ed as <-.
  rewrite (window_method_smooth gw' r' name m' mode b cval (rev w)) by (try assumption; intros Q; apply (f_equal (@rev R)) in Q; rewrite rev_involutive in Q; contradiction).
  assert (Wd : wf (smoothed b cval w c)).
  { unfold smoothed. split; [apply W|]. cbn [c_rows c_ndim c_t]. split; [|discriminate]. intros p Hp. apply in_map_iff in Hp as (i & <- & _).
    rewrite map_length, conv_row_comb. apply comb_length. }
  assert (Nd : c_rows (smoothed b cval w c) <> []).
  { intros Q. apply (f_equal (@length _)) in Q. unfold smoothed in Q. cbn [c_rows] in Q. rewrite map_length, seq_length in Q. unfold c_size in Q. destruct (c_rows c); [contradiction|discriminate]. }
  destruct (C07_reverse R _ Wd) as (d2 & E2 & Drows & Dt & Ddt & Dnd & _). rewrite E2. f_equal. specialize (Dnd Nd).
  assert (Eq : c_rows (smoothed b cval (rev w) cr) = rev (c_rows (smoothed b cval w c))).
  { unfold smoothed. cbn [c_rows]. unfold c_size. rewrite Erows, rev_length, Edt, End.
    set (n := length (c_rows c)). assert (Hn : (0 < n)%nat) by (unfold n; destruct (c_rows c); [contradiction|cbn; lia]).
    set (g := fun i => map (cast (c_dtype c)) (conv_row b cval (normalise w) (c_rows c) (c_ndim c) i)).
    rewrite <- map_rev, rev_seq_map. apply map_ext_in. intros i Hi. apply in_seq in Hi. unfold g. f_equal. rewrite !conv_row_comb.
    rewrite normalise_rev, rev_length, normalise_length. unfold comb. apply map_ext. intros j.
    rewrite sum_reindex. apply sum_ext. intros k Hk. apply in_seq in Hk. f_equal.
    - rewrite rev_nth by (rewrite normalise_length; lia). rewrite normalise_length. f_equal. lia.
    - f_equal. unfold ext_row. rewrite rev_length. fold n.
      apply Nat.odd_spec in Ow as (h & Oh). assert (Eh : (length w / 2 = h)%nat) by (rewrite Oh; symmetry; apply Nat.div_unique with 1%nat; lia). rewrite Eh.
      replace (Z.of_nat i + Z.of_nat h - Z.of_nat (length w - 1 - k))%Z with (Z.of_nat n - 1 - (Z.of_nat (n - 1 - i) + Z.of_nat h - Z.of_nat k))%Z by lia.
      rewrite ext_index_rev by assumption. destruct (ext_index b n _) as [p|] eqn:Ep; cbn [option_map]; [|reflexivity].
      pose proof (ext_index_lt _ _ _ _ Hn Ep). rewrite rev_nth by (fold n; lia). f_equal. fold n. lia. }
  destruct (smoothed b cval (rev w) cr) as [r1 n1 t1 o1] eqn:E1. destruct d2 as [r2 n2 t2 o2]. cbn [c_rows c_ndim c_dtype c_t] in *.
  unfold smoothed in *. injection E1 as <- <- <- <-. cbn [c_ndim c_dtype c_t option_map] in *. rewrite Eq, Drows. f_equal; congruence.
Qed.
Print Assumptions C58_reverse.

Example C58_ex : smooth [("window", window_of [fz 1; fz 2; fz 1] "reflect")] "window" zigzag
  = Ok (mkCurve [[fq 1 4; fq 3 4]; [fz 1; fq 3 2]; [fz 2; fq 3 2]; [fq 11 4; fq 9 4]] 2 DFloat None).
Proof. vm_compute. reflexivity. Qed.
Example C58_ex_hyp : wf rzig /\ c_rows rzig <> [] /\ total [1; 2; 1] <> 0 /\ bmode_of "reflect" = Ok BReflect /\ int_data rzig /\
  exists c', smooth [("window", from_window "reflect" 0 [1; 2; 1])] "window" rzig = Ok c'.
Proof.
  split; [apply rzig_wf|]. split; [discriminate|]. split; [cbn; lra|]. split; [reflexivity|]. split; [discriminate|].
  eexists. apply (window_method_smooth (fun _ _ => Raise ValueError) _ _ (from_window "reflect" 0 [1; 2; 1]) "reflect" BReflect 0 [1; 2; 1]);
    try reflexivity; try discriminate; [apply rzig_wf|apply from_window_method].
Qed.

(** "Smoothed curve with type numpy.float64" is false for integer curves: the
    output array has the input dtype, so the averages are truncated; in binary64
    a constant integer curve does not even stay constant. *)
Theorem C58_float64_refuted : exists (c : curve float) c', wf c /\ c_dtype c = DInt /\
  smooth [("window", window_of [fz 1; fz 1] "reflect")] "window" c = Ok c' /\
  c_dtype c' = DInt /\ c_rows c = [[fz 0; fz 0]; [fz 1; fz 1]] /\ c_rows c' = [[fz 0; fz 0]; [fz 1; fz 1]].
Proof.
  exists (mkCurve [[fz 0; fz 0]; [fz 1; fz 1]] 2 DInt None). eexists.
  split; [split; [|split]; cbn; [lia| |discriminate]; intros p Hp; repeat (destruct Hp as [<-|Hp]; [reflexivity|]); destruct Hp|].
  split; [reflexivity|]. split; [vm_compute; reflexivity|]. repeat split.
Qed.
Print Assumptions C58_float64_refuted.
Theorem C58_integer_constant_refuted : exists (c : curve float) c', wf c /\ c_dtype c = DInt /\
  c_rows c = [[fz 1; fz 1]; [fz 1; fz 1]] /\
  smooth [("window", window_of [fz 8; fz 9; fz 18] "reflect")] "window" c = Ok c' /\ c_rows c' = [[fz 0; fz 0]; [fz 0; fz 0]].
Proof.
  exists (mkCurve [[fz 1; fz 1]; [fz 1; fz 1]] 2 DInt None). eexists.
  split; [split; [|split]; cbn; [lia| |discriminate]; intros p Hp; repeat (destruct Hp as [<-|Hp]; [reflexivity|]); destruct Hp|].
  split; [reflexivity|]. split; [reflexivity|]. split; [vm_compute; reflexivity|]. reflexivity.
Qed.
Print Assumptions C58_integer_constant_refuted.
(** A window of sum zero (hann of size 2 is [0, 0]) gives NaN. *)
Theorem C58_zero_sum_refuted : exists c' : curve float,
  smooth [("window", window_of [fz 0; fz 0] "reflect")] "window" zigzag = Ok c' /\ nth 1 (c_rows c') [] = [nan; nan].
Proof. eexists. split; [vm_compute; reflexivity|reflexivity]. Qed.
Print Assumptions C58_zero_sum_refuted.
(** Windows of even length are not centred: reversing does not commute. *)
Theorem C58_even_window_refuted : exists c cr d dr : curve float,
  c_reverse c = Ok cr /\ smooth [("window", window_of [fz 1; fz 1] "reflect")] "window" c = Ok d /\
  smooth [("window", window_of [fz 1; fz 1] "reflect")] "window" cr = Ok dr /\ c_reverse d <> Ok dr.
Proof.
  exists zigzag. do 3 eexists. split; [vm_compute; reflexivity|]. split; [vm_compute; reflexivity|]. split; [vm_compute; reflexivity|].
  intros H. apply (f_equal (fun r => match r with Ok c => match c_rows c with (x :: _) :: _ => (x =? fz 3)%float | _ => false end | _ => false end)) in H.
  vm_compute in H. discriminate.
Qed.
Print Assumptions C58_even_window_refuted.
(** An empty curve loses its dimension. *)
Theorem C58_empty_refuted : exists c c' : curve float, wf c /\ c_rows c = [] /\ c_ndim c = 3%nat /\
  smooth [("window", window_of [fz 1] "reflect")] "window" c = Ok c' /\ c_ndim c' = 2%nat.
Proof.
  exists (mkCurve [] 3 DFloat None). eexists. split; [split; [|split]; cbn; [lia|intros p []|discriminate]|].
  split; [reflexivity|]. split; [reflexivity|]. split; [vm_compute; reflexivity|reflexivity].
Qed.
Print Assumptions C58_empty_refuted.

(** ** C59 Smoothing dispatch *)

(** ValueError and TypeError of a method pass through, all its other failures
    become SmoothingError; an unknown name is a NameError; the data of a
    successful method are turned into a curve without parameters. *)
Theorem C59_dispatch : forall (T : Type) (NT : Num T) (r : registry (smethod T)) name (c : curve T),
  (reg_find r name = None -> smooth r name c = Raise NameError) /\
  (forall m e, reg_find r name = Some m -> m c = Raise e ->
     smooth r name c = Raise (match e with ValueError => ValueError | TypeError => TypeError | _ => SmoothingError end)) /\
  (forall m a dt, reg_find r name = Some m -> m c = Ok (SArray a dt) ->
     (forall c', smooth r name c = Ok c' -> c_dtype c' = dt /\ c_t c' = None) /\
     (forall e, smooth r name c = Raise e -> curve_init (SArray a dt) None None None None = Raise e)).
Proof.
  intros T NT r name c. unfold smooth, reg_get. split; [intros ->; reflexivity|]. split.
  - intros m e -> E. cbn [rbind]. rewrite E. destruct e; reflexivity.
  - intros m a dt -> E. cbn [rbind]. rewrite E. split; [|auto]. intros c' H.
    unfold curve_init in H. change (2 <? 2)%Z with false in H. cbv iota in H. destruct (as2d a 0) as [[rows n]|]; cbn [rbind] in H; [|discriminate].
    destruct (Nat.eqb (length (map (map (cast dt)) rows) * n) 0); cbn [andb] in H.
    + destruct (negb (Nat.eqb (length (A:=list T) [] * Z.to_nat 2) 0) && Nat.ltb (Z.to_nat 2) 2); [discriminate|]. injection H as <-. split; reflexivity.
    + destruct (negb (Nat.eqb (length (map (map (cast dt)) rows) * n) 0) && Nat.ltb n 2); [discriminate|]. injection H as <-. split; reflexivity.
Qed.
Print Assumptions C59_dispatch.

(** The errors of the window method. *)
Theorem C59_window_errors : forall (T : Type) (NT : Num T) gw (r : registry (smethod T)) name (c : curve T) size wt mode cval,
  reg_find r name = Some (fun c => window_filter gw c size wt mode cval) ->
  (forall f e, wt = WCall f -> f size = Raise e -> smooth r name c = Raise ValueError) /\
  (forall f, wt = WCall f -> f size = Ok WInt -> smooth r name c = Raise TypeError) /\
  (forall f w, wt = WCall f -> f size = Ok w -> w = WShape \/ w = WNotArray \/ w = WFloat [] -> smooth r name c = Raise SmoothingError) /\
  (forall s e, wt = WName s -> gw s size = Raise e ->
     smooth r name c = Raise (match e with ValueError => ValueError | TypeError => TypeError | _ => SmoothingError end)) /\
  (forall f w, wt = WCall f -> f size = Ok (WFloat w) -> ~ In mode ["reflect"; "nearest"; "mirror"; "wrap"; "constant"] ->
     smooth r name c = Raise SmoothingError).
Proof.
  intros T NT gw r name c size wt mode cval F. unfold smooth, reg_get. rewrite F. cbn [rbind]. unfold window_filter.
  split; [|split; [|split; [|split]]].
  - intros f e -> E. rewrite E. reflexivity.
  - intros f -> E. rewrite E. reflexivity.
  - intros f w -> E [->|[->| ->]]; rewrite E; reflexivity.
  - intros s e -> E. rewrite E. cbn [rmap rbind]. destruct e; reflexivity.
  - intros f w -> E Hm. rewrite E. cbn [rbind]. unfold convolve1d. destruct (normalise w); [reflexivity|].
    assert (B : bmode_of mode = Raise OtherError).
    { unfold bmode_of. repeat (match goal with |- context [String.eqb mode ?s] => destruct (String.eqb_spec mode s) end; [exfalso; apply Hm; subst; cbn; tauto|]). reflexivity. }
    rewrite B. reflexivity.
Qed.
Print Assumptions C59_window_errors.

(** The Savitzky-Golay wrapper hands the data to scipy and returns a float curve
    without parameters of whatever shape scipy returns. *)
Theorem C59_savgol : forall ext (r : registry (smethod R)) name (c : curve R) rows,
  reg_find r name = Some (savgol_filter ext) -> ext (c_rows c) = Ok (mkNd [length rows; c_ndim c] (concat rows)) ->
  rows <> [] -> dims (c_ndim c) rows -> (2 <= c_ndim c)%nat ->
  smooth r name c = Ok (mkCurve rows (c_ndim c) DFloat None).
Proof.
  intros ext r name c rows F E N D Hn. unfold smooth, reg_get. rewrite F. cbn [rbind]. unfold savgol_filter. rewrite E. cbn [rmap rbind].
  rewrite curve_init_array by assumption. rewrite map_cast_float. reflexivity.
Qed.
Print Assumptions C59_savgol.

Example C59_ex :
  let r : registry (smethod float) := [("e1", fun _ => Raise TypeError); ("e2", fun _ => Raise IndexError);
     ("sg", savgol_filter (fun rows => Ok (mkNd [length rows; 2%nat] (concat (rev rows)))))] in
  smooth r "e1" zigzag = Raise TypeError /\ smooth r "e2" zigzag = Raise SmoothingError /\ smooth r "x" zigzag = Raise NameError /\
  smooth r "sg" zigzag = Ok (mkCurve [[fz 3; fz 3]; [fz 2; fz 0]; [fz 1; fz 3]; [fz 0; fz 0]] 2 DFloat None) /\
  smooth [("window", window_of [fz 1] "periodic")] "window" zigzag = Raise SmoothingError.
Proof. vm_compute. repeat split. Qed.
