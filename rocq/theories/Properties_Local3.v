(** C111: which points of a curve a smoothed point depends on. *)
From Coq Require Import PrimFloat.
From Coq Require Import String ZArith List Bool Arith Lia.
From Verif Require Import Num Py Numeric Curve Vec Registry Smooth Savgol Spec ListFacts VecFacts LocalProofs LocalProofs3.
Import ListNotations.
Local Open Scope string_scope.
Local Notation float := PrimFloat.float.

(** ** C111 How far a point reaches in smoothing

    The theorems hold for every number type.  [within_places wrap n h i l]
    (LocalProofs3.v): point l is at most h places away from point i, in mode 'wrap'
    counted around the end of the n points. *)

Lemma ok_inj {A} (a b : A) : Ok a = Ok b -> a = b.
Proof. congruence. Qed.

(** The window method: [w] is the window as supplied by scipy or the callable. *)
Theorem C111_window : forall T (NT : Num T) gw (r : registry (smethod T)) name size wt mode b cval w (c c2 a a2 : curve T) i,
  wf c -> wf c2 -> c_size c2 = c_size c -> c_ndim c2 = c_ndim c -> c_dtype c2 = c_dtype c ->
  reg_find r name = Some (fun c => window_filter gw c size wt mode cval) ->
  match wt with WCall f => f size = Ok (WFloat w) | WName s => gw s size = Ok w end -> bmode_of mode = Ok b ->
  smooth r name c = Ok a -> smooth r name c2 = Ok a2 -> (i < c_size c)%nat ->
  (forall l, within_places (is_wrap b) (c_size c) (length w / 2) i l -> nth l (c_rows c) [] = nth l (c_rows c2) []) ->
  nth i (c_rows a) [] = nth i (c_rows a2) [].
Proof.
  intros T NT gw r name size wt mode b cval w c c2 a a2 i W W2 Sz Nd Dt F Hw Hb E E2 Hi A. unfold c_size in Sz, Hi, A.
  assert (X : forall (c a : curve T), wf c -> (0 < length (c_rows c))%nat -> smooth r name c = Ok a ->
    exists y, convolve1d (c_rows c) (c_ndim c) (c_dtype c) (normalise w) mode cval = Ok y /\ c_rows a = map (map (cast (c_dtype c))) y).
  { intros c0 a0 W0 N0 E0. unfold smooth, reg_get in E0. rewrite F in E0. cbn [rbind] in E0. unfold window_filter in E0.
    assert (Ew : match wt with WCall f => match f size with Ok w => Ok w | Raise _ => Raise ValueError end | WName name => rmap WFloat (gw name size) end = Ok (WFloat w))
      by (destruct wt; rewrite Hw; reflexivity).
    rewrite Ew in E0. cbn [rbind] in E0. destruct (convolve1d _ _ _ _ _ _) as [y|e] eqn:Ey; cbn [rbind] in E0; [|destruct e; discriminate].
    exists y. split; [reflexivity|]. destruct (convolve1d_shape _ _ _ _ _ _ _ Ey) as (Ly & Dy). unfold c_size in E0. rewrite <- Ly in E0.
    apply (curve_init_arr y (c_ndim c0)); [intros Z; rewrite Z in Ly; cbn in Ly; lia|apply W0|exact Dy|exact E0]. }
  destruct (X c a W ltac:(lia) E) as (y & Ey & Ra). destruct (X c2 a2 W2 ltac:(lia) E2) as (y2 & Ey2 & Ra2).
  rewrite Ra, Ra2, !nth_cast_rows, Dt. f_equal. rewrite Nd, Dt in Ey2.
  apply (convolve1d_local (c_rows c) (c_rows c2) _ _ _ _ b _ _ _ i Hb Ey Ey2 (eq_sym Sz) Hi).
  unfold normalise. cbv zeta. rewrite map_length. exact A.
Qed.
Print Assumptions C111_window.

(** The Savitzky-Golay method: half the window on both sides; in mode 'interp' the
    points near an end depend on the window of points at this end. *)
Theorem C111_savgol : forall T (NT : Num T) (r : registry (smethod T)) name w p d delta mode cval (c c2 a a2 : curve T) i,
  wf c -> wf c2 -> c_size c2 = c_size c -> c_ndim c2 = c_ndim c ->
  reg_find r name = Some (savgol w p d delta mode cval) ->
  smooth r name c = Ok a -> smooth r name c2 = Ok a2 -> (i < c_size c)%nat ->
  let h := (Z.to_nat w / 2)%nat in
  (forall l, within_places (String.eqb mode "wrap") (c_size c) h i l -> nth l (c_rows c) [] = nth l (c_rows c2) []) ->
  (mode = "interp" -> (i < h)%nat -> forall l, (l < Z.to_nat w)%nat -> nth l (c_rows c) [] = nth l (c_rows c2) []) ->
  (mode = "interp" -> (c_size c <= i + h)%nat -> forall l, (c_size c <= l + Z.to_nat w)%nat -> nth l (c_rows c) [] = nth l (c_rows c2) []) ->
  nth i (c_rows a) [] = nth i (c_rows a2) [].
Proof.
  intros T NT r name w p d delta mode cval c c2 a a2 i W W2 Sz Nd F E E2 Hi h A B C. unfold c_size in Sz, Hi, A, C.
  unfold smooth, reg_get in E, E2. rewrite F in E, E2. cbn [rbind] in E, E2. unfold savgol, savgol_filter in E, E2. rewrite Nd in E2.
  destruct (savgol_scipy w p d delta mode cval (c_ndim c) (c_rows c)) as [x|e] eqn:Es; cbn [rmap] in E; [|destruct e; discriminate].
  destruct (savgol_scipy w p d delta mode cval (c_ndim c) (c_rows c2)) as [x2|e] eqn:Es2; cbn [rmap] in E2; [|destruct e; discriminate].
  unfold savgol_scipy in Es, Es2.
  destruct (negb (existsb (String.eqb mode) savgol_modes)) eqn:Em; [discriminate|].
  destruct ((w <=? p) || (w mod 2 =? 0) || (w <=? 0))%Z eqn:Ew; [discriminate|]. cbv zeta in Es, Es2. rewrite Sz in Es2.
  assert (Hn : (2 <= c_ndim c)%nat) by apply W.
  destruct (if (p <? d)%Z then _ else _) as [co|e] eqn:Ec; cbn [rbind] in Es, Es2; [|discriminate].
  assert (Lc : length co = Z.to_nat w).
  { destruct (p <? d)%Z; [inversion Ec; apply repeat_length|]. destruct (d <? 0)%Z; [discriminate|]. destruct (neqb _ _); [discriminate|]. inversion Ec.
    unfold savgol_coeffs. cbv zeta. rewrite map_length, rev_length. unfold offsets. rewrite map_length, seq_length. reflexivity. }
  apply orb_false_iff in Ew as (Ew & Ew3). apply orb_false_iff in Ew as (Ew1 & Ew2). apply Z.leb_gt in Ew3. apply Z.eqb_neq in Ew2.
  assert (Hw : (Z.to_nat w = 2 * h + 1)%nat).
  { assert (O : (Z.to_nat w mod 2 = 1)%nat).
    { assert (R : (Z.of_nat (Z.to_nat w mod 2) = w mod 2)%Z) by (rewrite Nat2Z.inj_mod, Z2Nat.id by lia; reflexivity).
      pose proof (Z.mod_pos_bound w 2 ltac:(lia)). lia. }
    unfold h. pose proof (Nat.div_mod (Z.to_nat w) 2 ltac:(lia)). lia. }
  destruct (String.eqb_spec mode "interp") as [Mi|Mi].
  - subst mode. destruct (Nat.ltb_spec (length (c_rows c)) (Z.to_nat w)) as [|Hl]; [discriminate|].
    destruct (convolve1d (c_rows c) _ _ _ _ _) as [y|e] eqn:Ey; cbn [rbind] in Es; [|discriminate].
    destruct (convolve1d (c_rows c2) _ _ _ _ _) as [y2|e] eqn:Ey2; cbn [rbind] in Es2; [|discriminate].
    destruct (p <? 0)%Z; [discriminate|].
    destruct (convolve1d_shape _ _ _ _ _ _ _ Ey) as (Ly & Dy). destruct (convolve1d_shape _ _ _ _ _ _ _ Ey2) as (Ly2 & Dy2).
    pose (F1 := fit_edge (c_rows c) (c_ndim c) (Z.to_nat w) (Z.to_nat p) (Z.to_nat d) delta 0 0 h).
    pose (F3 := fit_edge (c_rows c) (c_ndim c) (Z.to_nat w) (Z.to_nat p) (Z.to_nat d) delta (length (c_rows c) - Z.to_nat w) (length (c_rows c) - h) h).
    pose (G1 := fit_edge (c_rows c2) (c_ndim c) (Z.to_nat w) (Z.to_nat p) (Z.to_nat d) delta 0 0 h).
    pose (G3 := fit_edge (c_rows c2) (c_ndim c) (Z.to_nat w) (Z.to_nat p) (Z.to_nat d) delta (length (c_rows c) - Z.to_nat w) (length (c_rows c) - h) h).
    assert (Ex : mkNd [length (c_rows c); c_ndim c] (concat (F1 ++ firstn (length (c_rows c) - h - h) (skipn h y) ++ F3)) = x)
      by (apply ok_inj; exact Es).
    assert (Ex2 : mkNd [length (c_rows c); c_ndim c] (concat (G1 ++ firstn (length (c_rows c) - h - h) (skipn h y2) ++ G3)) = x2)
      by (apply ok_inj; exact Es2).
    clear Es Es2.
    assert (SF1 : length F1 = h /\ forall p, In p F1 -> length p = c_ndim c) by apply fit_edge_shape.
    assert (SF3 : length F3 = h /\ forall p, In p F3 -> length p = c_ndim c) by apply fit_edge_shape.
    assert (SG1 : length G1 = h /\ forall p, In p G1 -> length p = c_ndim c) by apply fit_edge_shape.
    assert (SG3 : length G3 = h /\ forall p, In p G3 -> length p = c_ndim c) by apply fit_edge_shape.
    assert (EF1 : (i < h)%nat -> F1 = G1).
    { intros Hih. apply fit_edge_local; [congruence|]. intros l _ Hl2. apply (B eq_refl Hih). lia. }
    assert (EF3 : (length (c_rows c) <= i + h)%nat -> F3 = G3).
    { intros Hih. apply fit_edge_local; [congruence|]. intros l Hl1 _. apply (C eq_refl Hih). lia. }
    clearbody F1 F3 G1 G3. destruct SF1 as (LF1 & DF1), SF3 as (LF3 & DF3), SG1 as (LG1 & DG1), SG3 as (LG3 & DG3).
    set (n := length (c_rows c)) in *.
    assert (LM : length (firstn (n - h - h) (skipn h y)) = (n - h - h)%nat) by (rewrite firstn_length, skipn_length; lia).
    assert (LM2 : length (firstn (n - h - h) (skipn h y2)) = (n - h - h)%nat) by (rewrite firstn_length, skipn_length; lia).
    assert (S1 : forall m z a, length m = (n - h - h)%nat -> (forall p, In p m -> length p = c_ndim c) -> forall u v, length u = h -> length v = h ->
      (forall p, In p u -> length p = c_ndim c) -> (forall p, In p v -> length p = c_ndim c) -> z = mkNd [n; c_ndim c] (concat (u ++ m ++ v)) ->
      curve_init (SArray z DFloat) None None None None = Ok a -> c_rows a = map (map (cast DFloat)) (u ++ m ++ v)).
    { intros m z a0 Lm Dm u v Lu Lv Du Dv -> Ea. replace n with (length (u ++ m ++ v)) in Ea by (rewrite !app_length; lia).
      apply (curve_init_arr _ (c_ndim c)); [|exact Hn| |exact Ea].
      - intros Z. apply (f_equal (@length _)) in Z. rewrite !app_length in Z. cbn in Z. lia.
      - intros q Hq. apply in_app_or in Hq as [Hq|Hq]; [apply Du, Hq|]. apply in_app_or in Hq as [Hq|Hq]; [apply Dm, Hq|apply Dv, Hq]. }
    assert (FI : forall y : list (list T), (forall p, In p y -> length p = c_ndim c) -> forall p, In p (firstn (n - h - h) (skipn h y)) -> length p = c_ndim c).
    { intros y0 D0 q Hq. apply D0. assert (I1 : In q (skipn h y0)) by (rewrite <- (firstn_skipn (n - h - h) (skipn h y0)); apply in_or_app; left; exact Hq).
      rewrite <- (firstn_skipn h y0). apply in_or_app. right. exact I1. }
    rewrite (S1 _ _ _ LM (FI _ Dy) F1 F3 LF1 LF3 DF1 DF3 (eq_sym Ex) E).
    rewrite (S1 _ _ _ LM2 (FI _ Dy2) G1 G3 LG1 LG3 DG1 DG3 (eq_sym Ex2) E2).
    rewrite !nth_cast_rows. f_equal.
    apply (nth_three [] _ _ _ _ _ _ i h (n - h - h)%nat LF1 LG1 LM LM2 LF3 LG3).
    + intros H. rewrite (EF1 H). reflexivity.
    + intros H. rewrite !nth_firstn_lt by lia. rewrite !nth_skipn_add. replace (h + (i - h))%nat with i by lia.
      refine (convolve1d_local (c_rows c) (c_rows c2) _ _ _ "constant" BConstant _ _ _ i eq_refl Ey Ey2 (eq_sym Sz) Hi _).
      rewrite Lc. exact A.
    + intros H. rewrite (EF3 ltac:(lia)). reflexivity.
  - destruct (convolve1d (c_rows c) _ _ _ _ _) as [y|e] eqn:Ey; cbn [rbind] in Es; [|discriminate].
    destruct (convolve1d (c_rows c2) _ _ _ _ _) as [y2|e] eqn:Ey2; cbn [rbind] in Es2; [|discriminate].
    inversion Es as [Ex]. inversion Es2 as [Ex2]. clear Es Es2.
    destruct (convolve1d_shape _ _ _ _ _ _ _ Ey) as (Ly & Dy). destruct (convolve1d_shape _ _ _ _ _ _ _ Ey2) as (Ly2 & Dy2).
    subst x x2. rewrite <- Ly in E. rewrite <- Sz, <- Ly2 in E2.
    rewrite (curve_init_arr y (c_ndim c) DFloat a) by (try exact E; try exact Dy; try exact Hn; intros Z; rewrite Z in Ly; cbn in Ly; lia).
    rewrite (curve_init_arr y2 (c_ndim c) DFloat a2) by (try exact E2; try exact Dy2; try exact Hn; intros Z; rewrite Z in Ly2; cbn in Ly2; lia).
    rewrite !nth_cast_rows. f_equal.
    assert (M : exists b, bmode_of mode = Ok b /\ is_wrap b = String.eqb mode "wrap").
    { apply negb_false_iff in Em. unfold savgol_modes in Em. cbn [existsb] in Em.
      destruct (String.eqb_spec mode "mirror") as [->|]; [exists BMirror; split; reflexivity|].
      destruct (String.eqb_spec mode "constant") as [->|]; [exists BConstant; split; reflexivity|].
      destruct (String.eqb_spec mode "nearest") as [->|]; [exists BNearest; split; reflexivity|].
      destruct (String.eqb_spec mode "interp") as [->|]; [contradiction|].
      destruct (String.eqb_spec mode "wrap") as [->|]; [exists BWrap; split; reflexivity|]. discriminate. }
    destruct M as (b & Hb & Wb).
    refine (convolve1d_local (c_rows c) (c_rows c2) _ _ _ mode b _ _ _ i Hb Ey Ey2 (eq_sym Sz) Hi _).
    rewrite Lc, Wb. exact A.
Qed.
Print Assumptions C111_savgol.

(** Cases: nine points, the last one moved, a window of five. *)
Definition smooth_reg (mode smode : string) : registry (smethod float) :=
  [("window", fun c => window_filter (fun _ _ => Raise ValueError) c 5 (WCall (fun _ => Ok (WFloat (map fz [1; 2; 3; 2; 1]%Z)))) mode (fz 0));
   ("savgol", savgol 5 2 0 (fz 1) smode (fz 0))].
Definition nine (z : Z) : curve float :=
  mkCurve (map (fun k => [fz (Z.of_nat k); if Nat.eqb k 8 then fz z else fz (Z.of_nat k * Z.of_nat k)]) (seq 0 9)) 2 DFloat None.
Definition srows (mode smode name : string) (z : Z) (i : nat) : option (list float) :=
  match smooth (smooth_reg mode smode) name (nine z) with Ok a => Some (nth i (c_rows a) []) | Raise _ => None end.
Lemma nine_wf z : wf (nine z).
Proof. split; [cbn; lia|]. split; [|discriminate]. intros p Hp. cbn [c_rows nine] in Hp. apply in_map_iff in Hp as (k & <- & _). reflexivity. Qed.
Lemma nine_same z z2 l : l <> 8%nat -> nth l (c_rows (nine z)) [] = nth l (c_rows (nine z2)) [].
Proof. intros Hl. do 9 (destruct l as [|l]; [first [lia|reflexivity]|]). destruct l; reflexivity. Qed.
Example C111_ex : forall a a2, smooth (smooth_reg "reflect" "interp") "window" (nine 64) = Ok a -> smooth (smooth_reg "reflect" "interp") "window" (nine 1000) = Ok a2 ->
  nth 5 (c_rows a) [] = nth 5 (c_rows a2) [].
Proof.
  intros a a2 E E2. eapply (C111_window _ _ _ (smooth_reg "reflect" "interp") "window" 5%Z _ "reflect" BReflect (fz 0) _ (nine 64) (nine 1000) a a2 5);
    try apply nine_wf; try reflexivity; try exact E; try exact E2; [cbn; lia|].
  intros l Hl. apply nine_same. cbn in Hl. lia.
Qed.
Example C111_ex_savgol : forall a a2, smooth (smooth_reg "reflect" "interp") "savgol" (nine 64) = Ok a -> smooth (smooth_reg "reflect" "interp") "savgol" (nine 1000) = Ok a2 ->
  nth 5 (c_rows a) [] = nth 5 (c_rows a2) [] /\ nth 1 (c_rows a) [] = nth 1 (c_rows a2) [].
Proof.
  intros a a2 E E2. split;
    [apply (C111_savgol _ _ (smooth_reg "reflect" "interp") "savgol" 5 2 0 (fz 1) "interp" (fz 0) (nine 64) (nine 1000) a a2 5)
    |apply (C111_savgol _ _ (smooth_reg "reflect" "interp") "savgol" 5 2 0 (fz 1) "interp" (fz 0) (nine 64) (nine 1000) a a2 1)];
    try apply nine_wf; try reflexivity; try exact E; try exact E2; try (cbn; lia).
  - intros l Hl. apply nine_same. change ((5 <= l + 2)%nat /\ (l <= 5 + 2)%nat) in Hl. lia.
  - intros _ Hl. change (5 < 2)%nat in Hl. lia.
  - intros _ Hl. change (9 <= 7)%nat in Hl. lia.
  - intros l Hl. apply nine_same. change ((1 <= l + 2)%nat /\ (l <= 1 + 2)%nat) in Hl. lia.
  - intros _ _ l Hl. change (l < 5)%nat in Hl. apply nine_same. lia.
  - intros _ Hl. change (9 <= 3)%nat in Hl. lia.
Qed.

Definition smoved (a b : option (list float)) : bool :=
  match a, b with Some [_; x], Some [_; y] => PrimFloat.ltb x y || PrimFloat.ltb y x | _, _ => false end.
(** The windows cannot be made smaller, mode 'wrap' reaches around the end, and in
    mode 'interp' the last point but one depends on the first point of the last window. *)
Theorem C111_window_refuted :
  smoved (srows "reflect" "interp" "window" 64 6) (srows "reflect" "interp" "window" 1000 6) = true /\
  smoved (srows "wrap" "interp" "window" 64 1) (srows "wrap" "interp" "window" 1000 1) = true /\
  smoved (srows "wrap" "interp" "savgol" 64 6) (srows "wrap" "interp" "savgol" 1000 6) = true /\
  smoved (srows "wrap" "wrap" "savgol" 64 1) (srows "wrap" "wrap" "savgol" 1000 1) = true.
Proof. repeat split; vm_compute; reflexivity. Qed.
Print Assumptions C111_window_refuted.
Definition five (z : Z) : curve float :=
  mkCurve (map (fun k => [fz (Z.of_nat k); if Nat.eqb k 4 then fz z else fz (Z.of_nat k * Z.of_nat k)]) (seq 0 9)) 2 DFloat None.
Theorem C111_interp_refuted : exists c c2 a a2 : curve float, wf c /\ wf c2 /\ c_size c = 9%nat /\ c_size c2 = 9%nat /\
  (forall l, l <> 4%nat -> nth l (c_rows c) [] = nth l (c_rows c2) []) /\
  smooth (smooth_reg "reflect" "interp") "savgol" c = Ok a /\ smooth (smooth_reg "reflect" "interp") "savgol" c2 = Ok a2 /\
  smoved (Some (nth 0 (c_rows a) [])) (Some (nth 0 (c_rows a2) [])) = true /\ smoved (Some (nth 8 (c_rows a) [])) (Some (nth 8 (c_rows a2) [])) = true.
Proof.
  exists (five 16), (five 1000). eexists. eexists.
  assert (Wf : forall z, wf (five z)) by (intros z; split; [cbn; lia|]; split; [|discriminate]; intros p Hp; cbn [c_rows five] in Hp; apply in_map_iff in Hp as (k & <- & _); reflexivity).
  split; [apply Wf|]. split; [apply Wf|]. split; [reflexivity|]. split; [reflexivity|].
  split; [intros l Hl; do 9 (destruct l as [|l]; [first [lia|reflexivity]|]); destruct l; reflexivity|].
  split; [vm_compute; reflexivity|]. split; [vm_compute; reflexivity|]. split; vm_compute; reflexivity.
Qed.
Print Assumptions C111_interp_refuted.
