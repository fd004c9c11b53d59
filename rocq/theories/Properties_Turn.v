(** C113: closed curves that start at another point, smoothed in mode 'wrap'. *)
From Coq Require Import PrimFloat.
From Coq Require Import String ZArith List Bool Arith Lia.
From Verif Require Import Num Py Numeric Curve Vec DiffGeom Registry Interp Smooth Savgol Spec ListFacts VecFacts LocalProofs LocalProofs3 CoordProofs.
From Verif Require Import Properties_Local3.
Import ListNotations.
Local Open Scope string_scope.
Local Notation float := PrimFloat.float.

(** The second curve runs through the points of the first one, starting at point r and
    going on at the beginning after the last point. *)
Definition turned {T} (rows rows2 : list (list T)) (r : nat) : Prop :=
  length rows2 = length rows /\ forall i, (i < length rows)%nat -> nth i rows2 [] = nth ((i + r) mod length rows) rows [].

Section Turn.
  Context {T : Type} {NT : Num T}.
  Lemma wrap_turn (rows rows2 : list (list T)) r cval n j k : rows <> [] -> turned rows rows2 r -> (k mod Z.of_nat (length rows) = (j + Z.of_nat r) mod Z.of_nat (length rows))%Z ->
    ext_row BWrap cval rows2 n j = ext_row BWrap cval rows n k.
  Proof.
    intros Ne (L & A) K. unfold ext_row, ext_index. cbv zeta. rewrite L.
    assert (P : (0 < Z.of_nat (length rows))%Z) by (destruct rows; [contradiction|]; cbn [length]; lia).
    pose proof (Z.mod_pos_bound j _ P) as B. rewrite A by lia. f_equal. apply Nat2Z.inj.
    rewrite Nat2Z.inj_mod, Nat2Z.inj_add, !Z2Nat.id by (try lia; apply Z.mod_pos_bound, P).
    rewrite K. rewrite Z.add_mod_idemp_l by lia. reflexivity.
  Qed.
  Lemma conv_turn (rows rows2 : list (list T)) r cval w n i : rows <> [] -> turned rows rows2 r -> (i < length rows)%nat ->
    conv_row BWrap cval w rows2 n i = conv_row BWrap cval w rows n ((i + r) mod length rows).
  Proof.
    intros Ne S Hi. unfold conv_row. apply map_ext. intros col. f_equal. apply map_ext. intros k. f_equal. f_equal.
    apply (wrap_turn rows rows2 r); [exact Ne|exact S|].
    assert (P : Z.of_nat (length rows) <> 0%Z) by (destruct rows; [contradiction|]; cbn [length]; lia).
    rewrite Nat2Z.inj_mod, Nat2Z.inj_add.
    replace ((Z.of_nat i + Z.of_nat r) mod Z.of_nat (length rows) + Z.of_nat (length w / 2) - Z.of_nat k)%Z
      with ((Z.of_nat i + Z.of_nat r) mod Z.of_nat (length rows) + (Z.of_nat (length w / 2) - Z.of_nat k))%Z by lia.
    rewrite Z.add_mod_idemp_l by exact P. f_equal. lia.
  Qed.
  Lemma convolve_turn (rows rows2 : list (list T)) r cval dt w n y y2 : rows <> [] -> turned rows rows2 r ->
    convolve1d rows n dt w "wrap" cval = Ok y -> convolve1d rows2 n dt w "wrap" cval = Ok y2 -> turned y y2 r.
  Proof.
    intros Ne S E E2. unfold convolve1d in E, E2. destruct w as [|w0 w]; [discriminate|]. change (bmode_of "wrap") with (Ok BWrap) in E, E2. cbn [rbind] in E, E2.
    apply ok_inj in E, E2. subst y y2. pose proof (proj1 S) as L. split; [rewrite !map_length, !seq_length; exact L|].
    rewrite map_length, seq_length. intros i Hi. rewrite nth_seq_map by lia. rewrite nth_seq_map by (apply Nat.mod_upper_bound; lia).
    rewrite (conv_turn rows rows2 r) by assumption. reflexivity.
  Qed.
  Lemma cast_turn d (y y2 : list (list T)) r : turned y y2 r -> turned (map (map (cast d)) y) (map (map (cast d)) y2) r.
  Proof. intros (L & A). split; [rewrite !map_length; exact L|]. rewrite map_length. intros i Hi. rewrite !nth_cast_rows, A by exact Hi. reflexivity. Qed.
End Turn.

(** ** C113 Closed curves have no first point in mode 'wrap' *)
Theorem C113_window : forall T (NT : Num T) gw (reg : registry (smethod T)) name size wt cval (c c2 a a2 : curve T) r,
  wf c -> wf c2 -> c_rows c <> [] -> c_ndim c2 = c_ndim c -> c_dtype c2 = c_dtype c -> turned (c_rows c) (c_rows c2) r ->
  reg_find reg name = Some (fun c => window_filter gw c size wt "wrap" cval) ->
  smooth reg name c = Ok a -> smooth reg name c2 = Ok a2 -> turned (c_rows a) (c_rows a2) r.
Proof.
  intros T NT gw reg name size wt cval c c2 a a2 r W W2 N Nd Dt S F E E2. pose proof (proj1 S) as Sz.
  unfold smooth, reg_get in E, E2. rewrite F in E, E2. cbn [rbind] in E, E2. unfold window_filter in E, E2.
  destruct (match wt with WCall _ => _ | WName _ => _ end) as [[w| | |]|e] eqn:Ew; cbn [rbind] in E, E2; try discriminate; [|destruct e; discriminate].
  rewrite Dt, Nd in E2.
  destruct (convolve1d (c_rows c) _ _ _ _ _) as [y|e] eqn:Ey; cbn [rbind] in E; [|destruct e; discriminate].
  destruct (convolve1d (c_rows c2) _ _ _ _ _) as [y2|e] eqn:Ey2; cbn [rbind] in E2; [|destruct e; discriminate].
  destruct (convolve1d_shape _ _ _ _ _ _ _ Ey) as (Ly & Dy). destruct (convolve1d_shape _ _ _ _ _ _ _ Ey2) as (Ly2 & Dy2).
  assert (N0 : length (c_rows c) <> 0%nat) by (intros Z; apply N, length_zero_iff_nil, Z).
  unfold c_size in E, E2. rewrite <- Ly in E. rewrite <- Ly2 in E2.
  rewrite (curve_init_arr y (c_ndim c) (c_dtype c) a) by (try exact E; try exact Dy; try apply W; intros Z; rewrite Z in Ly; cbn in Ly; lia).
  rewrite (curve_init_arr y2 (c_ndim c) (c_dtype c) a2) by (try exact E2; try exact Dy2; try apply W; intros Z; rewrite Z in Ly2; cbn in Ly2; lia).
  apply cast_turn. exact (convolve_turn _ _ _ _ _ _ _ _ _ N S Ey Ey2).
Qed.
Print Assumptions C113_window.

Theorem C113_savgol : forall T (NT : Num T) (reg : registry (smethod T)) name w p d delta cval (c c2 a a2 : curve T) r,
  wf c -> wf c2 -> c_rows c <> [] -> c_ndim c2 = c_ndim c -> turned (c_rows c) (c_rows c2) r ->
  reg_find reg name = Some (savgol w p d delta "wrap" cval) ->
  smooth reg name c = Ok a -> smooth reg name c2 = Ok a2 -> turned (c_rows a) (c_rows a2) r.
Proof.
  intros T NT reg name w p d delta cval c c2 a a2 r W W2 N Nd S F E E2. pose proof (proj1 S) as Sz.
  unfold smooth, reg_get in E, E2. rewrite F in E, E2. cbn [rbind] in E, E2. unfold savgol, savgol_filter in E, E2. rewrite Nd in E2.
  destruct (savgol_scipy w p d delta "wrap" cval (c_ndim c) (c_rows c)) as [x|e] eqn:Es; cbn [rmap] in E; [|destruct e; discriminate].
  destruct (savgol_scipy w p d delta "wrap" cval (c_ndim c) (c_rows c2)) as [x2|e] eqn:Es2; cbn [rmap] in E2; [|destruct e; discriminate].
  unfold savgol_scipy in Es, Es2. change (negb (existsb (String.eqb "wrap") savgol_modes)) with false in Es, Es2. change (String.eqb "wrap" "interp") with false in Es, Es2.
  destruct ((w <=? p) || (w mod 2 =? 0) || (w <=? 0))%Z; [discriminate|]. cbv zeta in Es, Es2.
  destruct (if (p <? d)%Z then _ else _) as [co|e]; cbn [rbind] in Es, Es2; [|discriminate].
  destruct (convolve1d (c_rows c) _ _ _ _ _) as [y|e] eqn:Ey; cbn [rbind] in Es; [|discriminate].
  destruct (convolve1d (c_rows c2) _ _ _ _ _) as [y2|e] eqn:Ey2; cbn [rbind] in Es2; [|discriminate].
  destruct (convolve1d_shape _ _ _ _ _ _ _ Ey) as (Ly & Dy). destruct (convolve1d_shape _ _ _ _ _ _ _ Ey2) as (Ly2 & Dy2).
  apply ok_inj in Es, Es2. subst x x2. rewrite <- Ly in E. rewrite <- Ly2 in E2.
  assert (N0 : length (c_rows c) <> 0%nat) by (intros Z; apply N, length_zero_iff_nil, Z).
  rewrite (curve_init_arr y (c_ndim c) DFloat a) by (try exact E; try exact Dy; try apply W; intros Z; rewrite Z in Ly; cbn in Ly; lia).
  rewrite (curve_init_arr y2 (c_ndim c) DFloat a2) by (try exact E2; try exact Dy2; try apply W; intros Z; rewrite Z in Ly2; cbn in Ly2; lia).
  apply cast_turn. exact (convolve_turn _ _ _ _ _ _ _ _ _ N S Ey Ey2).
Qed.
Print Assumptions C113_savgol.

(** Cases: five points of a closed curve, once from another start. *)
Definition ring (r : nat) : curve float :=
  mkCurve (map (fun k => nth ((k + r) mod 5) [[fz 0; fz 0]; [fz 4; fz 1]; [fz 5; fz 5]; [fz 2; fz 7]; [fz (-1); fz 3]] []) (seq 0 5)) 2 DFloat None.
Lemma ring_turned r : turned (c_rows (ring 0)) (c_rows (ring r)) r.
Proof.
  unfold ring. cbn [c_rows]. split; [rewrite !map_length; reflexivity|]. rewrite map_length, seq_length. intros i Hi.
  rewrite nth_seq_map by exact Hi. rewrite nth_seq_map by (apply Nat.mod_upper_bound; lia). rewrite Nat.add_0_r, Nat.mod_mod by lia. reflexivity.
Qed.
Lemma ring_wf r : wf (ring r).
Proof.
  split; [cbn; lia|]. split; [|discriminate]. intros p Hp. unfold ring in Hp. cbn [c_rows] in Hp. apply in_map_iff in Hp as (k & <- & _).
  pose proof (Nat.mod_upper_bound (k + r) 5 ltac:(lia)) as B. set (j := ((k + r) mod 5)%nat) in *. clearbody j. do 5 (destruct j as [|j]; [reflexivity|]). lia.
Qed.
Example C113_ex : forall r name a a2, In name ["window"; "savgol"] -> smooth (smooth_reg "wrap" "wrap") name (ring 0) = Ok a -> smooth (smooth_reg "wrap" "wrap") name (ring r) = Ok a2 ->
  turned (c_rows a) (c_rows a2) r.
Proof.
  intros r name a a2 [<-|[<-|[]]] E E2.
  - refine (C113_window _ _ _ (smooth_reg "wrap" "wrap") "window" 5%Z _ (fz 0) (ring 0) (ring r) a a2 r (ring_wf _) (ring_wf _) _ eq_refl eq_refl (ring_turned r) eq_refl E E2). discriminate.
  - refine (C113_savgol _ _ (smooth_reg "wrap" "wrap") "savgol" 5 2 0 (fz 1) (fz 0) (ring 0) (ring r) a a2 r (ring_wf _) (ring_wf _) _ eq_refl (ring_turned r) eq_refl E E2). discriminate.
Qed.
Definition ring_row (mode smode name : string) (r i : nat) : option (list float) :=
  match smooth (smooth_reg mode smode) name (ring r) with Ok a => Some (nth i (c_rows a) []) | Raise _ => None end.
Example C113_ex_runs : forallb (fun name => match ring_row "wrap" "wrap" name 2 0, ring_row "wrap" "wrap" name 0 2 with
  | Some [x; y], Some [x'; y'] => PrimFloat.eqb x x' && PrimFloat.eqb y y' | _, _ => false end) ["window"; "savgol"] = true.
Proof. vm_compute. reflexivity. Qed.

(** In all other modes the result depends on where the curve starts. *)
Theorem C113_modes_refuted :
  (forall mode, In mode ["reflect"; "nearest"; "mirror"; "constant"] -> smoved (ring_row mode "wrap" "window" 0 2) (ring_row mode "wrap" "window" 2 0) || smoved (ring_row mode "wrap" "window" 2 0) (ring_row mode "wrap" "window" 0 2) = true) /\
  (forall mode, In mode ["interp"; "nearest"; "mirror"; "constant"] -> smoved (ring_row "wrap" mode "savgol" 0 2) (ring_row "wrap" mode "savgol" 2 0) || smoved (ring_row "wrap" mode "savgol" 2 0) (ring_row "wrap" mode "savgol" 0 2) = true).
Proof. split; intros mode Hm; repeat (destruct Hm as [<-|Hm]; [vm_compute; reflexivity|]); destruct Hm. Qed.
Print Assumptions C113_modes_refuted.
