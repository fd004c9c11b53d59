(** C112: coordinates that do not influence each other. *)
From Coq Require Import PrimFloat.
From Coq Require Import String ZArith List Bool Arith Lia.
From Verif Require Import Num Py Numeric Curve Vec DiffGeom Registry Interp Splines Splines2 Smooth Savgol Spec ListFacts VecFacts DiffGeomProofs LocalProofs LocalProofs3 CoordProofs.
From Verif Require Import Properties_Local Properties_Local3.
Import ListNotations.
Local Open Scope string_scope.
Local Notation float := PrimFloat.float.

(** ** C112 Coordinates by themselves

    [same_column rows rows2 j j2] (CoordProofs.v): the arrays have the same number of
    rows, and column j of the first is column j2 of the second.  The curves may have
    different dimensions, so the theorems also speak of curves with axes added, removed
    or in another order.  They hold for every number type. *)
Definition same_coord {T} {NT : Num T} (c c2 : curve T) (j j2 : nat) : Prop :=
  wf c /\ wf c2 /\ c_dtype c2 = c_dtype c /\ (j < c_ndim c)%nat /\ (j2 < c_ndim c2)%nat /\ same_column (c_rows c) (c_rows c2) j j2.

Lemma same_cast {T} {NT : Num T} d (y y2 : list (list T)) n n2 j j2 : (j < n)%nat -> (j2 < n2)%nat -> (forall p, In p y -> length p = n) -> (forall p, In p y2 -> length p = n2) ->
  same_column y y2 j j2 -> same_column (map (map (cast d)) y) (map (map (cast d)) y2) j j2.
Proof.
  intros Hj Hj2 D D2 (L & A). split; [rewrite !map_length; exact L|]. rewrite map_length. intros l Hl. rewrite !nth_cast_rows.
  rewrite nth_cast by (rewrite D by (apply nth_In; exact Hl); exact Hj). rewrite nth_cast by (rewrite D2 by (apply nth_In; lia); exact Hj2). f_equal. apply A, Hl.
Qed.
Lemma same_map {T} {NT : Num T} (f f2 : T -> list T) g j j2 : (forall v, nth j (f v) n0 = nth j2 (f2 v) n0) -> same_column (map f g) (map f2 g) j j2.
Proof.
  intros H. split; [rewrite !map_length; reflexivity|]. rewrite map_length. intros l Hl.
  rewrite (nth_indep _ [] (f n0)) by (rewrite map_length; exact Hl). rewrite (nth_indep (map f2 g) [] (f2 n0)) by (rewrite map_length; exact Hl). rewrite !map_nth. apply H.
Qed.

(** Linear interpolation, for parameters that never go back. *)
Theorem C112_linear : forall T (NT : Num T) (ST : NumSqrt T) (RT : NumRound T) (junk : T) few (r : registry (icreate T)) name (c c2 : curve T) s g a a2 j j2,
  same_coord c c2 j j2 -> (2 <= c_size c)%nat -> c_tval junk c2 = c_tval junk c -> reg_find r name = Some (linear junk few) -> length (c_tval junk c) = c_size c ->
  (forall p, (p < c_size c)%nat -> nisnan (nth p (c_tval junk c) n0) = false) ->
  (forall p q, (p < q)%nat -> (q < c_size c)%nat -> nltb (nth q (c_tval junk c) n0) (nth p (c_tval junk c) n0) = false) ->
  get_grid junk few c s = Ok g -> get_grid junk few c2 s = Ok g ->
  interpolate junk few r name c s = Ok a -> interpolate junk few r name c2 s = Ok a2 ->
  same_column (c_rows a) (c_rows a2) j j2.
Proof.
  intros T NT ST RT junk few r name c c2 s g a a2 j j2 (W & W2 & Dt & Hj & Hj2 & S) H Tv F L N St G G2 E E2.
  assert (Sz : c_size c2 = c_size c) by (symmetry; apply S).
  assert (St' : forall p q, (p < q)%nat -> (q < c_size c)%nat -> lt_nan (nth q (c_tval junk c) n0) (nth p (c_tval junk c) n0) = false)
    by (intros p q Hp Hq; rewrite lt_nan_number by (apply N; lia); apply St; assumption).
  rewrite (linear_like junk few r name c s g a W H L St' F G E).
  rewrite (linear_like junk few r name c2 s g a2 W2 ltac:(lia) ltac:(rewrite Tv; lia) ltac:(rewrite Tv, Sz; exact St') F G2 E2).
  rewrite Tv, Dt. unfold c_size in L, H, Sz.
  assert (LI : forall (c : curve T) p, wf c -> length (c_tval junk c) = length (c_rows c) -> (2 <= length (c_rows c))%nat -> In p (map (interp_at (c_tval junk c) (c_rows c)) g) -> length p = c_ndim c).
  { intros c0 p W0 L0 H0 Hp. apply in_map_iff in Hp as (v & <- & _). unfold interp_at. cbv zeta. rewrite map2_length.
    assert (B : forall i, (i < length (c_rows c0))%nat -> length (nth i (c_rows c0) []) = c_ndim c0) by (intros i Hi; apply W0, nth_In, Hi).
    rewrite !B by (rewrite L0; lia). apply Nat.min_id. }
  apply (same_cast _ _ _ (c_ndim c) (c_ndim c2) j j2 Hj Hj2); [intros p; apply LI; assumption| |].
  - intros p Hp. apply (LI c2 p W2); [rewrite Tv; lia|lia|]. rewrite Tv. exact Hp.
  - apply same_map. intros v. apply (interp_at_coord _ _ _ (c_ndim c) (c_ndim c2)); try assumption; try lia; [apply W|apply W2].
Qed.
Print Assumptions C112_linear.

Lemma herm_rows_len {T} {NT : Num T} (qnan : T) ex xs ys ds n g p : In p (map (hermite_at qnan ex xs ys ds n) g) -> length p = n.
Proof. intros Hp. apply in_map_iff in Hp as (v & <- & _). apply hermite_at_len. Qed.

(** PCHIP interpolation. *)
Theorem C112_pchip : forall T (NT : Num T) (ST : NumSqrt T) (RT : NumRound T) (junk : T) few qnan ex (r : registry (icreate T)) name (c c2 : curve T) s g a a2 j j2,
  same_coord c c2 j j2 -> (2 <= c_size c)%nat -> c_tval junk c2 = c_tval junk c -> reg_find r name = Some (pchip junk qnan ex) ->
  get_grid junk few c s = Ok g -> get_grid junk few c2 s = Ok g ->
  interpolate junk few r name c s = Ok a -> interpolate junk few r name c2 s = Ok a2 ->
  same_column (c_rows a) (c_rows a2) j j2.
Proof.
  intros T NT ST RT junk few qnan ex r name c c2 s g a a2 j j2 (W & W2 & Dt & Hj & Hj2 & S) H Tv F G G2 E E2.
  assert (Sz : c_size c2 = c_size c) by (symmetry; apply S).
  assert (X : forall (c : curve T) f, pchip junk qnan ex c = Ok f -> exists h, f = as_array (c_ndim c) h /\ hermite_new qnan ex (c_tval junk c) (c_rows c) (Some (pchip_rows (c_tval junk c) (c_rows c) (c_ndim c))) (c_ndim c) = Ok h).
  { intros c0 f C. unfold pchip in C. cbv zeta in C. destruct (prepare_ok _ _); [|discriminate]. destruct (hermite_new _ _ _ _ _ _) as [h|e] eqn:Eh; cbn [rbind] in C; [|discriminate].
    inversion C. exists h. split; reflexivity. }
  destruct (interpolate_created _ _ _ _ _ _ _ _ F E) as (f & Cf). destruct (X c f Cf) as (h & -> & Nh).
  destruct (interpolate_created _ _ _ _ _ _ _ _ F E2) as (f2 & Cf2). destruct (X c2 f2 Cf2) as (h2 & -> & Nh2).
  pose proof (proj2 (hermite_new_at _ _ _ _ _ _ _ Nh)) as Ln.
  rewrite (hermite_like _ _ _ _ _ _ _ _ _ _ _ _ _ W H F G Cf Nh E).
  rewrite (hermite_like _ _ _ _ _ _ _ _ _ _ _ _ _ W2 ltac:(lia) F G2 Cf2 Nh2 E2).
  rewrite Tv, Dt. unfold c_size in H.
  apply (same_cast _ _ _ (c_ndim c) (c_ndim c2) j j2 Hj Hj2); [intros p; apply herm_rows_len|intros p; apply herm_rows_len|].
  apply same_map. intros v. apply hermite_at_coord; try assumption; try lia; [intros l; apply column_all, S| |]; intros l Hl; apply pchip_coord; (assumption || lia).
Qed.
Print Assumptions C112_pchip.

(** Cubic splines with a named boundary condition. *)
Lemma parse_name_coord {T} {NT : Num T} n n2 s (x x2 : bc T) j j2 : (j < n)%nat -> (j2 < n2)%nat -> parse_bc n (BName s) = Ok x -> parse_bc n2 (BName s) = Ok x2 ->
  bc_coord x j = bc_coord x2 j2.
Proof.
  assert (R : forall (x : T) m k, nth k (repeat x m) x = x).
  { intros y m. induction m as [|m IH]; intros k; [destruct k; reflexivity|]. destruct k; [reflexivity|]. apply IH. }
  intros Hj Hj2. unfold parse_bc. destruct (String.eqb s "clamped"); [|destruct (String.eqb s "natural"); [|destruct (String.eqb s "not-a-knot"); [|discriminate]]];
    intros E E2; inversion E; inversion E2; cbn [bc_coord]; rewrite ?R; reflexivity.
Qed.
Theorem C112_cubic : forall T (NT : Num T) (ST : NumSqrt T) (RT : NumRound T) (junk : T) few qnan per s0 ex (r : registry (icreate T)) name (c c2 : curve T) s g a a2 j j2,
  same_coord c c2 j j2 -> (2 <= c_size c)%nat -> c_tval junk c2 = c_tval junk c -> s0 <> "periodic" -> reg_find r name = Some (cubic junk qnan per (BCName s0) ex) ->
  get_grid junk few c s = Ok g -> get_grid junk few c2 s = Ok g ->
  interpolate junk few r name c s = Ok a -> interpolate junk few r name c2 s = Ok a2 ->
  same_column (c_rows a) (c_rows a2) j j2.
Proof.
  intros T NT ST RT junk few qnan per s0 ex r name c c2 s g a a2 j j2 (W & W2 & Dt & Hj & Hj2 & S) H Tv Np F G G2 E E2.
  assert (Sz : c_size c2 = c_size c) by (symmetry; apply S).
  assert (X : forall (c : curve T) f, cubic junk qnan per (BCName s0) ex c = Ok f -> exists x h, parse_bc (c_ndim c) (BName s0) = Ok x /\ f = as_array (c_ndim c) h /\
    hermite_new qnan ex (c_tval junk c) (c_rows c) (Some (cubic_rows x x (c_tval junk c) (c_rows c) (c_ndim c))) (c_ndim c) = Ok h).
  { intros c0 f C. unfold cubic in C. unfold is_periodic in C. rewrite (proj2 (String.eqb_neq _ _) Np) in C. cbv zeta in C. destruct (prepare_ok _ _); [|discriminate].
    unfold validate_bc in C. destruct (parse_bc (c_ndim c0) (BName s0)) as [x|e]; cbn [rbind fst snd] in C; [|discriminate].
    destruct (hermite_new _ _ _ _ _ _) as [h|e] eqn:Eh; cbn [rbind] in C; [|discriminate].
    inversion C. exists x, h. repeat split. exact Eh. }
  destruct (interpolate_created _ _ _ _ _ _ _ _ F E) as (f & Cf). destruct (X c f Cf) as (x & h & Px & -> & Nh).
  destruct (interpolate_created _ _ _ _ _ _ _ _ F E2) as (f2 & Cf2). destruct (X c2 f2 Cf2) as (x2 & h2 & Px2 & -> & Nh2).
  pose proof (parse_name_coord _ _ _ _ _ j j2 Hj Hj2 Px Px2) as Bx.
  pose proof (proj2 (hermite_new_at _ _ _ _ _ _ _ Nh)) as Ln.
  rewrite (hermite_like _ _ _ _ _ _ _ _ _ _ _ _ _ W H F G Cf Nh E).
  rewrite (hermite_like _ _ _ _ _ _ _ _ _ _ _ _ _ W2 ltac:(lia) F G2 Cf2 Nh2 E2).
  rewrite Tv, Dt. unfold c_size in H.
  apply (same_cast _ _ _ (c_ndim c) (c_ndim c2) j j2 Hj Hj2); [intros p; apply herm_rows_len|intros p; apply herm_rows_len|].
  apply same_map. intros v. apply hermite_at_coord; try assumption; try lia; [intros l; apply column_all, S| |]; intros l Hl; apply cubic_coord; (assumption || lia).
Qed.
Print Assumptions C112_cubic.

(** Smoothing splines ('spline'), whatever the one-dimensional spline function of the
    library does with the parameters and the values of one coordinate. *)
Lemma rseq_nth {A B} (f : A -> res B) l l' i d d' : rseq (map f l) = Ok l' -> (i < length l)%nat -> length l' = length l /\ f (nth i l d) = Ok (nth i l' d').
Proof.
  intros E Hi. apply rseq_ok_iff in E. assert (L : length l' = length l) by (apply (f_equal (@length _)) in E; rewrite !map_length in E; lia).
  split; [exact L|]. apply (f_equal (fun m => nth i m (Ok d'))) in E. rewrite (map_nth (@Ok B)) in E. rewrite <- E.
  rewrite (nth_indep _ (Ok d') (f d)) by (rewrite map_length; exact Hi). symmetry. apply map_nth.
Qed.
Theorem C112_spline : forall T (NT : Num T) (ST : NumSqrt T) (RT : NumRound T) (junk : T) few spline1 (r : registry (icreate T)) name (c c2 : curve T) s g a a2 j j2,
  same_coord c c2 j j2 -> (2 <= c_size c)%nat -> c_tval junk c2 = c_tval junk c -> reg_find r name = Some (spline junk spline1) ->
  get_grid junk few c s = Ok g -> get_grid junk few c2 s = Ok g ->
  interpolate junk few r name c s = Ok a -> interpolate junk few r name c2 s = Ok a2 ->
  same_column (c_rows a) (c_rows a2) j j2.
Proof.
  intros T NT ST RT junk few spline1 r name c c2 s g a a2 j j2 (W & W2 & Dt & Hj & Hj2 & S) H Tv F G G2 E E2.
  assert (Sz : c_size c2 = c_size c) by (symmetry; apply S).
  assert (Cv : nth j (c_values_all c) [] = nth j2 (c_values_all c2) []).
  { unfold c_values_all. rewrite !nth_seq_map by assumption. apply (nth_ext _ _ (nth j [] n0) (nth j2 [] n0)); [rewrite !map_length; apply S|].
    rewrite map_length. intros l Hl. rewrite (map_nth (fun p => nth j p n0)), (map_nth (fun p => nth j2 p n0)). apply S, Hl. }
  assert (X : forall (c : curve T) a j, wf c -> (2 <= c_size c)%nat -> (j < c_ndim c)%nat -> get_grid junk few c s = Ok g -> interpolate junk few r name c s = Ok a ->
    exists fs cols f, spline1 (c_tval junk c) (nth j (c_values_all c) []) = Ok f /\ (do v <- f g ; fill_column (length g) v) = Ok (nth j cols []) /\ length fs = c_ndim c /\ length cols = c_ndim c /\
      f = nth j fs (fun _ => Raise ValueError) /\
      c_rows a = map (map (cast (c_dtype c))) (map (fun i => map (fun col => nth i col n0) cols) (seq 0 (length g)))).
  { intros c0 a0 j0 W0 H0 Hj0 G0 E0. destruct (interpolate_created _ _ _ _ _ _ _ _ F E0) as (f & Cf).
    assert (Fg : exists z, f g = Ok z).
    { unfold interpolate, get_interpolator in E0. rewrite F, Cf in E0. cbn [rbind] in E0. unfold interp_call in E0.
      rewrite (c_bool_wf c0 W0) in E0 by (intros Y; unfold c_size in H0; rewrite Y in H0; cbn in H0; lia). cbn [negb] in E0.
      destruct (Nat.eqb_spec (c_size c0) 1); [lia|]. rewrite G0 in E0. cbn [rbind] in E0. destruct (f g) as [z|e]; [exists z; reflexivity|]. destruct e; discriminate. }
    destruct Fg as (z & Fg). assert (Cf' := Cf). unfold spline in Cf.
    destruct (rseq (map (spline1 (c_tval junk c0)) (c_values_all c0))) as [fs|e] eqn:Efs; cbn [rbind] in Cf; [|discriminate]. apply ok_inj in Cf. subst f.
    destruct (rseq (map _ fs)) as [cols|e] eqn:Ec in Fg; cbn [rbind] in Fg; [|discriminate]. apply ok_inj in Fg.
    assert (Lv : length (c_values_all c0) = c_ndim c0) by (unfold c_values_all; rewrite map_length, seq_length; reflexivity).
    destruct (rseq_nth _ _ _ j0 [] (fun _ => Raise ValueError) Efs ltac:(lia)) as (Lf & Sf).
    destruct (rseq_nth _ _ _ j0 (fun _ => Raise ValueError) [] Ec ltac:(lia)) as (Lc & Sc).
    exists fs, cols, (nth j0 fs (fun _ => Raise ValueError)). split; [exact Sf|]. split; [exact Sc|]. split; [lia|]. split; [lia|]. split; [reflexivity|].
    apply (interp_rows junk few r name c0 s g a0 (spline junk spline1) _ _ W0 H0 F Cf' G0).
    - rewrite Ec. cbn [rbind]. reflexivity.
    - rewrite map_length, seq_length. reflexivity.
    - intros p Hp. apply in_map_iff in Hp as (i & <- & _). rewrite map_length. lia.
    - exact E0. }
  destruct (X c a j W H Hj G E) as (fs & cols & f & Sf & Sc & Lf & Lc & _ & ->).
  destruct (X c2 a2 j2 W2 ltac:(lia) Hj2 G2 E2) as (fs2 & cols2 & f2 & Sf2 & Sc2 & Lf2 & Lc2 & _ & ->).
  rewrite Tv, <- Cv, Sf in Sf2. apply ok_inj in Sf2. subst f2. rewrite Sc in Sc2. apply ok_inj in Sc2. rewrite Dt.
  apply (same_cast _ _ _ (c_ndim c) (c_ndim c2) j j2 Hj Hj2).
  - intros p Hp. apply in_map_iff in Hp as (i & <- & _). rewrite map_length. exact Lc.
  - intros p Hp. apply in_map_iff in Hp as (i & <- & _). rewrite map_length. exact Lc2.
  - split; [rewrite !map_length; reflexivity|]. rewrite map_length, seq_length. intros l Hl. rewrite !nth_seq_map by exact Hl.
    rewrite (nth_indep (map _ cols) n0 (nth l [] n0)) by (rewrite map_length; lia). rewrite (nth_indep (map _ cols2) n0 (nth l [] n0)) by (rewrite map_length; lia).
    rewrite (map_nth (fun col => nth l col n0)), (map_nth (fun col => nth l col n0)). rewrite Sc2. reflexivity.
Qed.
Print Assumptions C112_spline.

(** Window smoothing. *)
Theorem C112_window : forall T (NT : Num T) gw (r : registry (smethod T)) name size wt mode cval (c c2 a a2 : curve T) j j2,
  same_coord c c2 j j2 -> c_rows c <> [] -> reg_find r name = Some (fun c => window_filter gw c size wt mode cval) ->
  smooth r name c = Ok a -> smooth r name c2 = Ok a2 -> same_column (c_rows a) (c_rows a2) j j2.
Proof.
  intros T NT gw r name size wt mode cval c c2 a a2 j j2 (W & W2 & Dt & Hj & Hj2 & S) N F E E2. pose proof (proj1 S) as Sz.
  unfold smooth, reg_get in E, E2. rewrite F in E, E2. cbn [rbind] in E, E2. unfold window_filter in E, E2.
  destruct (match wt with WCall _ => _ | WName _ => _ end) as [[w| | |]|e] eqn:Ew; cbn [rbind] in E, E2; try discriminate; [|destruct e; discriminate].
  destruct (convolve1d (c_rows c) _ _ _ _ _) as [y|e] eqn:Ey; cbn [rbind] in E; [|destruct e; discriminate].
  destruct (convolve1d (c_rows c2) _ _ _ _ _) as [y2|e] eqn:Ey2; cbn [rbind] in E2; [|destruct e; discriminate].
  rewrite Dt in E2, Ey2.
  destruct (convolve1d_shape _ _ _ _ _ _ _ Ey) as (Ly & Dy). destruct (convolve1d_shape _ _ _ _ _ _ _ Ey2) as (Ly2 & Dy2).
  assert (N0 : length (c_rows c) <> 0%nat) by (intros Z; apply N, length_zero_iff_nil, Z).
  unfold c_size in E, E2. rewrite <- Ly in E. rewrite <- Ly2 in E2.
  rewrite (curve_init_arr y (c_ndim c) (c_dtype c) a) by (try exact E; try exact Dy; try apply W; intros Z; rewrite Z in Ly; cbn in Ly; lia).
  rewrite (curve_init_arr y2 (c_ndim c2) (c_dtype c) a2) by (try exact E2; try exact Dy2; try apply W2; intros Z; rewrite Z in Ly2; cbn in Ly2; lia).
  apply (same_cast _ _ _ (c_ndim c) (c_ndim c2) j j2 Hj Hj2 Dy Dy2). exact (convolve1d_coord _ _ _ _ _ _ _ _ _ _ j j2 Hj Hj2 S Ey Ey2).
Qed.
Print Assumptions C112_window.

(** Savitzky-Golay smoothing, in every mode (its result is of doubles, whatever the
    data type of the curve). *)
Theorem C112_savgol : forall T (NT : Num T) (r : registry (smethod T)) name w p d delta mode cval (c c2 a a2 : curve T) j j2,
  wf c -> wf c2 -> (j < c_ndim c)%nat -> (j2 < c_ndim c2)%nat -> same_column (c_rows c) (c_rows c2) j j2 -> c_rows c <> [] ->
  reg_find r name = Some (savgol w p d delta mode cval) ->
  smooth r name c = Ok a -> smooth r name c2 = Ok a2 -> same_column (c_rows a) (c_rows a2) j j2.
Proof.
  intros T NT r name w p d delta mode cval c c2 a a2 j j2 W W2 Hj Hj2 S N F E E2. pose proof (proj1 S) as Sz.
  assert (N0 : length (c_rows c) <> 0%nat) by (intros Z; apply N, length_zero_iff_nil, Z).
  unfold smooth, reg_get in E, E2. rewrite F in E, E2. cbn [rbind] in E, E2. unfold savgol, savgol_filter in E, E2.
  assert (Main : exists y y2, same_column y y2 j j2 /\ length y = length (c_rows c) /\ (forall q, In q y -> length q = c_ndim c) /\ (forall q, In q y2 -> length q = c_ndim c2) /\
    savgol_scipy w p d delta mode cval (c_ndim c) (c_rows c) = Ok (mkNd [length y; c_ndim c] (concat y)) /\
    savgol_scipy w p d delta mode cval (c_ndim c2) (c_rows c2) = Ok (mkNd [length y2; c_ndim c2] (concat y2))).
  { destruct (savgol_scipy w p d delta mode cval (c_ndim c) (c_rows c)) as [x|e] eqn:Es; cbn [rmap] in E; [|destruct e; discriminate].
    destruct (savgol_scipy w p d delta mode cval (c_ndim c2) (c_rows c2)) as [x2|e] eqn:Es2; cbn [rmap] in E2; [|destruct e; discriminate].
    clear E E2. unfold savgol_scipy in Es, Es2.
    destruct (negb (existsb (String.eqb mode) savgol_modes)); [discriminate|].
    destruct ((w <=? p) || (w mod 2 =? 0) || (w <=? 0))%Z eqn:Ew; [discriminate|]. cbv zeta in Es, Es2. rewrite <- Sz in Es2.
    destruct (if (p <? d)%Z then _ else _) as [co|e] eqn:Ec; cbn [rbind] in Es, Es2; [|discriminate].
    apply orb_false_iff in Ew as (Ew & Ew3). apply orb_false_iff in Ew as (Ew1 & Ew2). apply Z.leb_gt in Ew3. apply Z.eqb_neq in Ew2.
    pose (h := (Z.to_nat w / 2)%nat).
    assert (Hw : (Z.to_nat w = 2 * h + 1)%nat).
    { assert (O : (Z.to_nat w mod 2 = 1)%nat).
      { assert (R : (Z.of_nat (Z.to_nat w mod 2) = w mod 2)%Z) by (rewrite Nat2Z.inj_mod, Z2Nat.id by lia; reflexivity).
        pose proof (Z.mod_pos_bound w 2 ltac:(lia)). lia. }
      unfold h. pose proof (Nat.div_mod (Z.to_nat w) 2 ltac:(lia)). lia. }
    destruct (String.eqb_spec mode "interp") as [Mi|Mi].
    - destruct (Nat.ltb_spec (length (c_rows c)) (Z.to_nat w)) as [|Hl]; [discriminate|].
      destruct (convolve1d (c_rows c) _ _ _ _ _) as [y|e] eqn:Ey; cbn [rbind] in Es; [|discriminate].
      destruct (convolve1d (c_rows c2) _ _ _ _ _) as [y2|e] eqn:Ey2; cbn [rbind] in Es2; [|discriminate].
      destruct (p <? 0)%Z; [discriminate|].
      destruct (convolve1d_shape _ _ _ _ _ _ _ Ey) as (Ly & Dy). destruct (convolve1d_shape _ _ _ _ _ _ _ Ey2) as (Ly2 & Dy2).
      pose (F1 := fun n rows => fit_edge rows n (Z.to_nat w) (Z.to_nat p) (Z.to_nat d) delta 0 0 h).
      pose (F3 := fun n rows => fit_edge rows n (Z.to_nat w) (Z.to_nat p) (Z.to_nat d) delta (length (c_rows c) - Z.to_nat w) (length (c_rows c) - h) h).
      pose (mid := fun y : list (list T) => firstn (length (c_rows c) - h - h) (skipn h y)).
      assert (SF1 : forall n rows, length (F1 n rows) = h /\ forall q, In q (F1 n rows) -> length q = n) by (intros n rows; unfold F1; apply fit_edge_shape).
      assert (SF3 : forall n rows, length (F3 n rows) = h /\ forall q, In q (F3 n rows) -> length q = n) by (intros n rows; unfold F3; apply fit_edge_shape).
      assert (Sm : forall y : list (list T), length y = length (c_rows c) -> length (mid y) = (length (c_rows c) - h - h)%nat)
        by (intros z Lz; unfold mid; rewrite firstn_length, skipn_length, Lz; lia).
      assert (Im : forall (y : list (list T)) q, In q (mid y) -> In q y).
      { intros z q Hq. rewrite <- (firstn_skipn h z). apply in_or_app. right. rewrite <- (firstn_skipn (length (c_rows c) - h - h) (skipn h z)). apply in_or_app. left. exact Hq. }
      exists (F1 (c_ndim c) (c_rows c) ++ mid y ++ F3 (c_ndim c) (c_rows c))%list, (F1 (c_ndim c2) (c_rows c2) ++ mid y2 ++ F3 (c_ndim c2) (c_rows c2))%list.
      assert (LL : length (F1 (c_ndim c) (c_rows c) ++ mid y ++ F3 (c_ndim c) (c_rows c))%list = length (c_rows c))
        by (rewrite !app_length, (proj1 (SF1 _ _)), (proj1 (SF3 _ _)), (Sm y Ly); lia).
      assert (LL2 : length (F1 (c_ndim c2) (c_rows c2) ++ mid y2 ++ F3 (c_ndim c2) (c_rows c2))%list = length (c_rows c))
        by (rewrite !app_length, (proj1 (SF1 _ _)), (proj1 (SF3 _ _)), (Sm y2 ltac:(lia)); lia).
      split; [|split; [exact LL|split; [|split; [|split]]]].
      + apply same_column_app; [unfold F1; apply fit_edge_coord; assumption|]. apply same_column_app; [|unfold F3; apply fit_edge_coord; assumption].
        unfold mid. apply same_column_part. exact (convolve1d_coord _ _ _ _ _ _ _ _ _ _ j j2 Hj Hj2 S Ey Ey2).
      + intros q Hq. apply in_app_or in Hq as [Hq|Hq]; [exact (proj2 (SF1 _ _) q Hq)|]. apply in_app_or in Hq as [Hq|Hq]; [apply Dy, Im, Hq|exact (proj2 (SF3 _ _) q Hq)].
      + intros q Hq. apply in_app_or in Hq as [Hq|Hq]; [exact (proj2 (SF1 _ _) q Hq)|]. apply in_app_or in Hq as [Hq|Hq]; [apply Dy2, Im, Hq|exact (proj2 (SF3 _ _) q Hq)].
      + rewrite LL. unfold F1, F3, mid, h. symmetry. exact Es.
      + rewrite LL2. unfold F1, F3, mid, h. symmetry. exact Es2.
    - destruct (convolve1d (c_rows c) _ _ _ _ _) as [y|e] eqn:Ey; cbn [rbind] in Es; [|discriminate].
      destruct (convolve1d (c_rows c2) _ _ _ _ _) as [y2|e] eqn:Ey2; cbn [rbind] in Es2; [|discriminate].
      destruct (convolve1d_shape _ _ _ _ _ _ _ Ey) as (Ly & Dy). destruct (convolve1d_shape _ _ _ _ _ _ _ Ey2) as (Ly2 & Dy2).
      exists y, y2. split; [exact (convolve1d_coord _ _ _ _ _ _ _ _ _ _ j j2 Hj Hj2 S Ey Ey2)|]. split; [exact Ly|]. split; [exact Dy|]. split; [exact Dy2|].
      split; [rewrite Ly; symmetry; exact Es|]. rewrite Ly2, <- Sz. symmetry. exact Es2. }
  destruct Main as (y & y2 & Sy & Ly & Dy & Dy2 & X & X2). rewrite X in E. rewrite X2 in E2. cbn [rmap] in E, E2.
  pose proof (proj1 Sy) as Lyy.
  rewrite (curve_init_arr y (c_ndim c) DFloat a) by (try exact E; try exact Dy; try apply W; intros Z; rewrite Z in Ly; cbn in Ly; lia).
  rewrite (curve_init_arr y2 (c_ndim c2) DFloat a2) by (try exact E2; try exact Dy2; try apply W2; intros Z; rewrite Z in Lyy; cbn in Lyy; lia).
  apply (same_cast _ _ _ (c_ndim c) (c_ndim c2) j j2 Hj Hj2 Dy Dy2 Sy).
Qed.
Print Assumptions C112_savgol.

(** The derivatives (two points at least: those of one point have one column). *)
Theorem C112_derivatives : forall T (NT : Num T) (ST : NumSqrt T) (junk : T) (c c2 : curve T) j j2 q m m2,
  same_coord c c2 j j2 -> (2 <= c_size c)%nat -> In q [PFirst; PTangent; PSecond; PThird] ->
  curve_prop junk c q = Ok (AMat m) -> curve_prop junk c2 q = Ok (AMat m2) -> same_column m m2 j j2.
Proof.
  intros T NT ST junk c c2 j j2 q m m2 (W & W2 & _ & Hj & Hj2 & S) H Hq E E2. unfold c_size in H. pose proof (proj1 S) as L.
  assert (Bc : c_bool c = true) by (apply c_bool_wf; [exact W|intros X; rewrite X in H; cbn in H; lia]).
  assert (Bc2 : c_bool c2 = true) by (apply c_bool_wf; [exact W2|intros X; rewrite X in L; cbn in L; lia]).
  unfold curve_prop in E, E2. cbv zeta in E, E2. rewrite Bc in E. rewrite Bc2 in E2. cbn [negb] in E, E2.
  destruct W as (_ & D & _), W2 as (_ & D2 & _).
  destruct (gradient_same _ _ _ _ j j2 D D2 H Hj Hj2 S) as (S1 & Dg1).
  pose proof (proj2 (gradient_same _ _ _ _ j2 j D2 D ltac:(lia) Hj2 Hj (same_column_sym _ _ _ _ S))) as Dg12.
  destruct (gradient_same _ _ _ _ j j2 Dg1 Dg12 ltac:(rewrite DiffGeomProofs4.gen_gradient_length; lia) Hj Hj2 S1) as (S2 & Dg2).
  pose proof (proj2 (gradient_same _ _ _ _ j2 j Dg12 Dg1 ltac:(rewrite DiffGeomProofs4.gen_gradient_length; lia) Hj2 Hj (same_column_sym _ _ _ _ S1))) as Dg22.
  destruct (gradient_same _ _ _ _ j j2 Dg2 Dg22 ltac:(rewrite !DiffGeomProofs4.gen_gradient_length; lia) Hj Hj2 S2) as (S3 & _).
  destruct Hq as [<-|[<-|[<-|[<-|[]]]]]; inversion E; inversion E2; assumption.
Qed.
Print Assumptions C112_derivatives.

(** Cases: a curve in space and a plane curve that share a coordinate. *)
Definition cplane (z : Z) : curve float := mkCurve [[fz 0; fz z]; [fz 1; fz 0]; [fz 3; fz 7]; [fz 4; fz 7]; [fz 2; fz 9]] 2 DFloat (Some (map fz [0; 1; 2; 4; 5]%Z)).
Definition cspace : curve float := mkCurve [[fz 5; fz 0; fz 1]; [fz 6; fz 1; fz 1]; [fz 8; fz 3; fz 2]; [fz 9; fz 4; fz 7]; [fz 0; fz 2; fz 1]] 3 DFloat (Some (map fz [0; 1; 2; 4; 5]%Z)).
Example C112_ex : same_coord (cplane 3) cspace 0 1.
Proof.
  split; [split; [cbn; lia|]; split; [intros p Hp; repeat (destruct Hp as [<-|Hp]; [reflexivity|]); destruct Hp|intros t Ht; change (Some (map fz [0; 1; 2; 4; 5]%Z) = Some t) in Ht; inversion Ht; reflexivity]|].
  split; [split; [cbn; lia|]; split; [intros p Hp; repeat (destruct Hp as [<-|Hp]; [reflexivity|]); destruct Hp|intros t Ht; change (Some (map fz [0; 1; 2; 4; 5]%Z) = Some t) in Ht; inversion Ht; reflexivity]|].
  split; [reflexivity|]. split; [cbn; lia|]. split; [cbn; lia|]. split; [reflexivity|].
  intros l Hl. do 5 (destruct l as [|l]; [reflexivity|]). cbn in Hl. lia.
Qed.
Definition col_of (j : nat) (r : res (list (list float))) : res (list float) := rmap (map (fun p => nth j p nan)) r.
Example C112_ex_values : forall name, In name ["linear"; "pchip"; "cubic"] ->
  col_of 0 (lrows name (cplane 3) [fq 1 2; fq 5 2; fz 4]) = col_of 1 (lrows name cspace [fq 1 2; fq 5 2; fz 4]) /\
  exists l, col_of 0 (lrows name (cplane 3) [fq 1 2; fq 5 2; fz 4]) = Ok l.
Proof. intros name [<-|[<-|[<-|[]]]]; (split; [vm_compute; reflexivity|eexists; vm_compute; reflexivity]). Qed.

Example C112_ex_smooth : forall mode smode name a a2, In (mode, smode) [("reflect", "interp"); ("wrap", "mirror")] -> In name ["window"; "savgol"] ->
  smooth (smooth_reg mode smode) name (nine 64) = Ok a -> smooth (smooth_reg mode smode) name (nine 1000) = Ok a2 -> same_column (c_rows a) (c_rows a2) 0 0.
Proof.
  assert (S : same_column (c_rows (nine 64)) (c_rows (nine 1000)) 0 0)
    by (unfold nine; cbn [c_rows]; split; [rewrite !map_length; reflexivity|]; intros l Hl; rewrite map_length, seq_length in Hl; rewrite !nth_seq_map by exact Hl; reflexivity).
  intros mode smode name a a2 Hm [<-|[<-|[]]] E E2.
  - refine (C112_window _ _ _ (smooth_reg mode smode) "window" 5%Z _ mode (fz 0) (nine 64) (nine 1000) a a2 0 0 _ _ eq_refl E E2); [|discriminate].
    exact (conj (nine_wf _) (conj (nine_wf _) (conj eq_refl (conj Nat.lt_0_2 (conj Nat.lt_0_2 S))))).
  - exact (C112_savgol _ _ (smooth_reg mode smode) "savgol" 5 2 0 (fz 1) smode (fz 0) (nine 64) (nine 1000) a a2 0 0
             (nine_wf _) (nine_wf _) Nat.lt_0_2 Nat.lt_0_2 S ltac:(discriminate) eq_refl E E2).
Qed.
Example C112_ex_smooth_runs : forall name, In name ["window"; "savgol"] -> exists a, smooth (smooth_reg "reflect" "interp") name (nine 64) = Ok a.
Proof. intros name [<-|[<-|[]]]; eexists; vm_compute; reflexivity. Qed.
Example C112_ex_derivs : forall q m m2, In q [PFirst; PTangent; PSecond; PThird] -> curve_prop nan (cplane 3) q = Ok (AMat m) -> curve_prop nan cspace q = Ok (AMat m2) -> same_column m m2 0 1.
Proof. intros q m m2 Hq. apply C112_derivatives; [exact C112_ex|cbn; lia|exact Hq]. Qed.
Definition is_mat (r : res (arr float)) : bool := match r with Ok (AMat _) => true | _ => false end.
Example C112_ex_derivs_run : forallb (fun q => is_mat (curve_prop nan (cplane 3) q) && is_mat (curve_prop nan cspace q)) [PFirst; PTangent; PSecond; PThird] = true.
Proof. vm_compute. reflexivity. Qed.

(** A stand-in for the one-dimensional spline: the values at the grid are the grid plus
    the last value of the coordinate. *)
Definition toy_reg : registry (icreate float) := [("spline", spline nan (fun xs ys => Ok (fun g => Ok (map (fun v => PrimFloat.add v (last ys nan)) g))))].
Definition toy_rows (c : curve float) : res (list (list float)) := rmap (@c_rows float) (interpolate nan (fun _ => true) toy_reg "spline" c (SArr [fq 1 2; fz 3])).
Example C112_ex_spline : col_of 0 (toy_rows (cplane 3)) = col_of 1 (toy_rows cspace) /\ col_of 0 (toy_rows (cplane 3)) = Ok [fq 5 2; fz 5].
Proof. split; vm_compute; reflexivity. Qed.

(** 'akima' and 'hermite' mix the coordinates: another value in the second
    coordinate changes the first coordinate of the result ('akima' takes the
    threshold for equal slopes from all coordinates, 'hermite' the unit tangents). *)
Theorem C112_mixed_refuted : forall name, In name ["akima"; "hermite"] ->
  exists (c c2 : curve float), same_coord c c2 0 0 /\ c_t c = c_t c2 /\ moved (lrows name c [fq 3 2]) (lrows name c2 [fq 3 2]) = true.
Proof.
  intros name Hn. exists (cplane 3), (cplane 1000000000000).
  split; [|split; [reflexivity|destruct Hn as [<-|[<-|[]]]; vm_compute; reflexivity]].
  assert (Wf : forall z, wf (cplane z)) by (intros z; split; [cbn; lia|]; split; [intros p Hp; repeat (destruct Hp as [<-|Hp]; [reflexivity|]); destruct Hp|intros t Ht; change (Some (map fz [0; 1; 2; 4; 5]%Z) = Some t) in Ht; inversion Ht; reflexivity]).
  split; [apply Wf|]. split; [apply Wf|]. split; [reflexivity|]. split; [cbn; lia|]. split; [cbn; lia|]. split; [reflexivity|].
  intros l Hl. do 5 (destruct l as [|l]; [reflexivity|]). cbn in Hl. lia.
Qed.
Print Assumptions C112_mixed_refuted.

(** Without parameters of their own, curves are interpolated by arc length: so all
    methods mix the coordinates. *)
Theorem C112_arclen_refuted : forall name, In name ["linear"; "pchip"; "cubic"] ->
  exists (c c2 : curve float), same_coord c c2 0 0 /\ c_t c = None /\ c_t c2 = None /\ moved (lrows name c [fq 3 2]) (lrows name c2 [fq 3 2]) = true.
Proof.
  intros name Hn. exists (mkCurve [[fz 0; fz 0]; [fz 1; fz 0]; [fz 3; fz 0]; [fz 4; fz 0]] 2 DFloat None), (mkCurve [[fz 0; fz 7]; [fz 1; fz 0]; [fz 3; fz 0]; [fz 4; fz 0]] 2 DFloat None).
  split; [|split; [reflexivity|split; [reflexivity|destruct Hn as [<-|[<-|[<-|[]]]]; vm_compute; reflexivity]]].
  split; [split; [cbn; lia|]; split; [intros p Hp; repeat (destruct Hp as [<-|Hp]; [reflexivity|]); destruct Hp|discriminate]|].
  split; [split; [cbn; lia|]; split; [intros p Hp; repeat (destruct Hp as [<-|Hp]; [reflexivity|]); destruct Hp|discriminate]|].
  split; [reflexivity|]. split; [cbn; lia|]. split; [cbn; lia|]. split; [reflexivity|].
  intros l Hl. do 4 (destruct l as [|l]; [reflexivity|]). cbn in Hl. lia.
Qed.
Print Assumptions C112_arclen_refuted.
