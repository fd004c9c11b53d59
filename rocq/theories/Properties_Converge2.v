(** Property C102: the periodic, smoothing, FITPACK and hermite interpolants of points of a smooth curve, compared with the curve. *)
From Coq Require Import ZArith String List Bool Arith Lia PrimFloat Reals Lra Psatz.
From Verif Require Import Num Py Numeric Curve Vec Geom DiffGeom Registry Interp Splines Splines2 Periodic Csaps FitSpline Spec GeomSpec.
From Verif Require Import ListFacts ArrayProofs VecFacts CurveProofs CurveProofs2 CurveProofs3 GeomProofs DiffGeomProofs DiffGeomProofs2 InterpProofs InterpProofs2 InterpProofs3.
From Verif Require Import SplineProofs SplineProofs2 SplineProofs3 SplineProofs4 SplineProofs5 SplineProofs6 SplineProofs8 SampleProofs SampleProofs2 SampleProofs3 ConvergeProofs ConvergeProofs2 ConvergeProofs3.
From Verif Require Import PeriodicProofs PeriodicProofs2 PeriodicProofs3 Properties_DiffGeom.
From Verif Require Import Properties_Container Properties_Interp Properties_Splines Properties_Splines2 Properties_Splines4 Properties_Periodic Properties_Fit Properties_Sampling Properties_Converge.
Import ListNotations.
Local Open Scope string_scope.
Local Open Scope list_scope.
Local Open Scope R_scope.

(** The functions repeat after the range of the parameters of [c]. *)
Definition repeats (junk : R) (c : curve R) (f : nat -> R -> R) : Prop :=
  forall j v, (j < c_ndim c)%nat -> f j (v + (nth (c_size c - 1) (c_tval junk c) 0 - nth 0 (c_tval junk c) 0)) = f j v.
(** Where the result is compared: anywhere, unless extrapolate is True or False. *)
Definition grid_allowed (junk : R) (c : curve R) (ex : option exmode) (g : list R) : Prop :=
  match ex with Some (ExBool _) => grid_inside junk c g | _ => True end.

Lemma repeat_deriv (g : R -> R) p x l l' : (forall v, g (v + p) = g v) -> derivable_pt_lim g x l -> derivable_pt_lim g (x + p) l' -> l' = l.
Proof.
  intros P A B. apply (uniqueness_limite g x l' l); [|exact A]. intros eps He. destruct (B eps He) as (d & Hd). exists d. intros u Nu Hu.
  rewrite <- (P (x + u)), <- (P x). replace (x + u + p) with (x + p + u) by ring. apply Hd; assumption.
Qed.

Lemma repeat_ends junk c g g1 : wf c -> (2 <= c_size c)%nat -> increasing (c_tval junk c) -> repeats junk c g ->
  let lo := nth 0 (c_tval junk c) 0 in let hi := nth (c_size c - 1) (c_tval junk c) 0 in
  (forall j, (j < c_ndim c)%nat -> deriv_on lo hi (g j) (g1 j)) -> forall j, (j < c_ndim c)%nat -> g1 j hi = g1 j lo.
Proof.
  intros W H I P lo hi D j Hj. assert (R := t_range junk c W H I). cbv beta in R. pose proof (R (c_size c - 1)%nat ltac:(lia)) as Rh. fold lo hi in Rh.
  apply (repeat_deriv (g j) (hi - lo) lo); [intros v; apply P, Hj|apply D; [exact Hj|lra]|].
  replace (lo + (hi - lo)) with hi by ring. apply D; [exact Hj|lra].
Qed.

(** A periodic interpolant at any value: the piece that holds the value moved by periods. *)
Lemma periodic_piece junk qnan fm ex (c : curve R) (f : nat -> R -> R) v : is_mod fm -> wf c -> (2 <= c_size c)%nat -> increasing (c_tval junk c) -> repeats junk c f ->
  grid_allowed junk c ex [v] -> let ds := periodic_rows (c_tval junk c) (c_rows c) (c_ndim c) in
  exists k u, (S k < c_size c)%nat /\ nth k (c_tval junk c) 0 <= u <= nth (S k) (c_tval junk c) 0 /\
    forall j, (j < c_ndim c)%nat -> f j v = f j u /\
      nth j (spline_at qnan fm (mode_of (BCName "periodic") ex) (c_tval junk c) (c_rows c) ds (c_ndim c) v) 0
      = hval (nth (S k) (c_tval junk c) 0 - nth k (c_tval junk c) 0) (nth j (nth k (c_rows c) []) 0) (nth j (nth (S k) (c_rows c) []) 0)
             (per_at (c_tval junk c) (column (c_rows c) j) k) (per_at (c_tval junk c) (column (c_rows c) j) (S k)) (u - nth k (c_tval junk c) 0).
Proof.
  intros Hm W H I P Ga ds. assert (L := t_length junk c W H). set (xs := c_tval junk c) in *.
  assert (Piece : forall e u, nth 0 xs 0 <= u <= nth (c_size c - 1) xs 0 -> exists k, (S k < c_size c)%nat /\ nth k xs 0 <= u <= nth (S k) xs 0 /\
    forall j, (j < c_ndim c)%nat -> nth j (hermite_at qnan e xs (c_rows c) ds (c_ndim c) u) 0
      = hval (nth (S k) xs 0 - nth k xs 0) (nth j (nth k (c_rows c) []) 0) (nth j (nth (S k) (c_rows c) []) 0)
             (per_at xs (column (c_rows c) j) k) (per_at xs (column (c_rows c) j) (S k)) (u - nth k xs 0)).
  { intros e u Hu. destruct (grid_piece junk qnan e c ds u W H I Hu) as (k & Hk & Kb & A). exists k. split; [exact Hk|]. split; [exact Kb|].
    intros j Hj. etransitivity; [exact (A j Hj)|]. unfold ds. fold xs. rewrite !periodic_rows_nth by lia. reflexivity. }
  assert (Wr : exists k u, (S k < c_size c)%nat /\ nth k xs 0 <= u <= nth (S k) xs 0 /\ forall j, (j < c_ndim c)%nat -> f j v = f j u /\
     nth j (spline_at qnan fm ExPeriodic xs (c_rows c) ds (c_ndim c) v) 0
      = hval (nth (S k) xs 0 - nth k xs 0) (nth j (nth k (c_rows c) []) 0) (nth j (nth (S k) (c_rows c) []) 0)
             (per_at xs (column (c_rows c) j) k) (per_at xs (column (c_rows c) j) (S k)) (u - nth k xs 0)).
  { destruct (w_range fm Hm (nth 0 xs 0) (nth (length xs - 1) xs 0) (ab_lt xs I ltac:(lia)) v) as (Rg & q & Eq).
    set (u := nth 0 xs 0 + fm (v - nth 0 xs 0) (nth (length xs - 1) xs 0 - nth 0 xs 0)) in *.
    assert (Eu : wrap fm xs v = u) by (apply wrap_eq; assumption || lia).
    destruct (Piece false u) as (k & Hk & Kb & A); [rewrite <- L; lra|]. exists k, u. split; [exact Hk|]. split; [exact Kb|]. intros j Hj. split.
    - rewrite Eq. apply (per_many xs ltac:(lia) (f j)). intros w. rewrite L. apply P, Hj.
    - unfold spline_at. rewrite Eu. apply A, Hj. }
  destruct ex as [[e|]|]; [|exact Wr|exact Wr]. cbn [mode_of]. unfold spline_at. cbn [grid_allowed] in Ga.
  destruct (Piece e v (Ga v (or_introl eq_refl))) as (k & Hk & Kb & A). exists k, v. split; [exact Hk|]. split; [exact Kb|]. intros j Hj. split; [reflexivity|apply A, Hj].
Qed.

Lemma repeats_closed junk (c : curve R) f tau : wf c -> (2 <= c_size c)%nat -> points_of junk c f tau -> repeats junk c f -> cubic_fits (BCName "periodic") c.
Proof.
  intros W H P Re. apply nearly_closed_iff. intros j Hj. unfold first_point, last_point. rewrite !(proj1 P) by lia. pose proof (Re j (nth 0 (c_tval junk c) 0) Hj) as Q.
  replace (nth 0 (c_tval junk c) 0 + (nth (c_size c - 1) (c_tval junk c) 0 - nth 0 (c_tval junk c) 0)) with (nth (c_size c - 1) (c_tval junk c) 0) in Q by ring.
  rewrite Q. unfold Rminus. rewrite Rplus_opp_r, Rabs_R0. pose proof (Rabs_pos (f j (nth 0 (c_tval junk c) 0))). lra.
Qed.

Lemma allowed_one junk c ex g v : grid_allowed junk c ex g -> In v g -> grid_allowed junk c ex [v].
Proof. destruct ex as [[e|]|]; cbn; auto. intros G Hv w [<-|[]]. apply G, Hv. Qed.

(** ** C102 Convergence, continued *)

(** bc_type='periodic', points of one period of a closed curve: within
    5/8 M tau^2, also beyond the parameters unless extrapolate is True or False. *)
Theorem C102_periodic : forall junk few qnan fm ex (r : registry (icreate R)) name (c : curve R) s g f f1 f2 M tau,
  is_mod fm -> wf c -> (2 <= c_size c)%nat -> increasing (c_tval junk c) -> c_dtype c = DFloat ->
  reg_find r name = Some (cubic_any junk qnan fm (BCName "periodic") ex) -> get_grid junk few c s = Ok g -> grid_allowed junk c ex g ->
  points_of junk c f tau -> twice junk c f f1 f2 M -> repeats junk c f ->
  exists c', interpolate junk few r name c s = Ok c' /\ close_result c c' g f (5 / 8 * (M * tau ^ 2)).
Proof.
  intros junk few qnan fm ex r name c s g f f1 f2 M tau Hm W H I Dt F G Ga P D Re.
  assert (L := t_length junk c W H). set (b := BCName "periodic" : bctype R) in *.
  eexists. split; [apply any_result with (create := cubic_any junk qnan fm b ex); try eassumption; apply cubic_any_ok; try assumption; apply (repeats_closed junk c f tau); assumption|].
  unfold close_result, c_size. cbn [c_rows]. rewrite Dt, map_cast_float. split; [apply map_length|].
  intros i j Hi Hj. rewrite (nth_map_in _ g i 0 [] Hi). change (cubic_ds b (c_tval junk c) (c_rows c) (c_ndim c)) with (periodic_rows (c_tval junk c) (c_rows c) (c_ndim c)).
  destruct (periodic_piece junk qnan fm ex c f (nth i g 0) Hm W H I Re (allowed_one _ _ _ _ _ Ga (nth_In g 0 Hi))) as (k & u & Hk & Kb & A).
  destruct (A j Hj) as [Ef Ev]. rewrite Ef. fold b in Ev. rewrite Ev.
  assert (E1 : f1 j (nth (c_size c - 1) (c_tval junk c) 0) = f1 j (nth 0 (c_tval junk c) 0)) by (apply (repeat_ends junk c f f1); try assumption; intros q Hq; apply D, Hq).
  destruct (D j Hj) as (D0 & D1 & D2).
  assert (Cl : forall k, (k < length (c_tval junk c))%nat -> Rabs (per_at (c_tval junk c) (column (c_rows c) j) k - f1 j (nth k (c_tval junk c) 0)) <= 3 / 2 * M * tau).
  { apply (per_close2 (c_tval junk c) (column (c_rows c) j) (f j) (f1 j) (f2 j) tau); try assumption; rewrite ?L; try assumption.
    - intros l Hl. rewrite column_nth by (unfold c_size in *; lia). apply P; assumption.
    - intros l Hl. apply P, Hl. }
  replace (5 / 8 * (M * tau ^ 2)) with (M * tau ^ 2 / 4 + tau * (3 / 2 * M * tau) / 4) by field.
  apply (piece_error' junk c f f1 f2 M tau); try assumption; apply Cl; lia.
Qed.
Print Assumptions C102_periodic.

(** The same with four derivatives: within M tau^4 / 12. *)
Theorem C102_periodic_fourth : forall junk few qnan fm ex (r : registry (icreate R)) name (c : curve R) s g f f1 f2 f3 f4 M tau,
  is_mod fm -> wf c -> (2 <= c_size c)%nat -> increasing (c_tval junk c) -> c_dtype c = DFloat ->
  reg_find r name = Some (cubic_any junk qnan fm (BCName "periodic") ex) -> get_grid junk few c s = Ok g -> grid_allowed junk c ex g ->
  points_of junk c f tau -> fourth junk c f f1 f2 f3 f4 M -> repeats junk c f -> repeats junk c f1 ->
  exists c', interpolate junk few r name c s = Ok c' /\ close_result c c' g f (M * tau ^ 4 / 12).
Proof.
  intros junk few qnan fm ex r name c s g f f1 f2 f3 f4 M tau Hm W H I Dt F G Ga P D Re Re1.
  assert (L := t_length junk c W H). set (b := BCName "periodic" : bctype R) in *.
  eexists. split; [apply any_result with (create := cubic_any junk qnan fm b ex); try eassumption; apply cubic_any_ok; try assumption; apply (repeats_closed junk c f tau); assumption|].
  unfold close_result, c_size. cbn [c_rows]. rewrite Dt, map_cast_float. split; [apply map_length|].
  intros i j Hi Hj. rewrite (nth_map_in _ g i 0 [] Hi). change (cubic_ds b (c_tval junk c) (c_rows c) (c_ndim c)) with (periodic_rows (c_tval junk c) (c_rows c) (c_ndim c)).
  destruct (periodic_piece junk qnan fm ex c f (nth i g 0) Hm W H I Re (allowed_one _ _ _ _ _ Ga (nth_In g 0 Hi))) as (k & u & Hk & Kb & A).
  destruct (A j Hj) as [Ef Ev]. rewrite Ef. fold b in Ev. rewrite Ev.
  assert (E1 : f1 j (nth (c_size c - 1) (c_tval junk c) 0) = f1 j (nth 0 (c_tval junk c) 0)) by (apply (repeat_ends junk c f f1); try assumption; intros q Hq; apply D, Hq).
  assert (E2 : f2 j (nth (c_size c - 1) (c_tval junk c) 0) = f2 j (nth 0 (c_tval junk c) 0)) by (apply (repeat_ends junk c f1 f2); try assumption; intros q Hq; apply D, Hq).
  destruct (D j Hj) as (D0 & D1 & D2 & D3 & D4).
  assert (Cl : forall k, (k < length (c_tval junk c))%nat -> Rabs (per_at (c_tval junk c) (column (c_rows c) j) k - f1 j (nth k (c_tval junk c) 0)) <= 7 / 24 * M * tau ^ 3).
  { apply (per_close4 (c_tval junk c) (column (c_rows c) j) (f j) (f1 j) (f2 j) tau) with (f3 := f3 j) (f4 := f4 j); try assumption; rewrite ?L; try assumption.
    - intros l Hl. rewrite column_nth by (unfold c_size in *; lia). apply P; assumption.
    - intros l Hl. apply P, Hl. }
  pose proof (t_gap junk c f tau W H I P k Hk) as Gp. cbv beta in Gp. rewrite !(proj1 P) by lia.
  assert (Xl := t_range junk c W H I). cbv beta in Xl.
  assert (M0 : 0 <= M) by (pose proof (D4 (nth 0 (c_tval junk c) 0) (Xl 0%nat ltac:(lia))); pose proof (Rabs_pos (f4 j (nth 0 (c_tval junk c) 0))); lra).
  eapply Rle_trans; [apply (hval_error4 (nth 0 (c_tval junk c) 0) (nth (c_size c - 1) (c_tval junk c) 0) (f j) (f1 j) (f2 j) (f3 j) (f4 j) M _ _ _ _ _ (7 / 24 * M * tau ^ 3));
    try assumption; [apply Xl; lia|apply Xl, Hk|lra|apply Cl; lia|apply Cl; lia]|].
  set (h := nth (S k) (c_tval junk c) 0 - nth k (c_tval junk c) 0) in *.
  assert (Q : h ^ 4 <= tau ^ 4) by (apply pow_incr; lra). apply (Rmult_le_compat_l M) in Q; [|exact M0].
  assert (T3 : 0 <= 7 / 24 * M * tau ^ 3) by (apply Rmult_le_pos; [lra|apply pow_le; lra]).
  pose proof (Rmult_le_compat_r _ _ _ T3 (proj2 Gp)) as Q'. replace (tau * (7 / 24 * M * tau ^ 3)) with (7 / 24 * (M * tau ^ 4)) in Q' by ring.
  assert (0 <= M * tau ^ 4) by (apply Rmult_le_pos; [exact M0|apply pow_le; lra]). lra.
Qed.
Print Assumptions C102_periodic_fourth.

(** 'csaps' without smoothing (smooth=1), whatever the weights: as the natural spline. *)
Theorem C102_csaps : forall junk few qnan w (r : registry (icreate R)) name (c : curve R) s g f f1 f2 M tau,
  wf c -> (2 <= c_size c)%nat -> increasing (c_tval junk c) -> c_dtype c = DFloat -> weights_fit w (c_size c) -> weights_pos w ->
  reg_find r name = Some (csaps junk qnan (Some 1) w) -> get_grid junk few c s = Ok g -> grid_inside junk c g ->
  points_of junk c f tau -> twice junk c f f1 f2 M ->
  exists c', interpolate junk few r name c s = Ok c' /\ close_result c c' g f (5 / 8 * (M * tau ^ 2)).
Proof.
  intros junk few qnan w r name c s g f f1 f2 M tau W H I Dt Wf Wp F G Gi P D.
  set (pe := (fun _ => Raise OtherError) : icreate R). set (r' := [("n", cubic junk qnan pe (BCName "natural") true)] : registry (icreate R)).
  rewrite (C77_natural junk few qnan pe w r r' name "n" c s W H I Wf Wp F eq_refl).
  apply (C101_natural junk few qnan pe true r' "n" c s g f f1 f2 M tau); try assumption. reflexivity.
Qed.
Print Assumptions C102_csaps.

(** Grids inside of the parameters: ext does not matter to 'spline'. *)
Lemma spline_inside junk few smoothing k w ext (r r' : registry (icreate R)) name name' (c : curve R) s g :
  wf c -> (2 <= c_size c)%nat -> fit_args junk k w ext c -> weights_nonzero w ->
  reg_find r name = Some (fit_spline junk smoothing k 0 w ext) -> reg_find r' name' = Some (fit_spline junk smoothing k 0 w (XInt 0)) ->
  get_grid junk few c s = Ok g -> grid_inside junk c g ->
  interpolate junk few r name c s = interpolate junk few r' name' c s.
Proof.
  intros W H Ar Nw F F' G Gi. assert (L := t_length junk c W H). destruct Ar as (I & Hw & Hk & (m & Hm) & Hn).
  assert (Ar : fit_args junk k w ext c) by (repeat split; try assumption; try lia; exists m; assumption).
  assert (Ar' : fit_args junk k w (XInt 0) c) by (repeat split; try assumption; try lia; exists XExtrapolate; left; reflexivity).
  assert (In : forall v, In v g -> inside (c_tval junk c) v) by (intros v Hv; unfold inside; rewrite L; apply Gi, Hv).
  destruct (C87_spline junk few smoothing k w ext m r name c s g W H Ar Nw Hm F G (fun _ => In)) as (f & rows & S & -> & Lr & Dr & A).
  destruct (C87_spline junk few smoothing k w (XInt 0) XExtrapolate r' name' c s g W H Ar' Nw (or_introl eq_refl) F' G (fun _ => In)) as (f' & rows' & S' & -> & Lr' & Dr' & A').
  assert (E : rows = rows'); [|rewrite E; reflexivity].
  apply (nth_ext _ _ [] []); [congruence|]. intros i Hi. assert (Li : length (nth i rows []) = c_ndim c) by (apply Dr, nth_In, Hi).
  assert (Li' : length (nth i rows' []) = c_ndim c) by (apply Dr', nth_In; lia).
  apply vec_ext; [congruence|]. intros j. destruct (Nat.lt_ge_cases j (c_ndim c)) as [Hj|Hj]; [|rewrite !nth_overflow by lia; reflexivity].
  destruct (A i j ltac:(lia) Hj) as (B & _). destruct (A' i j ltac:(lia) Hj) as (B' & _). rewrite B, B' by (right; apply In, nth_In; lia).
  apply (the_spline_unique (Z.to_nat k) (c_tval junk c) (map (fun p => nth j p 0) (c_rows c))); [lia|apply S, Hj|apply S', Hj].
Qed.

(** 'spline' of degree one without smoothing: as linear interpolation. *)
Theorem C102_spline_linear : forall junk few smoothing w ext (r : registry (icreate R)) name (c : curve R) s g f f1 f2 M tau,
  wf c -> (2 <= c_size c)%nat -> c_dtype c = DFloat -> fit_args junk 1 w ext c -> weights_nonzero w ->
  reg_find r name = Some (fit_spline junk smoothing 1 0 w ext) -> get_grid junk few c s = Ok g -> grid_inside junk c g ->
  points_of junk c f tau -> twice junk c f f1 f2 M ->
  exists c', interpolate junk few r name c s = Ok c' /\ close_result c c' g f (M * tau ^ 2 / 8).
Proof.
  intros junk few smoothing w ext r name c s g f f1 f2 M tau W H Dt Ar Nw F G Gi P D.
  set (r' := [("s", fit_spline junk smoothing 1 0 w (XInt 0)); ("l", linear junk few)] : registry (icreate R)).
  rewrite (spline_inside junk few smoothing 1 w ext r r' name "s" c s g) by (assumption || reflexivity). destruct Ar as (I & Hw & _).
  rewrite (C87_linear junk few smoothing w (XInt 0) r' r' "s" "l" c s) by (assumption || reflexivity || (left; reflexivity)).
  apply (C100_linear junk few r' "l" c s g f f1 f2 M tau); try assumption; try reflexivity; apply P.
Qed.
Print Assumptions C102_spline_linear.

(** 'spline' of degree three, the default, without smoothing: as the cubic
    spline with the condition 'not-a-knot'. *)
Theorem C102_spline_cubic : forall junk few smoothing w ext (r : registry (icreate R)) name (c : curve R) s g f f1 f2 M tau rho,
  wf c -> (4 <= c_size c)%nat -> c_dtype c = DFloat -> fit_args junk 3 w ext c -> weights_nonzero w ->
  reg_find r name = Some (fit_spline junk smoothing 3 0 w ext) -> get_grid junk few c s = Ok g -> grid_inside junk c g ->
  points_of junk c f tau -> twice junk c f f1 f2 M -> 0 <= rho ->
  (let t k := nth k (c_tval junk c) 0 in let n := c_size c in
   t 1%nat - t 0%nat <= rho * (t 2%nat - t 1%nat) /\ t (n - 1)%nat - t (n - 2)%nat <= rho * (t (n - 2)%nat - t (n - 3)%nat)) ->
  exists c', interpolate junk few r name c s = Ok c' /\ close_result c c' g f ((5 + 3 * rho) / 2 * (M * tau ^ 2)).
Proof.
  intros junk few smoothing w ext r name c s g f f1 f2 M tau rho W H Dt Ar Nw F G Gi P D Rp Rt. assert (H2 : (2 <= c_size c)%nat) by lia.
  set (pe := (fun _ => Raise OtherError) : icreate R).
  set (r' := [("s", fit_spline junk smoothing 3 0 w (XInt 0)); ("c", cubic junk 0 pe (BCName "not-a-knot") true)] : registry (icreate R)).
  rewrite (spline_inside junk few smoothing 3 w ext r r' name "s" c s g) by (assumption || reflexivity). destruct Ar as (I & Hw & _).
  rewrite (C87_cubic junk few 0 pe smoothing w (XInt 0) r' r' "s" "c" c s) by (assumption || reflexivity || (left; reflexivity)).
  apply (C101_not_a_knot junk few 0 pe true r' "c" c s g f f1 f2 M tau rho); try assumption; try reflexivity. intros t n _. exact Rt.
Qed.
Print Assumptions C102_spline_cubic.

(** 'hermite' uses unit tangents whatever the speed: in general, where M1 bounds
    the derivatives of the curve, the error is of the order of tau only. *)
Theorem C102_hermite : forall junk few qnan ex (r : registry (icreate R)) name (c : curve R) s g f f1 f2 M M1 tau,
  wf c -> (2 <= c_size c)%nat -> increasing (c_tval junk c) -> c_dtype c = DFloat ->
  reg_find r name = Some (hermite junk qnan ex) -> get_grid junk few c s = Ok g -> grid_inside junk c g ->
  points_of junk c f tau -> twice junk c f f1 f2 M ->
  (forall i j, (i < c_size c)%nat -> (j < c_ndim c)%nat -> Rabs (f1 j (nth i (c_tval junk c) 0)) <= M1) ->
  exists c', interpolate junk few r name c s = Ok c' /\ close_result c c' g f ((1 + M1) * tau / 4 + M * tau ^ 2 / 4).
Proof.
  intros junk few qnan ex r name c s g f f1 f2 M M1 tau W H I Dt F G Gi P D B1.
  assert (L := t_length junk c W H).
  eexists. split; [apply spline_result with (create := hermite junk qnan ex) (g := g); try assumption; apply hermite_eq; assumption|].
  unfold close_result, c_size. cbn [c_rows]. rewrite Dt, map_cast_float. split; [apply map_length|].
  intros i j Hi Hj. rewrite (nth_map_in _ g i 0 [] Hi).
  destruct (grid_piece junk qnan ex c (frenet1_rows (c_rows c)) (nth i g 0) W H I (Gi _ (nth_In g 0 Hi))) as (k & Hk & Kb & A).
  rewrite A by exact Hj.
  assert (U : forall k, Rabs (nth j (nth k (frenet1_rows (c_rows c)) []) 0) <= 1).
  { intros l. unfold frenet1_rows. rewrite nth_map_unit. eapply Rle_trans; [apply coord_norm|].
    destruct (Rlt_le_dec (/ 100000000) (vnorm (nth l (deriv1 (c_rows c)) []))) as [Q|Q]; [rewrite unit_row_norm by exact Q; lra|rewrite unit_row_near by exact Q; lra]. }
  replace ((1 + M1) * tau / 4 + M * tau ^ 2 / 4) with (M * tau ^ 2 / 4 + tau * (1 + M1) / 4) by field.
  assert (Cl : forall k, (k < c_size c)%nat -> Rabs (nth j (nth k (frenet1_rows (c_rows c)) []) 0 - f1 j (nth k (c_tval junk c) 0)) <= 1 + M1).
  { intros l Hl. pose proof (U l) as A1. pose proof (B1 l j Hl Hj) as A2. apply abs2 in A1. apply abs2 in A2. apply abs2. lra. }
  apply (piece_error' junk c f f1 f2 M tau); try assumption; apply Cl; lia.
Qed.
Print Assumptions C102_hermite.

(** Straight lines of speed other than one are not reproduced (M = 0): (2t, 0) at
    t = 0, 1, 2 becomes (13/32, 0) at t = 1/4 instead of (1/2, 0). *)
Theorem C102_hermite_line_refuted : exists c : curve float,
  wf c /\ c_rows c = [[fz 0; fz 0]; [fz 2; fz 0]; [fz 4; fz 0]] /\ c_t c = Some [fz 0; fz 1; fz 2] /\
  fl [fq 1 4] c "hermite" = Ok [[fq 13 32; fz 0]].
Proof.
  exists (mkCurve [[fz 0; fz 0]; [fz 2; fz 0]; [fz 4; fz 0]] 2 DFloat (Some [fz 0; fz 1; fz 2])).
  split; [wfr|]. split; [reflexivity|]. split; [reflexivity|]. vm_compute. reflexivity.
Qed.
Print Assumptions C102_hermite_line_refuted.

(** Points of a curve of speed one, equally spaced in the parameter: within
    M4 h^4 / 128 + sqrt(ndim) M3 h^3, where M3 and M4 bound the third and fourth
    derivatives, as long as numpy.isclose does not take the steps for zero. *)
Lemma unit_close (p al : list R) h j A : length al = length p -> vnorm p = 1 -> / 50000000 < h -> vnorm al <= A -> A <= / 2 ->
  Rabs (nth j (unit_row (vscale (vadd p al) h)) 0 - nth j p 0) <= 4 * A.
Proof.
  intros La Np Hh Ha Hs. pose proof (vnorm_gap p al ltac:(congruence)) as G. rewrite Np in G. apply abs2 in G.
  set (N := vnorm (vadd p al)) in *. assert (En : vnorm (vscale (vadd p al) h) = h * N) by (rewrite vnorm_scale, Rabs_right by lra; reflexivity).
  assert (N2 : / 2 <= N) by lra. rewrite unit_row_scale, frenet_norm_far by (rewrite En; nra). rewrite En, !nth_vscale, nth_vadd by congruence.
  pose proof (coord_norm p j) as P. pose proof (coord_norm al j) as Q. rewrite Np in P. set (x := nth j p 0) in *. set (y := nth j al 0) in *.
  replace ((x + y) * h * / (h * N) - x) with ((y + x * (1 - N)) / N) by (field; lra).
  apply abs2 in P. apply abs2 in Q. apply abs2.
  assert (Z : - A <= x * (1 - N) <= A) by (split; nra).
  split; apply (Rmult_le_reg_r N); try lra; replace ((y + x * (1 - N)) / N * N) with (y + x * (1 - N)) by (field; lra); nra.
Qed.
Theorem C102_hermite_unit : forall junk few qnan ex (r : registry (icreate R)) name (c : curve R) s g f f1 f2 f3 f4 a h M3 M4,
  wf c -> (3 <= c_size c)%nat -> c_dtype c = DFloat -> sampled c f a h -> (forall i, (i < c_size c)%nat -> nth i (c_tval junk c) 0 = a + h * INR i) ->
  reg_find r name = Some (hermite junk qnan ex) -> get_grid junk few c s = Ok g -> grid_inside junk c g ->
  derivs c a h f f1 -> derivs c a h f1 f2 -> derivs c a h f2 f3 -> derivs c a h f3 f4 -> bounds c a h f3 M3 -> bounds c a h f4 M4 ->
  (forall i, (i < c_size c)%nat -> norm (map (fun j => f1 j (a + h * INR i)) (seq 0 (c_ndim c))) = 1) ->
  let K := sqrt (INR (c_ndim c)) * M3 in
  K * h ^ 2 <= / 2 -> / 50000000 < h ->
  exists c', interpolate junk few r name c s = Ok c' /\ close_result c c' g f (M4 * h ^ 4 / 128 + K * h ^ 3).
Proof.
  intros junk few qnan ex r name c s g f f1 f2 f3 f4 a h M3 M4 W H3 Dt Sm T F G Gi D0 D1 D2 D3 B3 B4 Sp K Hs Hh.
  assert (H : (2 <= c_size c)%nat) by lia. assert (L := t_length junk c W H). assert (D := wf_dims c W). pose proof (proj1 Sm) as Hp.
  assert (I : increasing (c_tval junk c)) by (intros k Hk; rewrite !T, S_INR by lia; lra).
  assert (Hn : (0 < c_ndim c)%nat) by (destruct W as (Q & _); lia).
  eexists. split; [apply spline_result with (create := hermite junk qnan ex) (g := g); try assumption; apply hermite_eq; assumption|].
  unfold close_result, c_size. cbn [c_rows]. rewrite Dt, map_cast_float. split; [apply map_length|].
  intros i j Hi Hj. rewrite (nth_map_in _ g i 0 [] Hi).
  destruct (grid_piece junk qnan ex c (frenet1_rows (c_rows c)) (nth i g 0) W H I (Gi _ (nth_In g 0 Hi))) as (k & Hk & Kb & A).
  rewrite A by exact Hj.
  assert (Cl : forall k, (k < c_size c)%nat -> Rabs (nth j (nth k (frenet1_rows (c_rows c)) []) 0 - f1 j (a + h * INR k)) <= 4 * (K * h ^ 2)).
  { intros l Hl. destruct (row_alpha (c_ndim c) (c_size c) a h M3 f f1 f2 f3 (c_rows c) Hn H3 Hp D eq_refl (proj2 Sm) D0 D1 D2 B3 l Hl) as (al & La & Er & _ & Na).
    unfold frenet1_rows. rewrite nth_map_unit, Er. rewrite <- (vec_nth (c_ndim c) f1 (a + h * INR l) j Hj).
    apply unit_close; try assumption; [rewrite vec_length; exact La|]. rewrite <- norm_vnorm. apply Sp, Hl. }
  rewrite !(proj2 Sm) by lia. rewrite !T in * by lia. rewrite S_INR in *.
  assert (Eh : a + h * (INR k + 1) - (a + h * INR k) = h) by ring.
  assert (Rg : forall l, (l < c_size c)%nat -> a <= a + h * INR l <= a + h * INR (c_size c - 1)).
  { intros l Hl. pose proof (pos_INR l). assert (INR l <= INR (c_size c - 1)) by (apply le_INR; lia). split; nra. }
  pose proof (Rg k ltac:(lia)) as R0. pose proof (Rg (S k) Hk) as R1. rewrite S_INR in R1.
  pose proof (Cl k ltac:(lia)) as C0. pose proof (Cl (S k) Hk) as C1. rewrite S_INR in C1.
  pose proof (hval_error4 a (a + h * INR (c_size c - 1)) (f j) (f1 j) (f2 j) (f3 j) (f4 j) M4 (a + h * INR k) (a + h * (INR k + 1)) (nth i g 0) _ _ (4 * (K * h ^ 2))
    (D0 j Hj) (D1 j Hj) (D2 j Hj) (D3 j Hj) (B4 j Hj) ltac:(lra) Kb ltac:(lra) ltac:(lra) C0 C1) as Q.
  rewrite Eh in *. eapply Rle_trans; [exact Q|]. right. field.
Qed.
Print Assumptions C102_hermite_unit.

(** ** Examples *)

(** The unit circle and its derivatives. *)
Definition circ (k j : nat) (x : R) : R := match (k + 3 * j) mod 4 with 0%nat => cos x | 1%nat => - sin x | 2%nat => - cos x | _ => sin x end.
Lemma circ_deriv k j x : derivable_pt_lim (circ k j) x (circ (S k) j x).
Proof.
  unfold circ. replace ((S k + 3 * j) mod 4)%nat with (S ((k + 3 * j) mod 4) mod 4)%nat by exact (Nat.add_mod_idemp_r 1 (k + 3 * j) 4 ltac:(lia)).
  pose proof (Nat.mod_upper_bound (k + 3 * j) 4 ltac:(lia)) as B. destruct ((k + 3 * j) mod 4)%nat as [|[|[|[|q]]]]; [| | | |lia].
  - apply derivable_pt_lim_cos.
  - apply (derivable_pt_lim_opp sin). apply derivable_pt_lim_sin.
  - replace (sin x) with (- - sin x) by ring. apply (derivable_pt_lim_opp cos). apply derivable_pt_lim_cos.
  - apply derivable_pt_lim_sin.
Qed.
Lemma circ_bound k j x : Rabs (circ k j x) <= 1.
Proof. pose proof (SIN_bound x). pose proof (COS_bound x). unfold circ. apply abs2. destruct ((k + 3 * j) mod 4)%nat as [|[|[|q]]]; lra. Qed.
Lemma circ_period k j x : circ k j (x + 2 * PI) = circ k j x.
Proof. unfold circ. rewrite sin_plus, cos_plus, sin_2PI, cos_2PI. destruct ((k + 3 * j) mod 4)%nat as [|[|[|q]]]; ring. Qed.

(** Once around, five points: within 5/8 (pi/2)^2, and (pi/2)^4 / 12. *)
Definition round : curve R := mkCurve [[1; 0]; [0; 1]; [-1; 0]; [0; -1]; [1; 0]] 2 DFloat (Some [0; PI / 2; PI; 3 * (PI / 2); 2 * PI]).
Example C102_periodic_ex : is_mod Rmod /\ wf round /\ (2 <= c_size round)%nat /\ increasing (c_tval 99 round) /\
  points_of 99 round (circ 0) (PI / 2) /\ twice 99 round (circ 0) (circ 1) (circ 2) 1 /\ fourth 99 round (circ 0) (circ 1) (circ 2) (circ 3) (circ 4) 1 /\
  repeats 99 round (circ 0) /\ repeats 99 round (circ 1) /\
  get_grid 99 (fun _ => true) round (SArr [-5; 1; 8]) = Ok [-5; 1; 8] /\ grid_allowed 99 round None [-5; 1; 8].
Proof.
  pose proof PI_RGT_0 as Pp.
  split; [apply Rmod_is_mod|]. split; [wfr|]. split; [cbn; lia|]. split; [intros [|[|[|[|k]]]] Hk; cbn in *; try lia; lra|]. split.
  { split; [|intros [|[|[|[|k]]]] Hk; cbn in *; try lia; lra].
    intros [|[|[|[|[|i]]]]] [|[|j]] Hi Hj; cbn in Hi, Hj; try lia; cbn;
      rewrite ?cos_0, ?sin_0, ?cos_PI2, ?sin_PI2, ?cos_PI, ?sin_PI, ?cos_3PI2, ?sin_3PI2, ?cos_2PI, ?sin_2PI; reflexivity. }
  split; [intros j Hj; repeat split; intros x _; (apply circ_deriv || apply circ_bound)|].
  split; [intros j Hj; repeat split; intros x _; (apply circ_deriv || apply circ_bound)|].
  split; [intros j v Hj; cbn; rewrite Rminus_0_r; apply circ_period|]. split; [intros j v Hj; cbn; rewrite Rminus_0_r; apply circ_period|].
  split; [apply C53_validation_iff; split; [discriminate|]; intros [|[|i]] Hi; cbn in *; (lra || lia)|exact Logic.I].
Qed.

(** An arc of the circle, three points half a radian apart, for hermite. *)
Definition arc3 : curve R := mkCurve (map (fun i => [cos (/ 2 * INR i); sin (/ 2 * INR i)]) (seq 0 3)) 2 DFloat (Some (map (fun i => / 2 * INR i) (seq 0 3))).
Example C102_hermite_ex : wf arc3 /\ (3 <= c_size arc3)%nat /\ c_dtype arc3 = DFloat /\ sampled arc3 (circ 0) 0 (/ 2) /\
  (forall i, (i < c_size arc3)%nat -> nth i (c_tval 99 arc3) 0 = 0 + / 2 * INR i) /\
  (forall k, derivs arc3 0 (/ 2) (circ k) (circ (S k)) /\ bounds arc3 0 (/ 2) (circ k) 1) /\
  (forall i, (i < c_size arc3)%nat -> norm (map (fun j => circ 1 j (0 + / 2 * INR i)) (seq 0 (c_ndim arc3))) = 1) /\
  sqrt (INR (c_ndim arc3)) * 1 * (/ 2) ^ 2 <= / 2 /\
  get_grid 99 (fun _ => true) arc3 (SArr [/ 4; 1]) = Ok [/ 4; 1] /\ grid_inside 99 arc3 [/ 4; 1].
Proof.
  split. { split; [cbn; lia|]. split; [|intros t Q; injection Q as <-; reflexivity]. intros r Hr. apply in_map_iff in Hr. destruct Hr as (i & <- & _). reflexivity. }
  split; [cbn; lia|]. split; [reflexivity|]. split.
  { split; [lra|]. intros [|[|[|i]]] [|[|j]] Hi Hj; cbn in Hi, Hj; try lia; cbn [arc3 c_rows seq map nth circ Nat.modulo Nat.add Nat.mul Nat.divmod fst snd Nat.sub]; cbn; f_equal; ring. }
  split; [intros [|[|[|i]]] Hi; cbn in Hi; try lia; cbn; ring|].
  split; [intros k; split; intros j Hj x _; (apply circ_deriv || apply circ_bound)|].
  split. { intros i Hi. unfold norm. set (x := 0 + / 2 * INR i). cbn. rewrite Rplus_0_r. replace (- sin x * - sin x + cos x * cos x) with 1; [apply sqrt_1|]. pose proof (sin2_cos2 x) as Q. unfold Rsqr in Q. lra. }
  split. { change (INR (c_ndim arc3)) with 2. assert (sqrt 2 <= 2); [|lra]. apply Rsqr_incr_0_var; [|lra]. unfold Rsqr. rewrite sqrt_sqrt; lra. }
  split; [apply C53_validation_iff; split; [discriminate|]; intros [|i] Hi; cbn in *; [lra|lia]|].
  intros v [<-|[<-|[]]]; cbn; lra.
Qed.

(** The parabola of C101 for the splines of FITPACK and of csaps. *)
Example C102_ex : fit_args 99 1 None (XInt 2) par7 /\ fit_args 99 3 (Some (repeat 2 7)) (XName "raise") par7 /\ weights_nonzero (Some (repeat 2 7)) /\
  weights_fit (Some (repeat 2 7)) (c_size par7) /\ weights_pos (Some (repeat 2 7)) /\ (4 <= c_size par7)%nat /\
  (let t k := nth k (c_tval 99 par7) 0 in t 1%nat - t 0%nat <= 1 * (t 2%nat - t 1%nat) /\ t 6%nat - t 5%nat <= 1 * (t 5%nat - t 4%nat)) /\
  (forall i j, (i < c_size par7)%nat -> (j < c_ndim par7)%nat -> Rabs (sq1 j (nth i (c_tval 99 par7) 0)) <= 3).
Proof.
  destruct C100_linear_ex as (_ & _ & Ic & _).
  assert (Rp : forall l x, Some (repeat 2 7) = Some l -> In x l -> x = 2) by (intros l x Q; injection Q as <-; intros Hx; exact (repeat_spec 7 2 x Hx)).
  split. { split; [exact Ic|]. split; [intros l Q; discriminate|]. split; [lia|]. split; [exists XRaise; left; reflexivity|cbn; lia]. }
  split. { split; [exact Ic|]. split; [intros l Q; injection Q as <-; reflexivity|]. split; [lia|]. split; [exists XRaise; right; reflexivity|cbn; lia]. }
  split; [intros l x Q Hx; rewrite (Rp l x Q Hx); lra|]. split; [intros l Q; injection Q as <-; reflexivity|].
  split; [intros l x Q Hx; rewrite (Rp l x Q Hx); lra|]. split; [cbn; lia|]. split; [cbn; lra|].
  intros [|[|[|[|[|[|[|i]]]]]]] [|[|j]] Hi Hj; cbn in Hi, Hj; try lia; cbn; rewrite Rabs_right; lra.
Qed.
