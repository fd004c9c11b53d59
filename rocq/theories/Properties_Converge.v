(** Property C101: the cubic interpolants of points of a smooth curve, compared with the curve. *)
From Coq Require Import ZArith String List Bool Arith Lia PrimFloat Reals Lra Psatz.
From Verif Require Import Num Py Numeric Curve Vec Geom DiffGeom Registry Interp Splines Splines2 Spec GeomSpec.
From Verif Require Import ListFacts ArrayProofs VecFacts CurveProofs CurveProofs2 CurveProofs3 GeomProofs InterpProofs InterpProofs2 InterpProofs3.
From Verif Require Import SplineProofs SplineProofs2 SplineProofs3 SplineProofs4 SplineProofs5 SplineProofs6 SplineProofs8 SampleProofs SampleProofs3 ConvergeProofs ConvergeProofs2.
From Verif Require Import Properties_Container Properties_Interp Properties_Splines Properties_Splines2 Properties_Sampling.
Import ListNotations.
Local Open Scope string_scope.
Local Open Scope list_scope.
Local Open Scope R_scope.

(** The points of [c] are those of the curve with coordinate functions [f] at
    the parameters of [c], which are at most [tau] apart. *)
Definition points_of (junk : R) (c : curve R) (f : nat -> R -> R) (tau : R) : Prop :=
  (forall i j, (i < c_size c)%nat -> (j < c_ndim c)%nat -> nth j (nth i (c_rows c) []) 0 = f j (nth i (c_tval junk c) 0)) /\
  (forall i, (S i < c_size c)%nat -> nth (S i) (c_tval junk c) 0 - nth i (c_tval junk c) 0 <= tau).
(** Every coordinate has two derivatives between the first and the last parameter, the second bounded by [M]. *)
Definition twice (junk : R) (c : curve R) (f f1 f2 : nat -> R -> R) (M : R) : Prop :=
  let lo := nth 0 (c_tval junk c) 0 in let hi := nth (c_size c - 1) (c_tval junk c) 0 in
  forall j, (j < c_ndim c)%nat -> deriv_on lo hi (f j) (f1 j) /\ deriv_on lo hi (f1 j) (f2 j) /\ bounded_on lo hi (f2 j) M.
(** Every coordinate has four derivatives, the fourth bounded by [M]. *)
Definition fourth (junk : R) (c : curve R) (f f1 f2 f3 f4 : nat -> R -> R) (M : R) : Prop :=
  let lo := nth 0 (c_tval junk c) 0 in let hi := nth (c_size c - 1) (c_tval junk c) 0 in
  forall j, (j < c_ndim c)%nat -> deriv_on lo hi (f j) (f1 j) /\ deriv_on lo hi (f1 j) (f2 j) /\ deriv_on lo hi (f2 j) (f3 j) /\
    deriv_on lo hi (f3 j) (f4 j) /\ bounded_on lo hi (f4 j) M.
(** No grid value is outside of the parameters. *)
Definition grid_inside (junk : R) (c : curve R) (g : list R) : Prop :=
  forall v, In v g -> nth 0 (c_tval junk c) 0 <= v <= nth (c_size c - 1) (c_tval junk c) 0.
(** The result has one point per grid value, each coordinate within [B] of the curve. *)
Definition close_result (c c' : curve R) (g : list R) (f : nat -> R -> R) (B : R) : Prop :=
  c_size c' = length g /\ forall i j, (i < length g)%nat -> (j < c_ndim c)%nat -> Rabs (nth j (nth i (c_rows c') []) 0 - f j (nth i g 0)) <= B.

(** The interpolant in a piece. *)
Lemma grid_piece junk qnan ex (c : curve R) ds v : wf c -> (2 <= c_size c)%nat -> increasing (c_tval junk c) ->
  nth 0 (c_tval junk c) 0 <= v <= nth (c_size c - 1) (c_tval junk c) 0 ->
  exists k, (S k < c_size c)%nat /\ nth k (c_tval junk c) 0 <= v <= nth (S k) (c_tval junk c) 0 /\
    forall j, (j < c_ndim c)%nat -> nth j (hermite_at qnan ex (c_tval junk c) (c_rows c) ds (c_ndim c) v) 0
      = hval (nth (S k) (c_tval junk c) 0 - nth k (c_tval junk c) 0) (nth j (nth k (c_rows c) []) 0) (nth j (nth (S k) (c_rows c) []) 0)
             (nth j (nth k ds []) 0) (nth j (nth (S k) ds []) 0) (v - nth k (c_tval junk c) 0).
Proof.
  intros W H I Hv. assert (L := tval_length junk c W (size_nonempty c ltac:(lia))).
  destruct (locate (c_tval junk c) v (c_size c - 1) I ltac:(lia) ltac:(lia) Hv) as (k & Hk & Kb).
  exists k. split; [lia|]. split; [exact Kb|]. intros j Hj.
  apply hermite_at_eq; try assumption; try lia; [right; split; [lra|]|right; lra|right; lra]. replace (length (c_tval junk c) - 1)%nat with (c_size c - 1)%nat by lia. lra.
Qed.

Section Common.
  Variables (junk : R) (c : curve R) (f f1 f2 : nat -> R -> R) (M tau : R).
  Hypothesis W : wf c.
  Hypothesis H : (2 <= c_size c)%nat.
  Hypothesis I : increasing (c_tval junk c).
  Hypothesis P : points_of junk c f tau.
  Hypothesis D : twice junk c f f1 f2 M.
  Let t k := nth k (c_tval junk c) 0.

  Lemma t_length : length (c_tval junk c) = c_size c.
  Proof. apply (tval_length junk c W (size_nonempty c ltac:(lia))). Qed.
  Lemma t_range k : (k < c_size c)%nat -> t 0%nat <= t k <= t (c_size c - 1)%nat.
  Proof. intros Hk. pose proof t_length. split; apply increasing_le; try assumption; lia. Qed.
  Lemma t_gap k : (S k < c_size c)%nat -> 0 < t (S k) - t k <= tau.
  Proof. intros Hk. pose proof t_length as L. split; [pose proof (I k ltac:(lia)); unfold t; lra|apply P, Hk]. Qed.
  Lemma f2_pos j : (j < c_ndim c)%nat -> 0 <= M.
  Proof. intros Hj. destruct (D j Hj) as (_ & _ & B). pose proof (B (t 0%nat) (t_range 0%nat ltac:(lia))). pose proof (Rabs_pos (f2 j (t 0%nat))). lra. Qed.

  Definition chord (j k : nat) : R := (f j (t (S k)) - f j (t k)) / (t (S k) - t k).
  Lemma chord_close j k : (j < c_ndim c)%nat -> (S k < c_size c)%nat ->
    Rabs (chord j k - f1 j (t k)) <= M * (t (S k) - t k) / 2 /\ Rabs (chord j k - f1 j (t (S k))) <= M * (t (S k) - t k) / 2.
  Proof.
    intros Hj Hk. destruct (D j Hj) as (E0 & E1 & E2). pose proof (t_gap k Hk).
    apply (chord_slope (t 0%nat) (t (c_size c - 1)%nat) (f j) (f1 j) (f2 j) M); try assumption; [apply t_range; lia|lra|apply t_range, Hk].
  Qed.
  Lemma chord_change j k : (j < c_ndim c)%nat -> (S (S k) < c_size c)%nat -> Rabs (chord j (S k) - chord j k) <= M * tau.
  Proof.
    intros Hj Hk. destruct (chord_close j k Hj ltac:(lia)) as [_ A]. destruct (chord_close j (S k) Hj Hk) as [B _].
    pose proof (t_gap k ltac:(lia)) as G. pose proof (t_gap (S k) Hk) as G'. pose proof (f2_pos j Hj) as M0.
    pose proof (Rmult_le_compat_l M (t (S k) - t k) tau M0 ltac:(lra)). pose proof (Rmult_le_compat_l M (t (S (S k)) - t (S k)) tau M0 ltac:(lra)).
    apply abs2 in A. apply abs2 in B. apply abs2. lra.
  Qed.

  (** A piece whose derivatives are within B of the slope of the chord. *)
  Lemma piece_error j k v d0 d1 B : (j < c_ndim c)%nat -> (S k < c_size c)%nat -> t k <= v <= t (S k) ->
    Rabs (d0 - chord j k) <= B -> Rabs (d1 - chord j k) <= B ->
    Rabs (hval (t (S k) - t k) (nth j (nth k (c_rows c) []) 0) (nth j (nth (S k) (c_rows c) []) 0) d0 d1 (v - t k) - f j v) <= M * tau ^ 2 / 8 + tau * B / 4.
  Proof.
    intros Hj Hk Hv A0 A1. pose proof (t_gap k Hk) as G. destruct (D j Hj) as (E0 & E1 & E2). pose proof (f2_pos j Hj) as M0.
    rewrite !(proj1 P) by lia. fold (t k) (t (S k)).
    eapply Rle_trans; [apply (hval_error (t 0%nat) (t (c_size c - 1)%nat) (f j) (f1 j) (f2 j) M (t k) (t (S k)) v d0 d1 B); try assumption; [apply t_range; lia|apply t_range, Hk|lra]|].
    assert (B0 : 0 <= B) by (pose proof (Rabs_pos (d0 - chord j k)); lra).
    assert (Q : (t (S k) - t k) ^ 2 <= tau ^ 2) by (apply pow_incr; lra). apply (Rmult_le_compat_l M) in Q; [|exact M0].
    pose proof (Rmult_le_compat_r B _ _ B0 (proj2 G)). lra.
  Qed.
  (** The same if they are within E of the derivatives of the curve. *)
  Lemma piece_error' j k v d0 d1 E : (j < c_ndim c)%nat -> (S k < c_size c)%nat -> t k <= v <= t (S k) ->
    Rabs (d0 - f1 j (t k)) <= E -> Rabs (d1 - f1 j (t (S k))) <= E ->
    Rabs (hval (t (S k) - t k) (nth j (nth k (c_rows c) []) 0) (nth j (nth (S k) (c_rows c) []) 0) d0 d1 (v - t k) - f j v) <= M * tau ^ 2 / 4 + tau * E / 4.
  Proof.
    intros Hj Hk Hv A0 A1. pose proof (t_gap k Hk) as G. pose proof (f2_pos j Hj) as M0. destruct (chord_close j k Hj Hk) as [C0 C1].
    pose proof (Rmult_le_compat_l M _ _ M0 (proj2 G)) as Q.
    replace (M * tau ^ 2 / 4 + tau * E / 4) with (M * tau ^ 2 / 8 + tau * (E + M * tau / 2) / 4) by field.
    apply abs2 in A0. apply abs2 in A1. apply abs2 in C0. apply abs2 in C1.
    apply piece_error; try assumption; apply abs2; lra.
  Qed.
End Common.

(** ** C101 Convergence *)

(** pchip: within 3/8 M tau^2. *)
Theorem C101_pchip : forall junk few qnan ex (r : registry (icreate R)) name (c : curve R) s g f f1 f2 M tau,
  wf c -> (2 <= c_size c)%nat -> increasing (c_tval junk c) -> c_dtype c = DFloat ->
  reg_find r name = Some (pchip junk qnan ex) -> get_grid junk few c s = Ok g -> grid_inside junk c g ->
  points_of junk c f tau -> twice junk c f f1 f2 M ->
  exists c', interpolate junk few r name c s = Ok c' /\ close_result c c' g f (3 / 8 * (M * tau ^ 2)).
Proof.
  intros junk few qnan ex r name c s g f f1 f2 M tau W H I Dt F G Gi P D.
  assert (L := t_length junk c W H).
  eexists. split; [apply spline_result with (create := pchip junk qnan ex) (g := g); try assumption; apply pchip_eq; assumption|].
  unfold close_result, c_size. cbn [c_rows]. rewrite Dt, map_cast_float. split; [apply map_length|].
  intros i j Hi Hj. rewrite (nth_map_in _ g i 0 [] Hi).
  destruct (grid_piece junk qnan ex c (pchip_rows (c_tval junk c) (c_rows c) (c_ndim c)) (nth i g 0) W H I (Gi _ (nth_In g 0 Hi))) as (k & Hk & Kb & A).
  rewrite A by exact Hj. rewrite !pchip_rows_nth by lia.
  assert (Sl : forall k, (S k < c_size c)%nat -> slope_at (c_tval junk c) (column (c_rows c) j) k = chord junk c f j k).
  { intros l Hl. unfold slope_at, step_at, chord. cbn [nsub ndiv n0 RNum]. rewrite !column_nth, !(proj1 P) by (unfold c_size in *; lia). reflexivity. }
  assert (M0 := f2_pos junk c f f1 f2 M W H I D j Hj).
  assert (T0 : 0 <= tau) by (pose proof (t_gap junk c f tau W H I P 0%nat ltac:(lia)); lra).
  destruct (pchip_close (c_tval junk c) (column (c_rows c) j) (M * tau) k I ltac:(lia)) as [A0 A1].
  { apply Rmult_le_pos; assumption. }
  { intros l Hl. rewrite !Sl by lia. apply (chord_change junk c f f1 f2 M tau); try assumption. lia. }
  rewrite Sl in A0, A1 by exact Hk.
  replace (3 / 8 * (M * tau ^ 2)) with (M * tau ^ 2 / 8 + tau * (M * tau) / 4) by field.
  apply (piece_error junk c f f1 f2 M tau); assumption.
Qed.
Print Assumptions C101_pchip.

(** akima, at least three points: within M tau^2 / 2. *)
Theorem C101_akima : forall junk few qnan empty (r : registry (icreate R)) name (c : curve R) s g f f1 f2 M tau,
  wf c -> (3 <= c_size c)%nat -> increasing (c_tval junk c) -> c_dtype c = DFloat ->
  reg_find r name = Some (akima junk qnan empty) -> get_grid junk few c s = Ok g -> grid_inside junk c g ->
  points_of junk c f tau -> twice junk c f f1 f2 M ->
  exists c', interpolate junk few r name c s = Ok c' /\ close_result c c' g f (M * tau ^ 2 / 2).
Proof.
  intros junk few qnan empty r name c s g f f1 f2 M tau W H I Dt F G Gi P D.
  assert (H2 : (2 <= c_size c)%nat) by lia. assert (L := t_length junk c W H2).
  eexists. split; [apply spline_result with (create := akima junk qnan empty) (g := g); try assumption; apply akima_eq; assumption|].
  unfold close_result, c_size. cbn [c_rows]. rewrite Dt, map_cast_float. split; [apply map_length|].
  intros i j Hi Hj. rewrite (nth_map_in _ g i 0 [] Hi).
  destruct (grid_piece junk qnan false c (akima_rows empty (c_tval junk c) (c_rows c) (c_ndim c)) (nth i g 0) W H2 I (Gi _ (nth_In g 0 Hi))) as (k & Hk & Kb & A).
  rewrite A by exact Hj.
  destruct (akima_close (c_tval junk c) (c_rows c) empty (c_ndim c) j k (M * tau) I ltac:(lia) ltac:(unfold c_size in L; lia) Hj ltac:(lia)) as [A0 A1].
  { intros l Hl. rewrite !(proj1 P) by lia. apply (chord_change junk c f f1 f2 M tau); try assumption. lia. }
  rewrite !(proj1 P) in A0, A1 by lia.
  replace (M * tau ^ 2 / 2) with (M * tau ^ 2 / 8 + tau * (3 / 2 * (M * tau)) / 4) by field.
  apply (piece_error junk c f f1 f2 M tau); assumption.
Qed.
Print Assumptions C101_akima.

(** Cubic splines: the derivatives are those of the spline equations. *)
Lemma cubic_sys junk (c : curve R) b bcs j : wf c -> (2 <= c_size c)%nat -> increasing (c_tval junk c) ->
  validate_bc (c_ndim c) b = Ok bcs -> bc_ok (c_ndim c) b -> (j < c_ndim c)%nat ->
  let ds := cubic_rows (fst bcs) (snd bcs) (c_tval junk c) (c_rows c) (c_ndim c) in
  exists d, system_eq (start_of b j) (end_of b j) (c_tval junk c) (column (c_rows c) j) d /\
    forall k, (k < c_size c)%nat -> nth j (nth k ds []) 0 = d k.
Proof.
  intros W H I V Ok Hj ds. assert (L := t_length junk c W H). destruct (validate_ok (c_ndim c) b) as [V1 _]. destruct (V1 Ok) as (x & E & C).
  rewrite V in E. injection E as <-. destruct (C j) as [C0 C1].
  exists (deriv_at (start_of b j) (end_of b j) (c_tval junk c) (column (c_rows c) j)). split; [apply deriv_at_ok; [exact I|lia]|].
  intros k Hk. unfold ds. rewrite cubic_rows_nth by lia. rewrite C0, C1. reflexivity.
Qed.

(** The condition at one end with respect to the derivative p of the curve
    there, if derivatives within E are wanted. *)
Definition end_within (M tau E : R) (b : bc1 R) (p : R) : Prop :=
  match b with
  | D1 v => Rabs (v - p) <= E
  | D2 v => (3 * M + Rabs v) * tau / 2 <= E
  | Nak => False
  end.

(** First or second derivatives prescribed at the ends. *)
Theorem C101_cubic : forall junk few qnan periodic b ex (r : registry (icreate R)) name (c : curve R) s g f f1 f2 M tau E,
  wf c -> (2 <= c_size c)%nat -> increasing (c_tval junk c) -> c_dtype c = DFloat -> is_periodic b = false -> bc_ok (c_ndim c) b ->
  reg_find r name = Some (cubic junk qnan periodic b ex) -> get_grid junk few c s = Ok g -> grid_inside junk c g ->
  points_of junk c f tau -> twice junk c f f1 f2 M ->
  3 / 2 * M * tau <= E ->
  (forall j, (j < c_ndim c)%nat -> end_within M tau E (start_of b j) (f1 j (nth 0 (c_tval junk c) 0)) /\
                                   end_within M tau E (end_of b j) (f1 j (nth (c_size c - 1) (c_tval junk c) 0))) ->
  exists c', interpolate junk few r name c s = Ok c' /\ close_result c c' g f (M * tau ^ 2 / 4 + tau * E / 4).
Proof.
  intros junk few qnan periodic b ex r name c s g f f1 f2 M tau E W H I Dt Np Bk F G Gi P D He Ends.
  assert (L := t_length junk c W H).
  destruct (validate_ok (c_ndim c) b) as [V1 _]. destruct (V1 Bk) as (bcs & V & _).
  eexists. split; [apply spline_result with (create := cubic junk qnan periodic b ex) (g := g); try assumption; apply (cubic_eq junk qnan periodic b ex c bcs); assumption|].
  unfold close_result, c_size. cbn [c_rows]. rewrite Dt, map_cast_float. split; [apply map_length|].
  intros i j Hi Hj. rewrite (nth_map_in _ g i 0 [] Hi).
  destruct (grid_piece junk qnan ex c (cubic_rows (fst bcs) (snd bcs) (c_tval junk c) (c_rows c) (c_ndim c)) (nth i g 0) W H I (Gi _ (nth_In g 0 Hi))) as (k & Hk & Kb & A).
  rewrite A by exact Hj. destruct (cubic_sys junk c b bcs j W H I V Bk Hj) as (d & Sys & Ed). rewrite !Ed by lia.
  destruct (Ends j Hj) as [En0 En1].
  assert (Cl : forall k, (k < length (c_tval junk c))%nat -> Rabs (d k - f1 j (nth k (c_tval junk c) 0)) <= E).
  { apply (derivs_close (start_of b j) (end_of b j) (c_tval junk c) (column (c_rows c) j) (fun k => f1 j (nth k (c_tval junk c) 0)) M tau); try assumption; try lia.
    - intros l Hl. apply (t_gap junk c f tau); try assumption. lia.
    - intros l Hl. rewrite !column_nth, !(proj1 P) by (unfold c_size in *; lia). apply (chord_close junk c f f1 f2 M tau); try assumption. lia.
    - intros Q. rewrite Q in En0. exact En0.
    - intros Q. rewrite Q in En1. exact En1.
    - destruct (start_of b j); [destruct En0|exact En0|exact En0].
    - rewrite L. destruct (end_of b j); [destruct En1|exact En1|exact En1]. }
  apply (piece_error' junk c f f1 f2 M tau); try assumption; apply Cl; lia.
Qed.
Print Assumptions C101_cubic.

(** The default, 'natural': within 5/8 M tau^2. *)
Theorem C101_natural : forall junk few qnan periodic ex (r : registry (icreate R)) name (c : curve R) s g f f1 f2 M tau,
  wf c -> (2 <= c_size c)%nat -> increasing (c_tval junk c) -> c_dtype c = DFloat ->
  reg_find r name = Some (cubic junk qnan periodic (BCName "natural") ex) -> get_grid junk few c s = Ok g -> grid_inside junk c g ->
  points_of junk c f tau -> twice junk c f f1 f2 M ->
  exists c', interpolate junk few r name c s = Ok c' /\ close_result c c' g f (5 / 8 * (M * tau ^ 2)).
Proof.
  intros junk few qnan periodic ex r name c s g f f1 f2 M tau W H I Dt F G Gi P D.
  replace (5 / 8 * (M * tau ^ 2)) with (M * tau ^ 2 / 4 + tau * (3 / 2 * M * tau) / 4) by field.
  apply (C101_cubic junk few qnan periodic (BCName "natural") ex r name c s g f f1 f2 M tau); try assumption; try reflexivity; [left; reflexivity|lra|].
  intros j Hj. cbn [start_of end_of cond_of]. destruct (string_dec "natural" "natural") as [_|N]; [|contradiction]. cbn [end_within]. rewrite Rabs_R0. lra.
Qed.
Print Assumptions C101_natural.

(** 'clamped', where the derivatives of the curve at its ends are at most M1:
    the error is only of the order of tau. *)
Theorem C101_clamped : forall junk few qnan periodic ex (r : registry (icreate R)) name (c : curve R) s g f f1 f2 M M1 tau,
  wf c -> (2 <= c_size c)%nat -> increasing (c_tval junk c) -> c_dtype c = DFloat ->
  reg_find r name = Some (cubic junk qnan periodic (BCName "clamped") ex) -> get_grid junk few c s = Ok g -> grid_inside junk c g ->
  points_of junk c f tau -> twice junk c f f1 f2 M ->
  (forall j, (j < c_ndim c)%nat -> Rabs (f1 j (nth 0 (c_tval junk c) 0)) <= M1 /\ Rabs (f1 j (nth (c_size c - 1) (c_tval junk c) 0)) <= M1) ->
  exists c', interpolate junk few r name c s = Ok c' /\ close_result c c' g f (M1 * tau / 4 + 5 / 8 * (M * tau ^ 2)).
Proof.
  intros junk few qnan periodic ex r name c s g f f1 f2 M M1 tau W H I Dt F G Gi P D B1.
  replace (M1 * tau / 4 + 5 / 8 * (M * tau ^ 2)) with (M * tau ^ 2 / 4 + tau * (M1 + 3 / 2 * M * tau) / 4) by field.
  destruct (le_lt_dec (c_ndim c) 0) as [Z|Z].
  { destruct W as (Wn & _). lia. }
  assert (M1p : 0 <= M1) by (destruct (B1 0%nat Z) as [Q _]; pose proof (Rabs_pos (f1 0%nat (nth 0 (c_tval junk c) 0))); lra).
  assert (M0 := f2_pos junk c f f1 f2 M W H I D 0%nat Z).
  assert (T0 : 0 <= tau) by (pose proof (t_gap junk c f tau W H I P 0%nat ltac:(lia)); lra).
  assert (Mt : 0 <= M * tau) by (apply Rmult_le_pos; assumption).
  apply (C101_cubic junk few qnan periodic (BCName "clamped") ex r name c s g f f1 f2 M tau); try assumption; try reflexivity; [right; left; reflexivity|lra|].
  intros j Hj. destruct (B1 j Hj) as [Q0 Q1]. cbn [start_of end_of cond_of]. destruct (string_dec "clamped" "natural") as [N|_]; [discriminate|].
  destruct (string_dec "clamped" "clamped") as [_|N]; [|contradiction]. cbn [end_within]. unfold Rminus. rewrite !Rplus_0_l, !Rabs_Ropp. lra.
Qed.
Print Assumptions C101_clamped.

(** 'not-a-knot', where the first and the last gap are at most rho times the gap
    next to them: within (5 + 3 rho)/2 M tau^2. *)
Theorem C101_not_a_knot : forall junk few qnan periodic ex (r : registry (icreate R)) name (c : curve R) s g f f1 f2 M tau rho,
  wf c -> (2 <= c_size c)%nat -> increasing (c_tval junk c) -> c_dtype c = DFloat ->
  reg_find r name = Some (cubic junk qnan periodic (BCName "not-a-knot") ex) -> get_grid junk few c s = Ok g -> grid_inside junk c g ->
  points_of junk c f tau -> twice junk c f f1 f2 M -> 0 <= rho ->
  (let t k := nth k (c_tval junk c) 0 in let n := c_size c in
   (3 <= n)%nat -> t 1%nat - t 0%nat <= rho * (t 2%nat - t 1%nat) /\ t (n - 1)%nat - t (n - 2)%nat <= rho * (t (n - 2)%nat - t (n - 3)%nat)) ->
  exists c', interpolate junk few r name c s = Ok c' /\ close_result c c' g f ((5 + 3 * rho) / 2 * (M * tau ^ 2)).
Proof.
  intros junk few qnan periodic ex r name c s g f f1 f2 M tau rho W H I Dt F G Gi P D Rp Rt.
  assert (L := t_length junk c W H). set (b := BCName "not-a-knot" : bctype R).
  assert (Bk : bc_ok (c_ndim c) b) by (right; right; left; reflexivity).
  assert (Np : is_periodic b = false) by reflexivity.
  destruct (validate_ok (c_ndim c) b) as [V1 _]. destruct (V1 Bk) as (bcs & V & _).
  eexists. split; [apply spline_result with (create := cubic junk qnan periodic b ex) (g := g); try assumption; apply (cubic_eq junk qnan periodic b ex c bcs); assumption|].
  unfold close_result, c_size. cbn [c_rows]. rewrite Dt, map_cast_float. split; [apply map_length|].
  intros i j Hi Hj. rewrite (nth_map_in _ g i 0 [] Hi).
  destruct (grid_piece junk qnan ex c (cubic_rows (fst bcs) (snd bcs) (c_tval junk c) (c_rows c) (c_ndim c)) (nth i g 0) W H I (Gi _ (nth_In g 0 Hi))) as (k & Hk & Kb & A).
  rewrite A by exact Hj. destruct (cubic_sys junk c b bcs j W H I V Bk Hj) as (d & Sys & Ed). rewrite !Ed by lia.
  assert (Cl : forall k, (k < length (c_tval junk c))%nat -> Rabs (d k - f1 j (nth k (c_tval junk c) 0)) <= (9 + 6 * rho) * M * tau).
  { apply (nak_close (start_of b j) (end_of b j) (c_tval junk c) (column (c_rows c) j) (fun k => f1 j (nth k (c_tval junk c) 0)) M tau); try assumption; try lia; try reflexivity.
    - intros l Hl. apply (t_gap junk c f tau); try assumption. lia.
    - intros l Hl. rewrite !column_nth, !(proj1 P) by (unfold c_size in *; lia). apply (chord_close junk c f f1 f2 M tau); try assumption. lia.
    - rewrite L. intros H3. destruct (Rt H3) as [R0 R1]. split; [exact R0|].
      replace (S (c_size c - 2)) with (c_size c - 1)%nat by lia. replace (S (c_size c - 3)) with (c_size c - 2)%nat by lia. exact R1. }
  replace ((5 + 3 * rho) / 2 * (M * tau ^ 2)) with (M * tau ^ 2 / 4 + tau * ((9 + 6 * rho) * M * tau) / 4) by field.
  apply (piece_error' junk c f f1 f2 M tau); try assumption; apply Cl; lia.
Qed.
Print Assumptions C101_not_a_knot.

(** Fourth order: if at each end the first or the second derivative of the
    curve itself is prescribed, the spline is within M tau^4 / 12, M a bound of
    the fourth derivatives. *)
Theorem C101_fourth : forall junk few qnan periodic b ex (r : registry (icreate R)) name (c : curve R) s g f f1 f2 f3 f4 M tau,
  wf c -> (2 <= c_size c)%nat -> increasing (c_tval junk c) -> c_dtype c = DFloat -> is_periodic b = false -> bc_ok (c_ndim c) b ->
  reg_find r name = Some (cubic junk qnan periodic b ex) -> get_grid junk few c s = Ok g -> grid_inside junk c g ->
  points_of junk c f tau -> fourth junk c f f1 f2 f3 f4 M ->
  (let lo := nth 0 (c_tval junk c) 0 in let hi := nth (c_size c - 1) (c_tval junk c) 0 in
   forall j, (j < c_ndim c)%nat -> (start_of b j = D1 (f1 j lo) \/ start_of b j = D2 (f2 j lo)) /\ (end_of b j = D1 (f1 j hi) \/ end_of b j = D2 (f2 j hi))) ->
  exists c', interpolate junk few r name c s = Ok c' /\ close_result c c' g f (M * tau ^ 4 / 12).
Proof.
  intros junk few qnan periodic b ex r name c s g f f1 f2 f3 f4 M tau W H I Dt Np Bk F G Gi P D Ends.
  assert (L := t_length junk c W H).
  destruct (validate_ok (c_ndim c) b) as [V1 _]. destruct (V1 Bk) as (bcs & V & _).
  eexists. split; [apply spline_result with (create := cubic junk qnan periodic b ex) (g := g); try assumption; apply (cubic_eq junk qnan periodic b ex c bcs); assumption|].
  unfold close_result, c_size. cbn [c_rows]. rewrite Dt, map_cast_float. split; [apply map_length|].
  intros i j Hi Hj. rewrite (nth_map_in _ g i 0 [] Hi).
  destruct (grid_piece junk qnan ex c (cubic_rows (fst bcs) (snd bcs) (c_tval junk c) (c_rows c) (c_ndim c)) (nth i g 0) W H I (Gi _ (nth_In g 0 Hi))) as (k & Hk & Kb & A).
  rewrite A by exact Hj. destruct (cubic_sys junk c b bcs j W H I V Bk Hj) as (d & Sys & Ed). rewrite !Ed by lia.
  destruct (D j Hj) as (E0 & E1 & E2 & E3 & E4). destruct (Ends j Hj) as [En0 En1].
  assert (Cl : forall k, (k < length (c_tval junk c))%nat -> Rabs (d k - f1 j (nth k (c_tval junk c) 0)) <= 7 / 24 * M * tau ^ 3).
  { apply (exact_close (start_of b j) (end_of b j) (c_tval junk c) (column (c_rows c) j) (f j) (f1 j) (f2 j) (f3 j) (f4 j) M tau); try assumption; rewrite ?L; try assumption; try lia.
    - intros l Hl. rewrite column_nth by (unfold c_size in *; lia). apply P; assumption.
    - intros l Hl. apply P. exact Hl.
    - destruct En0 as [-> | ->]; reflexivity.
    - destruct En1 as [-> | ->]; reflexivity. }
  pose proof (t_gap junk c f tau W H I P k Hk) as Gp. cbv beta in Gp. rewrite !(proj1 P) by lia.
  assert (Xl := t_range junk c W H I). cbv beta in Xl.
  assert (M0 : 0 <= M) by (pose proof (E4 (nth 0 (c_tval junk c) 0) (Xl 0%nat ltac:(lia))); pose proof (Rabs_pos (f4 j (nth 0 (c_tval junk c) 0))); lra).
  eapply Rle_trans; [apply (hval_error4 (nth 0 (c_tval junk c) 0) (nth (c_size c - 1) (c_tval junk c) 0) (f j) (f1 j) (f2 j) (f3 j) (f4 j) M _ _ _ _ _ (7 / 24 * M * tau ^ 3));
    try assumption; [apply Xl; lia|apply Xl, Hk|lra|apply Cl; lia|apply Cl; lia]|].
  set (h := nth (S k) (c_tval junk c) 0 - nth k (c_tval junk c) 0) in *.
  assert (Q : h ^ 4 <= tau ^ 4) by (apply pow_incr; lra). apply (Rmult_le_compat_l M) in Q; [|exact M0].
  assert (T3 : 0 <= 7 / 24 * M * tau ^ 3) by (apply Rmult_le_pos; [lra|apply pow_le; lra]).
  pose proof (Rmult_le_compat_r _ _ _ T3 (proj2 Gp)) as Q'. replace (tau * (7 / 24 * M * tau ^ 3)) with (7 / 24 * (M * tau ^ 4)) in Q' by ring.
  assert (0 <= M * tau ^ 4) by (apply Rmult_le_pos; [exact M0|apply pow_le; lra]). lra.
Qed.
Print Assumptions C101_fourth.

(** 'clamped' splines do not even reproduce straight lines (M = 0). *)
Theorem C101_clamped_line_refuted : exists c : curve float,
  wf c /\ c_rows c = [[fz 0; fz 0]; [fz 1; fz 1]] /\ c_t c = Some [fz 0; fz 1] /\ cl [fq 1 4] c "clamped" = Ok [[fq 5 32; fq 5 32]].
Proof.
  exists (mkCurve [[fz 0; fz 0]; [fz 1; fz 1]] 2 DFloat (Some [fz 0; fz 1])).
  split; [wfr|]. split; [reflexivity|]. split; [reflexivity|]. vm_compute. reflexivity.
Qed.
Print Assumptions C101_clamped_line_refuted.

(** ** Examples *)

(** The parabola through seven parameters a quarter apart: the second derivative
    is 2, so that pchip is within 3/64, akima within 1/16, the natural spline
    within 5/64 and the not-a-knot spline within 1/2. *)
Example C101_ex : wf par7 /\ (3 <= c_size par7)%nat /\ increasing (c_tval 99 par7) /\ c_dtype par7 = DFloat /\
  points_of 99 par7 sq (/ 4) /\ twice 99 par7 sq sq1 sq2 2 /\
  get_grid 99 (fun _ => true) par7 (SArr [/ 8; 1]) = Ok [/ 8; 1] /\ grid_inside 99 par7 [/ 8; 1] /\
  (forall j, (j < 2)%nat -> Rabs (sq1 j 0) <= 3 /\ Rabs (sq1 j (6 / 4)) <= 3) /\
  end_within 2 (/ 4) (3 / 4) (start_of (BCPair (BDeriv 1 [1; / 2]) (BName "natural")) 1) (sq1 1 0) /\
  end_within 2 (/ 4) (3 / 4) (end_of (BCPair (BDeriv 1 [1; / 2]) (BName "natural")) 1) (sq1 1 (6 / 4)).
Proof.
  destruct C100_linear_ex as (A & B & C & D & E & F).
  split; [exact A|]. split; [cbn; lia|]. split; [exact C|]. split; [reflexivity|]. split; [split; assumption|].
  split; [intros j _; apply E|]. split.
  { apply C53_validation_iff. split; [discriminate|]. intros [|i] Hi; cbn in *; [lra|lia]. }
  split.
  { change (grid_inside 99 par7 [/ 8; 1]) with (forall v, In v [/ 8; 1] -> / 4 * INR 0 <= v <= / 4 * INR 6).
    replace (INR 6) with 6 by (cbn; ring). change (INR 0) with 0. intros v [<-|[<-|[]]]; lra. }
  split.
  { intros [|[|j]] Hj; [| |lia]; cbn [sq1]; rewrite !Rabs_right by lra; lra. }
  cbn [start_of end_of cond_of]. destruct (Z.eq_dec 1 1) as [_|N]; [|contradiction]. destruct (string_dec "natural" "natural") as [_|N]; [|contradiction].
  cbn [end_within nth sq1]. rewrite Rabs_R0. split; [|lra]. rewrite Rabs_right; lra.
Qed.

(** The quartic (x, x^4) at 0, 1/2, 1, with the derivative at the start and the
    second derivative at the end prescribed: within 24 (1/2)^4 / 12 = 1/8. *)
Definition quart3 : curve R := mkCurve [[0; 0]; [/ 2; / 16]; [1; 1]] 2 DFloat (Some [0; / 2; 1]).
Definition qu (k j : nat) (x : R) : R :=
  match j, k with
  | 0%nat, 0%nat => x | 0%nat, 1%nat => 1 | 0%nat, _ => 0
  | _, 0%nat => x ^ 4 | _, 1%nat => 4 * x ^ 3 | _, 2%nat => 12 * x ^ 2 | _, 3%nat => 24 * x | _, _ => 24
  end.
Lemma qu_deriv k j x : (k < 4)%nat -> derivable_pt_lim (qu k j) x (qu (S k) j x).
Proof.
  assert (Pw : forall K i, derivable_pt_lim (fun x => K * x ^ i) x (K * (INR i * x ^ pred i))).
  { intros K i. apply (derivable_pt_lim_scal (fun x => x ^ i)). apply derivable_pt_lim_pow. }
  intros Hk. destruct j as [|j].
  - destruct k as [|[|[|[|k]]]]; [apply derivable_pt_lim_id|apply derivable_pt_lim_const|apply derivable_pt_lim_const|apply derivable_pt_lim_const|lia].
  - destruct k as [|[|[|[|k]]]]; [| | | |lia]; cbn [qu].
    + pose proof (derivable_pt_lim_pow x 4) as Q. replace (INR 4) with 4 in Q by (cbn; ring). exact Q.
    + replace (12 * x ^ 2) with (4 * (INR 3 * x ^ 2)) by (cbn [INR]; ring). apply (Pw 4 3%nat).
    + replace (24 * x) with (12 * (INR 2 * x ^ 1)) by (cbn [INR]; ring). apply (Pw 12 2%nat).
    + replace 24 with (24 * (INR 1 * x ^ 0)) by (cbn [INR]; ring).
      apply (derivable_pt_lim_ext (fun x => 24 * x ^ 1)); [intros y; cbn [qu]; ring|apply (Pw 24 1%nat)].
Qed.
Example C101_fourth_ex : let b := BCPair (BDeriv 1 [1; 0]) (BDeriv 2 [0; 12]) in
  wf quart3 /\ (2 <= c_size quart3)%nat /\ increasing (c_tval 99 quart3) /\ is_periodic b = false /\ bc_ok (c_ndim quart3) b /\
  points_of 99 quart3 (qu 0) (/ 2) /\ fourth 99 quart3 (qu 0) (qu 1) (qu 2) (qu 3) (qu 4) 24 /\
  get_grid 99 (fun _ => true) quart3 (SArr [/ 4; 1]) = Ok [/ 4; 1] /\ grid_inside 99 quart3 [/ 4; 1] /\
  (forall j, (j < 2)%nat -> start_of b j = D1 (qu 1 j 0) /\ end_of b j = D2 (qu 2 j 1)).
Proof.
  cbv zeta. split; [wfr|]. split; [cbn; lia|]. split; [intros [|[|k]] Hk; cbn in *; try lia; lra|]. split; [reflexivity|].
  split; [cbn; intuition|]. split.
  { split; [intros [|[|[|i]]] [|[|j]] Hi Hj; cbn in Hi, Hj; try lia; cbn; lra|intros [|[|i]] Hi; cbn in *; try lia; lra]. }
  split.
  { intros j Hj. repeat (split; [intros x _; apply qu_deriv; lia|]). intros x _. destruct j as [|j]; cbn [qu]; [rewrite Rabs_R0; lra|rewrite Rabs_right; lra]. }
  split; [apply C53_validation_iff; split; [discriminate|]; intros [|i] Hi; cbn in *; [lra|lia]|].
  split; [intros v [<-|[<-|[]]]; cbn; lra|].
  intros [|[|j]] Hj; [| |lia]; cbn; split; f_equal; ring.
Qed.
