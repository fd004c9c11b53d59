(** Properties C67-C69: the 'hermite', 'pchip' and 'spline' interpolators. *)
From Coq Require Import ZArith String List Bool Arith Lia PrimFloat Reals Lra Psatz.
From Verif Require Import Num Py Numeric Curve Vec Geom DiffGeom Intersect Registry Interp Splines Spec GeomSpec.
From Verif Require Import ListFacts ArrayProofs VecFacts CurveProofs CurveProofs2 CurveProofs3 GeomProofs GeomProofs2 DiffGeomProofs DiffGeomProofs2.
From Verif Require Import InterpProofs InterpProofs2 InterpProofs3 SplineProofs SplineProofs2 Properties_Container Properties_Interp.
Import ListNotations.
Local Open Scope string_scope.
Local Open Scope list_scope.
Local Open Scope R_scope.

(** ** C67 Hermite interpolation *)

(** The interpolator can be created exactly for curves with at least two points
    and strictly increasing parameters; otherwise InterpolationError, whatever
    the grid. *)
Theorem C67_hermite_iff : forall junk few qnan ex (r : registry (icreate R)) name (c : curve R),
  wf c -> reg_find r name = Some (hermite junk qnan ex) ->
  ((exists f, get_interpolator r name c = Ok f) <-> (2 <= c_size c)%nat /\ increasing (c_tval junk c)) /\
  (~ ((2 <= c_size c)%nat /\ increasing (c_tval junk c)) -> forall s, interpolate junk few r name c s = Raise InterpolationError).
Proof.
  intros junk few qnan ex r name c W F. unfold interpolate, get_interpolator. rewrite F. split; [split|].
  - intros [f E]. destruct (le_lt_dec 2 (c_size c)) as [A|A].
    + split; [assumption|]. destruct (existsb (fun d => nleb d n0) (diff (c_tval junk c))) eqn:X; [|apply diff_positive_iff; assumption].
      exfalso. destruct (hermite_fails junk qnan ex c) as [e Ee].
      { intros [_ J]. apply diff_positive_iff in J. congruence. }
      rewrite Ee in E. discriminate.
    + exfalso. destruct (hermite_fails junk qnan ex c) as [e Ee]; [intros [? _]; lia|]. rewrite Ee in E. discriminate.
  - intros [A B]. rewrite hermite_eq by assumption. eexists. reflexivity.
  - intros N s. destruct (hermite_fails junk qnan ex c N) as [e ->]. reflexivity.
Qed.
Print Assumptions C67_hermite_iff.

(** The result: one point per grid value; every coordinate is, between two
    parameters, the cubic with the values of the curve and with the derivatives
    given by the unit tangent vectors; the end pieces are continued.  The points
    of the curve are reproduced. *)
Theorem C67_hermite : forall junk few qnan ex (r : registry (icreate R)) name (c : curve R) s g ds,
  wf c -> (2 <= c_size c)%nat -> increasing (c_tval junk c) ->
  reg_find r name = Some (hermite junk qnan ex) -> get_grid junk few c s = Ok g ->
  curve_prop junk c PFrenet1 = Ok (AMat ds) ->
  exists rows,
    interpolate junk few r name c s
      = Ok (mkCurve (map (map (cast (c_dtype c))) rows) (c_ndim c) (c_dtype c) (if isparametric c then Some g else None)) /\
    length rows = length g /\ dims (c_ndim c) rows /\
    (forall i k j, (i < length g)%nat -> (S k < c_size c)%nat -> (j < c_ndim c)%nat ->
      (ex = true \/ inside (c_tval junk c) (nth i g 0)) ->
      (k = 0%nat \/ nth k (c_tval junk c) 0 <= nth i g 0) ->
      (S (S k) = c_size c \/ nth i g 0 <= nth (S k) (c_tval junk c) 0) ->
      cubic_between (nth k (c_tval junk c) 0) (nth j (nth k (c_rows c) []) 0) (nth j (nth k ds []) 0)
        (nth (S k) (c_tval junk c) 0) (nth j (nth (S k) (c_rows c) []) 0) (nth j (nth (S k) ds []) 0)
        (nth i g 0) (nth j (nth i rows []) 0)) /\
    (forall i k, (i < length g)%nat -> (k < c_size c)%nat -> nth i g 0 = nth k (c_tval junk c) 0 ->
      nth i rows [] = nth k (c_rows c) []) /\
    (forall i j, (i < length g)%nat -> (j < c_ndim c)%nat -> ex = false -> ~ inside (c_tval junk c) (nth i g 0) ->
      nth j (nth i rows []) 0 = qnan).
Proof.
  intros junk few qnan ex r name c s g ds W H I F G Fr.
  assert (N := size_nonempty c ltac:(lia)). assert (L := tval_length junk c W N).
  rewrite curve_prop_frenet1 in Fr by (apply c_bool_wf; assumption). injection Fr as <-.
  assert (D : dims (c_ndim c) (c_rows c)) by (intros p Hp; apply W; assumption).
  set (H_at := hermite_at qnan ex (c_tval junk c) (c_rows c) (frenet1_rows (c_rows c)) (c_ndim c)).
  exists (map H_at g). split; [|split; [apply map_length|split; [|split; [|split]]]].
  - apply spline_result with (create := hermite junk qnan ex); try assumption. apply hermite_eq; assumption.
  - intros p Hp. apply in_map_iff in Hp as (v & <- & _). apply hermite_at_length.
  - intros i k j Hi Hk Hj Hex Hl Hr. rewrite (nth_map_in H_at g i 0 [] Hi). unfold H_at.
    assert (H2 : (2 <= length (c_tval junk c))%nat) by lia.
    rewrite <- L in Hr, Hk.
    rewrite (hermite_at_eq qnan ex _ _ _ _ I H2 (nth i g 0) k j Hk Hj Hex Hl Hr).
    apply hval_cubic. pose proof (I k Hk). lra.
  - intros i k Hi Hk E. rewrite (nth_map_in H_at g i 0 [] Hi). unfold H_at. rewrite E.
    apply hermite_at_node; try assumption; unfold c_size in *; lia.
  - intros i j Hi Hj E Ho. rewrite (nth_map_in H_at g i 0 [] Hi). unfold H_at. apply hermite_at_outside; assumption.
Qed.
Print Assumptions C67_hermite.

(** Straight lines whose points are evenly enough spaced are reproduced: the
    arc length is the parameter, so that the unit tangent vector is indeed the
    derivative. *)
Theorem C67_straight : forall junk few qnan (r : registry (icreate R)) name (c : curve R) s g p u x,
  wf c -> (2 <= c_size c)%nat -> isparametric c = false -> c_dtype c = DFloat ->
  length u = c_ndim c -> line_rows p u x (c_rows c) -> increasing x -> even_enough x ->
  reg_find r name = Some (hermite junk qnan true) -> get_grid junk few c s = Ok g ->
  exists c', interpolate junk few r name c s = Ok c' /\ c_size c' = length g /\
    forall i j, (i < length g)%nat -> (j < c_ndim c)%nat ->
      nth j (nth i (c_rows c') []) 0 = nth j p 0 + (nth 0 x 0 + nth i g 0) * nth j u 0.
Proof.
  intros junk few qnan r name c s g p u x W H P Dt Lu Ln Ix Ev F G.
  assert (N := size_nonempty c ltac:(lia)). assert (L := tval_length junk c W N).
  assert (B : c_bool c = true) by (apply c_bool_wf; assumption).
  assert (Lx : length x = length (c_rows c)) by apply Ln.
  assert (T : forall k, (k < length (c_tval junk c))%nat -> nth k (c_tval junk c) 0 = nth k x 0 - nth 0 x 0).
  { intros k Hk. unfold isparametric in P. unfold c_tval in *. destruct (c_t c); [discriminate|].
    apply (line_cumarclen junk c p u x); try assumption. unfold c_size in L. lia. }
  assert (I : increasing (c_tval junk c)).
  { intros k Hk. rewrite !T by lia. pose proof (Ix k ltac:(unfold c_size in *; lia)). lra. }
  eexists. split.
  - apply spline_result with (create := hermite junk qnan true) (g := g); try assumption. apply hermite_eq; assumption.
  - unfold c_size. cbn [c_rows]. rewrite Dt, map_cast_float. split; [apply map_length|].
    intros i j Hi Hj. rewrite (nth_map_in _ g i 0 [] Hi). rewrite <- Lu in *.
    apply hermite_line; try assumption; try (left; reflexivity); try (unfold c_size in *; lia).
    intros k Hk. apply (line_frenet1 p u x); try assumption; try (unfold c_size in *; lia).
    rewrite <- Lx. apply even_slope; [assumption| |]; unfold c_size in *; lia.
Qed.
Print Assumptions C67_straight.

(** A parametric triple of a plane curve: the hypotheses hold, and the points are
    met in binary64; the middle of the first piece is off the chord. *)
Definition hreg : registry (icreate float) :=
  [("hermite", hermite nan nan true); ("inside", hermite nan nan false); ("pchip", pchip nan nan true); ("pin", pchip nan nan false)].
Example C67_ex_hyp : wf rt3 /\ (2 <= c_size rt3)%nat /\ increasing (c_tval 0 rt3) /\
  get_grid 0 (fun _ => true) rt3 (SArr [0; 2]) = Ok [0; 2] /\
  exists ds, curve_prop 0 rt3 PFrenet1 = Ok (AMat ds).
Proof.
  split; [apply rt3_wf|]. split; [cbn; lia|]. split; [apply rt3_increasing|]. split.
  - apply C53_validation_iff. split; [discriminate|]. intros [|i] Hi; cbn in *; [lra|lia].
  - eexists. reflexivity.
Qed.
Definition fl (l : list float) (c : curve float) (name : string) : res (list (list float)) :=
  do c' <- interpolate nan (fun _ => true) hreg name c (SArr l) ; Ok (c_rows c').
Example C67_ex :
  fl [fz 0; fz 1; fz 3] ft3 "hermite" = Ok [[fz 0; fz 0]; [fz 2; fz 4]; [fz 2; fz 8]] /\
  fl [fz (-1); fz 1; fz 4] ft3 "inside" = Ok [[nan; nan]; [fz 2; fz 4]; [nan; nan]].
Proof. split; vm_compute; reflexivity. Qed.
(** Curves that are rejected: repeated points, one point. *)
Example C67_ex_error :
  fl [fz 0; fz 1] (mkCurve [[fz 0; fz 0]; [fz 0; fz 0]; [fz 1; fz 0]] 2 DFloat None) "hermite" = Raise InterpolationError /\
  fl [fz 0; fz 1] (mkCurve [[fz 1; fz 0]] 2 DFloat None) "hermite" = Raise InterpolationError.
Proof. split; vm_compute; reflexivity. Qed.
Example C67_ex_straight : exists p u x, let c := mkCurve [[1; 0]; [1; 1]; [1; 3]] 2 DFloat None in
  wf c /\ line_rows p u x (c_rows c) /\ increasing x /\ even_enough x.
Proof.
  exists [1; 0], [0; 1], [0; 1; 3]. cbv zeta. split; [wfr|]. split; [|split].
  - split; [reflexivity|]. split; [unfold norm; cbn; replace (0 * 0 + (1 * 1 + 0)) with 1 by lra; apply sqrt_1|].
    intros [|[|[|k]]] Hk; cbn in Hk; try lia; (split; [reflexivity|]); intros [|[|[|j]]]; cbn; lra.
  - intros [|[|k]] Hk; cbn in *; try lia; lra.
  - split; [discriminate|]. intros _. cbn. split; [lra|]. split; [lra|]. intros [|[|k]] H1 H2; try lia. cbn. lra.
Qed.

(** Without the spacing condition the claim fails: three points of the x axis
    at 0, 1, 5; the one-sided difference at the start points backwards, and so
    the interpolated curve first leaves the curve backwards. *)
Theorem C67_uneven_line_refuted : exists (c : curve float) x,
  wf c /\ c_rows c = [[fz 0; fz 0]; [fz 1; fz 0]; [fz 5; fz 0]] /\ isparametric c = false /\
  fl [fq 1 4] c "hermite" = Ok [[x; fz 0]] /\ PrimFloat.ltb x (fz 0) = true.
Proof.
  exists (mkCurve [[fz 0; fz 0]; [fz 1; fz 0]; [fz 5; fz 0]] 2 DFloat None). eexists.
  split; [wfr|]. split; [reflexivity|]. split; [reflexivity|]. split; vm_compute; reflexivity.
Qed.
Print Assumptions C67_uneven_line_refuted.

(** For parametric curves the unit tangent vector is in general not the
    derivative by the parameter: a segment run through with constant speed 1/2
    is not interpolated with constant speed. *)
Theorem C67_constant_speed_refuted : exists c : curve float,
  wf c /\ c_rows c = [[fz 0; fz 0]; [fz 1; fz 0]] /\ c_t c = Some [fz 0; fz 2] /\
  fl [fq 1 2] c "hermite" = Ok [[fq 11 32; fz 0]].
Proof.
  exists (mkCurve [[fz 0; fz 0]; [fz 1; fz 0]] 2 DFloat (Some [fz 0; fz 2])).
  split; [wfr|]. split; [reflexivity|]. split; [reflexivity|]. vm_compute. reflexivity.
Qed.
Print Assumptions C67_constant_speed_refuted.

(** ** C68 PCHIP interpolation *)

(** Creation: as for 'hermite'. *)
Theorem C68_pchip_iff : forall junk few qnan ex (r : registry (icreate R)) name (c : curve R),
  wf c -> reg_find r name = Some (pchip junk qnan ex) ->
  ((exists f, get_interpolator r name c = Ok f) <-> (2 <= c_size c)%nat /\ increasing (c_tval junk c)) /\
  (~ ((2 <= c_size c)%nat /\ increasing (c_tval junk c)) -> forall s, interpolate junk few r name c s = Raise InterpolationError).
Proof.
  intros junk few qnan ex r name c W F. unfold interpolate, get_interpolator. rewrite F. split; [split|].
  - intros [f E]. destruct (le_lt_dec 2 (c_size c)) as [A|A].
    + split; [assumption|]. destruct (existsb (fun d => nleb d n0) (diff (c_tval junk c))) eqn:X; [|apply diff_positive_iff; assumption].
      exfalso. destruct (pchip_fails junk qnan ex c) as [e Ee].
      { intros [_ J]. apply diff_positive_iff in J. congruence. }
      rewrite Ee in E. discriminate.
    + exfalso. destruct (pchip_fails junk qnan ex c) as [e Ee]; [intros [? _]; lia|]. rewrite Ee in E. discriminate.
  - intros [A B]. rewrite pchip_eq by assumption. eexists. reflexivity.
  - intros N s. destruct (pchip_fails junk qnan ex c N) as [e ->]. reflexivity.
Qed.
Print Assumptions C68_pchip_iff.

(** The result is piecewise cubic with a continuous derivative (the same
    derivatives [ds] for the pieces on both sides of a point) and meets the
    points.  In each piece each coordinate stays between its values at the two
    ends: no overshoot. *)
Theorem C68_pchip : forall junk few qnan ex (r : registry (icreate R)) name (c : curve R) s g,
  wf c -> (2 <= c_size c)%nat -> increasing (c_tval junk c) ->
  reg_find r name = Some (pchip junk qnan ex) -> get_grid junk few c s = Ok g ->
  exists rows ds,
    interpolate junk few r name c s
      = Ok (mkCurve (map (map (cast (c_dtype c))) rows) (c_ndim c) (c_dtype c) (if isparametric c then Some g else None)) /\
    length rows = length g /\ dims (c_ndim c) rows /\
    (forall i k j, (i < length g)%nat -> (S k < c_size c)%nat -> (j < c_ndim c)%nat ->
      (ex = true \/ inside (c_tval junk c) (nth i g 0)) ->
      (k = 0%nat \/ nth k (c_tval junk c) 0 <= nth i g 0) ->
      (S (S k) = c_size c \/ nth i g 0 <= nth (S k) (c_tval junk c) 0) ->
      cubic_between (nth k (c_tval junk c) 0) (nth j (nth k (c_rows c) []) 0) (nth j (nth k ds []) 0)
        (nth (S k) (c_tval junk c) 0) (nth j (nth (S k) (c_rows c) []) 0) (nth j (nth (S k) ds []) 0)
        (nth i g 0) (nth j (nth i rows []) 0)) /\
    (forall i k, (i < length g)%nat -> (k < c_size c)%nat -> nth i g 0 = nth k (c_tval junk c) 0 ->
      nth i rows [] = nth k (c_rows c) []) /\
    (forall i k j, (i < length g)%nat -> (S k < c_size c)%nat -> (j < c_ndim c)%nat ->
      nth k (c_tval junk c) 0 <= nth i g 0 <= nth (S k) (c_tval junk c) 0 ->
      Rmin (nth j (nth k (c_rows c) []) 0) (nth j (nth (S k) (c_rows c) []) 0) <= nth j (nth i rows []) 0 <=
      Rmax (nth j (nth k (c_rows c) []) 0) (nth j (nth (S k) (c_rows c) []) 0)) /\
    (forall i j, (i < length g)%nat -> (j < c_ndim c)%nat -> ex = false -> ~ inside (c_tval junk c) (nth i g 0) ->
      nth j (nth i rows []) 0 = qnan).
Proof.
  intros junk few qnan ex r name c s g W H I F G.
  assert (N := size_nonempty c ltac:(lia)). assert (L := tval_length junk c W N).
  assert (D : dims (c_ndim c) (c_rows c)) by (intros p Hp; apply W; assumption).
  assert (H2 : (2 <= length (c_tval junk c))%nat) by lia.
  assert (Lr : length (c_rows c) = length (c_tval junk c)) by (unfold c_size in L; congruence).
  set (ds := pchip_rows (c_tval junk c) (c_rows c) (c_ndim c)).
  set (H_at := hermite_at qnan ex (c_tval junk c) (c_rows c) ds (c_ndim c)).
  exists (map H_at g), ds. split; [|split; [apply map_length|split; [|split; [|split; [|split]]]]].
  - apply spline_result with (create := pchip junk qnan ex); try assumption. apply pchip_eq; assumption.
  - intros p Hp. apply in_map_iff in Hp as (v & <- & _). apply hermite_at_length.
  - intros i k j Hi Hk Hj Hex Hl Hr. rewrite (nth_map_in H_at g i 0 [] Hi). unfold H_at. rewrite <- L in Hr, Hk.
    rewrite (hermite_at_eq qnan ex _ _ _ _ I H2 (nth i g 0) k j Hk Hj Hex Hl Hr).
    apply hval_cubic. pose proof (I k Hk). lra.
  - intros i k Hi Hk E. rewrite (nth_map_in H_at g i 0 [] Hi). unfold H_at. rewrite E.
    apply hermite_at_node; try assumption; lia.
  - intros i k j Hi Hk Hj Hv. rewrite (nth_map_in H_at g i 0 [] Hi). unfold H_at, ds.
    apply pchip_between; try assumption; lia.
  - intros i j Hi Hj E Ho. rewrite (nth_map_in H_at g i 0 [] Hi). unfold H_at. apply hermite_at_outside; assumption.
Qed.
Print Assumptions C68_pchip.

(** A coordinate that does not decrease (increase) along the curve does not
    decrease (increase) along the interpolated curve, on grids within the
    parameters. *)
Theorem C68_monotone : forall junk few qnan ex (r : registry (icreate R)) name (c c' : curve R) s g j,
  wf c -> (2 <= c_size c)%nat -> increasing (c_tval junk c) -> c_dtype c = DFloat -> (j < c_ndim c)%nat ->
  reg_find r name = Some (pchip junk qnan ex) -> get_grid junk few c s = Ok g ->
  (forall i, (i < length g)%nat -> inside (c_tval junk c) (nth i g 0)) ->
  interpolate junk few r name c s = Ok c' ->
  ((forall k, (S k < c_size c)%nat -> nth j (nth k (c_rows c) []) 0 <= nth j (nth (S k) (c_rows c) []) 0) ->
   forall i, (S i < c_size c')%nat -> nth j (nth i (c_rows c') []) 0 <= nth j (nth (S i) (c_rows c') []) 0) /\
  ((forall k, (S k < c_size c)%nat -> nth j (nth (S k) (c_rows c) []) 0 <= nth j (nth k (c_rows c) []) 0) ->
   forall i, (S i < c_size c')%nat -> nth j (nth (S i) (c_rows c') []) 0 <= nth j (nth i (c_rows c') []) 0).
Proof.
  intros junk few qnan ex r name c c' s g j W H I Dt Hj F G In E.
  assert (N := size_nonempty c ltac:(lia)). assert (L := tval_length junk c W N).
  assert (H2 : (2 <= length (c_tval junk c))%nat) by lia.
  assert (Lr : length (c_rows c) = length (c_tval junk c)) by (unfold c_size in L; congruence).
  rewrite (spline_result junk few qnan ex r name c s g (pchip junk qnan ex) _ W H F (pchip_eq junk qnan ex c W H I) G) in E.
  injection E as <-. unfold c_size. cbn [c_rows]. rewrite Dt, map_cast_float, map_length.
  destruct (get_grid_nonempty _ _ _ _ _ G) as [_ Gs]. fold (c_size c). rewrite <- L.
  split; intros M i Hi; rewrite !(nth_map_in _ g _ 0 []) by lia; pose proof (Gs i Hi);
    [apply pchip_mono|apply pchip_anti]; try assumption; try (apply (In i); lia); try (apply (In (S i)); lia); lra.
Qed.
Print Assumptions C68_monotone.

(** Coordinates that depend on the parameter by an affine function are
    reproduced exactly, also by extrapolation. *)
Theorem C68_affine : forall junk few qnan ex (r : registry (icreate R)) name (c c' : curve R) s g j a b,
  wf c -> (2 <= c_size c)%nat -> increasing (c_tval junk c) -> c_dtype c = DFloat -> (j < c_ndim c)%nat ->
  reg_find r name = Some (pchip junk qnan ex) -> get_grid junk few c s = Ok g ->
  (forall k, (k < c_size c)%nat -> nth j (nth k (c_rows c) []) 0 = a + b * nth k (c_tval junk c) 0) ->
  interpolate junk few r name c s = Ok c' ->
  forall i, (i < length g)%nat -> (ex = true \/ inside (c_tval junk c) (nth i g 0)) ->
    nth j (nth i (c_rows c') []) 0 = a + b * nth i g 0.
Proof.
  intros junk few qnan ex r name c c' s g j a b W H I Dt Hj F G A E i Hi Hex.
  assert (N := size_nonempty c ltac:(lia)). assert (L := tval_length junk c W N).
  assert (H2 : (2 <= length (c_tval junk c))%nat) by lia.
  assert (Lr : length (c_rows c) = length (c_tval junk c)) by (unfold c_size in L; congruence).
  rewrite (spline_result junk few qnan ex r name c s g (pchip junk qnan ex) _ W H F (pchip_eq junk qnan ex c W H I) G) in E.
  injection E as <-. cbn [c_rows]. rewrite Dt, map_cast_float, (nth_map_in _ g i 0 [] Hi).
  apply pchip_affine; try assumption. rewrite L. assumption.
Qed.
Print Assumptions C68_affine.

(** Straight lines without parameters are reproduced whatever the spacing
    (compare C67_uneven_line_refuted). *)
Theorem C68_straight : forall junk few qnan ex (r : registry (icreate R)) name (c c' : curve R) s g p u x,
  wf c -> (2 <= c_size c)%nat -> isparametric c = false -> c_dtype c = DFloat ->
  length u = c_ndim c -> line_rows p u x (c_rows c) -> increasing x ->
  reg_find r name = Some (pchip junk qnan ex) -> get_grid junk few c s = Ok g ->
  interpolate junk few r name c s = Ok c' ->
  forall i j, (i < length g)%nat -> (j < c_ndim c)%nat -> (ex = true \/ inside (c_tval junk c) (nth i g 0)) ->
    nth j (nth i (c_rows c') []) 0 = nth j p 0 + (nth 0 x 0 + nth i g 0) * nth j u 0.
Proof.
  intros junk few qnan ex r name c c' s g p u x W H P Dt Lu Ln Ix F G E i j Hi Hj Hex.
  assert (N := size_nonempty c ltac:(lia)). assert (L := tval_length junk c W N).
  assert (B : c_bool c = true) by (apply c_bool_wf; assumption).
  assert (Lx : length x = length (c_rows c)) by apply Ln.
  assert (T : forall k, (k < length (c_tval junk c))%nat -> nth k (c_tval junk c) 0 = nth k x 0 - nth 0 x 0).
  { intros k Hk. unfold isparametric in P. unfold c_tval in *. destruct (c_t c); [discriminate|].
    apply (line_cumarclen junk c p u x); try assumption. unfold c_size in L. lia. }
  assert (I : increasing (c_tval junk c)).
  { intros k Hk. rewrite !T by lia. pose proof (Ix k ltac:(unfold c_size in *; lia)). lra. }
  rewrite (C68_affine junk few qnan ex r name c c' s g j (nth j p 0 + nth 0 x 0 * nth j u 0) (nth j u 0) W H I Dt Hj F G) with (i := i); try assumption.
  - ring.
  - intros k Hk. rewrite T by lia. destruct Ln as (_ & _ & Ln). rewrite (proj2 (Ln k Hk)). ring.
Qed.
Print Assumptions C68_straight.

Definition fstep : curve float := mkCurve [[fz 0; fz 0]; [fz 1; fz 2]; [fz 1; fz 4]] 2 DFloat (Some [fz 0; fz 1; fz 2]).
Example C68_ex :
  fl [fz 0; fq 1 2; fz 1; fq 3 2; fz 2; fz 3] fstep "pchip"
    = Ok [[fz 0; fz 0]; [fq 11 16; fz 1]; [fz 1; fz 2]; [fz 1; fz 3]; [fz 1; fz 4]; [fz 1; fz 6]] /\
  fl [fz (-1); fz 1; fz 3] fstep "pin" = Ok [[nan; nan]; [fz 1; fz 2]; [nan; nan]].
Proof. split; vm_compute; reflexivity. Qed.
Example C68_ex_hyp : wf rt3 /\ (2 <= c_size rt3)%nat /\ increasing (c_tval 0 rt3) /\ c_dtype rt3 = DFloat /\
  get_grid 0 (fun _ => true) rt3 (SArr [0; 2]) = Ok [0; 2] /\
  (forall i, (i < 2)%nat -> inside (c_tval 0 rt3) (nth i [0; 2] 0)) /\
  (forall j, (j < 2)%nat -> forall k, (S k < c_size rt3)%nat -> nth j (nth k (c_rows rt3) []) 0 <= nth j (nth (S k) (c_rows rt3) []) 0).
Proof.
  split; [apply rt3_wf|]. split; [cbn; lia|]. split; [apply rt3_increasing|]. split; [reflexivity|].
  split; [apply C67_ex_hyp|]. split.
  - intros [|[|i]] Hi; try lia; cbn; split; cbn; lra.
  - intros [|[|j]] Hj [|[|k]] Hk; cbn in *; try lia; lra.
Qed.
(** The line with uneven points that 'hermite' misses. *)
Example C68_ex_straight : line_rows [0; 0] [1; 0] [0; 1; 5] [[0; 0]; [1; 0]; [5; 0]] /\ increasing [0; 1; 5] /\ ~ even_enough [0; 1; 5].
Proof.
  split; [|split].
  - split; [reflexivity|]. split; [unfold norm; cbn; replace (1 * 1 + (0 * 0 + 0)) with 1 by lra; apply sqrt_1|].
    intros [|[|[|k]]] Hk; cbn in Hk; try lia; (split; [reflexivity|]); intros [|[|[|j]]]; cbn; lra.
  - intros [|[|k]] Hk; cbn in *; try lia; lra.
  - intros [_ E]. destruct (E ltac:(cbn; lia)) as [A _]. cbn in A. lra.
Qed.

(** In binary64 a point may be missed by a rounding error, here the last one. *)
Theorem C68_points_float_refuted : exists x,
  wf ft3 /\ c_t ft3 = Some [fz 0; fz 1; fz 3] /\ nth 2 (c_rows ft3) [] = [fz 2; fz 8] /\
  fl [fz 3] ft3 "pchip" = Ok [[fz 2; x]] /\ PrimFloat.ltb x (fz 8) = true.
Proof.
  eexists. split; [wfr|]. split; [reflexivity|]. split; [reflexivity|]. split; vm_compute; reflexivity.
Qed.
Print Assumptions C68_points_float_refuted.

(** ** C69 Splines *)

Lemma rseq_raises {A} (l : list (res A)) e : In (Raise e) l -> exists e', rseq l = Raise e'.
Proof.
  induction l as [|[x|e0] l IH]; intros H; [destruct H| |].
  - destruct H as [H|H]; [discriminate|]. destruct (IH H) as [e' E]. exists e'. cbn [rseq rbind]. rewrite E. reflexivity.
  - exists e0. reflexivity.
Qed.

(** Failures of the underlying spline, when it is created or evaluated, and
    results of a wrong length become InterpolationError. *)
Theorem C69_spline_errors : forall junk few spline1 (r : registry (icreate R)) name (c : curve R) s g j,
  wf c -> (2 <= c_size c)%nat -> (j < c_ndim c)%nat ->
  reg_find r name = Some (spline junk spline1) -> get_grid junk few c s = Ok g ->
  (exists e, spline1 (c_tval junk c) (map (fun p => nth j p 0) (c_rows c)) = Raise e) \/
  (exists f, spline1 (c_tval junk c) (map (fun p => nth j p 0) (c_rows c)) = Ok f /\
     ((exists e, f g = Raise e) \/ (exists v, f g = Ok v /\ length v <> length g /\ length v <> 1%nat))) ->
  interpolate junk few r name c s = Raise InterpolationError.
Proof.
  intros junk few spline1 r name c s g j W H Hj F G Hf. unfold interpolate, get_interpolator. rewrite F. unfold spline.
  destruct (rseq (map (spline1 (c_tval junk c)) (c_values_all c))) as [fs|e] eqn:E; cbn [rbind]; [|reflexivity].
  apply rseq_ok_iff in E.
  assert (K : nth_error (map (spline1 (c_tval junk c)) (c_values_all c)) j
              = Some (spline1 (c_tval junk c) (map (fun p => nth j p 0) (c_rows c)))).
  { unfold c_values_all. rewrite map_map. rewrite nth_error_map, (nth_error_nth' _ 0%nat) by (rewrite seq_length; assumption).
    rewrite seq_nth by assumption. reflexivity. }
  rewrite E, nth_error_map in K. destruct (nth_error fs j) as [f|] eqn:Ef; [|discriminate]. cbn [option_map] in K. injection K as K.
  destruct Hf as [[e He]|(f' & Hf & Hv)]; [congruence|]. assert (f' = f) by congruence. subst f'.
  unfold interp_call. rewrite c_bool_wf by (assumption || (apply size_nonempty; lia)). cbn [negb].
  destruct (Nat.eqb_spec (c_size c) 1); [lia|]. rewrite G. cbn [rbind].
  destruct (rseq_raises (map (fun f => do v <- f g ; fill_column (length g) v) fs)
             match f g with Ok v => ValueError | Raise e => e end) as [e' Ee].
  - apply in_map_iff. exists f. split; [|apply (nth_error_In _ j); assumption].
    destruct Hv as [[e He]|(v & Hv & N1 & N2)]; [rewrite He; reflexivity|]. rewrite Hv. cbn [rbind]. unfold fill_column.
    destruct (Nat.eqb_spec (length v) (length g)); [contradiction|]. destruct v as [|x [|y v]]; [reflexivity|contradiction N2; reflexivity|reflexivity].
  - rewrite Ee. reflexivity.
Qed.
Print Assumptions C69_spline_errors.

(** Otherwise the coordinates are the values of the splines of the coordinates,
    in order; a single value is used for all points. *)
Theorem C69_spline : forall junk few spline1 (r : registry (icreate R)) name (c : curve R) s g
    (fs : nat -> list R -> res (list R)) (vs : nat -> list R),
  wf c -> (2 <= c_size c)%nat ->
  reg_find r name = Some (spline junk spline1) -> get_grid junk few c s = Ok g ->
  (forall j, (j < c_ndim c)%nat ->
     spline1 (c_tval junk c) (map (fun p => nth j p 0) (c_rows c)) = Ok (fs j) /\ fs j g = Ok (vs j) /\
     (length (vs j) = length g \/ length (vs j) = 1%nat)) ->
  exists rows,
    interpolate junk few r name c s
      = Ok (mkCurve (map (map (cast (c_dtype c))) rows) (c_ndim c) (c_dtype c) (if isparametric c then Some g else None)) /\
    length rows = length g /\ dims (c_ndim c) rows /\
    forall i j, (i < length g)%nat -> (j < c_ndim c)%nat ->
      (length (vs j) = length g -> nth j (nth i rows []) 0 = nth i (vs j) 0) /\
      (length (vs j) <> length g -> nth j (nth i rows []) 0 = nth 0 (vs j) 0).
Proof.
  intros junk few spline1 r name c s g fs vs W H F G Hv.
  set (n := c_ndim c) in *.
  set (col := fun j => if Nat.eqb (length (vs j)) (length g) then vs j else repeat (nth 0 (vs j) 0) (length g)).
  set (rows := map (fun i => map (fun cl => nth i cl 0) (map col (seq 0 n))) (seq 0 (length g))).
  assert (E1 : rseq (map (spline1 (c_tval junk c)) (c_values_all c)) = Ok (map fs (seq 0 n))).
  { apply rseq_ok_iff. unfold c_values_all. rewrite !map_map. apply map_ext_in. intros j Hj. apply in_seq in Hj. apply Hv. unfold n in *. lia. }
  assert (E2 : rseq (map (fun f => do v <- f g ; fill_column (length g) v) (map fs (seq 0 n))) = Ok (map col (seq 0 n))).
  { apply rseq_ok_iff. rewrite !map_map. apply map_ext_in. intros j Hj. apply in_seq in Hj.
    destruct (Hv j ltac:(lia)) as (_ & Ev & Lv). rewrite Ev. cbn [rbind]. unfold fill_column, col.
    destruct (Nat.eqb_spec (length (vs j)) (length g)); [reflexivity|]. destruct Lv as [Lv|Lv]; [contradiction|].
    destruct (vs j) as [|x [|y v]]; try discriminate. reflexivity. }
  exists rows. split; [|split; [|split]].
  - unfold interpolate, get_interpolator. rewrite F. unfold spline. rewrite E1. cbn [rbind].
    destruct (get_grid_nonempty _ _ _ _ _ G) as [Ng _].
    apply interp_call_eq; try assumption.
    + unfold rows. rewrite map_length, seq_length. reflexivity.
    + intros p Hp. unfold rows in Hp. apply in_map_iff in Hp as (i & <- & _). rewrite !map_length, seq_length. reflexivity.
    + rewrite E2. reflexivity.
  - unfold rows. rewrite map_length, seq_length. reflexivity.
  - intros p Hp. unfold rows in Hp. apply in_map_iff in Hp as (i & <- & _). rewrite !map_length, seq_length. reflexivity.
  - intros i j Hi Hj.
    assert (E : nth j (nth i rows []) 0 = nth i (col j) 0).
    { unfold rows. rewrite (nth_map_in _ _ _ 0%nat) by (rewrite seq_length; assumption). rewrite seq_nth by assumption.
      rewrite (nth_map_in _ _ _ []) by (rewrite map_length, seq_length; assumption).
      rewrite (nth_map_in _ _ _ 0%nat) by (rewrite seq_length; assumption). rewrite seq_nth by assumption. reflexivity. }
    rewrite E. unfold col. destruct (Nat.eqb_spec (length (vs j)) (length g)) as [L|L]; split; intros; try contradiction; [reflexivity|].
    rewrite (nth_indep _ 0 (nth 0 (vs j) 0)) by (rewrite repeat_length; assumption). apply nth_repeat.
Qed.
Print Assumptions C69_spline.

(** If the splines interpolate (no smoothing), the points are met. *)
Theorem C69_points : forall junk few spline1 (r : registry (icreate R)) name (c c' : curve R) s g,
  wf c -> (2 <= c_size c)%nat -> c_dtype c = DFloat ->
  reg_find r name = Some (spline junk spline1) -> get_grid junk few c s = Ok g ->
  (forall ys, length ys = c_size c -> exists f, spline1 (c_tval junk c) ys = Ok f /\
     forall l, exists v, f l = Ok v /\ length v = length l /\
       forall i k, (i < length l)%nat -> (k < c_size c)%nat -> nth i l 0 = nth k (c_tval junk c) 0 -> nth i v 0 = nth k ys 0) ->
  interpolate junk few r name c s = Ok c' ->
  forall i k, (i < length g)%nat -> (k < c_size c)%nat -> nth i g 0 = nth k (c_tval junk c) 0 ->
    nth i (c_rows c') [] = nth k (c_rows c) [].
Proof.
  intros junk few spline1 r name c c' s g W H Dt F G O E i k Hi Hk Eg.
  set (col := fun j => map (fun p => nth j p 0) (c_rows c)).
  set (ev := fun j => match spline1 (c_tval junk c) (col j) with Ok f => f | Raise e => fun _ => Raise e end).
  set (vs := fun j => match ev j g with Ok v => v | Raise _ => [] end).
  assert (K : forall j, spline1 (c_tval junk c) (col j) = Ok (ev j) /\ ev j g = Ok (vs j) /\ length (vs j) = length g /\
     forall i k, (i < length g)%nat -> (k < c_size c)%nat -> nth i g 0 = nth k (c_tval junk c) 0 -> nth i (vs j) 0 = nth k (col j) 0).
  { intros j. destruct (O (col j)) as (f & Ef & Hf); [unfold col; apply map_length|].
    destruct (Hf g) as (v & Ev & Lv & Hv). unfold vs, ev. rewrite Ef, Ev. auto. }
  destruct (C69_spline junk few spline1 r name c s g ev vs W H F G) as (rows & Er & Lr & Dr & A).
  { intros j Hj. destruct (K j) as (K1 & K2 & K3 & _). auto. }
  rewrite Er in E. injection E as <-. cbn [c_rows]. rewrite Dt, map_cast_float.
  assert (L1 : length (nth i rows []) = c_ndim c) by (apply Dr, nth_In; lia).
  assert (L2 : length (nth k (c_rows c) []) = c_ndim c) by (apply W, nth_In; assumption).
  apply vec_ext; [congruence|]. intros j. destruct (Nat.lt_ge_cases j (c_ndim c)) as [Hj|Hj].
  - destruct (K j) as (_ & _ & K3 & K4). rewrite (proj1 (A i j Hi Hj) K3), (K4 i k Hi Hk Eg). unfold col.
    apply (nth_map_in (fun p => nth j p 0) (c_rows c) k [] 0 Hk).
  - rewrite !nth_overflow by lia. reflexivity.
Qed.
Print Assumptions C69_points.

(** An oracle that meets the hypothesis of [C69_points] (linear interpolation of
    one coordinate), one that returns a single value, one that fails. *)
Definition lin1 (xs ys : list float) : res (list float -> res (list float)) :=
  Ok (fun g => Ok (map (fun v => nth 0 (interp_at xs (map (fun y => [y]) ys) v) (fz 0)) g)).
Definition sreg : registry (icreate float) :=
  [("lin", spline nan lin1); ("one", spline nan (fun _ ys => Ok (fun _ => Ok [nth 0 ys (fz 0)])));
   ("two", spline nan (fun _ ys => Ok (fun _ => Ok (firstn 2 ys)))); ("bad", spline nan (fun _ _ => Raise ValueError))].
Definition sl (l : list float) (name : string) : res (list (list float)) :=
  do c' <- interpolate nan (fun _ => true) sreg name ft3 (SArr l) ; Ok (c_rows c').
Example C69_ex :
  sl [fz 0; fq 1 2; fz 3] "lin" = Ok [[fz 0; fz 0]; [fz 1; fz 2]; [fz 2; fz 8]] /\
  sl [fz 0; fq 1 2; fz 3] "one" = Ok [[fz 0; fz 0]; [fz 0; fz 0]; [fz 0; fz 0]] /\
  sl [fz 0; fq 1 2; fz 3] "two" = Raise InterpolationError /\ sl [fz 0; fz 1] "bad" = Raise InterpolationError.
Proof. repeat split; vm_compute; reflexivity. Qed.
Example C69_ex_hyp : forall ys : list R, length ys = c_size rt3 -> exists f,
  (fun xs ys => Ok (fun g => Ok (map (fun v => nth 0 (interp_at xs (map (fun y => [y]) ys) v) 0) g))) (c_tval 0 rt3) ys = Ok f /\
  forall l, exists v, f l = Ok v /\ length v = length l /\
    forall i k, (i < length l)%nat -> (k < c_size rt3)%nat -> nth i l 0 = nth k (c_tval 0 rt3) 0 -> nth i v 0 = nth k ys 0.
Proof.
  intros ys L. eexists. split; [reflexivity|]. intros l. eexists. split; [reflexivity|]. split; [apply map_length|].
  intros i k Hi Hk E. rewrite (nth_map_in _ l i 0 0 Hi). rewrite E.
  rewrite (interp_at_node 1); [|apply rt3_increasing|rewrite map_length; exact L| |cbn; lia|exact Hk].
  - rewrite (nth_map_in _ ys k 0 []) by (rewrite L; assumption). reflexivity.
  - intros p Hp. apply in_map_iff in Hp as (y & <- & _). reflexivity.
Qed.
