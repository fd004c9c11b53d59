(** Property C82: the 'cubic' and 'hermite' interpolators of closed curves. *)
From Coq Require Import ZArith String List Bool Arith Lia PrimFloat Reals Lra Psatz.
From Coquelicot Require Import Hierarchy RInt.
From Verif Require Import Num Py Numeric Curve Vec Geom DiffGeom Intersect Registry Interp Splines Splines2 Periodic Csaps Spec GeomSpec.
From Verif Require Import ListFacts ArrayProofs VecFacts CurveProofs CurveProofs2 CurveProofs3 GeomProofs GeomProofs2 DiffGeomProofs DiffGeomProofs2.
From Verif Require Import InterpProofs InterpProofs2 InterpProofs3 SplineProofs SplineProofs2 SplineProofs3 SplineProofs4 SplineProofs5 SplineProofs6 SplineProofs7.
From Verif Require Import AverageProofs PeriodicProofs PeriodicProofs2 PeriodicProofs3.
From Verif Require Import Properties_Container Properties_Interp Properties_Splines2 Properties_Rigid Properties_Affine.
Import ListNotations.
Local Open Scope string_scope.
Local Open Scope list_scope.
Local Open Scope R_scope.

(** ** C82 Periodic splines *)

(** The first and the last point of a curve. *)
Definition first_point (c : curve R) : list R := nth 0 (c_rows c) [].
Definition last_point (c : curve R) : list R := nth (c_size c - 1) (c_rows c) [].

(** bc_type='periodic' is accepted exactly for at least two points, strictly
    increasing parameters and ends that agree, in every coordinate, to within
    1e-15 absolutely and relatively; otherwise InterpolationError, whatever the
    grid and whatever extrapolate. *)
Definition nearly_closed (c : curve R) : Prop :=
  forall j, (j < c_ndim c)%nat ->
    Rabs (nth j (first_point c) 0 - nth j (last_point c) 0) <= (1 + Rabs (nth j (last_point c) 0)) / 1000000000000000.

Lemma nearly_closed_iff c : ends_close (c_rows c) (c_ndim c) = true <-> nearly_closed c.
Proof. apply ends_close_iff. Qed.

Theorem C82_iff : forall junk few qnan fm ex (r : registry (icreate R)) name (c : curve R),
  wf c -> reg_find r name = Some (cubic_any junk qnan fm (BCName "periodic") ex) ->
  ((exists f, get_interpolator r name c = Ok f) <->
     (2 <= c_size c)%nat /\ increasing (c_tval junk c) /\ nearly_closed c) /\
  (~ ((2 <= c_size c)%nat /\ increasing (c_tval junk c) /\ nearly_closed c) ->
     forall s, interpolate junk few r name c s = Raise InterpolationError).
Proof.
  intros junk few qnan fm ex r name c W F. rewrite <- (nearly_closed_iff c). set (b := BCName "periodic") in *.
  assert (Hf : ~ ((2 <= c_size c)%nat /\ increasing (c_tval junk c) /\ ends_close (c_rows c) (c_ndim c) = true) ->
     exists e, cubic_any junk qnan fm b ex c = Raise e) by (apply (cubic_any_fails junk qnan fm b ex c)).
  unfold interpolate, get_interpolator. rewrite F. split; [split|].
  - intros [f E].
    assert (D : {(2 <= c_size c)%nat /\ increasing (c_tval junk c) /\ ends_close (c_rows c) (c_ndim c) = true}
              + {~ ((2 <= c_size c)%nat /\ increasing (c_tval junk c) /\ ends_close (c_rows c) (c_ndim c) = true)}).
    { destruct (le_lt_dec 2 (c_size c)) as [A|A]; [|right; intros [? _]; lia].
      destruct (existsb (fun d => nleb d n0) (diff (c_tval junk c))) eqn:X.
      - right. intros (_ & J & _). apply diff_positive_iff in J. congruence.
      - apply diff_positive_iff in X. destruct (ends_close (c_rows c) (c_ndim c)).
        + left. split; [assumption|]. split; [assumption|reflexivity].
        + right. intros (_ & _ & J). discriminate. }
    destruct D as [D|D]; [assumption|]. exfalso. destruct (Hf D) as [e Ee]. rewrite Ee in E. discriminate.
  - intros (A & B & C). rewrite (cubic_any_ok junk qnan fm b ex c W A B C). eexists. reflexivity.
  - intros N s. destruct (Hf N) as [e ->]. reflexivity.
Qed.
Print Assumptions C82_iff.

(** A closed curve, with extrapolate left out or 'periodic': every coordinate is
    the value of a function that is twice continuously differentiable on the
    whole line (so also where the curve closes), has the period of the
    parameters, is cubic between them and takes the values of the points; there
    is no other such function.  No value is NaN, whatever the grid. *)
Theorem C82_closed : forall junk few qnan fm ex (r : registry (icreate R)) name (c : curve R) s g,
  is_mod fm -> wf c -> (2 <= c_size c)%nat -> increasing (c_tval junk c) -> first_point c = last_point c ->
  ex = None \/ ex = Some ExPeriodic ->
  reg_find r name = Some (cubic_any junk qnan fm (BCName "periodic") ex) -> get_grid junk few c s = Ok g ->
  exists (f f1 f2 : nat -> R -> R) rows,
    (forall j, (j < c_ndim c)%nat ->
      let spec := closed_fun (c_tval junk c) (map (fun p => nth j p 0) (c_rows c)) in
      spec (f j) (f1 j) (f2 j) /\ forall h h1 h2, spec h h1 h2 -> forall v, h v = f j v) /\
    interpolate junk few r name c s
      = Ok (mkCurve (map (map (cast (c_dtype c))) rows) (c_ndim c) (c_dtype c) (if isparametric c then Some g else None)) /\
    length rows = length g /\ dims (c_ndim c) rows /\
    (forall i j, (i < length g)%nat -> (j < c_ndim c)%nat -> nth j (nth i rows []) 0 = f j (nth i g 0)).
Proof.
  intros junk few qnan fm ex r name c s g M W H I Ec He F G.
  assert (N := size_nonempty c ltac:(lia)). assert (L := tval_length junk c W N).
  assert (H2 : (2 <= length (c_tval junk c))%nat) by lia.
  assert (Lr : length (c_rows c) = length (c_tval junk c)) by (unfold c_size in L; congruence).
  set (xs := c_tval junk c) in *. set (b := BCName "periodic") in *. set (col := fun j => map (fun p => nth j p 0) (c_rows c)).
  assert (Fit : cubic_fits b c).
  { apply nearly_closed_iff. intros j Hj. rewrite Ec. unfold Rminus. rewrite Rplus_opp_r, Rabs_R0. pose proof (Rabs_pos (nth j (last_point c) 0)). lra. }
  assert (Em : mode_of b ex = ExPeriodic) by (destruct He as [-> | ->]; reflexivity).
  assert (Ends : forall j, nth (length xs - 1) (col j) 0 = nth 0 (col j) 0).
  { intros j. unfold col. rewrite !(nth_map_in (fun p => nth j p 0) (c_rows c) _ [] 0) by lia.
    f_equal. unfold first_point, last_point in Ec. unfold c_size in *. rewrite <- Lr. symmetry. exact Ec. }
  exists (fun j v => per0 xs (col j) (wrap fm xs v)), (fun j v => per1 xs (col j) (wrap fm xs v)), (fun j v => per2 xs (col j) (wrap fm xs v)).
  set (at_ := spline_at qnan fm ExPeriodic xs (c_rows c) (periodic_rows xs (c_rows c) (c_ndim c)) (c_ndim c)).
  exists (map at_ g). split; [|split; [|split; [apply map_length|split]]].
  - intros j Hj spec. split; [apply closed_exists; try assumption; apply Ends|]. intros h h1 h2 Sh v. apply (closed_unique fm xs (col j) M I H2 h h1 h2 Sh v).
  - apply any_result with (create := cubic_any junk qnan fm b ex); try assumption. rewrite (cubic_any_ok junk qnan fm b ex c W H I Fit), Em. reflexivity.
  - intros q Hq. apply in_map_iff in Hq as (v & <- & _). apply spline_at_length.
  - intros i j Hi Hj. rewrite (nth_map_in at_ g i 0 [] Hi). unfold at_, spline_at.
    apply periodic_at; try assumption. right. apply wrap_inside; assumption.
Qed.
Print Assumptions C82_closed.

(** Any curve for which 'periodic' is accepted: the value of the only twice
    continuously differentiable function that is cubic between the parameters
    (the end pieces are continued), takes the values of the points and has equal
    first and equal second derivatives at both ends.  With extrapolate True or
    False it is evaluated as for the other boundary conditions; otherwise at the
    parameter moved by periods into the parameters of the curve. *)
Theorem C82_values : forall junk few qnan fm ex (r : registry (icreate R)) name (c : curve R) s g,
  is_mod fm -> wf c -> (2 <= c_size c)%nat -> increasing (c_tval junk c) -> nearly_closed c ->
  reg_find r name = Some (cubic_any junk qnan fm (BCName "periodic") ex) -> get_grid junk few c s = Ok g ->
  let a := nth 0 (c_tval junk c) 0 in
  let z := nth (c_size c - 1) (c_tval junk c) 0 in
  exists (f f1 f2 : nat -> R -> R) rows,
    (forall j, (j < c_ndim c)%nat ->
      let spec := periodic_fun (c_tval junk c) (map (fun p => nth j p 0) (c_rows c)) in
      spec (f j) (f1 j) (f2 j) /\ forall h h1 h2, spec h h1 h2 -> forall v, h v = f j v) /\
    interpolate junk few r name c s
      = Ok (mkCurve (map (map (cast (c_dtype c))) rows) (c_ndim c) (c_dtype c) (if isparametric c then Some g else None)) /\
    length rows = length g /\ dims (c_ndim c) rows /\
    forall i j, (i < length g)%nat -> (j < c_ndim c)%nat ->
      let v := nth i g 0 in
      match ex with
      | Some (ExBool e) => (e = true \/ a <= v <= z -> nth j (nth i rows []) 0 = f j v) /\
                           (e = false -> ~ (a <= v <= z) -> nth j (nth i rows []) 0 = qnan)
      | _ => forall k u, a <= u < z -> v = u + IZR k * (z - a) -> nth j (nth i rows []) 0 = f j u
      end.
Proof.
  intros junk few qnan fm ex r name c s g M W H I Ec F G a z.
  assert (N := size_nonempty c ltac:(lia)). assert (L := tval_length junk c W N).
  assert (H2 : (2 <= length (c_tval junk c))%nat) by lia.
  assert (Lr : length (c_rows c) = length (c_tval junk c)) by (unfold c_size in L; congruence).
  set (xs := c_tval junk c) in *. set (b := BCName "periodic") in *. set (col := fun j => map (fun p => nth j p 0) (c_rows c)).
  assert (Fit : cubic_fits b c) by (apply nearly_closed_iff; assumption).
  exists (fun j => per0 xs (col j)), (fun j => per1 xs (col j)), (fun j => per2 xs (col j)).
  set (at_ := spline_at qnan fm (mode_of b ex) xs (c_rows c) (periodic_rows xs (c_rows c) (c_ndim c)) (c_ndim c)).
  exists (map at_ g). split; [|split; [|split; [apply map_length|split]]].
  - intros j Hj spec. split; [apply periodic_exists; assumption|]. intros h h1 h2 Sh v. apply (periodic_unique xs (col j) h h1 h2 I H2 Sh v).
  - apply any_result with (create := cubic_any junk qnan fm b ex); try assumption. exact (cubic_any_ok junk qnan fm b ex c W H I Fit).
  - intros q Hq. apply in_map_iff in Hq as (v & <- & _). apply spline_at_length.
  - intros i j Hi Hj v. rewrite (nth_map_in at_ g i 0 [] Hi). fold v. unfold at_.
    assert (Ez : z = nth (length xs - 1) xs 0) by (unfold z; rewrite L; reflexivity).
    assert (P : forall k u, a <= u < z -> v = u + IZR k * (z - a) -> nth j (spline_at qnan fm ExPeriodic xs (c_rows c) (periodic_rows xs (c_rows c) (c_ndim c)) (c_ndim c) v) 0 = per0 xs (col j) u).
    { intros k u Hu Ev. rewrite Ez in Hu, Ev. rewrite (spline_at_wrapped qnan fm xs _ _ _ v u k true) by assumption.
      apply periodic_at; try assumption. left. reflexivity. }
    destruct ex as [[e|]|]; [|exact P|exact P]. unfold mode_of, spline_at. split.
    + intros Hv. apply periodic_at; try assumption. destruct Hv as [Hv|Hv]; [left; assumption|right; unfold inside; rewrite <- Ez; exact Hv].
    + intros Ee Hv. apply hermite_at_outside; try assumption. unfold inside. rewrite <- Ez. exact Hv.
Qed.
Print Assumptions C82_values.

(** The points of a closed curve are reproduced, also at parameters that differ
    from theirs by periods. *)
Theorem C82_points : forall junk few qnan fm ex (r : registry (icreate R)) name (c c' : curve R) s g,
  is_mod fm -> wf c -> (2 <= c_size c)%nat -> increasing (c_tval junk c) -> first_point c = last_point c -> c_dtype c = DFloat ->
  ex = None \/ ex = Some ExPeriodic ->
  reg_find r name = Some (cubic_any junk qnan fm (BCName "periodic") ex) -> get_grid junk few c s = Ok g ->
  interpolate junk few r name c s = Ok c' ->
  let p := nth (c_size c - 1) (c_tval junk c) 0 - nth 0 (c_tval junk c) 0 in
  forall i k m, (i < length g)%nat -> (k < c_size c)%nat -> nth i g 0 = nth k (c_tval junk c) 0 + IZR m * p ->
    nth i (c_rows c') [] = nth k (c_rows c) [].
Proof.
  intros junk few qnan fm ex r name c c' s g M W H I Ec Dt He F G E p i k m Hi Hk Eg.
  destruct (C82_closed junk few qnan fm ex r name c s g M W H I Ec He F G) as (f & f1 & f2 & rows & Hs & Er & Lr & Dr & A).
  rewrite Er in E. injection E as <-. cbn [c_rows]. rewrite Dt, map_cast_float.
  assert (N := size_nonempty c ltac:(lia)). assert (L := tval_length junk c W N).
  assert (L1 : length (nth i rows []) = c_ndim c) by (apply Dr, nth_In; lia).
  assert (L2 : length (nth k (c_rows c) []) = c_ndim c) by (apply W, nth_In; assumption).
  apply vec_ext; [congruence|]. intros j. destruct (Nat.lt_ge_cases j (c_ndim c)) as [Hj|Hj].
  - rewrite A by assumption. rewrite Eg. destruct (Hs j Hj) as [(_ & P & _ & V) _].
    transitivity (f j (nth k (c_tval junk c) 0)).
    + unfold p. rewrite <- L. apply (per_many (c_tval junk c) ltac:(lia) (f j) P).
    + rewrite V by lia. apply (nth_map_in (fun p => nth j p 0) (c_rows c) k [] 0 Hk).
  - rewrite !nth_overflow by lia. reflexivity.
Qed.
Print Assumptions C82_points.

(** extrapolate='periodic' for every boundary condition of 'cubic' and for
    'hermite': created for the same curves as with any other extrapolate, and
    the point at a parameter is the point at that parameter moved by periods into
    the parameters of the curve. *)
Definition same_create (x y : icreate R) : Prop := forall c, wf c -> ((exists f, x c = Ok f) <-> (exists f, y c = Ok f)).

Theorem C82_wrap : forall junk few qnan fm (ex : option exmode) (x y : icreate R),
  is_mod fm -> (exists b, x = cubic_any junk qnan fm b (Some ExPeriodic) /\ y = cubic_any junk qnan fm b ex) \/
               (x = hermite_any junk qnan fm (Some ExPeriodic) /\ y = hermite_any junk qnan fm ex) ->
  same_create x y /\
  forall (r r' : registry (icreate R)) name name' (c d d' : curve R) s s' g g',
  wf c -> (2 <= c_size c)%nat -> increasing (c_tval junk c) ->
  reg_find r name = Some x -> reg_find r' name' = Some y ->
  get_grid junk few c s = Ok g -> get_grid junk few c s' = Ok g' ->
  interpolate junk few r name c s = Ok d -> interpolate junk few r' name' c s' = Ok d' ->
  let a := nth 0 (c_tval junk c) 0 in
  let z := nth (c_size c - 1) (c_tval junk c) 0 in
  forall i i' k, (i < length g)%nat -> (i' < length g')%nat -> a <= nth i' g' 0 < z -> nth i g 0 = nth i' g' 0 + IZR k * (z - a) ->
    nth i (c_rows d) [] = nth i' (c_rows d') [].
Proof.
  intros junk few qnan fm ex x y M Hxy.
  (* what both have in common *)
  assert (K : forall c, wf c ->
    (exists e e', x c = Raise e /\ y c = Raise e') \/
    exists ds m, x c = Ok (as_array (c_ndim c) (map (spline_at qnan fm ExPeriodic (c_tval junk c) (c_rows c) ds (c_ndim c)))) /\
                 y c = Ok (as_array (c_ndim c) (map (spline_at qnan fm m (c_tval junk c) (c_rows c) ds (c_ndim c))))).
  { intros c W.
    assert (D : forall P : Prop, (P -> (2 <= c_size c)%nat /\ increasing (c_tval junk c)) -> forall Q : Prop, {Q} + {~ Q} ->
                {(2 <= c_size c)%nat /\ increasing (c_tval junk c) /\ Q} + {~ ((2 <= c_size c)%nat /\ increasing (c_tval junk c) /\ Q)}).
    { intros _ _ Q [q|q]; [|right; tauto]. destruct (le_lt_dec 2 (c_size c)) as [A|A]; [|right; intros [? _]; lia].
      destruct (existsb (fun d => nleb d n0) (diff (c_tval junk c))) eqn:X.
      - right. intros (_ & J & _). apply diff_positive_iff in J. congruence.
      - apply diff_positive_iff in X. left. auto. }
    specialize (D False (False_ind _)).
    destruct Hxy as [(b & -> & ->)|(-> & ->)].
    - assert (Q : {cubic_fits b c} + {~ cubic_fits b c}).
      { unfold cubic_fits. destruct (is_periodic b); [apply bool_dec|]. destruct (validate_bc (c_ndim c) b) as [v|e]; [left; eauto|right; intros [v E]; discriminate]. }
      destruct (D _ Q) as [(A & B & C)|A].
      + right. eexists. eexists. split; apply cubic_any_ok; assumption.
      + left. destruct (cubic_any_fails junk qnan fm b (Some ExPeriodic) c A) as [e E]. destruct (cubic_any_fails junk qnan fm b ex c A) as [e' E']. eauto.
    - destruct (D True (left Logic.I)) as [(A & B & _)|A].
      + right. eexists. eexists. split; apply hermite_any_ok; assumption.
      + left. assert (P : prepare_ok (c_tval junk c) (c_rows c) = false).
        { apply not_true_iff_false. intros P. apply prepare_ok_iff in P as (P1 & P2 & P3). apply A. unfold c_size. rewrite P2. auto. }
        unfold hermite_any. destruct (curve_prop junk c PFrenet1) as [q|q]; cbn [rbind]; [|eauto].
        assert (R : forall m o, exists e, spline_new qnan fm m (c_tval junk c) (c_rows c) o (c_ndim c) = Raise e).
        { intros m [o|]; unfold spline_new, hermite_new; rewrite ?P; cbn [rbind]; eauto. }
        edestruct R as [e1 ->]. edestruct R as [e2 ->]. cbn [rbind]. eauto. }
  split.
  - intros c W. destruct (K c W) as [(e & e' & -> & ->)|(ds & m & -> & ->)]; split; intros [f E]; try discriminate; eauto.
  - intros r r' name name' c d d' s s' g g' W H I F F' G G' E E' a z i i' k Hi Hi' Hu Ev.
    destruct (K c W) as [(e & e' & Ex & Ey)|(ds & m & Ex & Ey)].
    { exfalso. unfold interpolate, get_interpolator in E. rewrite F, Ex in E. discriminate. }
    assert (N := size_nonempty c ltac:(lia)). assert (L := tval_length junk c W N).
    rewrite (any_result junk few qnan fm _ r name c s g x ds W H F Ex G) in E.
    rewrite (any_result junk few qnan fm _ r' name' c s' g' y ds W H F' Ey G') in E'.
    injection E as <-. injection E' as <-. cbn [c_rows].
    rewrite !map_map. rewrite (nth_map_in (fun v => map (cast (c_dtype c)) (spline_at qnan fm ExPeriodic (c_tval junk c) (c_rows c) ds (c_ndim c) v)) g i 0 [] Hi).
    rewrite (nth_map_in (fun v => map (cast (c_dtype c)) (spline_at qnan fm m (c_tval junk c) (c_rows c) ds (c_ndim c) v)) g' i' 0 [] Hi').
    f_equal. unfold a, z in Hu, Ev. rewrite <- L in Hu, Ev.
    destruct m as [e|].
    + apply (spline_at_wrapped qnan fm (c_tval junk c) _ _ _ _ _ k e M I); [lia|assumption|assumption].
    + rewrite (spline_at_wrapped qnan fm (c_tval junk c) _ _ _ (nth i g 0) (nth i' g' 0) k true M I) by (lia || assumption).
      symmetry. apply (spline_at_wrapped qnan fm (c_tval junk c) _ _ _ _ _ 0 true M I); [lia|assumption|ring].
Qed.
Print Assumptions C82_wrap.

(** A bool for extrapolate is what the models of the other properties take; None
    counts as True, except for periodic boundary conditions. *)
Theorem C82_bool : forall junk qnan fm (b : bctype R) e,
  is_periodic b = false -> forall periodic (c : curve R),
  cubic_any junk qnan fm b (Some (ExBool e)) c = cubic junk qnan periodic b e c /\
  cubic_any junk qnan fm b None c = cubic junk qnan periodic b true c /\
  (wf c -> (2 <= c_size c)%nat -> increasing (c_tval junk c) ->
   hermite_any junk qnan fm (Some (ExBool e)) c = hermite junk qnan e c /\ hermite_any junk qnan fm None c = hermite junk qnan true c).
Proof.
  intros junk qnan fm b e Nb periodic c. unfold cubic_any, cubic. rewrite Nb. split; [reflexivity|]. split; [reflexivity|].
  intros W H I. rewrite !hermite_any_ok, !hermite_eq by assumption. split; reflexivity.
Qed.
Print Assumptions C82_bool.

(** The minimum property: among all twice continuously differentiable functions
    through the values of a coordinate that have the same derivative at both
    ends, the periodic spline has the least integral of the squared second
    derivative, and it is the only one with this integral. *)
Theorem C82_minimum : forall xs ys f f1 f2 h h1 h2,
  increasing xs -> (2 <= length xs)%nat -> periodic_fun xs ys f f1 f2 ->
  two_smooth h h1 h2 -> (forall k, (k < length xs)%nat -> h (nth k xs 0) = nth k ys 0) ->
  let a := nth 0 xs 0 in
  let z := nth (length xs - 1) xs 0 in
  h1 z = h1 a ->
  RInt (fun v => f2 v * f2 v) a z <= RInt (fun v => h2 v * h2 v) a z /\
  (RInt (fun v => h2 v * h2 v) a z = RInt (fun v => f2 v * f2 v) a z -> forall v, a <= v <= z -> h v = f v).
Proof.
  intros xs ys f f1 f2 h h1 h2 I H2 P G Gv a z Eh.
  assert (F := periodic_clamped xs ys f f1 f2 P). destruct P as (_ & _ & _ & E1 & E2).
  assert (Eaz : f2 z * (h1 z - f1 z) = f2 a * (h1 a - f1 a)) by (unfold a, z in *; rewrite E1, E2, Eh; ring).
  split.
  - apply (energy_min _ _ xs ys f f1 f2 h h1 h2 I H2 F G Gv Eaz).
  - apply (energy_unique _ _ xs ys f f1 f2 h h1 h2 I H2 F G Gv Eaz).
Qed.
Print Assumptions C82_minimum.

(** Averages (see C81): the results of C81 on affine and distance-preserving maps
    apply to periodic splines. *)
Theorem C82_average : forall junk few qnan fm ex, is_mod fm -> ex = None \/ ex = Some ExPeriodic ->
  averaging junk few (cubic_any junk qnan fm (BCName "periodic") ex) nearly_closed (fun _ _ => True) (fun _ => True).
Proof.
  intros junk few qnan fm ex M He. set (b := BCName "periodic").
  apply averaging_intro with (a := fun xs v k => per0 xs (spike (length xs) k) (wrap fm xs v))
    (at_ := fun c => spline_at qnan fm ExPeriodic (c_tval junk c) (c_rows c) (periodic_rows (c_tval junk c) (c_rows c) (c_ndim c)) (c_ndim c)).
  - exact Logic.I.
  - intros c W H I V. assert (N := size_nonempty c ltac:(lia)). assert (L := tval_length junk c W N).
    assert (Lr : length (c_rows c) = length (c_tval junk c)) by (unfold c_size in L; congruence).
    assert (H2 : (2 <= length (c_tval junk c))%nat) by lia.
    assert (Fit : cubic_fits b c) by (apply nearly_closed_iff; assumption).
    split; [|split].
    + eexists. split; [apply (cubic_any_ok junk qnan fm b ex c W H I Fit)|]. destruct He as [-> | ->]; reflexivity.
    + intros v. apply spline_at_length.
    + intros v _. rewrite <- L. assert (Lf := per0_lin (c_tval junk c) (wrap fm (c_tval junk c) v) I H2). split.
      * apply (lin_fun_one _ (fun ys => per0 (c_tval junk c) ys (wrap fm (c_tval junk c) v)) Lf). apply per0_const; assumption.
      * intros j Hj. unfold spline_at. rewrite periodic_at by (try assumption; right; apply wrap_inside; assumption).
        rewrite (lin_fun_weights _ (fun ys => per0 (c_tval junk c) ys (wrap fm (c_tval junk c) v)) Lf) by (unfold column; rewrite map_length; assumption).
        apply column_dot. assumption.
Qed.
Print Assumptions C82_average.

(** It does not matter at which of its points a closed curve starts: c' has the
    points m, m+1, ..., of c and then those from the second one to m again; the
    parameters increase by a period there, and all of them may be moved by d.
    The point of c' at v + d is that of c at v. *)
Definition starts_at (junk : R) (m : nat) (d : R) (c c' : curve R) : Prop :=
  let n := c_size c in
  let p := nth (n - 1) (c_tval junk c) 0 - nth 0 (c_tval junk c) 0 in
  c_size c' = n /\ c_ndim c' = c_ndim c /\ (m < n)%nat /\
  forall k, (k < n)%nat ->
    if Nat.ltb (k + m) n
    then nth k (c_rows c') [] = nth (k + m) (c_rows c) [] /\ nth k (c_tval junk c') 0 = nth (k + m) (c_tval junk c) 0 + d
    else nth k (c_rows c') [] = nth (k + m - (n - 1)) (c_rows c) [] /\ nth k (c_tval junk c') 0 = nth (k + m - (n - 1)) (c_tval junk c) 0 + p + d.

Theorem C82_start : forall junk few qnan fm ex (r : registry (icreate R)) name (c c' e e' : curve R) s s' g g' m d,
  is_mod fm -> wf c -> wf c' -> (2 <= c_size c)%nat -> increasing (c_tval junk c) -> increasing (c_tval junk c') ->
  first_point c = last_point c -> c_dtype c = DFloat -> c_dtype c' = DFloat -> starts_at junk m d c c' ->
  ex = None \/ ex = Some ExPeriodic ->
  reg_find r name = Some (cubic_any junk qnan fm (BCName "periodic") ex) ->
  get_grid junk few c s = Ok g -> get_grid junk few c' s' = Ok g' ->
  interpolate junk few r name c s = Ok e -> interpolate junk few r name c' s' = Ok e' ->
  forall i i', (i < length g)%nat -> (i' < length g')%nat -> nth i' g' 0 = nth i g 0 + d ->
    nth i' (c_rows e') [] = nth i (c_rows e) [].
Proof.
  intros junk few qnan fm ex r name c c' e e' s s' g g' m d M W W' H I I' Ec Dt Dt' (Es & En & Hm & St) He F G G' E E' i i' Hi Hi' Eg.
  assert (N := size_nonempty c ltac:(lia)). assert (L := tval_length junk c W N).
  assert (N' := size_nonempty c' ltac:(lia)). assert (L' := tval_length junk c' W' N').
  assert (Ec' : first_point c' = last_point c').
  { unfold first_point, last_point. rewrite Es. pose proof (St 0%nat ltac:(lia)) as A. pose proof (St (c_size c - 1)%nat ltac:(lia)) as B.
    cbn [Nat.add] in A. rewrite (proj2 (Nat.ltb_lt m (c_size c))) in A by assumption. rewrite (proj1 A).
    destruct (Nat.ltb_spec (c_size c - 1 + m) (c_size c)) as [Q|Q]; rewrite (proj1 B).
    - replace m with 0%nat by lia. rewrite Nat.add_0_r. exact Ec.
    - f_equal. lia. }
  destruct (C82_closed junk few qnan fm ex r name c s g M W H I Ec He F G) as (f & f1 & f2 & rows & Hs & Er & Lr & Dr & A).
  destruct (C82_closed junk few qnan fm ex r name c' s' g' M W' ltac:(lia) I' Ec' He F G') as (h & h1 & h2 & rows' & Hs' & Er' & Lr' & Dr' & A').
  rewrite Er in E. rewrite Er' in E'. injection E as <-. injection E' as <-. cbn [c_rows]. rewrite Dt, Dt', !map_cast_float.
  assert (L1 : length (nth i rows []) = c_ndim c) by (apply Dr, nth_In; lia).
  assert (L2 : length (nth i' rows' []) = c_ndim c') by (apply Dr', nth_In; lia).
  apply vec_ext; [congruence|]. intros j. destruct (Nat.lt_ge_cases j (c_ndim c)) as [Hj|Hj]; [|rewrite !nth_overflow by lia; reflexivity].
  rewrite A, A' by (assumption || lia). rewrite Eg.
  destruct (Hs j Hj) as [Sf _]. destruct (Hs' j ltac:(lia)) as [_ U].
  assert (Q : f j (nth i g 0 + d - d) = h j (nth i g 0 + d)).
  { refine (U _ _ _ (closed_restart (c_tval junk c) (c_tval junk c') m d _ _ _ _ (map (fun p => nth j p 0) (c_rows c)) (map (fun p => nth j p 0) (c_rows c')) (f j) (f1 j) (f2 j) _ _ Sf) (nth i g 0 + d)).
    - lia.
    - lia.
    - lia.
    - intros k Hk. rewrite L in *. pose proof (St k Hk) as B. destruct (Nat.ltb (k + m) (c_size c)); rewrite (proj2 B); cbn [INR]; ring.
    - rewrite map_length, L. reflexivity.
    - intros k Hk. rewrite map_length in *. fold (c_size c) in *. pose proof (St k Hk) as B.
      rewrite (nth_map_in (fun p => nth j p 0) (c_rows c') k [] 0) by (unfold c_size in *; lia).
      destruct (Nat.ltb_spec (k + m) (c_size c)) as [Q|Q]; rewrite (proj1 B); symmetry; apply (nth_map_in (fun p => nth j p 0) (c_rows c) _ [] 0); unfold c_size in *; lia. }
  rewrite <- Q. f_equal. ring.
Qed.
Print Assumptions C82_start.

(** ** Examples *)

Definition fmod1 (a p : float) : float := if (a <? 0)%float then (a + p)%float else if (a <? p)%float then a else (a - p)%float.
Definition preg : registry (icreate float) :=
  [("periodic", cubic_any nan nan fmod1 (BCName "periodic") None); ("true", cubic_any nan nan fmod1 (BCName "periodic") (Some (ExBool true)));
   ("false", cubic_any nan nan fmod1 (BCName "periodic") (Some (ExBool false)));
   ("natural", cubic_any nan nan fmod1 (BCName "natural") (Some ExPeriodic)); ("default", cubic_any nan nan fmod1 (BCName "natural") None);
   ("hermite", hermite_any nan nan fmod1 (Some ExPeriodic)); ("hdefault", hermite_any nan nan fmod1 None)].
Definition plc (l : list float) (c : curve float) (name : string) : res (list (list float)) :=
  do c' <- interpolate nan (fun _ => true) preg name c (SArr l) ; Ok (c_rows c').
(** A square, a line back and forth, a curve that is not closed. *)
Definition sq : curve float := mkCurve [[fz 0; fz 0]; [fz 1; fz 0]; [fz 1; fz 1]; [fz 0; fz 1]; [fz 0; fz 0]] 2 DFloat (Some [fz 0; fz 1; fz 2; fz 3; fz 4]).
Definition bf : curve float := mkCurve [[fz 0; fz 0]; [fz 1; fz 2]; [fz 0; fz 0]] 2 DFloat (Some [fz 0; fz 1; fz 2]).
Definition op : curve float := mkCurve [[fz 0; fz 0]; [fz 1; fz 2]; [fz 0; fz 1]] 2 DFloat (Some [fz 0; fz 1; fz 2]).
Example C82_ex :
  plc [fz (-2); fq 1 2; fz 2; fz 5] sq "periodic" = Ok [[fz 1; fz 1]; [fq 1 2; fq (-3) 16]; [fz 1; fz 1]; [fz 1; fz 0]] /\
  plc [fz (-1); fq 1 2; fz 2] sq "true" = Ok [[fq 1 2; fq 3 2]; [fq 1 2; fq (-3) 16]; [fz 1; fz 1]] /\
  plc [fz (-1); fq 1 2; fz 2; fz 5] sq "false" = Ok [[nan; nan]; [fq 1 2; fq (-3) 16]; [fz 1; fz 1]; [nan; nan]] /\
  plc [fz (-1); fz 2; fz 5] sq "natural" = Ok [[fz 0; fz 1]; [fz 1; fz 1]; [fz 1; fz 0]] /\
  plc [fz 2; fz 5] sq "hermite" = Ok [[fz 1; fz 1]; [fz 1; fz 0]] /\
  plc [fz (-1); fq 1 2; fz 2; fz 3] bf "periodic" = Ok [[fz 1; fz 2]; [fq 1 2; fz 1]; [fz 0; fz 0]; [fz 1; fz 2]] /\
  map (plc [fz 0] op) ["periodic"; "true"; "false"] = repeat (Raise InterpolationError) 3.
Proof. repeat split; vm_compute; reflexivity. Qed.

(** The hypotheses: numpy's remainder exists; a closed curve; a curve the ends of
    which differ by less than the tolerance; one that is not accepted. *)
Example C82_ex_mod : is_mod Rmod /\ forall fm, is_mod fm -> fm (-1) 4 = 3 /\ fm 9 4 = 1 /\ fm 4 4 = 0.
Proof.
  split; [apply Rmod_is_mod|]. intros fm M. repeat split.
  - apply (mod_unique fm (-1) 4 3 (-1) M); lra.
  - apply (mod_unique fm 9 4 1 2 M); lra.
  - apply (mod_unique fm 4 4 0 1 M); lra.
Qed.
Definition rsq : curve R := mkCurve [[0; 0]; [1; 0]; [1; 1]; [0; 1]; [0; 0]] 2 DFloat (Some [0; 1; 2; 4; 5]).
Definition rsq2 : curve R := mkCurve [[1; 1]; [0; 1]; [0; 0]; [1; 0]; [1; 1]] 2 DFloat (Some [12; 14; 15; 16; 17]).
Definition almost (d : R) : curve R := mkCurve [[0; 0]; [1; 2]; [0; d]] 2 DFloat (Some [0; 1; 2]).
Lemma rsq_wf : wf rsq. Proof. wfr. Qed.
Lemma rsq_increasing junk : increasing (c_tval junk rsq).
Proof. intros [|[|[|[|[|i]]]]] H; cbn in *; try lia; lra. Qed.
Lemma rsq_closed : first_point rsq = last_point rsq. Proof. reflexivity. Qed.
Example C82_ex_closed junk : wf rsq /\ (2 <= c_size rsq)%nat /\ increasing (c_tval junk rsq) /\ first_point rsq = last_point rsq /\ nearly_closed rsq.
Proof.
  split; [apply rsq_wf|]. split; [cbn; lia|]. split; [apply rsq_increasing|]. split; [reflexivity|].
  intros j Hj. rewrite rsq_closed. unfold Rminus. rewrite Rplus_opp_r, Rabs_R0. pose proof (Rabs_pos (nth j (last_point rsq) 0)). lra.
Qed.
Example C82_ex_nearly : nearly_closed (almost (1 / 1000000000000000)) /\ ~ nearly_closed (almost (1 / 100000000000000)).
Proof.
  split.
  - intros [|[|j]] Hj; cbn in *; [|unfold Rabs; repeat destruct Rcase_abs; lra|lia]. unfold Rminus. rewrite Rplus_opp_r, Rabs_R0. lra.
  - intros H. specialize (H 1%nat ltac:(cbn; lia)). cbn in H. revert H. unfold Rabs. repeat destruct Rcase_abs; lra.
Qed.
Example C82_ex_start junk : starts_at junk 2 10 rsq rsq2 /\ wf rsq2 /\ increasing (c_tval junk rsq2).
Proof.
  split; [|split; [wfr|intros [|[|[|[|[|i]]]]] H; cbn in *; try lia; lra]].
  split; [reflexivity|]. split; [reflexivity|]. split; [cbn; lia|].
  intros [|[|[|[|[|k]]]]] Hk; cbn in *; try lia; (split; [reflexivity|ring]).
Qed.
(** The point half a period after the second point, found with grids of both
    curves and through C82_start. *)
Example C82_ex_use : forall junk few qnan fm (r : registry (icreate R)) name, is_mod fm ->
  reg_find r name = Some (cubic_any junk qnan fm (BCName "periodic") None) ->
  exists e e', interpolate junk few r name rsq (SArr [1; 7 / 2]) = Ok e /\ interpolate junk few r name rsq2 (SArr [27 / 2]) = Ok e' /\
    nth 0 (c_rows e) [] = [1; 0] /\ nth 1 (c_rows e) [] = nth 0 (c_rows e') [].
Proof.
  intros junk few qnan fm r name M F.
  assert (G : get_grid junk few rsq (SArr [1; 7 / 2]) = Ok [1; 7 / 2]) by (apply C53_validation_iff; split; [discriminate|]; intros [|i] Hi; cbn in *; [lra|lia]).
  assert (G' : get_grid junk few rsq2 (SArr [27 / 2]) = Ok [27 / 2]) by (apply C53_validation_iff; split; [discriminate|]; intros i Hi; cbn in *; lia).
  destruct (C82_ex_start junk) as (S & W' & I').
  destruct (C82_closed junk few qnan fm None r name rsq _ _ M rsq_wf ltac:(cbn; lia) (rsq_increasing junk) rsq_closed (or_introl eq_refl) F G) as (f & f1 & f2 & rows & _ & E & _).
  destruct (C82_closed junk few qnan fm None r name rsq2 _ _ M W' ltac:(cbn; lia) I' eq_refl (or_introl eq_refl) F G') as (h & h1 & h2 & rows' & _ & E' & _).
  do 2 eexists. split; [exact E|]. split; [exact E'|]. split.
  - apply (C82_points junk few qnan fm None r name rsq _ _ _ M rsq_wf ltac:(cbn; lia) (rsq_increasing junk) rsq_closed eq_refl (or_introl eq_refl) F G E 0%nat 1%nat 0%Z); cbn; [lia|lia|ring].
  - symmetry. apply (C82_start junk few qnan fm None r name rsq rsq2 _ _ _ _ _ _ 2%nat 10 M rsq_wf W' ltac:(cbn; lia) (rsq_increasing junk) I' rsq_closed eq_refl eq_refl S (or_introl eq_refl) F G G' E E'); cbn; [lia|lia|lra].
Qed.
(** A competitor of the periodic spline through 0, 0, 0: the zero function is the
    spline, and v (v - 1) (v - 2) has equal derivatives at both ends. *)
Example C82_ex_minimum : periodic_fun [0; 1; 2] [0; 0; 0] (fun _ => 0) (fun _ => 0) (fun _ => 0) /\
  exists h h1 h2, two_smooth h h1 h2 /\ (forall k, (k < 3)%nat -> h (nth k [0; 1; 2] 0) = nth k [0; 0; 0] 0) /\ h1 2 = h1 0 /\ h 3 <> 0.
Proof.
  assert (Z : two_smooth (fun _ => 0) (fun _ => 0) (fun _ => 0)).
  { split; [intros v; apply derivable_pt_lim_const|split; [intros v; apply derivable_pt_lim_const|]]. apply continuity_const. intros u v. reflexivity. }
  split.
  - split; [exact Z|]. split; [intros k _; exists 0, 0, 0, 0; intros v _; ring|]. split; [intros [|[|[|k]]] Hk; cbn in *; (reflexivity || lia)|split; reflexivity].
  - exists (fun v => (v * (v - 1) * (v - 2))), (fun v => 2 - 6 * v + 3 * (v * v)), (fun v => - 6 + 6 * v). split; [|split; [|split]].
    + split; [|split].
      * intros v. pose proof (poly_deriv 0 2 (-3) 1 v) as K. replace (2 + 2 * -3 * v + 3 * 1 * (v * v)) with (2 - 6 * v + 3 * (v * v)) in K by ring.
        apply (glue_deriv _ (fun v => 0 + 2 * v + -3 * (v * v) + 1 * (v * v * v)) (fun v => 0 + 2 * v + -3 * (v * v) + 1 * (v * v * v)) v _ 1); try assumption; try lra; intros; ring.
      * intros v. pose proof (poly_deriv 2 (-6) 3 0 v) as K. replace (-6 + 2 * 3 * v + 3 * 0 * (v * v)) with (- 6 + 6 * v) in K by ring.
        apply (glue_deriv _ (fun v => 2 + -6 * v + 3 * (v * v) + 0 * (v * v * v)) (fun v => 2 + -6 * v + 3 * (v * v) + 0 * (v * v * v)) v _ 1); try assumption; try lra; intros; ring.
      * intros v. apply derivable_continuous_pt. exists 6. pose proof (poly_deriv (-6) 6 0 0 v) as K. replace (6 + 2 * 0 * v + 3 * 0 * (v * v)) with 6 in K by ring.
        apply (glue_deriv _ (fun v => -6 + 6 * v + 0 * (v * v) + 0 * (v * v * v)) (fun v => -6 + 6 * v + 0 * (v * v) + 0 * (v * v * v)) v _ 1); try assumption; try lra; intros; ring.
    + intros [|[|[|k]]] Hk; cbn in *; try lia; ring.
    + ring.
    + lra.
Qed.

(** With extrapolate='periodic' and other boundary conditions the last point of
    a curve that is not closed is not reproduced: its parameter counts as the
    first one. *)
Theorem C82_last_refuted : exists c : curve float,
  wf c /\ c_rows c = [[fz 0; fz 0]; [fz 1; fz 2]; [fz 0; fz 1]] /\ c_t c = Some [fz 0; fz 1; fz 2] /\
  plc [fz 2] c "natural" = Ok [[fz 0; fz 0]] /\ plc [fz 2] c "hermite" = Ok [[fz 0; fz 0]] /\ plc [fz 2] c "default" = Ok [[fz 0; fz 1]].
Proof.
  exists op. split; [wfr|]. split; [reflexivity|]. split; [reflexivity|]. repeat split; vm_compute; reflexivity.
Qed.
Print Assumptions C82_last_refuted.
