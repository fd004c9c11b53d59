(** Properties C51-C57: interpolation grids, linear interpolation, the
    interpolator protocol and linrescale. *)
From Coq Require Import ZArith String List Bool Arith Lia PrimFloat Reals Lra Psatz.
From Verif Require Import Num Py Numeric Curve Vec Geom DiffGeom Intersect Registry Interp Spec GeomSpec.
From Verif Require Import ListFacts ArrayProofs VecFacts CurveProofs CurveProofs2 CurveProofs3 GeomProofs GeomProofs2 DiffGeomProofs.
From Verif Require Import InterpProofs InterpProofs2 InterpProofs3 Properties_Container.
Import ListNotations.
Local Open Scope string_scope.
Local Open Scope list_scope.
Local Open Scope R_scope.

(** A parametric plane curve with uneven parameters, a right-angled path of
    length 17 without parameters, and binary64 versions. *)
Definition rt3 : curve R := mkCurve [[0; 0]; [2; 4]; [2; 8]] 2 DFloat (Some [0; 1; 3]).
Definition rpath3 : curve R := mkCurve [[0; 0]; [3; 4]; [3; 16]] 2 DFloat None.
Definition ft3 : curve float :=
  mkCurve [[fz 0; fz 0]; [fz 2; fz 4]; [fz 2; fz 8]] 2 DFloat (Some [fz 0; fz 1; fz 3]).
Definition fpath3 : curve float := mkCurve [[fz 0; fz 0]; [fz 3; fz 4]; [fz 3; fz 16]] 2 DFloat None.

Ltac wfr := split; [|split]; cbn; [lia| |first [discriminate | intros t H; injection H as <-; reflexivity]];
  intros p Hp; repeat (destruct Hp as [<-|Hp]; [reflexivity|]); destruct Hp.
Lemma rt3_wf : wf rt3. Proof. wfr. Qed.
Lemma rpath3_wf : wf rpath3. Proof. wfr. Qed.
Lemma rt3_increasing junk : increasing (c_tval junk rt3).
Proof. intros [|[|[|i]]] H; cbn in *; try lia; lra. Qed.
Lemma rpath3_arclen junk : c_arclen junk rpath3 = 17.
Proof.
  unfold c_arclen. cbn. replace ((3 - 0) * (3 - 0) + ((4 - 0) * (4 - 0) + 0)) with (5 * 5) by lra.
  replace ((3 - 3) * (3 - 3) + ((16 - 4) * (16 - 4) + 0)) with (12 * 12) by lra. rewrite !sqrt_square; lra.
Qed.

(** [l] consists of [n] evenly spaced values; the first is [a], and for n > 1
    the last is [b]. *)
Definition evenly (a b : R) (n : nat) (l : list R) : Prop :=
  length l = n /\ (n = 1%nat -> l = [a]) /\
  ((2 <= n)%nat -> nth 0 l 0 = a /\ nth (n - 1) l 0 = b /\
     forall i, (i < n)%nat -> nth i l 0 = a + INR i * ((b - a) / INR (n - 1))).

Lemma linspace_evenly a b n : evenly a b n (linspace_nat a b n).
Proof.
  split; [apply linspace_length|]. split; [intros ->; apply linspace_one|].
  intros H. split; [apply linspace_first; lia|]. split; [apply linspace_last; assumption|].
  intros i Hi. apply linspace_nth; assumption.
Qed.

(** ** C51 Uniform interpolation grid *)

(** The constructor: exactly which arguments are accepted. *)
Theorem C51_init : forall (T : Type) (NT : Num T) (fill : narg T) (kind : string),
  uniform_init fill kind =
    match fill with
    | NInt n => if kind =? "point" then if (n <? 2)%Z then Raise ValueError else Ok (UPoint n)
                else if kind =? "length" then Ok (ULength (nlit n 1)) else Raise ValueError
    | NFloat x => if kind =? "point" then Raise TypeError
                  else if kind =? "length" then Ok (ULength x) else Raise ValueError
    | NOther => if kind =? "point" then Raise TypeError
                else if kind =? "length" then Raise TypeError else Raise ValueError
    end.
Proof. intros T NT [n|x|] kind; unfold uniform_init; destruct (kind =? "point"); reflexivity. Qed.
Print Assumptions C51_init.

Theorem C51_points : forall junk (c : curve R) n, wf c -> (2 <= c_size c)%nat -> (2 <= n)%nat ->
  exists l, uniform_call junk (UPoint (Z.of_nat n)) c = Ok l /\
    evenly (nth 0 (c_tval junk c) 0) (nth (c_size c - 1) (c_tval junk c) 0) n l.
Proof.
  intros junk c n W H Hn. rewrite uniform_call_eq by assumption. cbn [rbind]. unfold linspace.
  destruct (Z.ltb_spec (Z.of_nat n) 0); [lia|]. rewrite Nat2Z.id. eexists. split; [reflexivity|]. apply linspace_evenly.
Qed.
Print Assumptions C51_points.

(** kind = "length": k + 1 points where k is arclen/fill rounded half to even;
    a negative count is a ValueError, a zero fill cannot be rounded. *)
Theorem C51_length : forall junk (c : curve R) fill, wf c -> (2 <= c_size c)%nat -> fill <> 0 ->
  exists k, nearest_even (c_arclen junk c / fill) k /\
    ((0 <= k + 1)%Z -> exists l, uniform_call junk (ULength fill) c = Ok l /\
       evenly (nth 0 (c_tval junk c) 0) (nth (c_size c - 1) (c_tval junk c) 0) (Z.to_nat (k + 1)) l) /\
    ((k + 1 < 0)%Z -> uniform_call junk (ULength fill) c = Raise ValueError).
Proof.
  intros junk c fill W H Hf. exists (Rround (c_arclen junk c / fill)). split; [apply Rround_nearest|].
  rewrite uniform_call_eq by assumption. rewrite round_div_R by assumption. cbn [rmap rbind]. unfold linspace.
  set (k := (Rround (c_arclen junk c / fill) + 1)%Z). split; intros K.
  - destruct (Z.ltb_spec k 0); [lia|]. eexists. split; [reflexivity|]. apply linspace_evenly.
  - destruct (Z.ltb_spec k 0); [reflexivity|lia].
Qed.
Print Assumptions C51_length.

Theorem C51_length_zero : forall junk (c : curve R), wf c -> (2 <= c_size c)%nat ->
  uniform_call junk (ULength 0) c = Raise (if Reqb (c_arclen junk c) 0 then ValueError else OtherError).
Proof.
  intros junk c W H. rewrite uniform_call_eq by assumption. rewrite round_div_zero. reflexivity.
Qed.
Print Assumptions C51_length_zero.

Theorem C51_small_curve : forall (T : Type) (NT : Num T) (ST : NumSqrt T) (RT : NumRound T) (junk : T) u (c : curve T),
  (c_size c < 2)%nat -> uniform_call junk u c = Raise ValueError.
Proof. intros T NT ST RT junk u c H. unfold uniform_call. destruct (Nat.ltb_spec (c_size c) 2); [reflexivity|lia]. Qed.
Print Assumptions C51_small_curve.

Example C51_ex : uniform_call nan (UPoint 5) fpath3 = Ok [fz 0; fq 17 4; fq 17 2; fq 51 4; fz 17]
  /\ uniform_call nan (ULength (fz 6)) fpath3 = Ok [fz 0; fq 17 3; fq 34 3; fz 17]
  /\ uniform_call nan (ULength (fz 1000)) fpath3 = Ok [fz 0]
  /\ uniform_call nan (ULength (fz (-5))) fpath3 = Raise ValueError
  /\ uniform_init (NInt 1 : narg float) "point" = Raise ValueError.
Proof. repeat split. Qed.
Example C51_ex_hyp : wf rpath3 /\ (2 <= c_size rpath3)%nat /\ c_arclen 0 rpath3 = 17.
Proof. split; [apply rpath3_wf|]. split; [cbn; lia|apply rpath3_arclen]. Qed.

(** ** C52 Uniform extrapolation grid *)

Theorem C52_points : forall (g : list R) before after, (2 <= length g)%nat ->
  let h := (nth (length g - 1) g 0 - nth 0 g 0) / INR (length g - 1) in
  exists lb la,
    extrap_call (EPoint (Z.of_nat before) (Z.of_nat after)) g = Ok (lb ++ g ++ la) /\
    length lb = before /\ length la = after /\
    (forall i, (i < before)%nat -> nth i lb 0 = nth 0 g 0 - (INR before - INR i) * h) /\
    (forall i, (i < after)%nat -> nth i la 0 = nth (length g - 1) g 0 + (INR i + 1) * h).
Proof. intros g b a H. exact (extrap_point_ok g b a H). Qed.
Print Assumptions C52_points.

(** An evenly spaced grid is continued with the same spacing. *)
Theorem C52_even : forall (g : list R) x h before after, (2 <= length g)%nat ->
  (forall i, (i < length g)%nat -> nth i g 0 = x + INR i * h) ->
  exists l, extrap_call (EPoint (Z.of_nat before) (Z.of_nat after)) g = Ok l /\
    length l = (before + length g + after)%nat /\
    forall i, (i < length l)%nat -> nth i l 0 = x + (INR i - INR before) * h.
Proof.
  intros g x h b a H U. destruct (extrap_point_ok g b a H) as (lb & la & E & Lb & La & Hb & Ha).
  exists (lb ++ g ++ la). split; [assumption|]. assert (P : 0 < INR (length g - 1)) by (apply lt_0_INR; lia).
  rewrite !app_length. split; [lia|].
  rewrite (U 0%nat), (U (length g - 1)%nat) in * by lia.
  assert (Eh : (x + INR (length g - 1) * h - (x + INR 0 * h)) / INR (length g - 1) = h) by (cbn [INR]; field; lra).
  rewrite Eh in *. intros i Hi. destruct (Nat.lt_ge_cases i b) as [C|C].
  - rewrite app_nth1 by lia. rewrite Hb by assumption. cbn [INR]. ring.
  - rewrite app_nth2 by lia. destruct (Nat.lt_ge_cases (i - b) (length g)) as [D|D].
    + rewrite app_nth1 by lia. rewrite Lb, U by lia. rewrite minus_INR by lia. ring.
    + rewrite app_nth2 by lia. rewrite Ha by lia. rewrite Lb. rewrite !minus_INR by lia. cbn [INR]. ring.
Qed.
Print Assumptions C52_even.

Theorem C52_negative : forall (g : list R) before after, g <> [] -> (before < 0 \/ after < 0)%Z ->
  extrap_call (EPoint before after) g = Raise ValueError.
Proof. exact extrap_point_negative. Qed.
Print Assumptions C52_negative.

(** kind = "length": the lengths in units of the mean step, rounded half to even. *)
Theorem C52_length : forall (g : list R) before after, (2 <= length g)%nat ->
  let h := (nth (length g - 1) g 0 - nth 0 g 0) / INR (length g - 1) in h <> 0 ->
  exists nb na, nearest_even (before / h) nb /\ nearest_even (after / h) na /\
    extrap_call (ELength before after) g = extrap_call (EPoint nb na) g.
Proof.
  intros g b a H h Hh. exists (Rround (b / h)), (Rround (a / h)). split; [apply Rround_nearest|]. split; [apply Rround_nearest|].
  unfold extrap_call. rewrite mean_diff by assumption. fold h. rewrite !round_div_R by assumption. reflexivity.
Qed.
Print Assumptions C52_length.

(** The composite grid object: the grid of the inner object is extended. *)
Theorem C52_grid_object : forall (T : Type) (NT : Num T) (ST : NumSqrt T) (RT : NumRound T) junk few (g : grid T) e c l,
  grid_call junk few g c = Ok (D1 l) ->
  grid_call junk few (GExtrap g e) c = rmap D1 (extrap_call e l).
Proof. intros T NT ST RT junk few g e c l H. cbn [grid_call]. rewrite H. reflexivity. Qed.
Print Assumptions C52_grid_object.
Theorem C52_empty : forall (T : Type) (NT : Num T) (RT : NumRound T) before after,
  extrap_call (EPoint before after) ([] : list T) = Raise IndexError.
Proof. reflexivity. Qed.
Print Assumptions C52_empty.

Example C52_ex : extrap_call (EPoint 2 1) [fz 0; fz 1; fz 2; fz 3] = Ok [fz (-2); fz (-1); fz 0; fz 1; fz 2; fz 3; fz 4]
  /\ extrap_call (ELength (fq 5 2) (fq 7 2)) [fz 0; fz 1; fz 2] = Ok [fz (-2); fz (-1); fz 0; fz 1; fz 2; fz 3; fz 4; fz 5; fz 6]
  /\ extrap_call (EPoint 0 1) [fz 0; fz 1; fz 3] = Ok [fz 0; fz 1; fz 3; fq 9 2].
Proof. repeat split. Qed.
(** A grid of one value has no step: the added values are NaN. *)
Theorem C52_one_value_refuted : exists g : list float, length g = 1%nat /\
  extrap_call (EPoint 1 1) g = Ok ([nan] ++ g ++ [nan]).
Proof. exists [fz 5]. repeat split. Qed.
Print Assumptions C52_one_value_refuted.

(** ** C53 Grid validation *)

(** A vector is accepted iff it is not empty and consecutive values increase by
    more than 1e-8; it is then used unchanged.  Otherwise: ValueError. *)
Theorem C53_validation_iff : forall junk few (c : curve R) (l : list R),
  (get_grid junk few c (SArr l) = Ok l <-> l <> [] /\ well_spaced l) /\
  (get_grid junk few c (SArr l) = Raise ValueError <-> l = [] \/ ~ well_spaced l).
Proof.
  intros junk few c l. unfold get_grid. cbn [rbind]. split; split.
  - intros H. apply check_grid_inv in H as (_ & H). assumption.
  - intros [N H]. apply check_grid_ok; assumption.
  - intros H. destruct l as [|x l]; [left; reflexivity|right; intros W].
    rewrite check_grid_ok in H by (discriminate || assumption). discriminate.
  - apply check_grid_raise.
Qed.
Print Assumptions C53_validation_iff.

(** Whatever the specification (grid object, count, array), an accepted grid is
    non-empty and well spaced. *)
Theorem C53_accepted : forall junk few (c : curve R) s l, get_grid junk few c s = Ok l -> l <> [] /\ well_spaced l.
Proof.
  intros junk few c s l. unfold get_grid. destruct (match s with SGrid _ => _ | _ => _ end) as [d|e]; cbn [rbind]; [|discriminate].
  destruct d as [l0| |]; try discriminate. intros H. apply check_grid_inv in H as (-> & H). assumption.
Qed.
Print Assumptions C53_accepted.

Theorem C53_other_specs : forall (T : Type) (NT : Num T) (ST : NumSqrt T) (RT : NumRound T) junk few (c : curve T),
  get_grid junk few c SShape = Raise ValueError /\ get_grid junk few c SOther = Raise ValueError /\
  (forall g d, grid_call junk few g c = Ok d -> (d = DShape \/ d = DType) -> get_grid junk few c (SGrid g) = Raise ValueError) /\
  (forall g e, grid_call junk few g c = Raise e -> get_grid junk few c (SGrid g) = Raise e).
Proof.
  intros T NT ST RT junk few c. repeat split.
  - intros g d H [-> | ->]; unfold get_grid; rewrite H; reflexivity.
  - intros g e H. unfold get_grid. rewrite H. reflexivity.
Qed.
Print Assumptions C53_other_specs.

(** A point count n is accepted iff the curve has two points, n >= 2 and the
    parameter range exceeds (n - 1)*1e-8. *)
Theorem C53_count_iff : forall junk few (c : curve R) n, wf c -> (2 <= c_size c)%nat ->
  let a := nth 0 (c_tval junk c) 0 in let b := nth (c_size c - 1) (c_tval junk c) 0 in
  ((exists l, get_grid junk few c (SInt n) = Ok l) <-> (2 <= n)%Z /\ a + IZR (n - 1) * / 100000000 < b) /\
  (~ ((2 <= n)%Z /\ a + IZR (n - 1) * / 100000000 < b) -> get_grid junk few c (SInt n) = Raise ValueError).
Proof.
  intros junk few c n W H a b. unfold get_grid.
  unfold uniform_init. cbn [String.eqb Ascii.eqb Bool.eqb]. destruct (Z.ltb_spec n 2) as [Hn|Hn].
  - cbn [rbind]. split; [|reflexivity]. split; [intros (l & E); discriminate|]. intros [K _]. lia.
  - cbn [rbind]. rewrite uniform_call_eq by assumption. cbn [rbind]. fold a b. unfold linspace.
    destruct (Z.ltb_spec n 0); [lia|]. cbn [rmap rbind].
    assert (E : well_spaced (linspace_nat a b (Z.to_nat n)) <-> a + IZR (n - 1) * / 100000000 < b).
    { rewrite linspace_well_spaced by lia. rewrite INR_IZR_INZ. replace (Z.of_nat (Z.to_nat n - 1)) with (n - 1)%Z by lia. reflexivity. }
    assert (N : linspace_nat a b (Z.to_nat n) <> []).
    { intros Q. apply (f_equal (@length R)) in Q. rewrite linspace_length in Q. cbn in Q. lia. }
    rewrite <- E. split; [split|].
    + intros (l & Q). apply check_grid_inv in Q as (_ & _ & Q). split; assumption.
    + intros [_ Q]. eexists. apply check_grid_ok; assumption.
    + intros Q. apply check_grid_raise. right. intros K. apply Q. split; assumption.
Qed.
Print Assumptions C53_count_iff.

(** Decreasing parameters, e.g. those of a reversed parametric curve, can never
    be interpolated on a point count. *)
Theorem C53_reversed : forall junk few (c c' : curve R) (f : ifun R) n, wf c -> (2 <= c_size c)%nat ->
  isparametric c = true -> increasing (c_tval junk c) -> c_reverse c = Ok c' ->
  interp_call junk few c' f (SInt n) = Raise ValueError.
Proof.
  intros junk few c c' f n W H P I E. destruct (C07_reverse R c W) as (c2 & E2 & Er & Et & _ & _ & W').
  rewrite E in E2. injection E2 as <-.
  assert (Sz : c_size c' = c_size c) by (unfold c_size; rewrite Er; apply rev_length).
  unfold interp_call. rewrite c_bool_wf by (assumption || (apply size_nonempty; lia)). cbn [negb].
  destruct (Nat.eqb_spec (c_size c') 1); [lia|].
  destruct (C53_count_iff junk few c' n W' ltac:(lia)) as [_ R]. cbv zeta in R. rewrite R; [reflexivity|].
  intros [Hn K]. unfold isparametric in P. unfold c_tval in *. rewrite Et in K. destruct (c_t c) as [t|] eqn:Ec; [|discriminate].
  cbn [option_map] in K. assert (Lt : length t = c_size c) by (apply W; assumption).
  rewrite Sz, !rev_nth in K by lia. rewrite Lt in K. replace (c_size c - S (c_size c - 1))%nat with 0%nat in K by lia.
  pose proof (increasing_lt t I 0 (c_size c - 1) ltac:(lia)) as Q. replace (c_size c - 1)%nat with (c_size c - 1)%nat in Q by lia.
  assert (0 <= IZR (n - 1)) by (apply IZR_le; lia). nra.
Qed.
Print Assumptions C53_reversed.
Example C53_reversed_ex : exists c', c_reverse ft3 = Ok c' /\ get_grid nan (fun _ => true) c' (SInt 4) = Raise ValueError.
Proof. eexists. split; reflexivity. Qed.
Example C53_reversed_ex_hyp : wf rt3 /\ (2 <= c_size rt3)%nat /\ isparametric rt3 = true /\ increasing (c_tval 0 rt3).
Proof. split; [apply rt3_wf|]. split; [cbn; lia|]. split; [reflexivity|apply rt3_increasing]. Qed.

(** In binary64 the test is "no step is negative or close to zero", so that
    grids containing NaN are accepted: accepted grids need not be increasing. *)
Theorem C53_nan_refuted : forall junk few (c : curve float),
  exists l x, get_grid junk few c (SArr l) = Ok l /\ In x l /\ nisnan x = true.
Proof. intros junk few c. exists [fz 0; nan; fz (-1)], nan. split; [reflexivity|]. split; [right; left|]; reflexivity. Qed.
Print Assumptions C53_nan_refuted.
(** A tiny curve cannot be interpolated on its own parameters. *)
Theorem C53_tiny_curve_refuted : exists c : curve R, wf c /\ (2 <= c_size c)%nat /\ increasing (c_tval 0 c) /\
  get_grid 0 (fun _ => true) c (SArr (c_tval 0 c)) = Raise ValueError.
Proof.
  exists (mkCurve [[0; 0]; [1; 1]] 2 DFloat (Some [0; / 1000000000])). split; [wfr|]. split; [cbn; lia|]. split.
  - intros [|i] H; cbn in *; [lra|lia].
  - apply C53_validation_iff. right. intros H. specialize (H 0%nat ltac:(cbn; lia)). cbn in H. lra.
Qed.
Print Assumptions C53_tiny_curve_refuted.

(** ** C54 Linear interpolation *)

Lemma dims_interp n xs ys g : increasing xs -> length ys = length xs -> dims n ys -> (2 <= length xs)%nat -> dims n (map (interp_at xs ys) g).
Proof. intros I L D H p Hp. apply in_map_iff in Hp as (v & <- & _). apply (interp_at_length n); assumption. Qed.

(** On strictly increasing parameters, for every accepted grid: one point per
    grid value, and each point lies on the line through the two neighbouring
    curve points (the end segments extended), at the affine parameter given by
    the grid value.  Integer curves are truncated afterwards. *)
Theorem C54_linear : forall junk few (r : registry (icreate R)) name (c : curve R) s g,
  wf c -> (2 <= c_size c)%nat -> increasing (c_tval junk c) ->
  reg_find r name = Some (linear junk few) -> get_grid junk few c s = Ok g ->
  exists rows,
    interpolate junk few r name c s
      = Ok (mkCurve (map (map (cast (c_dtype c))) rows) (c_ndim c) (c_dtype c) (if isparametric c then Some g else None)) /\
    length rows = length g /\ dims (c_ndim c) rows /\
    forall i k, (i < length g)%nat -> (S k < c_size c)%nat ->
      (k = 0%nat \/ nth k (c_tval junk c) 0 <= nth i g 0) ->
      (S (S k) = c_size c \/ nth i g 0 <= nth (S k) (c_tval junk c) 0) ->
      affine_at (nth k (c_rows c) []) (nth (S k) (c_rows c) [])
        ((nth i g 0 - nth k (c_tval junk c) 0) / (nth (S k) (c_tval junk c) 0 - nth k (c_tval junk c) 0)) (nth i rows []).
Proof.
  intros junk few r name c s g W H I F G.
  assert (L := tval_length junk c W (size_nonempty c ltac:(lia))).
  destruct (linear_eq junk few c W H I) as (f & Ef & Fg).
  assert (D : dims (c_ndim c) (c_rows c)) by (intros p Hp; apply W; assumption).
  destruct (C53_accepted junk few c s g G) as [Ng _].
  assert (Dr : dims (c_ndim c) (map (interp_at (c_tval junk c) (c_rows c)) g)).
  { apply dims_interp; [assumption|unfold c_size in L; congruence|assumption|lia]. }
  exists (map (interp_at (c_tval junk c) (c_rows c)) g). rewrite map_length. split; [|split; [reflexivity|split; [assumption|]]].
  - unfold interpolate, get_interpolator. rewrite F, Ef. cbn [rbind].
    apply interp_call_eq; try assumption; [apply map_length|apply Fg].
  - intros i k Hi Hk Hl Hr.
    rewrite (nth_indep (map _ g) [] (interp_at (c_tval junk c) (c_rows c) 0)) by (rewrite map_length; assumption). rewrite map_nth.
    apply (interp_at_piece (c_ndim c)); try assumption; [unfold c_size in L; congruence|lia|].
    rewrite L. assumption.
Qed.
Print Assumptions C54_linear.

(** With extrapolate = False nothing changes for a grid between the first and the last
    parameter, and any other grid raises InterpolationError. *)
Theorem C54_no_extrapolation : forall junk few (r r' : registry (icreate R)) name name' (c : curve R) s g,
  wf c -> (2 <= c_size c)%nat -> increasing (c_tval junk c) ->
  reg_find r name = Some (linear_bounded junk few) -> reg_find r' name' = Some (linear junk few) -> get_grid junk few c s = Ok g ->
  ((forall v, In v g -> nth 0 (c_tval junk c) 0 <= v <= nth (c_size c - 1) (c_tval junk c) 0) ->
     interpolate junk few r name c s = interpolate junk few r' name' c s) /\
  ((exists v, In v g /\ (v < nth 0 (c_tval junk c) 0 \/ nth (c_size c - 1) (c_tval junk c) 0 < v)) ->
     interpolate junk few r name c s = Raise InterpolationError).
Proof.
  intros junk few r r' name name' c s g W H I F F' G.
  assert (L := tval_length junk c W (size_nonempty c ltac:(lia))).
  unfold interpolate, get_interpolator. rewrite F, F'. unfold linear_bounded, linear, interp1d_bounded.
  rewrite interp1d_increasing by (assumption || (unfold c_size in *; lia)). cbn [rbind]. cbv zeta.
  rewrite sort_samples_increasing by (rewrite combine_fst by (unfold c_size in *; congruence); assumption).
  rewrite combine_fst by (unfold c_size in *; congruence). destruct (Nat.ltb_spec (length (c_tval junk c)) 2); [lia|]. cbn [rbind]. rewrite L.
  set (t := c_tval junk c) in *. set (P := fun v : R => nltb v (nth 0 t n0) || nltb (nth (c_size c - 1) t n0) v).
  assert (PT : forall v, P v = true <-> v < nth 0 t 0 \/ nth (c_size c - 1) t 0 < v).
  { intros v. unfold P. rewrite orb_true_iff. split; (intros [A|A]; [left|right]); apply Rltb_iff; exact A. }
  split.
  - intros A. unfold interp_call. rewrite G. rewrite c_bool_wf by (assumption || (apply size_nonempty; lia)). cbn [negb].
    destruct (Nat.eqb_spec (c_size c) 1); [lia|]. cbn [rbind]. f_equal.
    replace (map (fun v => if P v then Raise ValueError else Ok (interp_at t (c_rows c) v)) g) with (map (fun v => Ok (interp_at t (c_rows c) v)) g); [reflexivity|].
    apply map_ext_in. intros v Hv. destruct (P v) eqn:E; [|reflexivity]. apply PT in E. specialize (A v Hv). lra.
  - intros (v & Hv & A). unfold interp_call. rewrite G. rewrite c_bool_wf by (assumption || (apply size_nonempty; lia)). cbn [negb].
    destruct (Nat.eqb_spec (c_size c) 1); [lia|]. cbn [rbind]. apply PT in A.
    assert (Q : rseq (map (fun v => if P v then Raise ValueError else Ok (interp_at t (c_rows c) v)) g) = Raise ValueError).
    { clear - Hv A. induction g as [|x g IH]; [destruct Hv|]. cbn [map rseq]. destruct (P x) eqn:E; [reflexivity|]. cbn [rbind].
      destruct Hv as [->|Hv]; [congruence|]. rewrite IH by exact Hv. reflexivity. }
    unfold P in Q. rewrite Q. reflexivity.
Qed.
Print Assumptions C54_no_extrapolation.

(** Curve points are reproduced at their parameters, and grid values between two
    parameters give points of the segment. *)
Theorem C54_linear_points : forall junk few (r : registry (icreate R)) name (c : curve R) s g,
  wf c -> (2 <= c_size c)%nat -> increasing (c_tval junk c) -> c_dtype c = DFloat ->
  reg_find r name = Some (linear junk few) -> get_grid junk few c s = Ok g ->
  exists c', interpolate junk few r name c s = Ok c' /\ c_size c' = length g /\
    (forall i k, (i < length g)%nat -> (k < c_size c)%nat -> nth i g 0 = nth k (c_tval junk c) 0 ->
       nth i (c_rows c') [] = nth k (c_rows c) []) /\
    (forall i k, (i < length g)%nat -> (S k < c_size c)%nat ->
       nth k (c_tval junk c) 0 <= nth i g 0 <= nth (S k) (c_tval junk c) 0 ->
       on_segment (nth k (c_rows c) []) (nth (S k) (c_rows c) []) (nth i (c_rows c') [])).
Proof.
  intros junk few r name c s g W H I Dt F G.
  assert (L := tval_length junk c W (size_nonempty c ltac:(lia))).
  destruct (C54_linear junk few r name c s g W H I F G) as (rows & E & Lr & Dr & A).
  eexists. split; [exact E|]. unfold c_size. cbn [c_rows]. rewrite Dt, map_cast_float. split; [assumption|]. split.
  - intros i k Hi Hk Eg. unfold c_size in *. destruct (Nat.eq_dec (S k) (length (c_rows c))) as [Z|Z].
    + destruct k as [|k]; [lia|]. assert (Hk' : (S k < length (c_tval junk c))%nat) by lia.
      pose proof (I k Hk') as Ik.
      destruct (A i k Hi ltac:(lia) ltac:(right; lra) ltac:(right; lra)) as [A1 A2].
      assert (length (nth k (c_rows c) []) = c_ndim c) by (apply W, nth_In; lia).
      assert (length (nth (S k) (c_rows c) []) = c_ndim c) by (apply W, nth_In; lia).
      apply vec_ext; [congruence|]. intros j. rewrite A2, Eg. field. lra.
    + assert (Hk' : (S k < length (c_tval junk c))%nat) by lia. pose proof (I k Hk') as Ik.
      destruct (A i k Hi ltac:(lia) ltac:(right; lra) ltac:(right; lra)) as [A1 A2].
      apply vec_ext; [assumption|]. intros j. rewrite A2, Eg. field. lra.
  - intros i k Hi Hk [K1 K2]. unfold c_size in *. assert (Hk' : (S k < length (c_tval junk c))%nat) by lia. pose proof (I k Hk') as Ik.
    eexists. split; [|exact (A i k Hi Hk (or_intror K1) (or_intror K2))].
    split.
    + apply Rmult_le_pos; [lra|]. apply Rlt_le, Rinv_0_lt_compat. lra.
    + apply (Rmult_le_reg_r (nth (S k) (c_tval junk c) 0 - nth k (c_tval junk c) 0)); [lra|].
      unfold Rdiv. rewrite Rmult_assoc, Rinv_l by lra. lra.
Qed.
Print Assumptions C54_linear_points.

(** Interpolating on the curve's own parameters returns the curve. *)
Theorem C54_identity : forall junk few (r : registry (icreate R)) name (c : curve R),
  wf c -> (2 <= c_size c)%nat -> well_spaced (c_tval junk c) -> int_data c ->
  reg_find r name = Some (linear junk few) ->
  interpolate junk few r name c (SArr (c_tval junk c)) = Ok c.
Proof.
  intros junk few r name c W H I Di F.
  assert (L := tval_length junk c W (size_nonempty c ltac:(lia))).
  assert (N : c_tval junk c <> []) by (intros E; rewrite E in L; cbn in L; lia).
  assert (I' := well_spaced_increasing _ I).
  assert (D : dims (c_ndim c) (c_rows c)) by (intros p Hp; apply W; assumption).
  destruct (C53_validation_iff junk few c (c_tval junk c)) as [V _].
  destruct (linear_eq junk few c W H I') as (f & Ef & Fg).
  unfold interpolate, get_interpolator. rewrite F, Ef. cbn [rbind].
  assert (M : map (interp_at (c_tval junk c) (c_rows c)) (c_tval junk c) = c_rows c).
  { apply (nth_ext _ _ [] []); [rewrite map_length; assumption|]. intros i Hi. rewrite map_length in Hi.
    rewrite (nth_indep (map _ _) [] (interp_at (c_tval junk c) (c_rows c) 0)) by (rewrite map_length; assumption). rewrite map_nth.
    apply (interp_at_node (c_ndim c)); try assumption; [unfold c_size in L; congruence|lia]. }
  rewrite (interp_call_eq c junk few f (c_tval junk c) (c_rows c)); try assumption.
  - rewrite map_cast_id by assumption. f_equal. destruct c as [rows n dt t]. unfold isparametric, c_tval. cbn [c_t c_rows c_ndim c_dtype].
    destruct t; reflexivity.
  - apply V. split; assumption.
  - unfold c_size in L. congruence.
  - rewrite Fg, M. reflexivity.
Qed.
Print Assumptions C54_identity.

(** scipy sorts the samples: on an explicit grid the reversed parametric curve
    is interpolated exactly as the original one. *)
Theorem C54_reversed : forall junk few (r : registry (icreate R)) name (c c' : curve R) l,
  wf c -> (2 <= c_size c)%nat -> isparametric c = true -> increasing (c_tval junk c) ->
  reg_find r name = Some (linear junk few) -> c_reverse c = Ok c' ->
  interpolate junk few r name c' (SArr l) = interpolate junk few r name c (SArr l).
Proof.
  intros junk few r name c c' l W H P I F E. destruct (C07_reverse R c W) as (c2 & E2 & Er & Et & Ed & En & W').
  rewrite E in E2. injection E2 as <-.
  assert (Sz : c_size c' = c_size c) by (unfold c_size; rewrite Er; apply rev_length).
  assert (N := size_nonempty c ltac:(lia)). specialize (En N).
  assert (L := tval_length junk c W N).
  assert (P' : isparametric c' = true) by (unfold isparametric in *; rewrite Et; destruct (c_t c); [reflexivity|discriminate]).
  assert (T' : c_tval junk c' = rev (c_tval junk c)).
  { unfold c_tval, isparametric in *. rewrite Et. destruct (c_t c); [reflexivity|discriminate]. }
  unfold interpolate, get_interpolator. rewrite F. unfold linear. rewrite T', Er.
  unfold c_size in *. rewrite interp1d_decreasing, interp1d_increasing by (assumption || congruence || lia). cbn [rbind].
  rewrite En. unfold interp_call. unfold get_grid. cbn [rbind]. rewrite P, P', Ed.
  rewrite !c_bool_wf; try assumption. 2:{ rewrite Er. intros Q. apply (f_equal (@length _)) in Q. rewrite rev_length in Q. cbn in Q. lia. }
  unfold c_size. rewrite Sz. reflexivity.
Qed.
Print Assumptions C54_reversed.

Definition lin_reg : registry (icreate float) := [("linear", linear nan (fun _ => true))].
Definition bounded_reg : registry (icreate float) := [("linear", linear_bounded nan (fun _ => true))].
Example C54_no_extrapolation_ex :
  interpolate nan (fun _ => true) bounded_reg "linear" ft3 (SArr [fz (-1); fz 0]) = Raise InterpolationError /\
  exists c', interpolate nan (fun _ => true) bounded_reg "linear" ft3 (SArr [fz 0; fq 1 2]) = Ok c' /\
    interpolate nan (fun _ => true) lin_reg "linear" ft3 (SArr [fz 0; fq 1 2]) = Ok c'.
Proof. split; [vm_compute; reflexivity|]. eexists. split; vm_compute; reflexivity. Qed.
Example C54_ex : interpolate nan (fun _ => true) lin_reg "linear" ft3 (SArr [fz (-1); fz 0; fq 1 2; fz 1; fz 2; fz 3; fz 4])
  = Ok (mkCurve [[fz (-2); fz (-4)]; [fz 0; fz 0]; [fz 1; fz 2]; [fz 2; fz 4]; [fz 2; fz 6]; [fz 2; fz 8]; [fz 2; fz 10]] 2 DFloat
          (Some [fz (-1); fz 0; fq 1 2; fz 1; fz 2; fz 3; fz 4])).
Proof. vm_compute. reflexivity. Qed.
Example C54_ex_hyp : wf rt3 /\ (2 <= c_size rt3)%nat /\ well_spaced (c_tval 0 rt3) /\ c_dtype rt3 = DFloat /\ int_data rt3.
Proof.
  split; [apply rt3_wf|]. split; [cbn; lia|]. split; [|split; [reflexivity|discriminate]].
  intros [|[|[|i]]] H; cbn in *; try lia; lra.
Qed.

(** In binary64 the identity fails for integer curves: the value 1 at the second
    parameter is computed as (1/49)*49 < 1 and truncated to 0. *)
Theorem C54_integer_curve_refuted : exists (c : curve float) c', wf c /\ c_dtype c = DInt /\
  interpolate nan (fun _ => true) lin_reg "linear" c (SArr (c_tval nan c)) = Ok c' /\
  c_rows c = [[fz 0; fz 0]; [fz 1; fz 1]] /\ c_rows c' = [[fz 0; fz 0]; [fz 0; fz 0]].
Proof.
  exists (mkCurve [[fz 0; fz 0]; [fz 1; fz 1]] 2 DInt (Some [fz 0; fz 49])). eexists.
  split; [wfr|]. split; [reflexivity|]. split; [vm_compute; reflexivity|]. split; reflexivity.
Qed.
Print Assumptions C54_integer_curve_refuted.

(** Without strictly increasing parameters: a curve that starts with a repeated
    point is not reproduced there, the result is NaN. *)
Theorem C54_repeated_point_refuted : exists (c : curve float) c', wf c /\
  interpolate nan (fun _ => true) lin_reg "linear" c (SArr [fz 0; fz 1]) = Ok c' /\
  nth 0 (c_rows c') [] = [nan; nan].
Proof.
  exists (mkCurve [[fz 0; fz 0]; [fz 0; fz 0]; [fz 1; fz 0]] 2 DFloat None). eexists.
  split; [wfr|]. split; [vm_compute; reflexivity|]. reflexivity.
Qed.
Print Assumptions C54_repeated_point_refuted.

(** ** C55 Result and errors of an interpolator *)

(** Whatever interpolator: on an accepted grid [g], data of m > 0 rows and n > 1
    columns become a curve of m points in n dimensions with the dtype of the
    input; it carries the grid as parameters iff the input is parametric, which
    then requires one row per grid value. *)
Theorem C55_result : forall (T : Type) (NT : Num T) (ST : NumSqrt T) (RT : NumRound T) junk few (c : curve T) (f : ifun T) s g rows n,
  wf c -> (2 <= c_size c)%nat -> get_grid junk few c s = Ok g ->
  f g = Ok (mkNd [length rows; n] (concat rows)) -> rows <> [] -> (2 <= n)%nat -> (forall x, In x rows -> length x = n) ->
  interp_call junk few c f s =
    if isparametric c && negb (Nat.eqb (length rows) (length g)) then Raise ValueError
    else Ok (mkCurve (map (map (cast (c_dtype c))) rows) n (c_dtype c) (if isparametric c then Some g else None)).
Proof.
  intros T NT ST RT junk few c f s g rows n W H G F N Hn D. unfold interp_call.
  rewrite c_bool_wf by (assumption || (apply size_nonempty; lia)). cbn [negb].
  destruct (Nat.eqb_spec (c_size c) 1); [lia|]. rewrite G. cbn [rbind]. rewrite F. cbv zeta.
  destruct (isparametric c); cbn [andb].
  - change (Some (mkNd [length g] g)) with (option_map (fun t : list T => mkNd [length t] t) (Some g)).
    rewrite curve_init_cast by assumption. rewrite (Nat.eqb_sym (length g)). destruct (Nat.eqb (length rows) (length g)); reflexivity.
  - exact (curve_init_cast rows n None (c_dtype c) N Hn D).
Qed.
Print Assumptions C55_result.

(** Every outcome of an interpolation that is not a curve. *)
Theorem C55_errors : forall (T : Type) (NT : Num T) (ST : NumSqrt T) (RT : NumRound T) junk few (r : registry (icreate T)) name (c : curve T) s,
  (reg_find r name = None -> interpolate junk few r name c s = Raise NameError) /\
  (forall k e, reg_find r name = Some k -> k c = Raise e -> interpolate junk few r name c s = Raise InterpolationError) /\
  (forall k f, reg_find r name = Some k -> k c = Ok f -> wf c ->
     (c_size c = 1%nat -> interpolate junk few r name c s = Raise ValueError) /\
     ((2 <= c_size c)%nat ->
        (forall e, get_grid junk few c s = Raise e -> interpolate junk few r name c s = Raise e) /\
        (forall g e, get_grid junk few c s = Ok g -> f g = Raise e -> interpolate junk few r name c s = Raise InterpolationError))).
Proof.
  intros T NT ST RT junk few r name c s. unfold interpolate, get_interpolator. split; [intros ->; reflexivity|]. split.
  - intros k e -> E. rewrite E. reflexivity.
  - intros k f -> E W. rewrite E. cbn [rbind]. unfold interp_call. split.
    + intros S1. rewrite c_bool_wf by (assumption || (apply size_nonempty; lia)). rewrite S1. reflexivity.
    + intros S2. rewrite c_bool_wf by (assumption || (apply size_nonempty; lia)). cbn [negb].
      destruct (Nat.eqb_spec (c_size c) 1); [lia|]. split.
      * intros e ->. reflexivity.
      * intros g e -> Fe. cbn [rbind]. rewrite Fe. reflexivity.
Qed.
Print Assumptions C55_errors.

(** An empty curve: if its interpolator can be created at all, the result is an
    empty curve of the same dimension and dtype without parameters, whatever the
    grid.  The linear interpolator of an empty non-parametric curve cannot be
    created (its cumarclen has two elements): InterpolationError. *)
Theorem C55_empty : forall (T : Type) (NT : Num T) (ST : NumSqrt T) (RT : NumRound T) junk few (c : curve T) f s, wf c -> c_rows c = [] ->
  interp_call junk few c f s = Ok (mkCurve [] (c_ndim c) (c_dtype c) None).
Proof.
  intros T NT ST RT junk few c f s (Hn & _) E. unfold interp_call, c_bool, c_size. rewrite E. cbn [length Nat.eqb negb andb].
  unfold curve_init. destruct (Z.ltb_spec (Z.of_nat (c_ndim c)) 2); [lia|]. cbn [as2d nd_size nd_shape fold_right Nat.mul Nat.eqb rbind map length negb andb].
  rewrite Nat2Z.id. cbn [Nat.mul Nat.eqb negb andb]. reflexivity.
Qed.
Print Assumptions C55_empty.
Theorem C55_empty_linear_refuted : forall (T : Type) (NT : Num T) (ST : NumSqrt T) (RT : NumRound T) junk few (r : registry (icreate T)) name (c : curve T) s,
  c_rows c = [] -> isparametric c = false -> reg_find r name = Some (linear junk few) ->
  interpolate junk few r name c s = Raise InterpolationError.
Proof.
  intros T NT ST RT junk few r name c s E P F. unfold interpolate, get_interpolator. rewrite F. unfold linear, c_tval.
  unfold isparametric in P. destruct (c_t c); [discriminate|]. unfold c_cumarclen, c_chordlen, c_bool, c_size. rewrite E. reflexivity.
Qed.
Print Assumptions C55_empty_linear_refuted.

(** A curve of one point: versions of scipy that need two samples refuse it when
    the interpolator is created; otherwise the call does. *)
Theorem C55_single_linear : forall (T : Type) (NT : Num T) (ST : NumSqrt T) (RT : NumRound T) junk few (r : registry (icreate T)) name (c : curve T) s,
  wf c -> c_size c = 1%nat -> isparametric c = false -> reg_find r name = Some (linear junk few) ->
  interpolate junk few r name c s = Raise (if few 1%nat then ValueError else InterpolationError).
Proof.
  intros T NT ST RT junk few r name c s W E P F. unfold interpolate, get_interpolator. rewrite F. unfold linear, c_tval.
  unfold isparametric in P. destruct (c_t c); [discriminate|]. unfold c_size in E. assert (N : (2 <= c_ndim c)%nat) by apply W. destruct (c_rows c) as [|p [|q l]] eqn:Er; try discriminate E.
  assert (L : length (c_cumarclen junk c) = 1%nat).
  { unfold c_cumarclen, c_chordlen, c_bool, c_size. rewrite Er. destruct (c_ndim c); [lia|]. reflexivity. }
  unfold interp1d. rewrite L. cbn [length Nat.eqb negb Nat.ltb Nat.leb]. destruct (few 1%nat); cbn [rbind]; [|reflexivity].
  unfold interp_call, c_bool, c_size. rewrite Er. destruct (c_ndim c); [lia|]. reflexivity.
Qed.
Print Assumptions C55_single_linear.

Example C55_ex :
  let dup : icreate float := fun c => Ok (fun g => Ok (mkNd [length g; 2%nat] (flat_map (fun x => [x; x]) g))) in
  let bad : icreate float := fun c => Ok (fun g => Raise TypeError) in
  let r := [("dup", dup); ("bad", bad)] in
  interpolate nan (fun _ => true) r "dup" ft3 (SInt 2) = Ok (mkCurve [[fz 0; fz 0]; [fz 3; fz 3]] 2 DFloat (Some [fz 0; fz 3]))
  /\ interpolate nan (fun _ => true) r "dup" fpath3 (SArr [fz 0; fz 3]) = Ok (mkCurve [[fz 0; fz 0]; [fz 3; fz 3]] 2 DFloat None)
  /\ interpolate nan (fun _ => true) r "bad" ft3 (SInt 2) = Raise InterpolationError
  /\ interpolate nan (fun _ => true) r "none" ft3 (SInt 2) = Raise NameError
  /\ interpolate nan (fun _ => true) r "dup" (mkCurve [] 3 DFloat None) (SInt 2) = Ok (mkCurve [] 3 DFloat None)
  /\ interpolate nan (fun _ => true) r "dup" (mkCurve [[fz 0; fz 0]] 2 DFloat None) (SInt 2) = Raise ValueError
  /\ interpolate nan (fun _ => false) [("linear", linear nan (fun _ => false))] "linear" (mkCurve [[fz 0; fz 0]] 2 DFloat None) (SInt 2)
     = Raise InterpolationError.
Proof. vm_compute. repeat split. Qed.

(** ** C56 Preserved-speed grid *)

(** Point i of the grid is the cumulative arc length at the fractional point
    index u = i*(size-1)/(n-1), linearly between the points of the curve. *)
Theorem C56_grid : forall junk few (c : curve R) n, wf c -> (2 <= c_size c)%nat -> isparametric c = false -> (2 <= n)%nat -> c_arclen junk c <> 0 ->
  exists l, speed_call junk few (Z.of_nat n) c = Ok l /\ length l = n /\ nth 0 l 1 = 0 /\ nth (n - 1) l 0 = c_arclen junk c /\
    (forall i j, (i <= j < n)%nat -> nth i l 0 <= nth j l 0) /\
    (forall i k, (i < n)%nat -> (S k < c_size c)%nat ->
       let u := INR i * INR (c_size c - 1) / INR (n - 1) in
       INR k <= u <= INR (S k) ->
       nth i l 0 = nth k (c_cumarclen junk c) 0 + (u - INR k) * (nth (S k) (c_cumarclen junk c) 0 - nth k (c_cumarclen junk c) 0)).
Proof.
  intros junk few c n W H Np Hn A. rewrite speed_call_eq by assumption. eexists. split; [reflexivity|].
  destruct (cumarclen_facts junk c W H) as (L & F0 & M & Fl). set (s := c_cumarclen junk c) in *.
  assert (P : 0 < INR (n - 1)) by (apply lt_0_INR; lia). assert (Ps : 0 < INR (length s - 1)) by (apply lt_0_INR; lia).
  set (l := map _ _). assert (Ll : length l = n) by (unfold l; rewrite map_length, seq_length; reflexivity).
  assert (Nl : forall i d, (i < n)%nat -> nth i l d = polygon s (INR i / INR (n - 1))).
  { intros i d Hi. unfold l. rewrite (nth_indep _ d (polygon s (INR 0 / INR (n - 1)))) by (rewrite map_length, seq_length; assumption).
    rewrite (map_nth (fun i => polygon s (INR i / INR (n - 1)))), seq_nth by assumption. reflexivity. }
  split; [assumption|]. split; [|split; [|split]].
  - rewrite Nl by lia. replace (INR 0 / INR (n - 1)) with (INR 0 / INR (length s - 1)) by (cbn; unfold Rdiv; rewrite !Rmult_0_l; reflexivity).
    rewrite polygon_node by lia. assumption.
  - rewrite Nl by lia. replace (INR (n - 1) / INR (n - 1)) with (INR (length s - 1) / INR (length s - 1)) by (field; lra).
    rewrite polygon_node by lia. rewrite L. assumption.
  - intros i j [Hij Hj]. rewrite !Nl by lia. apply polygon_mono; [lia|assumption| | |].
    + apply Rmult_le_pos; [apply pos_INR|apply Rlt_le, Rinv_0_lt_compat; assumption].
    + apply Rmult_le_compat_r; [apply Rlt_le, Rinv_0_lt_compat; assumption|apply le_INR; assumption].
    + apply (Rmult_le_reg_r (INR (n - 1))); [assumption|]. unfold Rdiv. rewrite Rmult_assoc, Rinv_l, Rmult_1_r, Rmult_1_l by lra. apply le_INR. lia.
  - intros i k Hi Hk. cbv zeta. intros [K1 K2]. rewrite Nl by lia. rewrite (polygon_piece s _ k).
    + rewrite L. f_equal. f_equal. unfold Rdiv. ring.
    + lia.
    + right. rewrite L. unfold Rdiv in *. lra.
    + right. rewrite L. unfold Rdiv in *. lra.
Qed.
Print Assumptions C56_grid.

(** With as many points as the curve has, the grid is its cumulative arc length. *)
Theorem C56_own_size : forall junk few (c : curve R), wf c -> (2 <= c_size c)%nat -> isparametric c = false -> c_arclen junk c <> 0 ->
  speed_call junk few (Z.of_nat (c_size c)) c = Ok (c_cumarclen junk c).
Proof.
  intros junk few c W H Np A. rewrite speed_call_eq by assumption. f_equal.
  destruct (cumarclen_facts junk c W H) as (L & _). apply (nth_ext _ _ 0 0); [rewrite map_length, seq_length; congruence|].
  intros i Hi. rewrite map_length, seq_length in Hi.
  rewrite (nth_indep (map _ _) 0 (polygon (c_cumarclen junk c) (INR 0 / INR (c_size c - 1)))) by (rewrite map_length, seq_length; assumption).
  rewrite (map_nth (fun i => polygon (c_cumarclen junk c) (INR i / INR (c_size c - 1)))), seq_nth by assumption. cbn [Nat.add].
  rewrite <- L at 1. apply polygon_node; lia.
Qed.
Print Assumptions C56_own_size.

(** A parametric curve gets the uniform grid of C51. *)
Theorem C56_parametric : forall (T : Type) (NT : Num T) (ST : NumSqrt T) (RT : NumRound T) junk few (c : curve T) n, isparametric c = true ->
  speed_call junk few n c = if (n <? 2)%Z then Raise ValueError else uniform_call junk (UPoint n) c.
Proof.
  intros T NT ST RT junk few c n P. unfold speed_call. rewrite P. cbn [negb]. rewrite C51_init. cbn [String.eqb Ascii.eqb Bool.eqb].
  destruct (n <? 2)%Z; reflexivity.
Qed.
Print Assumptions C56_parametric.

Example C56_ex : speed_call nan (fun _ => true) 5 fpath3 = Ok [fz 0; fq 5 2; fz 5; fz 11; fz 17].
Proof. vm_compute. reflexivity. Qed.
Example C56_ex_hyp : wf rpath3 /\ (2 <= c_size rpath3)%nat /\ isparametric rpath3 = false /\ c_arclen 0 rpath3 <> 0.
Proof. split; [apply rpath3_wf|]. split; [cbn; lia|]. split; [reflexivity|]. rewrite rpath3_arclen. lra. Qed.
(** Degenerate cases in binary64: a curve of length zero, and a single grid
    point, give NaN. *)
Theorem C56_degenerate_refuted :
  speed_call nan (fun _ => true) 3 (mkCurve [[fz 1; fz 1]; [fz 1; fz 1]] 2 DFloat None) = Ok [nan; nan; nan] /\
  speed_call nan (fun _ => true) 1 fpath3 = Ok [nan].
Proof. vm_compute. split; reflexivity. Qed.
Print Assumptions C56_degenerate_refuted.

(** ** C57 linrescale *)

Lemma linrescale_map (l : list R) a b : linrescale l a b = map (fun x => (x - fst a) / (snd a - fst a) * (snd b - fst b) + fst b) l.
Proof. unfold linrescale. rewrite map_map. reflexivity. Qed.

(** One output per input; ends go to ends; affine; order preserved. *)
Theorem C57_linrescale : forall (l : list R) lo hi olo ohi, lo <> hi ->
  length (linrescale l (lo, hi) (olo, ohi)) = length l /\
  (forall i, (i < length l)%nat -> nth i l 0 = lo -> nth i (linrescale l (lo, hi) (olo, ohi)) 0 = olo) /\
  (forall i, (i < length l)%nat -> nth i l 0 = hi -> nth i (linrescale l (lo, hi) (olo, ohi)) 0 = ohi) /\
  (forall i t, (i < length l)%nat -> nth i l 0 = lo + t * (hi - lo) -> nth i (linrescale l (lo, hi) (olo, ohi)) 0 = olo + t * (ohi - olo)) /\
  (forall i j, (i < length l)%nat -> (j < length l)%nat -> lo < hi -> olo <= ohi -> nth i l 0 <= nth j l 0 ->
     nth i (linrescale l (lo, hi) (olo, ohi)) 0 <= nth j (linrescale l (lo, hi) (olo, ohi)) 0).
Proof.
  intros l lo hi olo ohi H. rewrite linrescale_map. cbn [fst snd]. set (f := fun x => _).
  assert (N : forall i, (i < length l)%nat -> nth i (map f l) 0 = f (nth i l 0)).
  { intros i Hi. rewrite (nth_indep _ 0 (f 0)) by (rewrite map_length; assumption). apply map_nth. }
  split; [apply map_length|]. split; [|split; [|split]].
  - intros i Hi E. rewrite N, E by assumption. unfold f. field. lra.
  - intros i Hi E. rewrite N, E by assumption. unfold f. field. lra.
  - intros i t Hi E. rewrite N, E by assumption. unfold f. field. lra.
  - intros i j Hi Hj Hlt Ho E. rewrite !N by assumption. unfold f. apply Rplus_le_compat_r, Rmult_le_compat_r; [lra|].
    apply Rmult_le_compat_r; [apply Rlt_le, Rinv_0_lt_compat; lra|lra].
Qed.
Print Assumptions C57_linrescale.

(** Swapping the ranges inverts the map; rescaling twice is rescaling once. *)
Theorem C57_inverse : forall (l : list R) lo hi olo ohi, lo <> hi -> olo <> ohi ->
  linrescale (linrescale l (lo, hi) (olo, ohi)) (olo, ohi) (lo, hi) = l.
Proof.
  intros l lo hi olo ohi H1 H2. rewrite !linrescale_map, map_map. rewrite <- (map_id l) at 2. apply map_ext. intros x. cbn [fst snd]. field. split; lra.
Qed.
Print Assumptions C57_inverse.
Theorem C57_compose : forall (l : list R) a b c, fst a <> snd a -> fst b <> snd b ->
  linrescale (linrescale l a b) b c = linrescale l a c.
Proof.
  intros l [a0 a1] [b0 b1] [c0 c1] H1 H2. cbn [fst snd] in *. rewrite !linrescale_map, map_map. apply map_ext. intros x. cbn [fst snd]. field. split; lra.
Qed.
Print Assumptions C57_compose.

Lemma fold_min_spec (l : list R) a : let m := fold_left npmin l a in In m (a :: l) /\ forall x, In x (a :: l) -> m <= x.
Proof.
  revert a. induction l as [|b l IH]; intros a; cbv zeta; [cbn; split; [auto|]; intros x [->|[]]; lra|].
  cbn [fold_left]. destruct (IH (npmin a b)) as [I1 I2]. split.
  - destruct I1 as [E|E]; [|right; right; assumption]. rewrite <- E, npmin_R. unfold Rmin. destruct (Rle_dec a b); [left|right; left]; reflexivity.
  - intros x Hx. pose proof (I2 (npmin a b) (or_introl eq_refl)) as K. rewrite npmin_R in K at 2.
    pose proof (Rmin_l a b). pose proof (Rmin_r a b). destruct Hx as [<-|[<-|Hx]]; [lra|lra|]. apply I2. right. assumption.
Qed.
Lemma fold_max_spec (l : list R) a : let m := fold_left npmax l a in In m (a :: l) /\ forall x, In x (a :: l) -> x <= m.
Proof.
  revert a. induction l as [|b l IH]; intros a; cbv zeta; [cbn; split; [auto|]; intros x [->|[]]; lra|].
  cbn [fold_left]. destruct (IH (npmax a b)) as [I1 I2]. split.
  - destruct I1 as [E|E]; [|right; right; assumption]. rewrite <- E, npmax_R. unfold Rmax. destruct (Rle_dec a b); [right; left|left]; reflexivity.
  - intros x Hx. pose proof (I2 (npmax a b) (or_introl eq_refl)) as K. rewrite npmax_R in K at 1.
    pose proof (Rmax_l a b). pose proof (Rmax_r a b). destruct Hx as [<-|[<-|Hx]]; [lra|lra|]. apply I2. right. assumption.
Qed.

(** With the default input range (minimum and maximum of the data) the data fill
    the output range; no data: ValueError. *)
Theorem C57_default_range : forall (l : list R) olo ohi, olo <= ohi ->
  (l = [] -> linrescale_default l (olo, ohi) = Raise ValueError) /\
  ((exists x y, In x l /\ In y l /\ x <> y) ->
     exists l', linrescale_default l (olo, ohi) = Ok l' /\ length l' = length l /\ In olo l' /\ In ohi l' /\
       forall x, In x l' -> olo <= x <= ohi).
Proof.
  intros l olo ohi Ho. split; [intros ->; reflexivity|]. intros (x0 & y0 & Hx0 & Hy0 & Ne).
  destruct l as [|a l]; [destruct Hx0|]. unfold linrescale_default. cbn [np_min np_max rbind].
  destruct (fold_min_spec l a) as [Im Hm]. destruct (fold_max_spec l a) as [IM HM].
  set (m := fold_left npmin l a) in *. set (M := fold_left npmax l a) in *.
  assert (mM : m < M). { pose proof (Hm _ Hx0). pose proof (Hm _ Hy0). pose proof (HM _ Hx0). pose proof (HM _ Hy0). lra. }
  eexists. split; [reflexivity|]. rewrite linrescale_map. cbn [fst snd]. set (f := fun x => _).
  split; [apply map_length|]. split; [|split].
  - apply in_map_iff. exists m. split; [unfold f; field; lra|assumption].
  - apply in_map_iff. exists M. split; [unfold f; field; lra|assumption].
  - intros z Hz. apply in_map_iff in Hz as (x & <- & Hx). pose proof (Hm _ Hx). pose proof (HM _ Hx). unfold f.
    assert (0 <= (x - m) / (M - m)) by (apply Rmult_le_pos; [lra|apply Rlt_le, Rinv_0_lt_compat; lra]).
    assert ((x - m) / (M - m) <= 1) by (apply (Rmult_le_reg_r (M - m)); [lra|]; unfold Rdiv; rewrite Rmult_assoc, Rinv_l by lra; lra).
    nra.
Qed.
Print Assumptions C57_default_range.
Example C57_ex : linrescale [fz 1; fz 2; fz 5] (fz 1, fz 5) (fz 10, fz 20) = [fz 10; fq 25 2; fz 20]
  /\ linrescale_default [fz 2; fz 6; fz 4] (fz 0, fz 1) = Ok [fz 0; fz 1; fq 1 2].
Proof. vm_compute. split; reflexivity. Qed.
(** Constant data have no range: NaN in binary64. *)
Theorem C57_constant_refuted : linrescale_default [fz 2; fz 2] (fz 0, fz 1) = Ok [nan; nan].
Proof. vm_compute. reflexivity. Qed.
Print Assumptions C57_constant_refuted.
