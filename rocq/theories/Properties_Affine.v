(** Property C81: interpolation as averaging, and interpolation of moved curves. *)
From Coq Require Import ZArith String List Bool Arith Lia PrimFloat Reals Lra Psatz.
From Verif Require Import Num Py Numeric Curve Vec Geom DiffGeom Intersect Registry Interp Splines Splines2 Csaps Spec GeomSpec.
From Verif Require Import ListFacts VecFacts CurveProofs CurveProofs2 CurveProofs3 GeomProofs DiffGeomProofs DiffGeomProofs2.
From Verif Require Import InterpProofs InterpProofs2 SplineProofs SplineProofs2 SplineProofs3 SplineProofs5 SplineProofs6.
From Verif Require Import CsapsProofs CsapsProofs2 CsapsProofs3 RigidProofs AverageProofs.
From Verif Require Import Properties_Container Properties_Interp Properties_Splines Properties_Splines2 Properties_Splines3 Properties_Splines4 Properties_Smooth Properties_Rigid.
Import ListNotations.
Local Open Scope string_scope.
Local Open Scope list_scope.
Local Open Scope R_scope.

(** ** C81 Averages *)

(** An interpolator whose values are averages of the points of the curve: for
    given parameters xs of the points there are weights, one per point and
    parameter v, that do not depend on the points, the number of coordinates,
    or the rest of the grid, and whose sum is one.  [fits]: the curves for which
    the arguments of the interpolator are valid; [ok]: the parameters v for
    which its value is defined. *)
Definition averaging (junk : R) (few : nat -> bool) (create : icreate R)
    (fits : curve R -> Prop) (ok : list R -> R -> Prop) (weight : (list R -> R -> nat -> R) -> Prop) : Prop :=
  exists a : list R -> R -> nat -> R, weight a /\
  forall (r : registry (icreate R)) name (c : curve R) s g,
    wf c -> (2 <= c_size c)%nat -> c_dtype c = DFloat -> increasing (c_tval junk c) -> fits c ->
    reg_find r name = Some create -> get_grid junk few c s = Ok g -> (forall v, In v g -> ok (c_tval junk c) v) ->
    (forall v, In v g -> bsum (a (c_tval junk c) v) (c_size c) = 1) /\
    exists d, interpolate junk few r name c s = Ok d /\
      length (c_rows d) = length g /\ dims (c_ndim c) (c_rows d) /\ c_t d = (if isparametric c then Some g else None) /\
      forall i j, (i < length g)%nat -> (j < c_ndim c)%nat ->
        nth j (nth i (c_rows d) []) 0
        = bsum (fun k => a (c_tval junk c) (nth i g 0) k * nth j (nth k (c_rows c) []) 0) (c_size c).

Lemma float_result junk few (r : registry (icreate R)) name (c : curve R) s g create f at_ :
  wf c -> (2 <= c_size c)%nat -> c_dtype c = DFloat -> reg_find r name = Some create ->
  create c = Ok f -> (forall g, f g = as_array (c_ndim c) (map at_) g) -> (forall v, length (at_ v) = c_ndim c) ->
  get_grid junk few c s = Ok g ->
  interpolate junk few r name c s = Ok (mkCurve (map at_ g) (c_ndim c) DFloat (if isparametric c then Some g else None)).
Proof.
  intros W H Dt F E Ef L G. destruct (get_grid_nonempty _ _ _ _ _ G) as [Ng _].
  unfold interpolate, get_interpolator. rewrite F, E. cbn [rbind]. rewrite <- Dt.
  rewrite (interp_call_eq c junk few f g (map at_ g) s); try assumption; [|apply map_length| |rewrite Ef; reflexivity].
  - rewrite Dt, map_cast_float. reflexivity.
  - intros q Hq. apply in_map_iff in Hq as (v & <- & _). apply L.
Qed.

(** From one value to the whole result. *)
Lemma averaging_intro junk few create (fits : curve R -> Prop) (ok : list R -> R -> Prop) (weight : (list R -> R -> nat -> R) -> Prop) a
    (at_ : curve R -> R -> list R) :
  weight a ->
  (forall c, wf c -> (2 <= c_size c)%nat -> increasing (c_tval junk c) -> fits c ->
     (exists f, create c = Ok f /\ forall g, f g = as_array (c_ndim c) (map (at_ c)) g) /\ (forall v, length (at_ c v) = c_ndim c) /\
     forall v, ok (c_tval junk c) v -> bsum (a (c_tval junk c) v) (c_size c) = 1 /\
       forall j, (j < c_ndim c)%nat -> nth j (at_ c v) 0 = bsum (fun k => a (c_tval junk c) v k * nth j (nth k (c_rows c) []) 0) (c_size c)) ->
  averaging junk few create fits ok weight.
Proof.
  intros Hw H. exists a. split; [assumption|]. intros r name c s g W H2 Dt I Hf F G Hg.
  destruct (H c W H2 I Hf) as ((f & E & Ef) & L & V). split; [intros v Hv; apply V, Hg, Hv|].
  eexists. split; [apply (float_result junk few r name c s g create f (at_ c)); assumption|]. cbn [c_rows c_t].
  split; [apply map_length|]. split; [intros q Hq; apply in_map_iff in Hq as (v & <- & _); apply L|]. split; [reflexivity|].
  intros i j Hi Hj. rewrite (nth_map_in (at_ c) g i 0 [] Hi). apply V; [apply Hg, nth_In; assumption|assumption].
Qed.

(** Linear interpolation; within the parameters no weight is negative, so that
    the values are in the convex hull of the points. *)
Theorem C81_linear : forall junk few,
  averaging junk few (linear junk few) (fun _ => True) (fun _ _ => True)
    (fun a => forall xs v k, increasing xs -> (2 <= length xs)%nat -> inside xs v -> 0 <= a xs v k).
Proof.
  intros junk few. apply averaging_intro with (a := lin_weight) (at_ := fun c => interp_at (c_tval junk c) (c_rows c)).
  - intros xs v k I H Hv. apply lin_weight_spec; assumption.
  - intros c W H I _. assert (N := size_nonempty c ltac:(lia)). assert (L := tval_length junk c W N).
    assert (D : dims (c_ndim c) (c_rows c)) by (intros q Hq; apply W; assumption).
    split; [|split].
    + exact (linear_eq junk few c W H I).
    + intros v. apply interp_at_length; try assumption; unfold c_size in *; lia.
    + intros v _. rewrite <- L. destruct (lin_weight_spec (c_tval junk c) v I ltac:(lia)) as (S1 & _ & S2).
      split; [assumption|]. intros j Hj. apply (S2 (c_ndim c)); [unfold c_size in L; congruence|assumption|assumption].
Qed.
Print Assumptions C81_linear.

(** Cubic splines with all the conditions that do not prescribe a derivative
    other than zero.  Where the value is not NaN. *)
Definition zero_cond (a : bcarg R) : Prop := match a with BName _ => True | BDeriv _ v => forall x, In x v -> x = 0 end.
Definition zero_derivs (b : bctype R) : Prop :=
  match b with BCPair a b => zero_cond a /\ zero_cond b | _ => True end.

Lemma zero_cond_of a j : zero_cond a -> cond_of a j = cond_of a 0 /\ zero_bc (cond_of a j).
Proof.
  assert (Z : forall v : list R, (forall x, In x v -> x = 0) -> forall i, nth i v 0 = 0).
  { intros v Hv i. destruct (Nat.lt_ge_cases i (length v)); [apply Hv, nth_In; assumption|apply nth_overflow; assumption]. }
  destruct a as [s|o v]; cbn [zero_cond cond_of]; intros H.
  - split; [reflexivity|]. destruct (string_dec s "natural"); [reflexivity|]. destruct (string_dec s "clamped"); [reflexivity|exact Logic.I].
  - rewrite !(Z v H). split; [reflexivity|]. destruct (Z.eq_dec o 1); reflexivity.
Qed.
Lemma zero_start b j : zero_derivs b -> (start_of b j = start_of b 0 /\ zero_bc (start_of b j)) /\ (end_of b j = end_of b 0 /\ zero_bc (end_of b j)).
Proof.
  destruct b as [s|x y|]; cbn [zero_derivs start_of end_of]; intros H.
  - split; apply zero_cond_of; exact Logic.I.
  - split; apply zero_cond_of; apply H.
  - repeat split.
Qed.

Lemma column_dot (a : nat -> R) rows j n : length rows = n ->
  bsum (fun k => a k * nth k (column rows j) 0) n = bsum (fun k => a k * nth j (nth k rows []) 0) n.
Proof. intros L. apply bsum_ext. intros k Hk. rewrite column_nth by lia. reflexivity. Qed.

Theorem C81_cubic : forall junk few qnan periodic b ex, is_periodic b = false -> zero_derivs b ->
  averaging junk few (cubic junk qnan periodic b ex) (fun c => bc_ok (c_ndim c) b) (fun xs v => ex = true \/ inside xs v) (fun _ => True).
Proof.
  intros junk few qnan periodic b ex Nb Zb.
  apply averaging_intro with (a := fun xs v k => spl0 (start_of b 0) (end_of b 0) xs (spike (length xs) k) v)
    (at_ := fun c => hermite_at qnan ex (c_tval junk c) (c_rows c)
       (match validate_bc (c_ndim c) b with Ok bcs => cubic_rows (fst bcs) (snd bcs) (c_tval junk c) (c_rows c) (c_ndim c) | Raise _ => [] end) (c_ndim c)).
  - exact Logic.I.
  - intros c W H I V. assert (N := size_nonempty c ltac:(lia)). assert (L := tval_length junk c W N).
    assert (Lr : length (c_rows c) = length (c_tval junk c)) by (unfold c_size in L; congruence).
    destruct (proj1 (validate_ok (c_ndim c) b) V) as (bcs & Eb & Cb). rewrite Eb.
    split; [|split].
    + eexists. split; [apply cubic_eq; eassumption|reflexivity].
    + intros v. apply hermite_at_length.
    + intros v Hv. rewrite <- L. destruct (zero_start b 0 Zb) as [[_ Z0] [_ Z1]].
      assert (Lf := spl0_lin (start_of b 0) (end_of b 0) (c_tval junk c) (length (c_tval junk c)) v eq_refl Z0 Z1). split.
      * apply (lin_fun_one _ (fun ys => spl0 (start_of b 0) (end_of b 0) (c_tval junk c) ys v) Lf). apply spl0_const; try assumption. lia.
      * intros j Hj. rewrite cubic_at by (assumption || lia). destruct (Cb j) as [-> ->]. destruct (zero_start b j Zb) as [[-> _] [-> _]].
        rewrite (lin_fun_weights _ (fun ys => spl0 (start_of b 0) (end_of b 0) (c_tval junk c) ys v) Lf) by (unfold column; rewrite map_length; assumption).
        apply column_dot. assumption.
Qed.
Print Assumptions C81_cubic.

(** Smoothing splines, the parameter of which may be given or not. *)
Definition smooth_value (smooth : option R) (xs ws : list R) : R :=
  match smooth with Some p => p | None => default_smooth xs ws end.

Theorem C81_csaps : forall junk few qnan smooth w, weights_pos w -> (forall p, smooth = Some p -> 0 <= p <= 1) ->
  averaging junk few (csaps junk qnan smooth w) (fun c => weights_fit w (c_size c)) (fun _ _ => True) (fun _ => True).
Proof.
  intros junk few qnan smooth w Hw Hp.
  set (wt := fun xs : list R => weights_of w (length xs)).
  apply averaging_intro with (a := fun xs v k => csaps_val xs (wt xs) (smooth_value smooth xs (wt xs)) (spike (length xs) k) v)
    (at_ := fun c => csaps_at qnan (c_tval junk c) (wt (c_tval junk c)) (smooth_value smooth (c_tval junk c) (wt (c_tval junk c))) (c_rows c) (c_ndim c)).
  - exact Logic.I.
  - intros c W H I Hf. assert (N := size_nonempty c ltac:(lia)). assert (L := tval_length junk c W N).
    assert (Lr : length (c_rows c) = length (c_tval junk c)) by (unfold c_size in L; congruence).
    set (xs := c_tval junk c) in *. set (p := smooth_value smooth xs (wt xs)). assert (Ew : wt xs = weights_of w (c_size c)) by (unfold wt; rewrite L; reflexivity).
    assert (Wp : forall i, (i < length xs)%nat -> 0 < nth i (wt xs) 0) by (intros i Hi; rewrite Ew; apply weights_of_pos; try assumption; lia).
    assert (Q : csaps junk qnan smooth w c = csaps junk qnan (Some p) w c /\ 0 <= p <= 1).
    { unfold p, smooth_value. destruct smooth as [q|]; [split; [reflexivity|apply Hp; reflexivity]|].
      destruct (C77_default junk qnan w c W H I Hf Hw) as [D1 D2]. fold xs in D1, D2. rewrite <- Ew in D1.
      destruct (Nat.eq_dec (c_size c) 2) as [E2|E2].
      - split; [apply D2; assumption|]. unfold default_smooth. rewrite L, E2. cbn [Nat.sub bsum]. unfold Rdiv. rewrite Rmult_0_l, Rplus_0_r, Rinv_1. lra.
      - destruct (D1 ltac:(lia)) as [D1a D1b]. split; [assumption|lra]. }
    destruct Q as [Q P]. split; [|split].
    + eexists. split; [|reflexivity]. rewrite Q, csaps_eq by assumption. fold xs. rewrite Ew. reflexivity.
    + intros v. apply csaps_at_length.
    + intros v _. rewrite <- L. assert (H2 : (2 <= length xs)%nat) by lia.
      assert (Lf := csaps_val_lin xs (wt xs) p I H2 Wp P v). split.
      * apply (lin_fun_one _ (fun ys => csaps_val xs (wt xs) p ys v) Lf). apply csaps_val_const; assumption.
      * intros j Hj. rewrite csaps_at_nth by assumption. fold p.
        rewrite (lin_fun_weights _ (fun ys => csaps_val xs (wt xs) p ys v) Lf) by (unfold column; rewrite map_length; assumption).
        apply column_dot. assumption.
Qed.
Print Assumptions C81_csaps.

(** ** Moved curves *)

Lemma vdot_bsum (u x : list R) n : length u = n -> length x = n -> vdot u x = bsum (fun l => nth l u 0 * nth l x 0) n.
Proof.
  intros Lu Lx. assert (E : u = map (fun l => nth l u 0) (seq 0 n)).
  { apply vec_ext; [rewrite map_length, seq_length; assumption|]. intros i. destruct (Nat.lt_ge_cases i n).
    - rewrite (nth_seq_map (fun l => nth l u 0)) by assumption. reflexivity.
    - rewrite !nth_overflow by (rewrite ?map_length, ?seq_length; lia). reflexivity. }
  rewrite E at 1. rewrite vdot_seq, Lx, Nat.min_id. reflexivity.
Qed.

Lemma vdot_average (u x : list R) (p : nat -> list R) (a : nat -> R) n m :
  length u = n -> length x = n -> (forall k, (k < m)%nat -> length (p k) = n) ->
  (forall j, (j < n)%nat -> nth j x 0 = bsum (fun k => a k * nth j (p k) 0) m) ->
  vdot u x = bsum (fun k => a k * vdot u (p k)) m.
Proof.
  intros Lu Lx Lp E. rewrite (vdot_bsum u x n) by assumption.
  rewrite (bsum_ext _ (fun l => bsum (fun k => a k * (nth l u 0 * nth l (p k) 0)) m)).
  - rewrite bsum_swap. apply bsum_ext. intros k Hk. rewrite bsum_scal, <- (vdot_bsum u (p k) n) by auto. reflexivity.
  - intros l Hl. rewrite E by assumption. rewrite <- bsum_scal. apply bsum_ext. intros k Hk. ring.
Qed.

Lemma affine_nth A t x j : length t = length A -> (j < length A)%nat -> nth j (affine A t x) 0 = vdot (nth j A []) x + nth j t 0.
Proof. intros Lt J. unfold affine. rewrite (nth_map2 _ A t j [] 0) by lia. rewrite inner_vdot. reflexivity. Qed.
Lemma affine_length A t x : length t = length A -> length (affine A t x) = length A.
Proof. intros Lt. unfold affine. rewrite map2_length. lia. Qed.

(** An affine map applied before an averaging interpolator, or after it: the
    same, if the parameters of the points and the grid are the same. *)
Theorem C81_affine : forall junk few create fits ok weight, averaging junk few create fits ok weight ->
  forall (r : registry (icreate R)) name (c c2 : curve R) s s2 g A t,
  wf c -> (2 <= c_size c)%nat -> c_dtype c = DFloat -> increasing (c_tval junk c) -> fits c ->
  reg_find r name = Some create -> get_grid junk few c s = Ok g -> (forall v, In v g -> ok (c_tval junk c) v) ->
  length A = c_ndim c2 -> length t = length A -> (forall a, In a A -> length a = c_ndim c) ->
  wf c2 -> c_rows c2 = map (affine A t) (c_rows c) -> c_dtype c2 = DFloat -> c_tval junk c2 = c_tval junk c -> fits c2 ->
  get_grid junk few c2 s2 = Ok g ->
  exists d d2, interpolate junk few r name c s = Ok d /\ interpolate junk few r name c2 s2 = Ok d2 /\
    c_rows d2 = map (affine A t) (c_rows d) /\ (isparametric c2 = isparametric c -> c_t d2 = c_t d).
Proof.
  intros junk few create fits ok weight (a & _ & Av) r name c c2 s s2 g A t W H Dt I Hf F G Hg LA Lt HA W2 E2 Dt2 Et2 Hf2 G2.
  assert (S2 : c_size c2 = c_size c) by (unfold c_size; rewrite E2, map_length; reflexivity).
  destruct (Av r name c s g W H Dt I Hf F G Hg) as (Sm & d & Ed & Ld & Dd & Td & Vd).
  destruct (Av r name c2 s2 g W2) as (_ & d2 & Ed2 & Ld2 & Dd2 & Td2 & Vd2); try (rewrite ?S2, ?Et2; assumption).
  exists d, d2. split; [assumption|]. split; [assumption|]. split; [|intros E; rewrite Td2, Td, E; reflexivity].
  apply (nth_ext _ _ [] []); [rewrite map_length; congruence|]. intros i Hi. rewrite Ld2 in Hi.
  rewrite (nth_map_in (affine A t) (c_rows d) i []) by lia.
  assert (L2 : length (nth i (c_rows d2) []) = c_ndim c2) by (apply Dd2, nth_In; lia).
  apply vec_ext; [rewrite affine_length by assumption; congruence|]. intros j.
  destruct (Nat.lt_ge_cases j (c_ndim c2)) as [J|J]; [|rewrite !nth_overflow by (rewrite ?affine_length by assumption; lia); reflexivity].
  rewrite Vd2, affine_nth by (assumption || lia). rewrite Et2, S2.
  rewrite (vdot_average (nth j A []) _ (fun k => nth k (c_rows c) []) (a (c_tval junk c) (nth i g 0)) (c_ndim c) (c_size c)).
  - rewrite <- (Rmult_1_l (nth j t 0)), <- (Sm (nth i g 0)) by (apply nth_In; assumption).
    rewrite <- bsum_const_weights, <- bsum_plus. apply bsum_ext. intros k Hk. rewrite E2.
    rewrite (nth_map_in (affine A t) (c_rows c) k []) by exact Hk. rewrite affine_nth by (assumption || lia). ring.
  - apply HA, nth_In. lia.
  - apply Dd, nth_In. lia.
  - intros k Hk. apply W, nth_In. exact Hk.
  - intros l Hl. apply Vd; assumption.
Qed.
Print Assumptions C81_affine.

(** A shear of a parametric curve, with values in space. *)
Example C81_affine_ex : forall junk,
  let A := [[1; 2]; [0; 1]; [5; -1]] in let sh := [1; 0; 3] in
  let c2 := mkCurve (map (affine A sh) (c_rows rt3)) 3 DFloat (Some [0; 1; 3]) in
  wf rt3 /\ wf c2 /\ increasing (c_tval junk rt3) /\ c_tval junk c2 = c_tval junk rt3 /\
  zero_derivs (BCPair (BName "natural") (BDeriv 1 [0; 0])) /\ bc_ok 2 (BCPair (BName "natural") (BDeriv 1 [0; 0])) /\
  get_grid junk (fun _ => true) rt3 (SArr [0; 2; 7]) = Ok [0; 2; 7] /\ get_grid junk (fun _ => true) c2 (SArr [0; 2; 7]) = Ok [0; 2; 7] /\
  c_rows c2 = [[1; 0; 3]; [11; 4; 9]; [19; 8; 5]].
Proof.
  intros junk A sh c2. split; [apply rt3_wf|]. split; [unfold c2, A, sh; wfr|]. split; [apply rt3_increasing|]. split; [reflexivity|].
  split; [cbn; split; [exact Logic.I|]; intros x [<- |[<- |[]]]; reflexivity|]. split; [cbn; auto|].
  assert (Gr : get_grid junk (fun _ => true) rt3 (SArr [0; 2; 7]) = Ok [0; 2; 7]).
  { apply C53_validation_iff. split; [discriminate|]. intros [|[|i]] Hi; cbn in *; try lia; lra. }
  split; [exact Gr|]. split; [exact Gr|]. unfold c2, A, sh, affine. cbn.
  repeat (apply (f_equal2 cons); [repeat (apply (f_equal2 cons); [lra|]); reflexivity|]). reflexivity.
Qed.

(** Distance-preserving maps are affine. *)
Theorem C81_isometry_affine : forall n m g, isometry n m g ->
  exists A t, length A = m /\ length t = m /\ (forall a, In a A -> length a = n) /\ forall x, length x = n -> g x = affine A t x.
Proof.
  intros n m g I. set (F := fun j x => nth j (vector_of n g x) 0).
  assert (LF : forall j, lin_fun n (F j)).
  { intros j a b u w Lu Lw. unfold F, lcomb. rewrite (L_add n m), !(L_scale n m) by (try exact I; rewrite ?vscale_length; assumption).
    rewrite nth_vadd by (rewrite !vscale_length, !(L_length n m) by assumption; reflexivity). rewrite !nth_vscale. ring. }
  set (A := map (fun j => map (fun k => F j (spike n k)) (seq 0 n)) (seq 0 m)).
  assert (LA : length A = m) by (unfold A; rewrite map_length, seq_length; reflexivity).
  assert (Lt : length (g (repeat 0 n)) = m) by (apply I, repeat_length).
  exists A, (g (repeat 0 n)). split; [assumption|]. split; [assumption|]. split.
  - intros a Ha. apply in_map_iff in Ha as (j & <- & _). rewrite map_length, seq_length. reflexivity.
  - intros x Hx. apply vec_ext; [rewrite affine_length by congruence; rewrite LA; apply I; assumption|]. intros j.
    destruct (Nat.lt_ge_cases j m) as [J|J].
    + rewrite affine_nth by (congruence || lia). rewrite (nth_g n m g I x j Hx). f_equal.
      unfold A. rewrite (nth_map_in _ _ j 0%nat) by (rewrite seq_length; assumption). rewrite seq_nth by assumption. cbn [Nat.add].
      rewrite vdot_seq, Hx, Nat.min_id. apply (lin_fun_weights n (F j) (LF j) x Hx).
    + rewrite !nth_overflow; [reflexivity|rewrite affine_length by congruence; lia|]. destruct I as [I _]. rewrite I by assumption. assumption.
Qed.
Print Assumptions C81_isometry_affine.

(** The grids of the library only depend on lengths and parameters. *)
Fixpoint grid_builtin (g : grid R) : Prop :=
  match g with GCustom _ => False | GExtrap g' _ => grid_builtin g' | _ => True end.
Definition builtin (s : gspec R) : Prop := match s with SGrid g => grid_builtin g | _ => True end.

Theorem C81_grid : forall junk few (c c' : curve R) g s, isometry (c_ndim c) (c_ndim c') g -> moved_curve g c c' -> c_rows c <> [] ->
  builtin s -> get_grid junk few c' s = get_grid junk few c s.
Proof.
  intros junk few c c' g s I M N B. destruct (C80_lengths junk c c' g I M N) as (Es & _ & Ea & Ec & Et).
  assert (Ep : isparametric c' = isparametric c) by (unfold isparametric; destruct M as (_ & _ & _ & ->); reflexivity).
  assert (U : forall u, uniform_call junk u c' = uniform_call junk u c).
  { intros u. unfold uniform_call. rewrite Es, Ea, Et. reflexivity. }
  assert (K : forall h, grid_builtin h -> grid_call junk few h c' = grid_call junk few h c).
  { induction h as [u|h IH e|n|f]; cbn [grid_builtin grid_call]; intros Hh.
    - rewrite U. reflexivity.
    - rewrite IH by assumption. reflexivity.
    - f_equal. unfold speed_call. rewrite Ep, Es, Ec, Ea. destruct (negb (isparametric c)); [reflexivity|].
      destruct (uniform_init (NInt n) "point"); [|reflexivity]. cbn [rbind]. apply U.
    - destruct Hh. }
  unfold get_grid. destruct s as [h|n|l| |e|]; try reflexivity.
  - rewrite K by assumption. reflexivity.
  - destruct (uniform_init (NInt n) "point"); [|reflexivity]. cbn [rbind]. rewrite U. reflexivity.
Qed.
Print Assumptions C81_grid.

(** Interpolating a moved curve is moving the interpolated curve, parametric or
    not, for every averaging interpolator and every grid of the library. *)
Theorem C81_moved : forall junk few create fits ok weight, averaging junk few create fits ok weight ->
  forall (r : registry (icreate R)) name (c c' : curve R) s grd g,
  isometry (c_ndim c) (c_ndim c') g -> moved_curve g c c' -> builtin s ->
  (2 <= c_size c)%nat -> c_dtype c = DFloat -> c_dtype c' = DFloat -> increasing (c_tval junk c) -> fits c -> fits c' ->
  reg_find r name = Some create -> get_grid junk few c s = Ok grd -> (forall v, In v grd -> ok (c_tval junk c) v) ->
  exists d d', interpolate junk few r name c s = Ok d /\ interpolate junk few r name c' s = Ok d' /\
    c_rows d' = map g (c_rows d) /\ c_t d' = c_t d.
Proof.
  intros junk few create fits ok weight Av r name c c' s grd g I M B H Dt Dt' In_ Hf Hf' F G Hg.
  assert (N := size_nonempty c ltac:(lia)). assert (G' := C81_grid junk few c c' g s I M N B). rewrite G in G'.
  destruct (C80_lengths junk c c' g I M N) as (_ & _ & _ & _ & Et).
  assert (Ep : isparametric c' = isparametric c) by (unfold isparametric; destruct M as (_ & _ & _ & ->); reflexivity).
  destruct M as (W & W' & Er & _). destruct (C81_isometry_affine _ _ g I) as (A & t & LA & Lt & HA & Eg).
  assert (Er' : c_rows c' = map (affine A t) (c_rows c)).
  { rewrite Er. apply map_ext_in. intros q Hq. apply Eg, W, Hq. }
  destruct (C81_affine junk few create fits ok weight Av r name c c' s s grd A t) as (d & d' & E & E' & R & T); try assumption; [congruence|].
  exists d, d'. split; [assumption|]. split; [assumption|]. split; [|apply T; assumption].
  rewrite R. apply map_ext_in. intros q Hq. symmetry. apply Eg.
  destruct Av as (a & _ & Av). destruct (Av r name c s grd W H Dt In_ Hf F G Hg) as (_ & d0 & E0 & _ & D0 & _).
  rewrite E in E0. injection E0 as <-. apply D0, Hq.
Qed.
Print Assumptions C81_moved.
Example C81_moved_ex : let c' := mkCurve (map turn (c_rows rpath3)) 2 DFloat None in
  isometry (c_ndim rpath3) (c_ndim c') turn /\ moved_curve turn rpath3 c' /\ builtin (SGrid (GSpeed 5)) /\
  (2 <= c_size rpath3)%nat /\ increasing (c_tval 0 rpath3).
Proof.
  intros c'. split; [exact turn_isometry|]. split; [split; [apply rpath3_wf|split; [unfold c'; wfr|split; reflexivity]]|].
  split; [exact Logic.I|]. split; [cbn; lia|].
  assert (E : c_tval 0 rpath3 = [0; 5; 17]).
  { unfold c_tval, c_cumarclen. cbn. replace ((3 - 0) * (3 - 0) + ((4 - 0) * (4 - 0) + 0)) with (5 * 5) by lra.
    replace ((3 - 3) * (3 - 3) + ((16 - 4) * (16 - 4) + 0)) with (12 * 12) by lra. rewrite !sqrt_square by lra.
    repeat (apply (f_equal2 cons); [lra|]). reflexivity. }
  rewrite E. intros [|[|[|i]]] Hi; cbn in *; try lia; lra.
Qed.

(** 'hermite' takes the unit tangent vectors as derivatives, which turn with the
    curve but do not follow other affine maps. *)
Lemma hermite_at_moved n m g qnan ex xs ys ds v : isometry n m g -> increasing xs -> (2 <= length xs)%nat -> length ys = length xs ->
  length ds = length xs -> dims n ys -> dims n ds -> (ex = true \/ inside xs v) ->
  hermite_at qnan ex xs (map g ys) (map (vector_of n g) ds) m v = g (hermite_at qnan ex xs ys ds n v).
Proof.
  intros Ig I H Ly Ld Dy Dd Hv. destruct (SplineProofs4.piece_exists xs I H v) as (k & Hk & Ek & Hl & Hr).
  assert (Hr' : (S (S k) = length xs \/ v <= nth (S k) xs 0)) by (destruct Hr; [left; assumption|right; lra]).
  set (x := hermite_at qnan ex xs ys ds n v). assert (Lx : length x = n) by apply hermite_at_length.
  set (y0 := nth k ys []). set (y1 := nth (S k) ys []). set (d0 := nth k ds []). set (d1 := nth (S k) ds []).
  assert (L0 : length y0 = n) by (apply Dy, nth_In; lia). assert (L1 : length y1 = n) by (apply Dy, nth_In; lia).
  assert (M0 : length d0 = n) by (apply Dd, nth_In; lia). assert (M1 : length d1 = n) by (apply Dd, nth_In; lia).
  set (h := nth (S k) xs 0 - nth k xs 0). set (s := v - nth k xs 0).
  assert (Hh : h <> 0) by (pose proof (I k Hk); unfold h; lra).
  (* the value as a combination of two points and two vectors *)
  set (be := (3 / h * (s * s) - 2 / h * (s * s * s) / h) / h).
  set (ga := s - 2 * (s * s) / h + s * s * s / (h * h)). set (de := s * s * s / (h * h) - s * s / h).
  assert (Hc : forall a b c d, hval h a b c d s = a + be * (b - a) + ga * c + de * d).
  { intros a b c d. rewrite hval_eq by assumption. unfold be, ga, de. field. assumption. }
  set (w := vadd (vscale (vsub y1 y0) be) (vadd (vscale d0 ga) (vscale d1 de))).
  assert (Ls : length (vsub y1 y0) = n) by (rewrite vsub_length; congruence).
  assert (Lw : length w = n) by (unfold w; vlen).
  assert (Ex : x = vadd y0 w).
  { apply vec_ext; [rewrite vadd_length; congruence|]. intros j. destruct (Nat.lt_ge_cases j n) as [J|J].
    - unfold x. rewrite (hermite_at_eq qnan ex xs ys ds n I H v k j Hk J Hv Hl Hr'). fold h s y0 y1 d0 d1. rewrite Hc.
      unfold w. rewrite !nth_vadd, !nth_vscale, nth_vsub by vlen. ring.
    - rewrite !nth_overflow by (rewrite ?vadd_length; lia). reflexivity. }
  rewrite Ex, (g_plus n m g Ig y0 w L0 Lw).
  assert (Lg0 : length (g y0) = m) by (apply Ig; assumption). assert (Lv := L_length n m g Ig).
  assert (Eg : vector_of n g w = vadd (vscale (vsub (g y1) (g y0)) be) (vadd (vscale (vector_of n g d0) ga) (vscale (vector_of n g d1) de))).
  { unfold w. rewrite !(L_add n m), !(L_scale n m), (g_minus n m) by (try exact Ig; vlen). reflexivity. }
  rewrite Eg. assert (LV0 := Lv d0 M0). assert (LV1 := Lv d1 M1). assert (Lg1 : length (g y1) = m) by (apply Ig; assumption).
  apply vec_ext.
  { rewrite hermite_at_length. vlen. }
  intros j. destruct (Nat.lt_ge_cases j m) as [J|J].
  - rewrite (hermite_at_eq qnan ex xs _ _ m I H v k j Hk J Hv Hl Hr'). fold h s.
    rewrite !(nth_map_in g ys _ []), !(nth_map_in (vector_of n g) ds _ []) by lia. fold y0 y1 d0 d1. rewrite Hc.
    rewrite !nth_vadd, !nth_vscale, nth_vsub by vlen. ring.
  - rewrite !nth_overflow; [reflexivity| |rewrite hermite_at_length; assumption].
    rewrite vadd_length by vlen. lia.
Qed.

Theorem C81_hermite_moved : forall junk few qnan ex (r : registry (icreate R)) name (c c' : curve R) s grd g,
  isometry (c_ndim c) (c_ndim c') g -> moved_curve g c c' -> builtin s ->
  (2 <= c_size c)%nat -> c_dtype c = DFloat -> c_dtype c' = DFloat -> increasing (c_tval junk c) ->
  reg_find r name = Some (hermite junk qnan ex) -> get_grid junk few c s = Ok grd ->
  (forall v, In v grd -> ex = true \/ inside (c_tval junk c) v) ->
  exists d d', interpolate junk few r name c s = Ok d /\ interpolate junk few r name c' s = Ok d' /\
    c_rows d' = map g (c_rows d) /\ c_t d' = c_t d.
Proof.
  intros junk few qnan ex r name c c' s grd g I M B H Dt Dt' In_ F G Hg.
  assert (N := size_nonempty c ltac:(lia)). assert (G' := C81_grid junk few c c' g s I M N B). rewrite G in G'.
  destruct (C80_lengths junk c c' g I M N) as (Es & _ & _ & _ & Et).
  assert (Ep : isparametric c' = isparametric c) by (unfold isparametric; destruct M as (_ & _ & _ & ->); reflexivity).
  destruct M as (W & W' & Er & _). assert (L := tval_length junk c W N).
  assert (D : dims (c_ndim c) (c_rows c)) by (intros q Hq; apply W; assumption).
  assert (Lr : length (c_rows c) = length (c_tval junk c)) by (unfold c_size in L; congruence).
  assert (H2 : (2 <= length (c_rows c))%nat) by exact H.
  eexists. eexists. split; [|split; [|split]].
  - apply (float_result junk few r name c s grd (hermite junk qnan ex)
      (as_array (c_ndim c) (map (hermite_at qnan ex (c_tval junk c) (c_rows c) (frenet1_rows (c_rows c)) (c_ndim c))))
      (hermite_at qnan ex (c_tval junk c) (c_rows c) (frenet1_rows (c_rows c)) (c_ndim c))); try assumption.
    + apply hermite_eq; assumption.
    + reflexivity.
    + intros v. apply hermite_at_length.
  - apply (float_result junk few r name c' s grd (hermite junk qnan ex)
      (as_array (c_ndim c') (map (hermite_at qnan ex (c_tval junk c') (c_rows c') (frenet1_rows (c_rows c')) (c_ndim c'))))
      (hermite_at qnan ex (c_tval junk c') (c_rows c') (frenet1_rows (c_rows c')) (c_ndim c'))); try assumption.
    + lia.
    + apply hermite_eq; try assumption; [lia|]. rewrite Et. assumption.
    + reflexivity.
    + intros v. apply hermite_at_length.
  - cbn [c_rows]. rewrite map_map. apply map_ext_in. intros v Hv. rewrite Et, Er, (frenet1_g _ _ _ I) by assumption.
    apply hermite_at_moved; try assumption; [lia|rewrite frenet1_length; assumption| |apply Hg; assumption].
    intros q Hq. apply (f1_dims (c_ndim c) (c_rows c)); assumption.
  - cbn [c_t]. rewrite Ep. reflexivity.
Qed.
Print Assumptions C81_hermite_moved.

(** 'pchip' works on each coordinate: it commutes with the maps that scale,
    reflect, translate, permute, copy or drop coordinates ... *)
Definition axis_map (l : list (nat * R * R)) (x : list R) : list R := map (fun '(j, s, t) => s * nth j x 0 + t) l.

Theorem C81_pchip_axes : forall junk few qnan ex (r : registry (icreate R)) name (c c2 : curve R) s s2 g l,
  wf c -> (2 <= c_size c)%nat -> c_dtype c = DFloat -> increasing (c_tval junk c) ->
  reg_find r name = Some (pchip junk qnan ex) -> get_grid junk few c s = Ok g ->
  (forall v, In v g -> ex = true \/ inside (c_tval junk c) v) ->
  length l = c_ndim c2 -> (forall j a b, In (j, a, b) l -> (j < c_ndim c)%nat) ->
  wf c2 -> c_rows c2 = map (axis_map l) (c_rows c) -> c_dtype c2 = DFloat -> c_tval junk c2 = c_tval junk c ->
  get_grid junk few c2 s2 = Ok g ->
  exists d d2, interpolate junk few r name c s = Ok d /\ interpolate junk few r name c2 s2 = Ok d2 /\
    c_rows d2 = map (axis_map l) (c_rows d) /\ (isparametric c2 = isparametric c -> c_t d2 = c_t d).
Proof.
  intros junk few qnan ex r name c c2 s s2 g l W H Dt I F G Hg Ll Hl W2 E2 Dt2 Et2 G2.
  assert (N := size_nonempty c ltac:(lia)). assert (L := tval_length junk c W N).
  assert (S2 : c_size c2 = c_size c) by (unfold c_size; rewrite E2, map_length; reflexivity).
  assert (Lr : length (c_rows c) = length (c_tval junk c)) by (unfold c_size in L; congruence).
  assert (H2 : (2 <= length (c_tval junk c))%nat) by lia.
  set (xs := c_tval junk c) in *.
  eexists. eexists. split; [|split; [|split]].
  - apply (float_result junk few r name c s g (pchip junk qnan ex)
      (as_array (c_ndim c) (map (hermite_at qnan ex xs (c_rows c) (pchip_rows xs (c_rows c) (c_ndim c)) (c_ndim c))))
      (hermite_at qnan ex xs (c_rows c) (pchip_rows xs (c_rows c) (c_ndim c)) (c_ndim c))); try assumption.
    + apply pchip_eq; assumption.
    + reflexivity.
    + intros v. apply hermite_at_length.
  - apply (float_result junk few r name c2 s2 g (pchip junk qnan ex)
      (as_array (c_ndim c2) (map (hermite_at qnan ex xs (c_rows c2) (pchip_rows xs (c_rows c2) (c_ndim c2)) (c_ndim c2))))
      (hermite_at qnan ex xs (c_rows c2) (pchip_rows xs (c_rows c2) (c_ndim c2)) (c_ndim c2))); try assumption.
    + lia.
    + rewrite <- Et2. apply pchip_eq; try assumption; [lia|]. rewrite Et2. assumption.
    + reflexivity.
    + intros v. apply hermite_at_length.
  - cbn [c_rows]. rewrite map_map. apply map_ext_in. intros v Hv. specialize (Hg v Hv).
    destruct (SplineProofs4.piece_exists xs I H2 v) as (k & Hk & Ek & Hl' & Hr).
    assert (Hr' : (S (S k) = length xs \/ v <= nth (S k) xs 0)) by (destruct Hr; [left; assumption|right; lra]).
    apply vec_ext; [rewrite hermite_at_length; unfold axis_map; rewrite map_length; congruence|]. intros j.
    destruct (Nat.lt_ge_cases j (c_ndim c2)) as [J|J]; [|rewrite !nth_overflow by (rewrite ?hermite_at_length; unfold axis_map; rewrite ?map_length; lia); reflexivity].
    destruct (nth j l (0%nat, 0, 0)) as [[i a] b] eqn:El.
    assert (Hi : (i < c_ndim c)%nat) by (apply (Hl i a b); rewrite <- El; apply nth_In; lia).
    assert (Ax : forall x, nth j (axis_map l x) 0 = a * nth i x 0 + b).
    { intros x. unfold axis_map. rewrite (nth_map_in _ l j (0%nat, 0, 0)) by lia. rewrite El. reflexivity. }
    rewrite Ax. rewrite !(hermite_at_eq qnan ex xs _ _ _ I H2 v k _ Hk) by assumption.
    rewrite !pchip_rows_nth by lia. rewrite E2. rewrite !(nth_map_in (axis_map l) (c_rows c) _ []) by lia. rewrite !Ax.
    assert (Ec : column (map (axis_map l) (c_rows c)) j = map (fun y => a * y + b) (column (c_rows c) i)).
    { unfold column. rewrite !map_map. apply map_ext. intros x. apply Ax. }
    rewrite Ec, !pchip_derivs_affine by (unfold column; rewrite ?map_length; lia || assumption).
    pose proof (I k Hk). rewrite !hval_eq by lra. unfold Rdiv. ring.
  - cbn [c_t]. intros ->. reflexivity.
Qed.
Print Assumptions C81_pchip_axes.

(** ... but not with rotations: a roof and its image under [turn]. *)
Definition roof : curve R := mkCurve [[0; 0]; [5; 5]; [10; 0]] 2 DFloat (Some [0; 1; 2]).
Definition roof_turned : curve R := mkCurve (map turn [[0; 0]; [5; 5]; [10; 0]]) 2 DFloat (Some [0; 1; 2]).
Lemma roof_increasing junk : increasing (c_tval junk roof).
Proof. intros [|[|[|i]]] H; cbn in *; try lia; lra. Qed.
Lemma roof_wf : wf roof. Proof. wfr. Qed.
Lemma roof_turned_wf : wf roof_turned. Proof. wfr. Qed.
Lemma roof_grid junk few : get_grid junk few roof (SArr [1 / 2]) = Ok [1 / 2].
Proof. apply C53_validation_iff. split; [discriminate|]. intros i Hi. cbn in Hi. lia. Qed.

Theorem C81_pchip_rotation_refuted : forall junk few qnan (r : registry (icreate R)) name,
  reg_find r name = Some (pchip junk qnan true) ->
  isometry (c_ndim roof) (c_ndim roof_turned) turn /\ moved_curve turn roof roof_turned /\
  exists d d', interpolate junk few r name roof (SArr [1 / 2]) = Ok d /\ interpolate junk few r name roof_turned (SArr [1 / 2]) = Ok d' /\
    c_rows d' <> map turn (c_rows d).
Proof.
  intros junk few qnan r name F. split; [exact turn_isometry|]. split; [split; [apply roof_wf|split; [apply roof_turned_wf|split; reflexivity]]|].
  assert (H2 : (2 <= c_size roof)%nat) by (cbn; lia).
  destruct (C68_pchip junk few qnan true r name roof_turned (SArr [1 / 2]) [1 / 2] roof_turned_wf H2 (roof_increasing junk) F (roof_grid junk few))
    as (rows' & ds' & E' & L' & _ & _ & _ & B & _).
  assert (E : interpolate junk few r name roof (SArr [1 / 2])
    = Ok (mkCurve (map (hermite_at qnan true [0; 1; 2] (c_rows roof) (pchip_rows [0; 1; 2] (c_rows roof) 2) 2) [1 / 2]) 2 DFloat (Some [1 / 2]))).
  { apply (float_result junk few r name roof (SArr [1 / 2]) [1 / 2] (pchip junk qnan true)
      (as_array 2 (map (hermite_at qnan true [0; 1; 2] (c_rows roof) (pchip_rows [0; 1; 2] (c_rows roof) 2) 2)))
      (hermite_at qnan true [0; 1; 2] (c_rows roof) (pchip_rows [0; 1; 2] (c_rows roof) 2) 2)); try assumption; try reflexivity.
    all: first [apply roof_wf | apply (pchip_eq junk qnan true roof roof_wf H2 (roof_increasing junk)) | intros v; apply hermite_at_length | apply roof_grid]. }
  eexists. eexists. split; [exact E|]. split; [exact E'|]. cbn [c_rows c_dtype roof_turned]. rewrite map_cast_float. cbn [map]. intros Q.
  (* the first coordinate after turning lies between the ones of the points *)
  specialize (B 0%nat 0%nat 0%nat ltac:(cbn; lia) ltac:(cbn; lia) ltac:(cbn; lia) ltac:(cbn; lra)).
  rewrite Q in B. cbn [nth turn map c_rows roof_turned] in B.
  assert (X : nth 0 (hermite_at qnan true [0; 1; 2] [[0; 0]; [5; 5]; [10; 0]] (pchip_rows [0; 1; 2] [[0; 0]; [5; 5]; [10; 0]] 2) 2 (1 / 2)) 0 = 5 / 2
    /\ nth 1 (hermite_at qnan true [0; 1; 2] [[0; 0]; [5; 5]; [10; 0]] (pchip_rows [0; 1; 2] [[0; 0]; [5; 5]; [10; 0]] 2) 2 (1 / 2)) 0 = 15 / 4).
  { assert (Il := roof_increasing junk). assert (R3 : Rabs 10 = 10) by (apply Rabs_pos_eq; lra). assert (R5 : Rabs 5 = 5) by (apply Rabs_pos_eq; lra).
    assert (D : forall j, (j < 2)%nat -> forall k, (k < 2)%nat ->
      nth j (nth k (pchip_rows [0; 1; 2] [[0; 0]; [5; 5]; [10; 0]] 2) []) 0 = nth k (nth j [[5; 5]; [10; 0]] []) 0).
    { intros j Hj k Hk. rewrite pchip_rows_nth by (cbn; lia). rewrite pd_eq by (cbn; lia).
      destruct j as [|[|j]]; [| |lia]; (destruct k as [|[|k]]; [| |lia]); cbn [length Nat.eqb nth column map Nat.sub].
      - destruct (pchip_edge_rule (1 - 0) (2 - 1) ((5 - 0) / (1 - 0)) ((10 - 5) / (2 - 1)) ltac:(lra) ltac:(lra)) as (_ & _ & E3).
        rewrite E3; [field|lra|left; lra].
      - destruct (pchip_inner_rule (1 - 0) (2 - 1) ((5 - 0) / (1 - 0)) ((10 - 5) / (2 - 1)) ltac:(lra) ltac:(lra)) as (_ & E3).
        specialize (E3 ltac:(lra)). lra.
      - destruct (pchip_edge_rule (1 - 0) (2 - 1) ((5 - 0) / (1 - 0)) ((0 - 5) / (2 - 1)) ltac:(lra) ltac:(lra)) as (_ & _ & E3).
        rewrite E3; [field|lra|right].
        replace ((5 - 0) / (1 - 0)) with 5 by field. replace (5 + (5 - (0 - 5) / (2 - 1)) * (1 - 0) / (1 - 0 + (2 - 1))) with 10 by field. lra.
      - destruct (pchip_inner_rule (1 - 0) (2 - 1) ((5 - 0) / (1 - 0)) ((0 - 5) / (2 - 1)) ltac:(lra) ltac:(lra)) as (E3 & _).
        apply E3. lra. }
    split; (rewrite (hermite_at_eq qnan true [0; 1; 2] _ _ 2 Il H2 (1 / 2) 0) by (cbn; first [lia | left; reflexivity | right; lra]));
      rewrite !D by lia; cbn [nth]; rewrite hval_eq by lra; field. }
  destruct X as [X Y]. cbn [c_rows roof] in B. rewrite X, Y in B. revert B. unfold Rmin, Rmax. repeat destruct Rle_dec; lra.
Qed.
Print Assumptions C81_pchip_rotation_refuted.

(** the roof turned upside down, shifted, its coordinates swapped *)
Definition roof_axes : list (nat * R * R) := [(1%nat, -2, 3); (0%nat, 1, 0)].
Definition roof_swapped : curve R := mkCurve (map (axis_map roof_axes) [[0; 0]; [5; 5]; [10; 0]]) 2 DFloat (Some [0; 1; 2]).
Example C81_pchip_axes_ex : forall junk few qnan (r : registry (icreate R)) name,
  reg_find r name = Some (pchip junk qnan true) ->
  exists d d2, interpolate junk few r name roof (SArr [1 / 2]) = Ok d /\ interpolate junk few r name roof_swapped (SArr [1 / 2]) = Ok d2 /\
    c_rows d2 = map (axis_map roof_axes) (c_rows d) /\ c_t d2 = c_t d.
Proof.
  intros junk few qnan r name F.
  destruct (C81_pchip_axes junk few qnan true r name roof roof_swapped (SArr [1 / 2]) (SArr [1 / 2]) [1 / 2] roof_axes)
    as (d & d2 & E & E2 & Q & T); try assumption; try reflexivity.
  all: first [apply roof_wf | apply roof_increasing | apply roof_grid | wfr; fail | cbn; lia | intros v _; left; reflexivity | idtac].
  - intros j a b [H|[H|[]]]; injection H as <- <- <-; cbn; lia.
  - exists d, d2. repeat split; try assumption. apply T. reflexivity.
Qed.
