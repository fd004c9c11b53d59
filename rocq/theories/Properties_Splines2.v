(** Property C75: the 'cubic' interpolator. *)
From Coq Require Import ZArith String List Bool Arith Lia PrimFloat Reals Lra Psatz.
From Coquelicot Require Import Hierarchy RInt.
From Verif Require Import Num Py Numeric Curve Vec Geom DiffGeom Intersect Registry Interp Splines Splines2 Spec GeomSpec.
From Verif Require Import ListFacts ArrayProofs VecFacts CurveProofs CurveProofs2 CurveProofs3 GeomProofs GeomProofs2 DiffGeomProofs DiffGeomProofs2.
From Verif Require Import InterpProofs InterpProofs2 InterpProofs3 SplineProofs SplineProofs2 SplineProofs3 SplineProofs4 SplineProofs5 SplineProofs6 SplineProofs7.
From Verif Require Import Properties_Container Properties_Interp.
Import ListNotations.
Local Open Scope string_scope.
Local Open Scope list_scope.
Local Open Scope R_scope.

(** ** C75 Cubic splines *)

(** The values of bc_type that are accepted for curves of [ndim] coordinates. *)
Definition cond_ok (ndim : nat) (a : bcarg R) : Prop :=
  match a with
  | BName s => In s ["natural"; "clamped"; "not-a-knot"]
  | BDeriv o v => (o = 1%Z \/ o = 2%Z) /\ length v = ndim
  end.
Definition bc_ok (ndim : nat) (b : bctype R) : Prop :=
  match b with
  | BCName s => cond_ok ndim (BName s)
  | BCPair a b => cond_ok ndim a /\ cond_ok ndim b
  | BCOther => False
  end.

(** What they mean for coordinate j. *)
Definition cond_of (a : bcarg R) (j : nat) : bc1 R :=
  match a with
  | BName s => if string_dec s "natural" then D2 0 else if string_dec s "clamped" then D1 0 else Nak
  | BDeriv o v => if Z.eq_dec o 1 then D1 (nth j v 0) else D2 (nth j v 0)
  end.
Definition start_of (b : bctype R) (j : nat) : bc1 R :=
  match b with BCName s => cond_of (BName s) j | BCPair a _ => cond_of a j | BCOther => Nak end.
Definition end_of (b : bctype R) (j : nat) : bc1 R :=
  match b with BCName s => cond_of (BName s) j | BCPair _ a => cond_of a j | BCOther => Nak end.

Lemma nth_repeat_0 j n : nth j (repeat 0 n) 0 = 0.
Proof. revert j. induction n as [|n IH]; intros [|j]; cbn; auto. Qed.

Lemma parse_ok n (a : bcarg R) :
  (cond_ok n a -> exists x, parse_bc n a = Ok x /\ forall j, bc_coord x j = cond_of a j) /\
  (forall x, parse_bc n a = Ok x -> cond_ok n a).
Proof.
  destruct a as [s|o v]; cbn [cond_ok parse_bc cond_of].
  - destruct (String.eqb_spec s "clamped") as [->|N1]; [|destruct (String.eqb_spec s "natural") as [->|N2]; [|destruct (String.eqb_spec s "not-a-knot") as [->|N3]]].
    + split; [|intros; cbn; auto]. intros _. eexists. split; [reflexivity|]. intros j. cbn [bc_coord]. cbn -[nth repeat]. f_equal. apply nth_repeat_0.
    + split; [|intros; cbn; auto]. intros _. eexists. split; [reflexivity|]. intros j. cbn [bc_coord]. cbn -[nth repeat]. f_equal. apply nth_repeat_0.
    + split; [|intros; cbn; auto]. intros _. eexists. split; [reflexivity|]. reflexivity.
    + split; [|discriminate]. intros [E|[E|[E|[]]]]; congruence.
  - destruct (Z.eqb_spec o 1) as [->|N1]; [|destruct (Z.eqb_spec o 2) as [->|N2]]; cbn [orb negb].
    + destruct (Nat.eqb_spec (length v) n) as [E|E]; cbn [negb].
      * split; [|intros; auto]. intros _. eexists. split; [reflexivity|]. reflexivity.
      * split; [intros [_ H]; contradiction|discriminate].
    + destruct (Nat.eqb_spec (length v) n) as [E|E]; cbn [negb].
      * split; [|intros; auto]. intros _. eexists. split; [reflexivity|]. reflexivity.
      * split; [intros [_ H]; contradiction|discriminate].
    + split; [|discriminate]. intros [[E|E] _]; congruence.
Qed.

Lemma validate_ok n (b : bctype R) :
  (bc_ok n b -> exists x, validate_bc n b = Ok x /\ forall j, bc_coord (fst x) j = start_of b j /\ bc_coord (snd x) j = end_of b j) /\
  (forall x, validate_bc n b = Ok x -> bc_ok n b).
Proof.
  destruct b as [s|a b|]; cbn [bc_ok validate_bc start_of end_of].
  - destruct (parse_ok n (BName s)) as [P1 P2]. split.
    + intros H. destruct (P1 H) as (x & E & C). rewrite E. cbn [rbind]. eexists. split; [reflexivity|]. intros j. split; apply C.
    + intros x E. destruct (parse_bc n (BName s)) as [y|] eqn:Ep; [|discriminate]. apply (P2 y eq_refl).
  - destruct (parse_ok n a) as [P1 P2]. destruct (parse_ok n b) as [Q1 Q2]. split.
    + intros [H1 H2]. destruct (P1 H1) as (x & E & C), (Q1 H2) as (x' & E' & C'). rewrite E, E'. cbn [rbind].
      eexists. split; [reflexivity|]. intros j. split; [apply C|apply C'].
    + intros x E. destruct (parse_bc n a) as [y|] eqn:Ep; [|discriminate]. cbn [rbind] in E.
      destruct (parse_bc n b) as [y'|] eqn:Eq; [|discriminate]. split; [apply (P2 y eq_refl)|apply (Q2 y' eq_refl)].
  - split; [intros []|discriminate].
Qed.

(** The interpolator can be created exactly for at least two points, strictly
    increasing parameters and valid boundary conditions; otherwise
    InterpolationError, whatever the grid. *)
Theorem C75_cubic_iff : forall junk few qnan periodic b ex (r : registry (icreate R)) name (c : curve R),
  wf c -> is_periodic b = false -> reg_find r name = Some (cubic junk qnan periodic b ex) ->
  ((exists f, get_interpolator r name c = Ok f) <->
     (2 <= c_size c)%nat /\ increasing (c_tval junk c) /\ bc_ok (c_ndim c) b) /\
  (~ ((2 <= c_size c)%nat /\ increasing (c_tval junk c) /\ bc_ok (c_ndim c) b) ->
     forall s, interpolate junk few r name c s = Raise InterpolationError).
Proof.
  intros junk few qnan periodic b ex r name c W Nb F. unfold interpolate, get_interpolator. rewrite F.
  destruct (validate_ok (c_ndim c) b) as [V1 V2].
  assert (Hf : ~ ((2 <= c_size c)%nat /\ increasing (c_tval junk c) /\ bc_ok (c_ndim c) b) ->
               exists e, cubic junk qnan periodic b ex c = Raise e).
  { intros N. apply cubic_fails; [assumption|]. intros bcs (A & B & C). apply N. split; [assumption|]. split; [assumption|]. apply (V2 bcs C). }
  split; [split|].
  - intros [f E].
    assert (D : {(2 <= c_size c)%nat /\ increasing (c_tval junk c) /\ bc_ok (c_ndim c) b} + {~ ((2 <= c_size c)%nat /\ increasing (c_tval junk c) /\ bc_ok (c_ndim c) b)}).
    { destruct (le_lt_dec 2 (c_size c)) as [A|A]; [|right; intros [? _]; lia].
      destruct (existsb (fun d => nleb d n0) (diff (c_tval junk c))) eqn:X.
      - right. intros (_ & J & _). apply diff_positive_iff in J. congruence.
      - apply diff_positive_iff in X. destruct (validate_bc (c_ndim c) b) as [x|e] eqn:V.
        + left. split; [assumption|]. split; [assumption|]. apply (V2 x eq_refl).
        + right. intros (_ & _ & J). destruct (V1 J) as (x & E' & _). discriminate. }
    destruct D as [D|D]; [assumption|]. exfalso. destruct (Hf D) as [e Ee]. rewrite Ee in E. discriminate.
  - intros (A & B & C). destruct (V1 C) as (bcs & E & _). rewrite (cubic_eq junk qnan periodic b ex c bcs) by assumption. eexists. reflexivity.
  - intros N s. destruct (Hf N) as [e ->]. reflexivity.
Qed.
Print Assumptions C75_cubic_iff.

(** The result: every coordinate is the value of a twice continuously
    differentiable function that is cubic between the parameters of the points,
    takes their values and satisfies the boundary conditions, and there is no
    other such function.  Outside of the parameters the end pieces are
    continued, or NaN is returned. *)
Theorem C75_cubic : forall junk few qnan periodic b ex (r : registry (icreate R)) name (c : curve R) s g,
  wf c -> (2 <= c_size c)%nat -> increasing (c_tval junk c) -> is_periodic b = false -> bc_ok (c_ndim c) b ->
  reg_find r name = Some (cubic junk qnan periodic b ex) -> get_grid junk few c s = Ok g ->
  exists (f f1 f2 : nat -> R -> R) rows,
    (forall j, (j < c_ndim c)%nat ->
      let spec := spline_fun (start_of b j) (end_of b j) (c_tval junk c) (map (fun p => nth j p 0) (c_rows c)) in
      spec (f j) (f1 j) (f2 j) /\ forall h h1 h2, spec h h1 h2 -> forall v, h v = f j v) /\
    interpolate junk few r name c s
      = Ok (mkCurve (map (map (cast (c_dtype c))) rows) (c_ndim c) (c_dtype c) (if isparametric c then Some g else None)) /\
    length rows = length g /\ dims (c_ndim c) rows /\
    (forall i j, (i < length g)%nat -> (j < c_ndim c)%nat -> (ex = true \/ inside (c_tval junk c) (nth i g 0)) ->
      nth j (nth i rows []) 0 = f j (nth i g 0)) /\
    (forall i j, (i < length g)%nat -> (j < c_ndim c)%nat -> ex = false -> ~ inside (c_tval junk c) (nth i g 0) ->
      nth j (nth i rows []) 0 = qnan).
Proof.
  intros junk few qnan periodic b ex r name c s g W H I Nb Vb F G.
  assert (N := size_nonempty c ltac:(lia)). assert (L := tval_length junk c W N).
  assert (H2 : (2 <= length (c_tval junk c))%nat) by lia.
  assert (Lr : length (c_rows c) = length (c_tval junk c)) by (unfold c_size in L; congruence).
  destruct (validate_ok (c_ndim c) b) as [V1 _]. destruct (V1 Vb) as (bcs & Eb & Cb).
  set (col := fun j => map (fun p => nth j p 0) (c_rows c)).
  exists (fun j => spl0 (start_of b j) (end_of b j) (c_tval junk c) (col j)).
  exists (fun j => spl1 (start_of b j) (end_of b j) (c_tval junk c) (col j)).
  exists (fun j => spl2 (start_of b j) (end_of b j) (c_tval junk c) (col j)).
  set (ds := cubic_rows (fst bcs) (snd bcs) (c_tval junk c) (c_rows c) (c_ndim c)).
  set (H_at := hermite_at qnan ex (c_tval junk c) (c_rows c) ds (c_ndim c)).
  exists (map H_at g). split; [|split; [|split; [apply map_length|split; [|split]]]].
  - intros j Hj spec. split; [apply spline_exists; assumption|]. intros h h1 h2 Sh v. apply (spline_unique _ _ _ _ h h1 h2); assumption.
  - apply spline_result with (create := cubic junk qnan periodic b ex); try assumption. apply cubic_eq; assumption.
  - intros p Hp. apply in_map_iff in Hp as (v & <- & _). apply hermite_at_length.
  - intros i j Hi Hj Hex. rewrite (nth_map_in H_at g i 0 [] Hi). unfold H_at, ds.
    rewrite cubic_at by assumption. destruct (Cb j) as [-> ->]. reflexivity.
  - intros i j Hi Hj E Ho. rewrite (nth_map_in H_at g i 0 [] Hi). unfold H_at. apply hermite_at_outside; assumption.
Qed.
Print Assumptions C75_cubic.

(** The points of the curve are reproduced. *)
Theorem C75_points : forall junk few qnan periodic b ex (r : registry (icreate R)) name (c c' : curve R) s g,
  wf c -> (2 <= c_size c)%nat -> increasing (c_tval junk c) -> is_periodic b = false -> bc_ok (c_ndim c) b -> c_dtype c = DFloat ->
  reg_find r name = Some (cubic junk qnan periodic b ex) -> get_grid junk few c s = Ok g ->
  interpolate junk few r name c s = Ok c' ->
  forall i k, (i < length g)%nat -> (k < c_size c)%nat -> nth i g 0 = nth k (c_tval junk c) 0 ->
    nth i (c_rows c') [] = nth k (c_rows c) [].
Proof.
  intros junk few qnan periodic b ex r name c c' s g W H I Nb Vb Dt F G E i k Hi Hk Eg.
  destruct (C75_cubic junk few qnan periodic b ex r name c s g W H I Nb Vb F G) as (f & f1 & f2 & rows & Hs & Er & Lr & Dr & A & _).
  rewrite Er in E. injection E as <-. cbn [c_rows]. rewrite Dt, map_cast_float.
  assert (N := size_nonempty c ltac:(lia)). assert (L := tval_length junk c W N).
  assert (L1 : length (nth i rows []) = c_ndim c) by (apply Dr, nth_In; lia).
  assert (L2 : length (nth k (c_rows c) []) = c_ndim c) by (apply W, nth_In; assumption).
  apply vec_ext; [congruence|]. intros j. destruct (Nat.lt_ge_cases j (c_ndim c)) as [Hj|Hj].
  - rewrite A; [|assumption|assumption|].
    + rewrite Eg. destruct (Hs j Hj) as [(_ & _ & V & _) _]. rewrite V by lia. apply (nth_map_in (fun p => nth j p 0) (c_rows c) k [] 0 Hk).
    + right. rewrite Eg. split; apply increasing_le; try assumption; lia.
  - rewrite !nth_overflow by lia. reflexivity.
Qed.
Print Assumptions C75_points.

(** Polynomials are reproduced where they satisfy the conditions.  The general
    form: a polynomial with coefficients a0..a3 in a coordinate whose end
    conditions it meets. *)
Definition cubic_poly (a0 a1 a2 a3 v : R) : R := a0 + a1 * v + a2 * (v * v) + a3 * (v * v * v).
Definition meets (e : bc1 R) (d1 d2 : R) : Prop :=
  match e with D1 v => v = d1 | D2 v => v = d2 | Nak => True end.

Theorem C75_polynomial : forall junk few qnan periodic b ex (r : registry (icreate R)) name (c c' : curve R) s g j a0 a1 a2 a3,
  wf c -> (2 <= c_size c)%nat -> increasing (c_tval junk c) -> is_periodic b = false -> bc_ok (c_ndim c) b -> c_dtype c = DFloat ->
  reg_find r name = Some (cubic junk qnan periodic b ex) -> get_grid junk few c s = Ok g ->
  interpolate junk few r name c s = Ok c' -> (j < c_ndim c)%nat ->
  (forall k, (k < c_size c)%nat -> nth j (nth k (c_rows c) []) 0 = cubic_poly a0 a1 a2 a3 (nth k (c_tval junk c) 0)) ->
  let a := nth 0 (c_tval junk c) 0 in
  let z := nth (c_size c - 1) (c_tval junk c) 0 in
  meets (start_of b j) (a1 + 2 * a2 * a + 3 * a3 * (a * a)) (2 * a2 + 6 * a3 * a) ->
  meets (end_of b j) (a1 + 2 * a2 * z + 3 * a3 * (z * z)) (2 * a2 + 6 * a3 * z) ->
  (start_of b j = Nak \/ end_of b j = Nak -> c_size c = 2%nat -> a2 = 0 /\ a3 = 0) ->
  (start_of b j = Nak -> end_of b j = Nak -> c_size c = 3%nat -> a3 = 0) ->
  forall i, (i < length g)%nat -> (ex = true \/ inside (c_tval junk c) (nth i g 0)) ->
    nth j (nth i (c_rows c') []) 0 = cubic_poly a0 a1 a2 a3 (nth i g 0).
Proof.
  intros junk few qnan periodic b ex r name c c' s g j a0 a1 a2 a3 W H I Nb Vb Dt F G E Hj Hd a z Ma Mz M2 M3 i Hi Hex.
  destruct (C75_cubic junk few qnan periodic b ex r name c s g W H I Nb Vb F G) as (f & f1 & f2 & rows & Hs & Er & Lr & Dr & A & _).
  rewrite Er in E. injection E as <-. cbn [c_rows]. rewrite Dt, map_cast_float. rewrite A by assumption.
  assert (N := size_nonempty c ltac:(lia)). assert (L := tval_length junk c W N).
  destruct (Hs j Hj) as [_ U]. symmetry.
  apply (U (cubic_poly a0 a1 a2 a3) (fun v => a1 + 2 * a2 * v + 3 * a3 * (v * v)) (fun v => 2 * a2 + 6 * a3 * v)).
  assert (Cb : forall D, cubic_on (cubic_poly a0 a1 a2 a3) D) by (intros D; exists a0, a1, a2, a3; reflexivity).
  assert (Dg : forall v, derivable_pt_lim (fun v => a1 + 2 * a2 * v + 3 * a3 * (v * v)) v (2 * a2 + 6 * a3 * v)).
  { intros v. pose proof (poly_deriv a1 (2 * a2) (3 * a3) 0 v) as K.
    replace (2 * a2 + 6 * a3 * v) with (2 * a2 + 2 * (3 * a3) * v + 3 * 0 * (v * v)) by ring.
    apply (glue_deriv _ (fun v => a1 + 2 * a2 * v + 3 * a3 * (v * v) + 0 * (v * v * v)) (fun v => a1 + 2 * a2 * v + 3 * a3 * (v * v) + 0 * (v * v * v)) v _ 1);
      try assumption; try lra; intros; ring. }
  assert (Col : forall k, (k < c_size c)%nat -> nth k (map (fun p => nth j p 0) (c_rows c)) 0 = cubic_poly a0 a1 a2 a3 (nth k (c_tval junk c) 0)).
  { intros k Hk. rewrite (nth_map_in (fun p => nth j p 0) (c_rows c) k [] 0 Hk). apply Hd. assumption. }
  assert (Sl : c_size c = 2%nat -> a2 = 0 -> a3 = 0 -> a1 = (nth 1 (map (fun p => nth j p 0) (c_rows c)) 0 - nth 0 (map (fun p => nth j p 0) (c_rows c)) 0)
                   / (nth 1 (c_tval junk c) 0 - nth 0 (c_tval junk c) 0)).
  { intros E2 -> ->. rewrite !Col by lia. unfold cubic_poly. pose proof (I 0%nat ltac:(lia)). field. lra. }
  split; [split; [|split]|split; [|split]].
  - intros v. apply poly_deriv.
  - exact Dg.
  - intros v. apply derivable_continuous_pt. exists (6 * a3).
    pose proof (poly_deriv (2 * a2) (6 * a3) 0 0 v) as K.
    replace (6 * a3 + 2 * 0 * v + 3 * 0 * (v * v)) with (6 * a3) in K by ring.
    apply (glue_deriv _ (fun v => 2 * a2 + 6 * a3 * v + 0 * (v * v) + 0 * (v * v * v)) (fun v => 2 * a2 + 6 * a3 * v + 0 * (v * v) + 0 * (v * v * v)) v _ 1);
      try assumption; try lra; intros; ring.
  - intros k Hk. apply Cb.
  - intros k Hk. rewrite Col by lia. reflexivity.
  - split.
    + intros (E3 & Es & Ee). rewrite L in E3. rewrite (M3 Es Ee E3). exists a0, a1, a2. intros v. unfold cubic_poly. ring.
    + intros _. split.
      * unfold start_cond. destruct (start_of b j) as [|v|v]; [|exact (eq_sym Ma)|exact (eq_sym Ma)]. split; [|intros; apply Cb].
        intros E2. rewrite L in E2. destruct (M2 (or_introl eq_refl) E2) as [Z2 Z3]. rewrite <- Sl by assumption. rewrite Z2, Z3. ring.
      * unfold end_cond. cbv zeta. rewrite L. destruct (end_of b j) as [|v|v]; [|exact (eq_sym Mz)|exact (eq_sym Mz)]. split; [|intros; apply Cb].
        intros E2. destruct (M2 (or_intror eq_refl) E2) as [Z2 Z3]. rewrite <- Sl by assumption. rewrite Z2, Z3. ring.
Qed.
Print Assumptions C75_polynomial.

(** With 'natural' (the default) and 'not-a-knot' coordinates that depend on the
    parameter by an affine function are reproduced, also by extrapolation. *)
Theorem C75_affine : forall junk few qnan periodic b ex (r : registry (icreate R)) name (c c' : curve R) s g j a0 a1,
  wf c -> (2 <= c_size c)%nat -> increasing (c_tval junk c) -> b = BCName "natural" \/ b = BCName "not-a-knot" -> c_dtype c = DFloat ->
  reg_find r name = Some (cubic junk qnan periodic b ex) -> get_grid junk few c s = Ok g ->
  interpolate junk few r name c s = Ok c' -> (j < c_ndim c)%nat ->
  (forall k, (k < c_size c)%nat -> nth j (nth k (c_rows c) []) 0 = a0 + a1 * nth k (c_tval junk c) 0) ->
  forall i, (i < length g)%nat -> (ex = true \/ inside (c_tval junk c) (nth i g 0)) ->
    nth j (nth i (c_rows c') []) 0 = a0 + a1 * nth i g 0.
Proof.
  intros junk few qnan periodic b ex r name c c' s g j a0 a1 W H I Hb Dt F G E Hj Hd i Hi Hex.
  replace (a0 + a1 * nth i g 0) with (cubic_poly a0 a1 0 0 (nth i g 0)) by (unfold cubic_poly; ring).
  apply (C75_polynomial junk few qnan periodic b ex r name c c' s g j a0 a1 0 0); try assumption.
  - destruct Hb as [-> | ->]; reflexivity.
  - destruct Hb as [-> | ->]; cbn; auto.
  - intros k Hk. rewrite Hd by assumption. unfold cubic_poly. ring.
  - destruct Hb as [-> | ->]; cbn; [ring|exact Logic.I].
  - destruct Hb as [-> | ->]; cbn; [ring|exact Logic.I].
  - auto.
  - auto.
Qed.
Print Assumptions C75_affine.

(** Straight lines without parameters, whatever the spacing of their points. *)
Theorem C75_straight : forall junk few qnan periodic b ex (r : registry (icreate R)) name (c c' : curve R) s g p u x,
  wf c -> (2 <= c_size c)%nat -> isparametric c = false -> b = BCName "natural" \/ b = BCName "not-a-knot" -> c_dtype c = DFloat ->
  length u = c_ndim c -> line_rows p u x (c_rows c) -> increasing x ->
  reg_find r name = Some (cubic junk qnan periodic b ex) -> get_grid junk few c s = Ok g ->
  interpolate junk few r name c s = Ok c' ->
  forall i j, (i < length g)%nat -> (j < c_ndim c)%nat -> (ex = true \/ inside (c_tval junk c) (nth i g 0)) ->
    nth j (nth i (c_rows c') []) 0 = nth j p 0 + (nth 0 x 0 + nth i g 0) * nth j u 0.
Proof.
  intros junk few qnan periodic b ex r name c c' s g p u x W H P Hb Dt Lu Ln Ix F G E i j Hi Hj Hex.
  assert (N := size_nonempty c ltac:(lia)). assert (L := tval_length junk c W N).
  assert (B : c_bool c = true) by (apply c_bool_wf; assumption).
  assert (Lx : length x = length (c_rows c)) by apply Ln.
  assert (T : forall k, (k < length (c_tval junk c))%nat -> nth k (c_tval junk c) 0 = nth k x 0 - nth 0 x 0).
  { intros k Hk. unfold isparametric in P. unfold c_tval in *. destruct (c_t c); [discriminate|].
    apply (line_cumarclen junk c p u x); try assumption. unfold c_size in L. lia. }
  assert (I : increasing (c_tval junk c)).
  { intros k Hk. rewrite !T by lia. pose proof (Ix k ltac:(unfold c_size in *; lia)). lra. }
  rewrite (C75_affine junk few qnan periodic b ex r name c c' s g j (nth j p 0 + nth 0 x 0 * nth j u 0) (nth j u 0)) with (i := i); try assumption.
  - ring.
  - intros k Hk. rewrite T by lia. destruct Ln as (_ & _ & Ln). rewrite (proj2 (Ln k Hk)). ring.
Qed.
Print Assumptions C75_straight.

(** The minimum property: among all twice continuously differentiable functions
    through the values of a coordinate, the spline with 'natural' ends has the
    least integral of the squared second derivative, and it is the only one; with
    a prescribed derivative at an end the same holds among the functions with
    this derivative there. *)
Definition admissible (e : bc1 R) (v : R) (h1 : R -> R) : Prop :=
  match e with Nak => False | D1 d => h1 v = d | D2 d => d = 0 end.

Theorem C75_minimum : forall b0 b1 xs ys f f1 f2 h h1 h2,
  increasing xs -> (2 <= length xs)%nat -> spline_fun b0 b1 xs ys f f1 f2 ->
  two_smooth h h1 h2 -> (forall k, (k < length xs)%nat -> h (nth k xs 0) = nth k ys 0) ->
  let a := nth 0 xs 0 in
  let z := nth (length xs - 1) xs 0 in
  admissible b0 a h1 -> admissible b1 z h1 ->
  RInt (fun v => f2 v * f2 v) a z <= RInt (fun v => h2 v * h2 v) a z /\
  (RInt (fun v => h2 v * h2 v) a z = RInt (fun v => f2 v * f2 v) a z -> forall v, a <= v <= z -> h v = f v).
Proof.
  intros b0 b1 xs ys f f1 f2 h h1 h2 I H2 F G Gv a z A0 A1.
  assert (Nc : ~ (length xs = 3%nat /\ b0 = Nak /\ b1 = Nak)) by (intros (_ & E & _); subst b0; exact A0).
  destruct F as (F1 & F2 & F3 & F4 & F5). destruct (F5 Nc) as [Fs Fe].
  assert (Ea : f2 a = 0 \/ h1 a = f1 a).
  { destruct b0 as [|d|d]; [destruct A0|right; cbn in A0, Fs; unfold a in *; congruence|left; cbn in A0, Fs; unfold a; congruence]. }
  assert (Ez : f2 z = 0 \/ h1 z = f1 z).
  { destruct b1 as [|d|d]; [destruct A1|right; unfold end_cond in Fe; cbv zeta in Fe; cbn in A1; unfold z in *; congruence|left; unfold end_cond in Fe; cbv zeta in Fe; cbn in A1; unfold z; congruence]. }
  assert (F : spline_fun b0 b1 xs ys f f1 f2) by (split; [assumption|split; [assumption|split; [assumption|split; assumption]]]).
  assert (Eaz : f2 z * (h1 z - f1 z) = f2 a * (h1 a - f1 a)) by (destruct Ea as [-> | ->], Ez as [-> | ->]; ring).
  split.
  - apply (energy_min b0 b1 xs ys f f1 f2 h h1 h2); assumption.
  - apply (energy_unique b0 b1 xs ys f f1 f2 h h1 h2); assumption.
Qed.
Print Assumptions C75_minimum.

(** ** Examples *)

Definition per : icreate float := fun _ => Raise ValueError.
Definition creg : registry (icreate float) :=
  [("natural", cubic nan nan per (BCName "natural") true); ("nak", cubic nan nan per (BCName "not-a-knot") false);
   ("clamped", cubic nan nan per (BCName "clamped") true);
   ("mixed", cubic nan nan per (BCPair (BDeriv 1 [fz 1; fz 2]) (BName "not-a-knot")) true);
   ("order3", cubic nan nan per (BCPair (BDeriv 3 [fz 1; fz 2]) (BName "natural")) true);
   ("short", cubic nan nan per (BCPair (BName "natural") (BDeriv 2 [fz 1])) true);
   ("unknown", cubic nan nan per (BCName "Natural") true); ("three", cubic nan nan per BCOther true)].
Definition fc3 : curve float := mkCurve [[fz 0; fz 0]; [fz 1; fz 2]; [fz 0; fz 4]] 2 DFloat (Some [fz 0; fz 1; fz 2]).
Definition fc4 : curve float := mkCurve [[fz 0; fz 0]; [fz 1; fz 2]; [fz 0; fz 4]; [fz 0; fz 4]] 2 DFloat (Some [fz 0; fz 1; fz 2; fz 3]).
Definition cl (l : list float) (c : curve float) (name : string) : res (list (list float)) :=
  do c' <- interpolate nan (fun _ => true) creg name c (SArr l) ; Ok (c_rows c').
Example C75_ex :
  cl [fz 0; fq 1 2; fz 1] fc3 "natural" = Ok [[fz 0; fz 0]; [fq 11 16; fz 1]; [fz 1; fz 2]] /\
  cl [fz (-1); fq 1 2; fz 2; fz 3] fc3 "nak" = Ok [[nan; nan]; [fq 3 4; fz 1]; [fz 0; fz 4]; [nan; nan]] /\
  cl [fz 0; fq 1 2; fz 2; fz 3] fc4 "nak" = Ok [[fz 0; fz 0]; [fq 15 16; fq 7 8]; [fz 0; fz 4]; [fz 0; fz 4]] /\
  cl [fz 0; fq 1 2; fz 2; fz 3] fc3 "mixed" = Ok [[fz 0; fz 0]; [fq 9 16; fz 1]; [fz 0; fz 4]; [fz (-6); fz 6]] /\
  cl [fz 0; fq 1 2; fz 2; fz 3] fc3 "clamped" = Ok [[fz 0; fz 0]; [fq 1 2; fq 5 8]; [fz 0; fz 4]; [fz 5; fz 0]].
Proof. repeat split; vm_compute; reflexivity. Qed.
Example C75_ex_error :
  map (cl [fz 0; fz 1] fc3) ["order3"; "short"; "unknown"; "three"] = repeat (Raise InterpolationError) 4 /\
  cl [fz 0; fz 1] (mkCurve [[fz 0; fz 0]; [fz 1; fz 2]] 2 DFloat (Some [fz 1; fz 1])) "natural" = Raise InterpolationError.
Proof. split; vm_compute; reflexivity. Qed.
Example C75_ex_hyp : wf rt3 /\ (2 <= c_size rt3)%nat /\ increasing (c_tval 0 rt3) /\ c_dtype rt3 = DFloat /\
  get_grid 0 (fun _ => true) rt3 (SArr [0; 2]) = Ok [0; 2] /\
  Forall (fun b => is_periodic b = false /\ bc_ok (c_ndim rt3) b)
    [BCName "natural"; BCName "clamped"; BCPair (BDeriv 1 [1; 2]) (BName "not-a-knot"); BCPair (BDeriv 2 [0; 5]) (BDeriv 1 [1; 1])].
Proof.
  split; [apply rt3_wf|]. split; [cbn; lia|]. split; [apply rt3_increasing|]. split; [reflexivity|]. split.
  - apply C53_validation_iff. split; [discriminate|]. intros [|i] Hi; cbn in *; [lra|lia].
  - repeat (apply Forall_cons; [split; [reflexivity|cbn; intuition]|]). apply Forall_nil.
Qed.
(** The polynomial v^3 meets the conditions of the spline with second derivative
    0 at the start 0 and first derivative 27 at the end 3. *)
Example C75_ex_poly : let b := BCPair (BDeriv 2 [0; 0]) (BDeriv 1 [27; 27]) in
  meets (start_of b 0) (0 + 2 * 0 * 0 + 3 * 1 * (0 * 0)) (2 * 0 + 6 * 1 * 0) /\
  meets (end_of b 0) (0 + 2 * 0 * 3 + 3 * 1 * (3 * 3)) (2 * 0 + 6 * 1 * 3).
Proof. cbn. split; ring. Qed.
(** A parabola competes with the natural spline through its values. *)
Example C75_ex_minimum : two_smooth (fun v => v * v) (fun v => 2 * v) (fun _ => 2) /\
  admissible (D2 0) 0 (fun v => 2 * v) /\ admissible (D1 4) 2 (fun v => 2 * v).
Proof.
  split; [|split; cbn; ring]. split; [|split].
  - intros v. pose proof (poly_deriv 0 0 1 0 v) as K. replace (0 + 2 * 1 * v + 3 * 0 * (v * v)) with (2 * v) in K by ring.
    apply (glue_deriv _ (fun v => 0 + 0 * v + 1 * (v * v) + 0 * (v * v * v)) (fun v => 0 + 0 * v + 1 * (v * v) + 0 * (v * v * v)) v _ 1); try assumption; try lra; intros; ring.
  - intros v. pose proof (poly_deriv 0 2 0 0 v) as K. replace (2 + 2 * 0 * v + 3 * 0 * (v * v)) with 2 in K by ring.
    apply (glue_deriv _ (fun v => 0 + 2 * v + 0 * (v * v) + 0 * (v * v * v)) (fun v => 0 + 2 * v + 0 * (v * v) + 0 * (v * v * v)) v _ 1); try assumption; try lra; intros; ring.
  - apply continuity_const. intros u v. reflexivity.
Qed.

(** 'clamped' ends do not reproduce straight lines: the ends are flattened. *)
Theorem C75_clamped_line_refuted : exists c : curve float,
  wf c /\ c_rows c = [[fz 0; fz 0]; [fz 1; fz 2]] /\ c_t c = Some [fz 0; fz 1] /\
  cl [fq 1 4] c "clamped" = Ok [[fq 5 32; fq 5 16]].
Proof.
  exists (mkCurve [[fz 0; fz 0]; [fz 1; fz 2]] 2 DFloat (Some [fz 0; fz 1])).
  split; [wfr|]. split; [reflexivity|]. split; [reflexivity|]. vm_compute. reflexivity.
Qed.
Print Assumptions C75_clamped_line_refuted.
