(** Property C77: the 'csaps' interpolator (cubic smoothing splines). *)
From Coq Require Import ZArith String List Bool Arith Lia FunctionalExtensionality PrimFloat Reals Lra Psatz.
From Verif Require Import Num Py Numeric Curve Vec Geom DiffGeom Intersect Registry Interp Splines Splines2 Csaps Spec GeomSpec.
From Verif Require Import ListFacts ArrayProofs VecFacts CurveProofs CurveProofs2 CurveProofs3 GeomProofs GeomProofs2 DiffGeomProofs DiffGeomProofs2.
From Verif Require Import InterpProofs InterpProofs2 InterpProofs3 SplineProofs SplineProofs2 SplineProofs4 SplineProofs5 SplineProofs6.
From Verif Require Import CsapsProofs CsapsProofs2 CsapsProofs3.
From Verif Require Import Properties_Container Properties_Interp Properties_Splines2.
Import ListNotations.
Local Open Scope string_scope.
Local Open Scope list_scope.
Local Open Scope R_scope.

(** ** C77 Smoothing splines *)

(** One weight per point, or none at all. *)
Definition weights_fit (w : option (list R)) (n : nat) : Prop := forall l, w = Some l -> length l = n.
Definition weights_pos (w : option (list R)) : Prop := forall l x, w = Some l -> In x l -> 0 < x.

Lemma weights_of_length w n : weights_fit w n -> length (weights_of w n) = n.
Proof. intros H. destruct w as [l|]; [apply H; reflexivity|]. apply repeat_length. Qed.
Lemma weights_of_pos w n i : weights_fit w n -> weights_pos w -> (i < n)%nat -> 0 < nth i (weights_of w n) 0.
Proof.
  intros H Hp Hi. destruct w as [l|]; cbn [weights_of].
  - apply (Hp l); [reflexivity|]. apply nth_In. rewrite (H l eq_refl). assumption.
  - rewrite (nth_indep _ 0 1) by (rewrite repeat_length; assumption). rewrite nth_repeat. lra.
Qed.

Lemma csaps_eq junk qnan smooth w (c : curve R) : wf c -> (2 <= c_size c)%nat -> increasing (c_tval junk c) -> weights_fit w (c_size c) ->
  csaps junk qnan smooth w c = Ok (as_array (c_ndim c)
    (map (csaps_at qnan (c_tval junk c) (weights_of w (c_size c)) (smooth_of (c_tval junk c) (weights_of w (c_size c)) smooth) (c_rows c) (c_ndim c)))).
Proof.
  intros Wf H I Hw. assert (N := size_nonempty c ltac:(lia)). assert (L := tval_length junk c Wf N).
  assert (Ew : match w with Some w0 => w0 | None => repeat n1 (length (c_tval junk c)) end = weights_of w (c_size c)) by (rewrite L; reflexivity).
  unfold csaps. cbv zeta. rewrite Ew. rewrite (proj2 (positive_diff_iff _) I), (weights_of_length _ _ Hw), L.
  rewrite (proj2 (Nat.leb_le _ _) H). unfold c_size. rewrite Nat.eqb_refl. reflexivity.
Qed.

Lemma csaps_fails junk qnan smooth w (c : curve R) : wf c -> 
  ~ ((2 <= c_size c)%nat /\ increasing (c_tval junk c) /\ weights_fit w (c_size c)) -> csaps junk qnan smooth w c = Raise ValueError.
Proof.
  intros Wf H. unfold csaps. cbv zeta.
  match goal with |- (if ?b then _ else _) = _ => destruct b eqn:E; [exfalso|reflexivity] end.
  rewrite !andb_true_iff, Nat.leb_le, !Nat.eqb_eq, positive_diff_iff in E. destruct E as (((E1 & E2) & E3) & E4).
  apply H. unfold c_size. rewrite E2. split; [assumption|]. split; [assumption|]. intros l ->. assumption.
Qed.

(** The interpolator can be created exactly for at least two points, strictly
    increasing parameters and as many weights as points; otherwise
    InterpolationError, whatever the grid. *)
Theorem C77_csaps_iff : forall junk few qnan smooth w (r : registry (icreate R)) name (c : curve R),
  wf c -> reg_find r name = Some (csaps junk qnan smooth w) ->
  ((exists f, get_interpolator r name c = Ok f) <->
     (2 <= c_size c)%nat /\ increasing (c_tval junk c) /\ weights_fit w (c_size c)) /\
  (~ ((2 <= c_size c)%nat /\ increasing (c_tval junk c) /\ weights_fit w (c_size c)) ->
     forall s, interpolate junk few r name c s = Raise InterpolationError).
Proof.
  intros junk few qnan smooth w r name c Wf F. unfold interpolate, get_interpolator. rewrite F. split; [split|].
  - intros [f E].
    assert (D : {(2 <= c_size c)%nat /\ increasing (c_tval junk c) /\ weights_fit w (c_size c)}
              + {~ ((2 <= c_size c)%nat /\ increasing (c_tval junk c) /\ weights_fit w (c_size c))}).
    { destruct (le_lt_dec 2 (c_size c)) as [A|A]; [|right; intros [? _]; lia].
      destruct (forallb (fun d => nltb n0 d) (diff (c_tval junk c))) eqn:X.
      - apply positive_diff_iff in X. destruct w as [l|].
        + destruct (Nat.eq_dec (length l) (c_size c)) as [El|El]; [left|right].
          * split; [assumption|]. split; [assumption|]. intros l' E'. injection E' as <-. assumption.
          * intros (_ & _ & J). apply El. apply J. reflexivity.
        + left. split; [assumption|]. split; [assumption|]. discriminate.
      - right. intros (_ & J & _). apply positive_diff_iff in J. congruence. }
    destruct D as [D|D]; [assumption|]. rewrite (csaps_fails junk qnan smooth w c Wf D) in E. discriminate.
  - intros (A & B & C). rewrite csaps_eq by assumption. eexists. reflexivity.
  - intros N s. rewrite (csaps_fails junk qnan smooth w c Wf N). reflexivity.
Qed.
Print Assumptions C77_csaps_iff.

(** The result for a smoothing parameter p between 0 and 1 and positive weights:
    every coordinate is the value of a natural cubic spline with knots at the
    parameters that minimises
      p * (weighted sum of squared residuals) + (1 - p) * (integral of the squared second derivative)
    among all twice continuously differentiable functions; for 0 < p < 1 no
    other one does.  The values outside of the parameters are those of the end pieces. *)
Theorem C77_csaps : forall junk few qnan p w (r : registry (icreate R)) name (c : curve R) s g,
  wf c -> (2 <= c_size c)%nat -> increasing (c_tval junk c) -> weights_fit w (c_size c) -> weights_pos w -> 0 <= p <= 1 ->
  reg_find r name = Some (csaps junk qnan (Some p) w) -> get_grid junk few c s = Ok g ->
  let xs := c_tval junk c in
  let ws := weights_of w (c_size c) in
  let ys j := map (fun q => nth j q 0) (c_rows c) in
  exists (f f1 f2 : nat -> R -> R) rows,
    (forall j, (j < c_ndim c)%nat ->
      spline_fun (D2 0) (D2 0) xs (map (f j) xs) (f j) (f1 j) (f2 j) /\
      (forall h h1 h2, two_smooth h h1 h2 -> penalty p xs ws (ys j) (f j) (f2 j) <= penalty p xs ws (ys j) h h2) /\
      (forall h h1 h2, two_smooth h h1 h2 -> 0 < p < 1 ->
        penalty p xs ws (ys j) h h2 = penalty p xs ws (ys j) (f j) (f2 j) -> forall v, inside xs v -> h v = f j v) /\
      (forall a b, bsum (fun i => (a + b * nth i xs 0) * (nth i ws 0 * (nth i (ys j) 0 - f j (nth i xs 0)))) (length xs) = 0) /\
      (p = 1 -> forall i, (i < length xs)%nat -> f j (nth i xs 0) = nth i (ys j) 0) /\
      (p = 0 -> exists a0 a1, forall v, f j v = a0 + a1 * v)) /\
    interpolate junk few r name c s
      = Ok (mkCurve (map (map (cast (c_dtype c))) rows) (c_ndim c) (c_dtype c) (if isparametric c then Some g else None)) /\
    length rows = length g /\ dims (c_ndim c) rows /\
    (forall i j, (i < length g)%nat -> (j < c_ndim c)%nat -> nth j (nth i rows []) 0 = f j (nth i g 0)).
Proof.
  intros junk few qnan p w r name c s g Wf H I Hf Hp P F G xs ws ys.
  assert (N := size_nonempty c ltac:(lia)). assert (L := tval_length junk c Wf N). fold xs in L.
  assert (H2 : (2 <= length xs)%nat) by lia.
  assert (W : forall i, (i < length xs)%nat -> 0 < nth i ws 0) by (intros i Hi; apply weights_of_pos; try assumption; lia).
  assert (K : forall j, exists zs U f f1 f2, smoothing_data p xs ws (ys j) zs U f f1 f2 /\ forall v, csaps_val xs ws p (ys j) v = f v).
  { intros j. apply smoothing_exists; assumption. }
  (* the functions of all coordinates *)
  assert (Q : forall n, exists f f1 f2 : nat -> R -> R, forall j, (j < n)%nat ->
     (exists zs U, smoothing_data p xs ws (ys j) zs U (f j) (f1 j) (f2 j)) /\ forall v, csaps_val xs ws p (ys j) v = f j v).
  { induction n as [|n (f & f1 & f2 & IH)]; [exists (fun _ => Datatypes.id), (fun _ => Datatypes.id), (fun _ => Datatypes.id); intros j Hj; lia|].
    destruct (K n) as (zs & U & h & h1 & h2 & D & V).
    exists (fun j => if Nat.eqb j n then h else f j), (fun j => if Nat.eqb j n then h1 else f1 j), (fun j => if Nat.eqb j n then h2 else f2 j).
    intros j Hj. destruct (Nat.eqb_spec j n) as [->|Nj]; [|apply IH; lia]. split; [exists zs, U; assumption|assumption]. }
  destruct (Q (c_ndim c)) as (f & f1 & f2 & Hq). exists f, f1, f2.
  set (C_at := csaps_at qnan xs ws p (c_rows c) (c_ndim c)). exists (map C_at g).
  assert (Ec := csaps_eq junk qnan (Some p) w c Wf H I Hf). change (smooth_of _ _ (Some p)) with p in Ec. fold xs ws C_at in Ec.
  split; [|split; [|split; [apply map_length|split]]].
  - intros j Hj. destruct (Hq j Hj) as [(zs & U & D) V].
    split; [eapply data_natural; eassumption|].
    split; [intros h h1 h2 G'; exact (data_min p xs ws (ys j) zs U (f j) (f1 j) (f2 j) I H2 W P D h h1 h2 G')|].
    split; [intros h h1 h2 G' Ps Eq v Hv; exact (data_unique p xs ws (ys j) zs U (f j) (f1 j) (f2 j) I H2 W P D h h1 h2 G' Ps Eq v Hv)|].
    split; [intros a b; exact (data_balance p xs ws (ys j) zs U (f j) (f1 j) (f2 j) I H2 D a b)|].
    split; [exact (data_points p xs ws (ys j) zs U (f j) (f1 j) (f2 j) W D)|].
    intros Ep. destruct (csaps_val_line xs ws I H2 W p P (ys j) Ep) as (a0 & a1 & Ha). exists a0, a1. intros v. rewrite <- V. apply Ha.
  - destruct (get_grid_nonempty _ _ _ _ _ G) as [Ng _]. unfold interpolate, get_interpolator. rewrite F, Ec. cbn [rbind].
    apply interp_call_eq; try assumption; [apply map_length| |reflexivity].
    intros q Hq'. apply in_map_iff in Hq' as (v & <- & _). apply csaps_at_length.
  - intros q Hq'. apply in_map_iff in Hq' as (v & <- & _). apply csaps_at_length.
  - intros i j Hi Hj. rewrite (nth_map_in C_at g i 0 [] Hi). unfold C_at. rewrite csaps_at_nth by assumption.
    destruct (Hq j Hj) as [_ V]. apply V.
Qed.
Print Assumptions C77_csaps.

(** Without a smoothing parameter one strictly between 0 and 1 is computed from
    the spacing of the parameters and the weights. *)
Definition default_smooth (xs ws : list R) : R :=
  let h k := nth (S k) xs 0 - nth k xs 0 in
  let w k := nth k ws 0 in
  let n := (length xs - 2)%nat in
  1 / (1 + bsum (fun k => 2 * (nth (S (S k)) xs 0 - nth k xs 0)) n
         / (6 * bsum (fun k => 1 / (h k * h k * w k) + (1 / h k + 1 / h (S k)) * (1 / h k + 1 / h (S k)) / w (S k)
                                 + 1 / (h (S k) * h (S k) * w (S (S k)))) n)).

Theorem C77_default : forall junk qnan w (c : curve R),
  wf c -> (2 <= c_size c)%nat -> increasing (c_tval junk c) -> weights_fit w (c_size c) -> weights_pos w ->
  let p := default_smooth (c_tval junk c) (weights_of w (c_size c)) in
  ((3 <= c_size c)%nat -> 0 < p < 1 /\ csaps junk qnan None w c = csaps junk qnan (Some p) w c) /\
  (c_size c = 2%nat -> forall q, csaps junk qnan None w c = csaps junk qnan (Some q) w c).
Proof.
  intros junk qnan w c Wf H I Hf Hp p.
  assert (N := size_nonempty c ltac:(lia)). assert (L := tval_length junk c Wf N).
  set (xs := c_tval junk c) in *. set (ws := weights_of w (c_size c)) in *.
  assert (W : forall i, (i < length xs)%nat -> 0 < nth i ws 0) by (intros i Hi; apply weights_of_pos; try assumption; lia).
  split.
  - intros H3. assert (H3' : (3 <= length xs)%nat) by lia.
    set (h := fun k => nth (S k) xs 0 - nth k xs 0).
    assert (Hh : forall k, (S k < length xs)%nat -> 0 < h k) by (intros k Hk; pose proof (I k Hk); unfold h; lra).
    set (A := bsum (fun k => 2 * (nth (S (S k)) xs 0 - nth k xs 0)) (length xs - 2)).
    set (B := bsum (fun k => 1 / (h k * h k * nth k ws 0) + (1 / h k + 1 / h (S k)) * (1 / h k + 1 / h (S k)) / nth (S k) ws 0
                                 + 1 / (h (S k) * h (S k) * nth (S (S k)) ws 0)) (length xs - 2)).
    assert (Ep : smooth_of xs ws None = p).
    { unfold smooth_of. unfold unknowns. rewrite !vsum_seq. change p with (1 / (1 + A / (6 * B))).
      replace (bsum (fun k => r_entry xs k k) (length xs - 2)) with A.
      2:{ apply bsum_ext. intros k Hk. unfold r_entry. rewrite Nat.eqb_refl. unfold step_at. cbn [nlit nadd nsub nmul ndiv RNum n0]. field. }
      replace (bsum (fun k => gram xs ws k k) (length xs - 2)) with B.
      2:{ apply bsum_ext. intros k Hk. rewrite gram_sum by assumption.
          rewrite (q_sum xs I H3' (fun i => q_entry xs k i / nth i ws 0)) by (unfold unknowns; lia). unfold q_entry.
          rewrite !Nat.eqb_refl, !(proj2 (Nat.eqb_neq _ _)) by lia. change (step_at xs k) with (h k). change (step_at xs (S k)) with (h (S k)).
          change (nth (S k) xs 0 - nth k xs 0) with (h k). change (nth (S (S k)) xs 0 - nth (S k) xs 0) with (h (S k)).
          pose proof (Hh k ltac:(lia)). pose proof (Hh (S k) ltac:(lia)).
          pose proof (W k ltac:(lia)). pose proof (W (S k) ltac:(lia)). pose proof (W (S (S k)) ltac:(lia)).
          cbn [nlit nadd nsub nmul ndiv nopp RNum n0 n1]. field. lra. }
      cbn [nlit nadd nsub nmul ndiv RNum n0 n1]. replace (6 / 1) with 6 by field. reflexivity. }
    split.
    + assert (PA : 0 < A).
      { apply (bsum_pos _ _ 0%nat); [|lia|].
        - intros k Hk. pose proof (I k ltac:(lia)). pose proof (I (S k) ltac:(lia)). lra.
        - pose proof (I 0%nat ltac:(lia)). pose proof (I 1%nat ltac:(lia)). lra. }
      assert (PB : 0 < B).
      { assert (PT : forall k, (k < length xs - 2)%nat -> 0 < 1 / (h k * h k * nth k ws 0) + (1 / h k + 1 / h (S k)) * (1 / h k + 1 / h (S k)) / nth (S k) ws 0
                                 + 1 / (h (S k) * h (S k) * nth (S (S k)) ws 0)).
        { intros k Hk. pose proof (Hh k ltac:(lia)). pose proof (Hh (S k) ltac:(lia)).
          pose proof (W k ltac:(lia)). pose proof (W (S k) ltac:(lia)). pose proof (W (S (S k)) ltac:(lia)).
          assert (0 < 1 / (h k * h k * nth k ws 0)) by (apply Rdiv_lt_0_compat; [lra|]; repeat apply Rmult_lt_0_compat; assumption).
          assert (0 < 1 / (h (S k) * h (S k) * nth (S (S k)) ws 0)) by (apply Rdiv_lt_0_compat; [lra|]; repeat apply Rmult_lt_0_compat; assumption).
          assert (0 < 1 / h k) by (apply Rdiv_lt_0_compat; lra). assert (0 < 1 / h (S k)) by (apply Rdiv_lt_0_compat; lra).
          assert (0 < (1 / h k + 1 / h (S k)) * (1 / h k + 1 / h (S k)) / nth (S k) ws 0) by (apply Rdiv_lt_0_compat; [|assumption]; apply Rmult_lt_0_compat; lra).
          lra. }
        apply (bsum_pos _ _ 0%nat); [intros k Hk; apply Rlt_le, PT, Hk|lia|apply PT; lia]. }
      assert (PQ : 0 < A / (6 * B)) by (apply Rdiv_lt_0_compat; lra).
      change p with (1 / (1 + A / (6 * B))). split; [apply Rdiv_lt_0_compat; lra|].
      apply (Rmult_lt_reg_r (1 + A / (6 * B))); [lra|]. unfold Rdiv at 1. rewrite Rmult_1_l, Rinv_l, Rmult_1_l by lra. lra.
    + rewrite !csaps_eq by assumption. fold xs ws. rewrite Ep. reflexivity.
  - intros E2 q. rewrite !csaps_eq by assumption. fold xs ws. do 2 f_equal.
    assert (K : forall v, csaps_at qnan xs ws (smooth_of xs ws None) (c_rows c) (c_ndim c) v = csaps_at qnan xs ws (smooth_of xs ws (Some q)) (c_rows c) (c_ndim c) v).
    { intros v. unfold csaps_at. rewrite L, E2. reflexivity. }
    apply functional_extensionality. intros l. apply map_ext. exact K.
Qed.
Print Assumptions C77_default.

Lemma csaps_value junk few qnan p w (r : registry (icreate R)) name (c c' : curve R) s g :
  wf c -> (2 <= c_size c)%nat -> increasing (c_tval junk c) -> weights_fit w (c_size c) -> c_dtype c = DFloat ->
  reg_find r name = Some (csaps junk qnan (Some p) w) -> get_grid junk few c s = Ok g -> interpolate junk few r name c s = Ok c' ->
  forall i j, (i < length g)%nat -> (j < c_ndim c)%nat ->
    nth j (nth i (c_rows c') []) 0 = csaps_val (c_tval junk c) (weights_of w (c_size c)) p (column (c_rows c) j) (nth i g 0).
Proof.
  intros Wf H I Hf Dt F G E i j Hi Hj.
  set (C_at := csaps_at qnan (c_tval junk c) (weights_of w (c_size c)) p (c_rows c) (c_ndim c)).
  assert (Er : interpolate junk few r name c s
    = Ok (mkCurve (map (map (cast (c_dtype c))) (map C_at g)) (c_ndim c) (c_dtype c) (if isparametric c then Some g else None))).
  { destruct (get_grid_nonempty _ _ _ _ _ G) as [Ng _]. unfold interpolate, get_interpolator. rewrite F, csaps_eq by assumption. cbn [rbind].
    apply interp_call_eq; try assumption; [apply map_length| |reflexivity].
    intros q Hq'. apply in_map_iff in Hq' as (v & <- & _). apply csaps_at_length. }
  rewrite Er in E. injection E as <-. cbn [c_rows]. rewrite Dt, map_cast_float. rewrite (nth_map_in C_at g i 0 [] Hi). apply csaps_at_nth. assumption.
Qed.

(** Smoothing parameter 1: the natural cubic spline through the points, that is
    'cubic' with its defaults, whatever the weights. *)
Theorem C77_natural : forall junk few qnan periodic w (r r' : registry (icreate R)) name name' (c : curve R) s,
  wf c -> (2 <= c_size c)%nat -> increasing (c_tval junk c) -> weights_fit w (c_size c) -> weights_pos w ->
  reg_find r name = Some (csaps junk qnan (Some 1) w) ->
  reg_find r' name' = Some (cubic junk qnan periodic (BCName "natural") true) ->
  interpolate junk few r name c s = interpolate junk few r' name' c s.
Proof.
  intros junk few qnan periodic w r r' name name' c s Wf H I Hf Hp F F'.
  assert (N := size_nonempty c ltac:(lia)). assert (L := tval_length junk c Wf N).
  destruct (get_grid junk few c s) as [g|e] eqn:G.
  - destruct (C77_csaps junk few qnan 1 w r name c s g Wf H I Hf Hp ltac:(lra) F G) as (f & f1 & f2 & rows & Hs & -> & Lr & Dr & A).
    destruct (C75_cubic junk few qnan periodic (BCName "natural") true r' name' c s g Wf H I eq_refl (or_introl eq_refl) F' G)
      as (h & h1 & h2 & rows' & Hs' & -> & Lr' & Dr' & A' & _).
    assert (E : rows = rows'); [|rewrite E; reflexivity].
    apply (nth_ext _ _ [] []); [congruence|]. intros i Hi.
    apply vec_ext; [rewrite (Dr _ (nth_In _ _ Hi)); symmetry; apply Dr', nth_In; lia|]. intros j.
    destruct (Nat.lt_ge_cases j (c_ndim c)) as [Hj|Hj].
    + rewrite A by (assumption || lia). rewrite A' by (try assumption; try lia; left; reflexivity).
      destruct (Hs j Hj) as (Nat & _ & _ & _ & Pt & _). destruct (Hs' j Hj) as [_ U]. apply (U (f j) (f1 j) (f2 j)).
      destruct Nat as (N1 & N2 & _ & N4). split; [assumption|]. split; [assumption|]. split; [apply Pt; reflexivity|].
      split; [intros (_ & Eb & _); discriminate Eb|]. intros _. apply N4. intros (_ & Eb & _); discriminate Eb.
    + rewrite !nth_overflow; [reflexivity| |]; [rewrite (Dr' (nth i rows' [])) by (apply nth_In; lia)|rewrite (Dr _ (nth_In _ _ Hi))]; lia.
  - unfold interpolate, get_interpolator. rewrite F, F', csaps_eq by assumption.
    destruct (validate_ok (c_ndim c) (BCName "natural")) as [V1 _]. destruct (V1 (or_introl eq_refl)) as (bcs & Eb & _).
    rewrite (cubic_eq junk qnan periodic (BCName "natural") true c bcs) by (assumption || reflexivity). cbn [rbind].
    unfold interp_call. rewrite G. reflexivity.
Qed.
Print Assumptions C77_natural.

(** Coordinates that depend on the parameter by an affine function are
    reproduced, for every smoothing parameter and all weights, also by extrapolation. *)
Theorem C77_affine : forall junk few qnan p w (r : registry (icreate R)) name (c c' : curve R) s g j a0 a1,
  wf c -> (2 <= c_size c)%nat -> increasing (c_tval junk c) -> weights_fit w (c_size c) -> weights_pos w -> 0 <= p <= 1 -> c_dtype c = DFloat ->
  reg_find r name = Some (csaps junk qnan (Some p) w) -> get_grid junk few c s = Ok g -> interpolate junk few r name c s = Ok c' ->
  (j < c_ndim c)%nat ->
  (forall k, (k < c_size c)%nat -> nth j (nth k (c_rows c) []) 0 = a0 + a1 * nth k (c_tval junk c) 0) ->
  forall i, (i < length g)%nat -> nth j (nth i (c_rows c') []) 0 = a0 + a1 * nth i g 0.
Proof.
  intros junk few qnan p w r name c c' s g j a0 a1 Wf H I Hf Hp P Dt F G E Hj Hd i Hi.
  assert (N := size_nonempty c ltac:(lia)). assert (L := tval_length junk c Wf N).
  rewrite (csaps_value junk few qnan p w r name c c' s g Wf H I Hf Dt F G E i j Hi Hj).
  apply csaps_val_affine; try assumption; [lia| |].
  - intros k Hk. apply weights_of_pos; try assumption. lia.
  - intros k Hk. rewrite column_nth by (unfold c_size in L; lia). apply Hd. lia.
Qed.
Print Assumptions C77_affine.

Theorem C77_straight : forall junk few qnan q w (r : registry (icreate R)) name (c c' : curve R) s g p u x,
  wf c -> (2 <= c_size c)%nat -> isparametric c = false -> weights_fit w (c_size c) -> weights_pos w -> 0 <= q <= 1 -> c_dtype c = DFloat ->
  length u = c_ndim c -> line_rows p u x (c_rows c) -> increasing x ->
  reg_find r name = Some (csaps junk qnan (Some q) w) -> get_grid junk few c s = Ok g -> interpolate junk few r name c s = Ok c' ->
  forall i j, (i < length g)%nat -> (j < c_ndim c)%nat ->
    nth j (nth i (c_rows c') []) 0 = nth j p 0 + (nth 0 x 0 + nth i g 0) * nth j u 0.
Proof.
  intros junk few qnan q w r name c c' s g p u x Wf H Pm Hf Hp P Dt Lu Ln Ix F G E i j Hi Hj.
  assert (N := size_nonempty c ltac:(lia)). assert (L := tval_length junk c Wf N).
  assert (B : c_bool c = true) by (apply c_bool_wf; assumption).
  assert (Lx : length x = length (c_rows c)) by apply Ln.
  assert (T : forall k, (k < length (c_tval junk c))%nat -> nth k (c_tval junk c) 0 = nth k x 0 - nth 0 x 0).
  { intros k Hk. unfold isparametric in Pm. unfold c_tval in *. destruct (c_t c); [discriminate|].
    apply (line_cumarclen junk c p u x); try assumption. unfold c_size in L. lia. }
  assert (I : increasing (c_tval junk c)).
  { intros k Hk. rewrite !T by lia. pose proof (Ix k ltac:(unfold c_size in *; lia)). lra. }
  rewrite (C77_affine junk few qnan q w r name c c' s g j (nth j p 0 + nth 0 x 0 * nth j u 0) (nth j u 0)) with (i := i); try assumption.
  - ring.
  - intros k Hk. rewrite T by lia. destruct Ln as (_ & _ & Ln). rewrite (proj2 (Ln k Hk)). ring.
Qed.
Print Assumptions C77_straight.

(** The weighted squared residuals of coordinate j of a curve [out] over the same parameters. *)
Definition residual_of (ws : list R) (c out : curve R) (j : nat) : R :=
  bsum (fun i => nth i ws 0 * ((nth j (nth i (c_rows c) []) 0 - nth j (nth i (c_rows out) []) 0)
                             * (nth j (nth i (c_rows c) []) 0 - nth j (nth i (c_rows out) []) 0))) (c_size c).

Section Own.
  Variables (junk : R) (few : nat -> bool) (qnan p : R) (w : option (list R)) (r : registry (icreate R)) (name : string) (c c' : curve R) (s : gspec R).
  Hypothesis Wf : wf c.
  Hypothesis H : (2 <= c_size c)%nat.
  Hypothesis I : increasing (c_tval junk c).
  Hypothesis Hf : weights_fit w (c_size c).
  Hypothesis Hp : weights_pos w.
  Hypothesis P : 0 <= p <= 1.
  Hypothesis Dt : c_dtype c = DFloat.
  Hypothesis F : reg_find r name = Some (csaps junk qnan (Some p) w).
  Hypothesis G : get_grid junk few c s = Ok (c_tval junk c).
  Hypothesis E : interpolate junk few r name c s = Ok c'.
  Let xs := c_tval junk c.
  Let ws := weights_of w (c_size c).
  Let ys j := map (fun q => nth j q 0) (c_rows c).

  Lemma own_fit j : (j < c_ndim c)%nat -> exists f f1 f2,
    two_smooth f f1 f2 /\ residual_of ws c c' j = residual xs ws (ys j) f /\
    (forall h h1 h2, two_smooth h h1 h2 -> penalty p xs ws (ys j) f f2 <= penalty p xs ws (ys j) h h2) /\
    (forall a b, bsum (fun i => (a + b * nth i xs 0) * (nth i ws 0 * (nth i (ys j) 0 - f (nth i xs 0)))) (length xs) = 0) /\
    (p = 0 -> exists a0 a1, forall v, f v = a0 + a1 * v) /\
    length xs = c_size c /\ (forall i, (i < c_size c)%nat -> nth i (ys j) 0 = nth j (nth i (c_rows c) []) 0 /\ f (nth i xs 0) = nth j (nth i (c_rows c') []) 0).
  Proof.
    intros Hj. assert (N := size_nonempty c ltac:(lia)). assert (L := tval_length junk c Wf N). fold xs in L.
    destruct (C77_csaps junk few qnan p w r name c s xs Wf H I Hf Hp P F G) as (f & f1 & f2 & rows & Hs & Er & Lr & Dr & A).
    rewrite Er in E. injection E as Ec. destruct (Hs j Hj) as (Nat & M & _ & Bal & _ & Li).
    assert (V : forall i, (i < c_size c)%nat -> nth i (ys j) 0 = nth j (nth i (c_rows c) []) 0 /\ f j (nth i xs 0) = nth j (nth i (c_rows c') []) 0).
    { intros i Hi. split; [apply (nth_map_in (fun q => nth j q 0) (c_rows c) i [] 0 Hi)|].
      rewrite <- Ec. cbn [c_rows]. rewrite Dt, map_cast_float. symmetry. apply A; [fold xs; lia|assumption]. }
    exists (f j), (f1 j), (f2 j). split; [apply Nat|]. split.
    - unfold residual_of, residual. rewrite L. apply bsum_ext. intros i Hi. destruct (V i Hi) as [-> ->]. reflexivity.
    - split; [exact M|]. split; [exact Bal|]. split; [exact Li|]. split; [exact L|exact V].
  Qed.
End Own.

(** At the parameters of the curve: the weighted residuals and their first
    moment vanish, so the weighted means are kept. *)
Theorem C77_balance : forall junk few qnan p w (r : registry (icreate R)) name (c c' : curve R) s,
  wf c -> (2 <= c_size c)%nat -> increasing (c_tval junk c) -> weights_fit w (c_size c) -> weights_pos w -> 0 <= p <= 1 -> c_dtype c = DFloat ->
  reg_find r name = Some (csaps junk qnan (Some p) w) -> get_grid junk few c s = Ok (c_tval junk c) -> interpolate junk few r name c s = Ok c' ->
  forall j, (j < c_ndim c)%nat ->
  let dev i := nth i (weights_of w (c_size c)) 0 * (nth j (nth i (c_rows c) []) 0 - nth j (nth i (c_rows c') []) 0) in
  bsum dev (c_size c) = 0 /\ bsum (fun i => nth i (c_tval junk c) 0 * dev i) (c_size c) = 0.
Proof.
  intros junk few qnan p w r name c c' s Wf H I Hf Hp P Dt F G E j Hj dev.
  destruct (own_fit junk few qnan p w r name c c' s Wf H I Hf Hp P Dt F G E j Hj) as (f & f1 & f2 & _ & _ & _ & Bal & _ & L & V).
  rewrite L in Bal. split.
  - eapply eq_trans; [|exact (Bal 1 0)]. apply bsum_ext. intros i Hi. unfold dev. destruct (V i Hi) as [-> ->]. ring.
  - eapply eq_trans; [|exact (Bal 0 1)]. apply bsum_ext. intros i Hi. unfold dev. destruct (V i Hi) as [-> ->]. ring.
Qed.
Print Assumptions C77_balance.

(** Smoothing parameter 0: the weighted least squares line. *)
Theorem C77_line : forall junk few qnan w (r : registry (icreate R)) name (c c' : curve R) s,
  wf c -> (2 <= c_size c)%nat -> increasing (c_tval junk c) -> weights_fit w (c_size c) -> weights_pos w -> c_dtype c = DFloat ->
  reg_find r name = Some (csaps junk qnan (Some 0) w) -> get_grid junk few c s = Ok (c_tval junk c) -> interpolate junk few r name c s = Ok c' ->
  forall j, (j < c_ndim c)%nat ->
  let ws := weights_of w (c_size c) in
  (exists a0 a1, forall i, (i < c_size c)%nat -> nth j (nth i (c_rows c') []) 0 = a0 + a1 * nth i (c_tval junk c) 0) /\
  (forall b0 b1, residual_of ws c c' j
     <= bsum (fun i => nth i ws 0 * ((nth j (nth i (c_rows c) []) 0 - (b0 + b1 * nth i (c_tval junk c) 0))
                                    * (nth j (nth i (c_rows c) []) 0 - (b0 + b1 * nth i (c_tval junk c) 0)))) (c_size c)).
Proof.
  intros junk few qnan w r name c c' s Wf H I Hf Hp Dt F G E j Hj ws.
  destruct (own_fit junk few qnan 0 w r name c c' s Wf H I Hf Hp ltac:(lra) Dt F G E j Hj) as (f & f1 & f2 & _ & _ & _ & Bal & Li & L & V).
  destruct (Li eq_refl) as (a0 & a1 & Ha). rewrite L in Bal. split.
  - exists a0, a1. intros i Hi. destruct (V i Hi) as [_ <-]. apply Ha.
  - intros b0 b1. set (x := fun i => nth i (c_tval junk c) 0) in *. unfold residual_of.
    rewrite (bsum_ext (fun i => nth i ws 0 * ((nth j (nth i (c_rows c) []) 0 - (b0 + b1 * x i)) * (nth j (nth i (c_rows c) []) 0 - (b0 + b1 * x i))))
      (fun i => nth i ws 0 * ((nth j (nth i (c_rows c) []) 0 - nth j (nth i (c_rows c') []) 0)
                             * (nth j (nth i (c_rows c) []) 0 - nth j (nth i (c_rows c') []) 0))
       + (2 * ((a0 - b0 + (a1 - b1) * x i) * (nth i ws 0 * (nth j (nth i (c_rows c) []) 0 - nth j (nth i (c_rows c') []) 0)))
          + nth i ws 0 * ((a0 - b0 + (a1 - b1) * x i) * (a0 - b0 + (a1 - b1) * x i))))).
    + rewrite !bsum_plus, bsum_scal.
      assert (Z : bsum (fun i => (a0 - b0 + (a1 - b1) * x i) * (nth i ws 0 * (nth j (nth i (c_rows c) []) 0 - nth j (nth i (c_rows c') []) 0))) (c_size c) = 0).
      { eapply eq_trans; [|exact (Bal (a0 - b0) (a1 - b1))]. apply bsum_ext. intros i Hi. destruct (V i Hi) as [-> ->]. reflexivity. }
      rewrite Z.
      assert (Q : 0 <= bsum (fun i => nth i ws 0 * ((a0 - b0 + (a1 - b1) * x i) * (a0 - b0 + (a1 - b1) * x i))) (c_size c)).
      { apply bsum_nonneg. intros i Hi. apply Rmult_le_pos; [apply Rlt_le, weights_of_pos; assumption|apply Rle_0_sqr]. }
      lra.
    + intros i Hi. destruct (V i Hi) as [_ Vi]. rewrite Ha in Vi. rewrite <- Vi. unfold x. ring.
Qed.
Print Assumptions C77_line.

(** A larger smoothing parameter never increases the residuals. *)
Theorem C77_monotone : forall junk few qnan p q w (r : registry (icreate R)) name name' (c c1 c2 : curve R) s,
  wf c -> (2 <= c_size c)%nat -> increasing (c_tval junk c) -> weights_fit w (c_size c) -> weights_pos w -> 0 <= p -> p < q -> q <= 1 -> c_dtype c = DFloat ->
  reg_find r name = Some (csaps junk qnan (Some p) w) -> reg_find r name' = Some (csaps junk qnan (Some q) w) ->
  get_grid junk few c s = Ok (c_tval junk c) ->
  interpolate junk few r name c s = Ok c1 -> interpolate junk few r name' c s = Ok c2 ->
  forall j, (j < c_ndim c)%nat ->
  residual_of (weights_of w (c_size c)) c c2 j <= residual_of (weights_of w (c_size c)) c c1 j.
Proof.
  intros junk few qnan p q w r name name' c c1 c2 s Wf H I Hf Hp P0 PQ Q1 Dt F F' G E E' j Hj.
  destruct (own_fit junk few qnan p w r name c c1 s Wf H I Hf Hp ltac:(lra) Dt F G E j Hj) as (f & f1 & f2 & Sf & -> & Mf & _).
  destruct (own_fit junk few qnan q w r name' c c2 s Wf H I Hf Hp ltac:(lra) Dt F' G E' j Hj) as (h & h1 & h2 & Sh & -> & Mh & _).
  specialize (Mf h h1 h2 Sh). specialize (Mh f f1 f2 Sf). unfold penalty in Mf, Mh.
  destruct (smoothing_monotone p q _ _ _ _ P0 PQ Q1 Mf Mh) as [K _]. exact K.
Qed.
Print Assumptions C77_monotone.

(** ** Examples *)

Definition sreg : registry (icreate float) :=
  [("one", csaps nan nan (Some (fz 1)) None); ("auto", csaps nan nan None (Some [fz 1; fz 2; fz 1]));
   ("half", csaps nan nan (Some (fq 1 2)) (Some [fz 1; fz 2; fz 1])); ("few", csaps nan nan None (Some [fz 1; fz 2]))].
Definition sl (l : list float) (c : curve float) (name : string) : res (list (list float)) :=
  do c' <- interpolate nan (fun _ => true) sreg name c (SArr l) ; Ok (c_rows c').
(** The automatic parameter is 6/7 here; every second coordinate is affine. *)
Example C77_ex :
  sl [fz (-1); fz 0; fq 1 2; fz 1; fz 2; fz 3] fc3 "one"
    = Ok [[fz (-1); fz (-2)]; [fz 0; fz 0]; [fq 11 16; fz 1]; [fz 1; fz 2]; [fz 0; fz 4]; [fz (-1); fz 6]] /\
  sl [fq 1 2; fz 1] fc3 "auto" = Ok [[fq 19 32; fz 1]; [fq 3 4; fz 2]].
Proof. repeat split; vm_compute; reflexivity. Qed.
Example C77_ex_error :
  sl [fz 0; fz 1] fc3 "few" = Raise InterpolationError /\
  sl [fz 0; fz 1] (mkCurve [[fz 0; fz 0]; [fz 1; fz 2]; [fz 0; fz 4]] 2 DFloat (Some [fz 0; fz 1; fz 1])) "one" = Raise InterpolationError.
Proof. split; vm_compute; reflexivity. Qed.
Example C77_ex_hyp : wf rt3 /\ (2 <= c_size rt3)%nat /\ (3 <= c_size rt3)%nat /\ increasing (c_tval 0 rt3) /\ c_dtype rt3 = DFloat /\
  weights_fit (Some [1; 2; 1]) (c_size rt3) /\ weights_pos (Some [1; 2; 1]) /\ weights_fit None (c_size rt3) /\ weights_pos None /\
  get_grid 0 (fun _ => true) rt3 (SArr (c_tval 0 rt3)) = Ok (c_tval 0 rt3).
Proof.
  split; [apply rt3_wf|]. split; [cbn; lia|]. split; [cbn; lia|]. split; [apply rt3_increasing|]. split; [reflexivity|].
  split; [intros l E; injection E as <-; reflexivity|]. split.
  - intros l x E. injection E as <-. intros [<-|[<-|[<-|[]]]]; lra.
  - split; [discriminate|]. split; [discriminate|]. apply C53_validation_iff. split; [discriminate|]. intros [|[|i]] Hi; cbn in *; [lra|lra|lia].
Qed.
(** The parabola v^2 competes in the minimum property. *)
Example C77_ex_minimum : two_smooth (fun v => v * v) (fun v => 2 * v) (fun _ => 2).
Proof. apply C75_ex_minimum. Qed.
