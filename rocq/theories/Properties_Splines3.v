(** Property C76: the 'akima' interpolator; smoothness of the 'hermite' and
    'pchip' interpolators (C67, C68). *)
From Coq Require Import ZArith String List Bool Arith Lia PrimFloat Reals Lra Psatz.
From Verif Require Import Num Py Numeric Curve Vec Geom DiffGeom Intersect Registry Interp Splines Splines2 Spec GeomSpec.
From Verif Require Import ListFacts ArrayProofs VecFacts CurveProofs CurveProofs2 CurveProofs3 GeomProofs GeomProofs2 DiffGeomProofs DiffGeomProofs2.
From Verif Require Import InterpProofs InterpProofs2 InterpProofs3 SplineProofs SplineProofs2 SplineProofs3 SplineProofs4 SplineProofs5 SplineProofs6 SplineProofs8.
From Verif Require Import Properties_Container Properties_Interp.
Import ListNotations.
Local Open Scope string_scope.
Local Open Scope list_scope.
Local Open Scope R_scope.

(** The common result: every coordinate is the value of the one continuously
    differentiable function that is cubic between the parameters and has the
    values of the points and the derivatives [ds] at the parameters. *)
Definition smooth_result junk qnan ex (c : curve R) (g : list R) (ds : nat -> nat -> R) (out : res (curve R)) : Prop :=
  exists (f f1 : nat -> R -> R) rows,
    (forall j, (j < c_ndim c)%nat ->
      let spec := hermite_fun (c_tval junk c) (fun k => nth j (nth k (c_rows c) []) 0) (ds j) in
      spec (f j) (f1 j) /\ forall h h1, spec h h1 -> forall v, h v = f j v) /\
    out = Ok (mkCurve (map (map (cast (c_dtype c))) rows) (c_ndim c) (c_dtype c) (if isparametric c then Some g else None)) /\
    length rows = length g /\ dims (c_ndim c) rows /\
    (forall i j, (i < length g)%nat -> (j < c_ndim c)%nat -> (ex = true \/ inside (c_tval junk c) (nth i g 0)) ->
      nth j (nth i rows []) 0 = f j (nth i g 0)) /\
    (forall i j, (i < length g)%nat -> (j < c_ndim c)%nat -> ex = false -> ~ inside (c_tval junk c) (nth i g 0) ->
      nth j (nth i rows []) 0 = qnan).

Lemma smooth_result_ok junk few qnan ex (r : registry (icreate R)) name (c : curve R) s g create ds :
  wf c -> (2 <= c_size c)%nat -> increasing (c_tval junk c) -> reg_find r name = Some create ->
  create c = Ok (as_array (c_ndim c) (map (hermite_at qnan ex (c_tval junk c) (c_rows c) ds (c_ndim c)))) ->
  get_grid junk few c s = Ok g ->
  smooth_result junk qnan ex c g (fun j k => nth j (nth k ds []) 0) (interpolate junk few r name c s).
Proof.
  intros W H I F E G.
  assert (N := size_nonempty c ltac:(lia)). assert (L := tval_length junk c W N).
  assert (H2 : (2 <= length (c_tval junk c))%nat) by lia.
  assert (Lr : length (c_rows c) = length (c_tval junk c)) by (unfold c_size in L; congruence).
  set (y := fun j k => nth j (nth k (c_rows c) []) 0).
  exists (fun j => her0 (c_tval junk c) (y j) (fun k => nth j (nth k ds []) 0)).
  exists (fun j => her1 (c_tval junk c) (y j) (fun k => nth j (nth k ds []) 0)).
  set (H_at := hermite_at qnan ex (c_tval junk c) (c_rows c) ds (c_ndim c)).
  exists (map H_at g). split; [|split; [|split; [apply map_length|split; [|split]]]].
  - intros j Hj spec. split; [apply hermite_exists; assumption|]. intros h h1 Sh v. apply (hermite_unique _ _ _ I H2 h h1 Sh v).
  - apply spline_result with (create := create); assumption.
  - intros p Hp. apply in_map_iff in Hp as (v & <- & _). apply hermite_at_length.
  - intros i j Hi Hj Hex. rewrite (nth_map_in H_at g i 0 [] Hi). unfold H_at. apply hermite_at_fun; assumption.
  - intros i j Hi Hj Ex Ho. rewrite (nth_map_in H_at g i 0 [] Hi). unfold H_at. apply hermite_at_outside; assumption.
Qed.

(** ** C67, C68: smoothness *)

(** 'hermite': the derivatives are the unit tangent vectors. *)
Theorem C67_smooth : forall junk few qnan ex (r : registry (icreate R)) name (c : curve R) s g ds,
  wf c -> (2 <= c_size c)%nat -> increasing (c_tval junk c) ->
  reg_find r name = Some (hermite junk qnan ex) -> get_grid junk few c s = Ok g ->
  curve_prop junk c PFrenet1 = Ok (AMat ds) ->
  smooth_result junk qnan ex c g (fun j k => nth j (nth k ds []) 0) (interpolate junk few r name c s).
Proof.
  intros junk few qnan ex r name c s g ds W H I F G Fr.
  rewrite curve_prop_frenet1 in Fr by (apply c_bool_wf; [assumption|]; apply size_nonempty; lia). injection Fr as <-.
  apply smooth_result_ok with (create := hermite junk qnan ex); try assumption. apply hermite_eq; assumption.
Qed.
Print Assumptions C67_smooth.

(** 'pchip': the derivative at a point has the sign of the slopes on both sides
    and is at most three times as large. *)
Theorem C68_smooth : forall junk few qnan ex (r : registry (icreate R)) name (c : curve R) s g,
  wf c -> (2 <= c_size c)%nat -> increasing (c_tval junk c) ->
  reg_find r name = Some (pchip junk qnan ex) -> get_grid junk few c s = Ok g ->
  exists ds, smooth_result junk qnan ex c g ds (interpolate junk few r name c s) /\
    forall j k, (j < c_ndim c)%nat -> (S k < c_size c)%nat ->
      let m := (nth j (nth (S k) (c_rows c) []) 0 - nth j (nth k (c_rows c) []) 0) / (nth (S k) (c_tval junk c) 0 - nth k (c_tval junk c) 0) in
      forall i, i = k \/ i = S k -> (0 <= m -> 0 <= ds j i <= 3 * m) /\ (m <= 0 -> 3 * m <= ds j i <= 0).
Proof.
  intros junk few qnan ex r name c s g W H I F G.
  assert (N := size_nonempty c ltac:(lia)). assert (L := tval_length junk c W N).
  eexists. split.
  - apply smooth_result_ok with (create := pchip junk qnan ex); try assumption. apply pchip_eq; assumption.
  - intros j k Hj Hk m i Hi.
    destruct (pr_tame (c_tval junk c) (c_rows c) (c_ndim c) I ltac:(lia) ltac:(unfold c_size in L; congruence) k j ltac:(lia) Hj) as [T1 T2].
    cbv beta in *. change (tame (nth j (nth k (pchip_rows (c_tval junk c) (c_rows c) (c_ndim c)) []) 0) m) in T1.
    change (tame (nth j (nth (S k) (pchip_rows (c_tval junk c) (c_rows c) (c_ndim c)) []) 0) m) in T2.
    assert (T : tame (nth j (nth i (pchip_rows (c_tval junk c) (c_rows c) (c_ndim c)) []) 0) m) by (destruct Hi as [-> | ->]; assumption).
    unfold tame in T. lra.
Qed.
Print Assumptions C68_smooth.

(** The rule of the derivatives itself.  Inside: zero at a local extremum, else
    the weighted harmonic mean of the slopes on both sides.  At an end: the
    derivative of the parabola through three points, but zero if its sign is not
    that of the slope, and at most three times the slope where the slopes turn. *)
Definition inner_rule (h0 h1 m0 m1 d : R) : Prop :=
  (m0 * m1 <= 0 -> d = 0) /\
  (0 < m0 * m1 -> d * ((2 * h1 + h0) / m0 + (h1 + 2 * h0) / m1) = (2 * h1 + h0) + (h1 + 2 * h0)).
Definition end_rule (h0 h1 m0 m1 d : R) : Prop :=
  let p := m0 + (m0 - m1) * h0 / (h0 + h1) in
  (p * m0 <= 0 -> d = 0) /\
  (0 < p * m0 -> m0 * m1 <= 0 -> 3 * Rabs m0 < Rabs p -> d = 3 * m0) /\
  (0 < p * m0 -> 0 < m0 * m1 \/ Rabs p <= 3 * Rabs m0 -> d = p).

Lemma same_sign_mul (a b : R) : same_sign a b = true <-> 0 < a * b \/ (a = 0 /\ b = 0).
Proof.
  rewrite same_sign_iff. split; [intros [[A B]|[[A B]|[A B]]]; [left; nra|left; nra|right; auto]|].
  intros [H|H]; [|auto]. destruct (Rlt_dec 0 a); [left; split; nra|]. right; left.
  assert (a <> 0) by (intros ->; lra). split; [lra|nra].
Qed.

Lemma pchip_inner_rule (h0 h1 m0 m1 : R) : 0 < h0 -> 0 < h1 -> inner_rule h0 h1 m0 m1 (pchip_inner h0 h1 m0 m1).
Proof.
  intros H0 H1. unfold pchip_inner, inner_rule. cbv zeta. rn. cbn [neqb RNum].
  destruct (same_sign m1 m0) eqn:S; cbn [negb orb].
  - apply same_sign_mul in S. destruct (Reqb m1 0) eqn:E1; cbn [orb].
    { apply Reqb_spec in E1. subst. split; [reflexivity|]. intros; lra. }
    destruct (Reqb m0 0) eqn:E0.
    { apply Reqb_spec in E0. subst. split; [reflexivity|]. intros; lra. }
    assert (N1 : m1 <> 0) by (intros X; apply Reqb_spec in X; congruence).
    assert (N0 : m0 <> 0) by (intros X; apply Reqb_spec in X; congruence).
    destruct S as [S|[S _]]; [|contradiction]. split; [intros; lra|]. intros _.
    assert (h1 + 2 * h0 <> 0) by lra. assert (2 * h1 + h0 <> 0) by lra.
    assert ((2 * h1 + h0) * m1 + (h1 + 2 * h0) * m0 <> 0).
    { destruct (Rlt_dec 0 m0); [assert (0 < m1) by nra|assert (m1 < 0) by nra; assert (m0 < 0) by lra]; nra. }
    field. repeat split; try assumption; lra.
  - split; [reflexivity|]. intros P. assert (X : same_sign m1 m0 = true) by (apply same_sign_mul; left; lra). congruence.
Qed.

Lemma pchip_edge_rule (h0 h1 m0 m1 : R) : 0 < h0 -> 0 < h1 -> end_rule h0 h1 m0 m1 (pchip_edge h0 h1 m0 m1).
Proof.
  intros H0 H1. unfold pchip_edge, end_rule. cbv zeta. rn. cbn [nltb RNum].
  assert (E : ((2 * h0 + h1) * m0 - h0 * m1) / (h0 + h1) = m0 + (m0 - m1) * h0 / (h0 + h1)) by (field; lra).
  rewrite !E. set (p := m0 + (m0 - m1) * h0 / (h0 + h1)). clearbody p. clear E.
  destruct (same_sign p m0) eqn:S; cbn [negb].
  - apply same_sign_mul in S. destruct S as [S|[-> ->]].
    + split; [intros; lra|]. destruct (same_sign m0 m1) eqn:S'; cbn [negb andb].
      * apply same_sign_mul in S'. destruct S' as [S'|[-> _]]; [|exfalso; lra]. split; [intros; exfalso; lra|]. intros; reflexivity.
      * assert (S2 : m0 * m1 <= 0).
        { destruct (Rle_dec (m0 * m1) 0) as [K|K]; [exact K|]. assert (same_sign m0 m1 = true) by (apply same_sign_mul; left; lra). congruence. }
        destruct (Rltb (3 * Rabs m0) (Rabs p)) eqn:L.
        -- apply Rltb_spec in L. split; [reflexivity|]. intros _ [K|K]; exfalso; lra.
        -- assert (~ 3 * Rabs m0 < Rabs p) by (intros K; apply Rltb_spec in K; congruence). split; [intros; contradiction|]. reflexivity.
    + split; [|split; intros; exfalso; lra]. intros _. destruct (_ && _); ring.
  - assert (~ 0 < p * m0) by (intros P; assert (same_sign p m0 = true) by (apply same_sign_mul; auto); congruence).
    split; [reflexivity|]. split; intros; contradiction.
Qed.

Theorem C68_rule : forall junk few qnan ex (r : registry (icreate R)) name (c : curve R) s g,
  wf c -> (2 <= c_size c)%nat -> increasing (c_tval junk c) ->
  reg_find r name = Some (pchip junk qnan ex) -> get_grid junk few c s = Ok g ->
  exists ds, smooth_result junk qnan ex c g ds (interpolate junk few r name c s) /\
    forall j, (j < c_ndim c)%nat ->
      let n := c_size c in
      let h k := nth (S k) (c_tval junk c) 0 - nth k (c_tval junk c) 0 in
      let m k := (nth j (nth (S k) (c_rows c) []) 0 - nth j (nth k (c_rows c) []) 0) / h k in
      (n = 2%nat -> ds j 0%nat = m 0%nat /\ ds j 1%nat = m 0%nat) /\
      ((3 <= n)%nat ->
        end_rule (h 0%nat) (h 1%nat) (m 0%nat) (m 1%nat) (ds j 0%nat) /\
        (forall k, (0 < k)%nat -> (S k < n)%nat -> inner_rule (h (k - 1)%nat) (h k) (m (k - 1)%nat) (m k) (ds j k)) /\
        end_rule (h (n - 2)%nat) (h (n - 3)%nat) (m (n - 2)%nat) (m (n - 3)%nat) (ds j (n - 1)%nat)).
Proof.
  intros junk few qnan ex r name c s g W H I F G.
  assert (N := size_nonempty c ltac:(lia)). assert (L := tval_length junk c W N).
  eexists. split.
  - apply smooth_result_ok with (create := pchip junk qnan ex); try assumption. apply pchip_eq; assumption.
  - intros j Hj n h m. cbv beta.
    assert (Lt : length (c_tval junk c) = n) by (rewrite L; reflexivity).
    assert (D : forall k, (k < n)%nat -> nth j (nth k (pchip_rows (c_tval junk c) (c_rows c) (c_ndim c)) []) 0 =
      (if Nat.eqb n 2 then m 0
       else if Nat.eqb k 0 then pchip_edge (h 0) (h 1) (m 0) (m 1)
       else if Nat.eqb k (n - 1) then pchip_edge (h (n - 2)) (h (n - 3)) (m (n - 2)) (m (n - 3))
       else pchip_inner (h (k - 1)) (h k) (m (k - 1)) (m k))%nat).
    { intros k Hk. rewrite pchip_rows_nth by lia. rewrite pd_eq by lia. rewrite Lt.
      assert (C : forall i, (S i < n)%nat -> (nth (S i) (column (c_rows c) j) 0 - nth i (column (c_rows c) j) 0) / h i = m i).
      { intros i Hi. unfold m. rewrite !column_nth by (unfold n, c_size in Hi; lia). reflexivity. }
      unfold h in C |- *. destruct (Nat.eqb_spec n 2); [apply C; lia|].
      destruct (Nat.eqb_spec k 0); [rewrite !C by lia; reflexivity|].
      destruct (Nat.eqb_spec k (n - 1)); [rewrite !C by lia; reflexivity|].
      rewrite (C (k - 1)%nat), (C k) by lia. reflexivity. }
    assert (Hp : forall k, (S k < n)%nat -> 0 < h k) by (intros k Hk; apply (pd_h (c_tval junk c) I k); lia).
    split.
    + intros E. rewrite !D by lia. rewrite E. split; reflexivity.
    + intros H3. rewrite !D by lia. destruct (Nat.eqb_spec n 2); [lia|]. split; [|split].
      * apply pchip_edge_rule; apply Hp; lia.
      * intros k K1 K2. rewrite D by lia. destruct (Nat.eqb_spec k 0); [lia|]. destruct (Nat.eqb_spec k (n - 1)); [lia|].
        apply pchip_inner_rule; apply Hp; lia.
      * destruct (Nat.eqb_spec (n - 1) 0); [lia|]. rewrite Nat.eqb_refl. apply pchip_edge_rule; apply Hp; lia.
Qed.
Print Assumptions C68_rule.
(** The rules have one solution each; here the three cases at an end and the mean. *)
Example C68_rule_ex :
  end_rule 1 1 (-1) 1 (-2) /\ end_rule 1 1 1 3 0 /\ end_rule 3 1 1 (-3) 3 /\ inner_rule 1 1 1 3 (3 / 2).
Proof.
  unfold end_rule, inner_rule. cbv zeta. split; [|split; [|split]].
  - replace (-1 + (-1 - 1) * 1 / (1 + 1)) with (-2) by field. rewrite !Rabs_left by lra. repeat split; intros; lra.
  - replace (1 + (1 - 3) * 1 / (1 + 1)) with 0 by field. repeat split; intros; lra.
  - replace (1 + (1 - -3) * 3 / (3 + 1)) with 4 by field. rewrite !Rabs_right by lra. repeat split; intros; lra.
  - split; intros; lra.
Qed.

(** ** C76 Akima interpolation *)

(** Creation: as for 'hermite'. *)
Theorem C76_akima_iff : forall junk few qnan empty (r : registry (icreate R)) name (c : curve R),
  wf c -> reg_find r name = Some (akima junk qnan empty) ->
  ((exists f, get_interpolator r name c = Ok f) <-> (2 <= c_size c)%nat /\ increasing (c_tval junk c)) /\
  (~ ((2 <= c_size c)%nat /\ increasing (c_tval junk c)) -> forall s, interpolate junk few r name c s = Raise InterpolationError).
Proof.
  intros junk few qnan empty r name c W F. unfold interpolate, get_interpolator. rewrite F. split; [split|].
  - intros [f E]. destruct (le_lt_dec 2 (c_size c)) as [A|A].
    + split; [assumption|]. destruct (existsb (fun d => nleb d n0) (diff (c_tval junk c))) eqn:X; [|apply diff_positive_iff; assumption].
      exfalso. destruct (akima_fails junk qnan empty c) as [e Ee].
      { intros [_ J]. apply diff_positive_iff in J. congruence. }
      rewrite Ee in E. discriminate.
    + exfalso. destruct (akima_fails junk qnan empty c) as [e Ee]; [intros [? _]; lia|]. rewrite Ee in E. discriminate.
  - intros [A B]. rewrite akima_eq by assumption. eexists. reflexivity.
  - intros N s. destruct (akima_fails junk qnan empty c N) as [e ->]. reflexivity.
Qed.
Print Assumptions C76_akima_iff.

(** The result: continuously differentiable, cubic between the points, with the
    derivatives of Akima's rule; NaN outside.  [M] are the slopes of the pieces
    continued on both sides; the rule's limit is 1e-9 of the largest change of
    slopes in all coordinates.  With two points the fourth number is whatever
    was in memory. *)
Theorem C76_akima : forall junk few qnan empty (r : registry (icreate R)) name (c : curve R) s g,
  wf c -> (2 <= c_size c)%nat -> increasing (c_tval junk c) ->
  reg_find r name = Some (akima junk qnan empty) -> get_grid junk few c s = Ok g ->
  exists (M : nat -> nat -> R) top ds,
    (forall j, (j < c_ndim c)%nat -> slopes_ext (c_tval junk c) (fun k => nth j (nth k (c_rows c) []) 0) (M j) /\
      (c_size c = 2%nat -> M j 3%nat = empty j)) /\
    (forall k j, (k < c_size c)%nat -> (j < c_ndim c)%nat -> bend (M j) k <= top) /\
    (exists k j, (k < c_size c)%nat /\ (j < c_ndim c)%nat /\ top = bend (M j) k) /\
    (forall k j, (k < c_size c)%nat -> (j < c_ndim c)%nat -> akima_rule (M j) (top / 1000000000) k (ds j k)) /\
    smooth_result junk qnan false c g ds (interpolate junk few r name c s).
Proof.
  intros junk few qnan empty r name c s g W H I F G.
  assert (N := size_nonempty c ltac:(lia)). assert (L := tval_length junk c W N).
  assert (H2 : (2 <= length (c_tval junk c))%nat) by lia.
  assert (Lr : length (c_rows c) = length (c_tval junk c)) by (unfold c_size in L; congruence).
  assert (Pn : (0 < c_ndim c)%nat) by (destruct W; lia).
  set (xs := c_tval junk c) in *. set (rows := c_rows c) in *.
  exists (ak_m xs rows empty), (ak_top xs rows empty (c_ndim c)), (fun j k => nth j (nth k (akima_rows empty xs rows (c_ndim c)) []) 0).
  split; [|split; [|split; [|split]]].
  - intros j Hj.
    assert (Ec : forall M, slopes_ext xs (fun k => nth k (column rows j) 0) M -> slopes_ext xs (fun k => nth j (nth k rows []) 0) M).
    { intros M (A & B). split; [|assumption]. intros k Hk. rewrite (A k Hk). rewrite !column_nth by lia. reflexivity. }
    destruct (Nat.eq_dec (length xs) 2) as [E|E].
    + destruct (akima_slopes_ext2 (empty j) xs (column rows j) E) as [A B]. split; [apply Ec, A|]. intros _. exact B.
    + split; [|intros; lia]. apply Ec. apply akima_slopes_ext. lia.
  - intros k j Hk Hj. apply ak_top_ge; lia.
  - destruct (ak_top_in xs rows empty (c_ndim c) H2 Lr Pn) as (i & j & Hi & Hj & E). exists i, j. split; [lia|]. split; assumption.
  - intros k j Hk Hj. apply akima_rows_rule; lia.
  - apply smooth_result_ok with (create := akima junk qnan empty); try assumption. apply akima_eq; assumption.
Qed.
Print Assumptions C76_akima.

(** Akima's rule keeps the derivative between the slopes of the two pieces at
    the point, up to half of the limit. *)
Theorem C76_between : forall M limit k d, 0 <= limit -> akima_rule M limit k d ->
  Rmin (M (k + 1)%nat) (M (k + 2)%nat) - limit / 2 <= d <= Rmax (M (k + 1)%nat) (M (k + 2)%nat) + limit / 2.
Proof. exact rule_between. Qed.
Print Assumptions C76_between.

(** The points are reproduced. *)
Theorem C76_points : forall junk few qnan empty (r : registry (icreate R)) name (c c' : curve R) s g,
  wf c -> (2 <= c_size c)%nat -> increasing (c_tval junk c) -> c_dtype c = DFloat ->
  reg_find r name = Some (akima junk qnan empty) -> get_grid junk few c s = Ok g ->
  interpolate junk few r name c s = Ok c' ->
  forall i k, (i < length g)%nat -> (k < c_size c)%nat -> nth i g 0 = nth k (c_tval junk c) 0 ->
    nth i (c_rows c') [] = nth k (c_rows c) [].
Proof.
  intros junk few qnan empty r name c c' s g W H I Dt F G E i k Hi Hk Eg.
  destruct (C76_akima junk few qnan empty r name c s g W H I F G) as (M & top & ds & _ & _ & _ & _ & f & f1 & rows & Hs & Er & Lr & Dr & A & _).
  rewrite Er in E. injection E as <-. cbn [c_rows]. rewrite Dt, map_cast_float.
  assert (N := size_nonempty c ltac:(lia)). assert (L := tval_length junk c W N).
  assert (L1 : length (nth i rows []) = c_ndim c) by (apply Dr, nth_In; lia).
  assert (L2 : length (nth k (c_rows c) []) = c_ndim c) by (apply W, nth_In; assumption).
  apply vec_ext; [congruence|]. intros j. destruct (Nat.lt_ge_cases j (c_ndim c)) as [Hj|Hj].
  - rewrite A; [|assumption|assumption|].
    + rewrite Eg. destruct (Hs j Hj) as [(_ & _ & _ & V) _]. apply (proj1 (V k ltac:(lia))).
    + right. rewrite Eg. split; apply increasing_le; try assumption; lia.
  - rewrite !nth_overflow by lia. reflexivity.
Qed.
Print Assumptions C76_points.

(** With three points or more: affine coordinates are reproduced; for evenly
    spaced parameters also quadratic ones. *)
Theorem C76_quadratic : forall junk few qnan empty (r : registry (icreate R)) name (c c' : curve R) s g j a0 a1 a2 h,
  wf c -> (3 <= c_size c)%nat -> increasing (c_tval junk c) -> c_dtype c = DFloat ->
  reg_find r name = Some (akima junk qnan empty) -> get_grid junk few c s = Ok g ->
  interpolate junk few r name c s = Ok c' -> (j < c_ndim c)%nat ->
  (forall k, (k < c_size c)%nat -> let v := nth k (c_tval junk c) 0 in nth j (nth k (c_rows c) []) 0 = a0 + a1 * v + a2 * (v * v)) ->
  a2 = 0 \/ (forall k, (S k < c_size c)%nat -> nth (S k) (c_tval junk c) 0 - nth k (c_tval junk c) 0 = h) ->
  forall i, (i < length g)%nat -> inside (c_tval junk c) (nth i g 0) ->
    nth j (nth i (c_rows c') []) 0 = a0 + a1 * nth i g 0 + a2 * (nth i g 0 * nth i g 0).
Proof.
  intros junk few qnan empty r name c c' s g j a0 a1 a2 h W H I Dt F G E Hj Hy Hh i Hi Hin.
  assert (N := size_nonempty c ltac:(lia)). assert (L := tval_length junk c W N).
  destruct (C76_akima junk few qnan empty r name c s g W ltac:(lia) I F G) as (M & top & ds & Hm & _ & (k0 & j0 & _ & _ & Et) & Hr & f & f1 & rows & Hs & Er & Lr & Dr & A & _).
  rewrite Er in E. injection E as <-. cbn [c_rows]. rewrite Dt, map_cast_float. rewrite A by auto.
  destruct (Hm j Hj) as [Se _]. assert (Pt : 0 <= top / 1000000000) by (pose proof (bend_nonneg (M j0) k0); lra).
  set (xs := c_tval junk c) in *. set (x := fun k => nth k xs 0).
  assert (Xs : forall k, (S k < c_size c)%nat -> x k < x (S k)) by (intros k Hk; apply I; lia).
  assert (Hx : forall k, (S k < c_size c)%nat -> a2 * (x (S k) - x k) = a2 * h).
  { intros k Hk. destruct Hh as [-> | Hh]; [ring|]. f_equal. apply Hh. assumption. }
  assert (S1 : forall k, (S k < c_size c)%nat -> M j (k + 2)%nat = a1 + a2 * (x k + x (S k))).
  { intros k Hk. rewrite (proj1 Se k ltac:(lia)). rewrite !Hy by lia. fold (x k) (x (S k)). pose proof (Xs k Hk). field. lra. }
  assert (Pg : forall i, (i < length xs + 2)%nat -> M j (S i) - M j i = 2 * a2 * h).
  { apply (ext_progression xs _ (M j) (2 * a2 * h)) with (2 := Se); [lia|intros; lia|].
    intros k Hk. replace (k + 3)%nat with (S k + 2)%nat by lia. rewrite !S1 by lia.
    pose proof (Hx k ltac:(lia)). pose proof (Hx (S k) ltac:(lia)). lra. }
  assert (Dk : forall k, (k < c_size c)%nat -> ds j k = a1 + 2 * a2 * x k).
  { intros k Hk. rewrite (rule_progression (M j) _ k (ds j k) (2 * a2 * h) Pt (Hr k j Hk Hj)).
    - pose proof (Pg (k + 1)%nat ltac:(lia)) as P. replace (S (k + 1)) with (k + 2)%nat in P by lia.
      destruct (Nat.eq_dec (S k) (c_size c)) as [Ek|Ek].
      + destruct k as [|k]; [lia|]. pose proof (S1 k ltac:(lia)) as Q. pose proof (Hx k ltac:(lia)).
        replace (S k + 1)%nat with (k + 2)%nat in * by lia. lra.
      + pose proof (S1 k ltac:(lia)). pose proof (Hx k ltac:(lia)). lra.
    - pose proof (Pg k ltac:(lia)) as P. replace (S k) with (k + 1)%nat in P by lia. assumption.
    - pose proof (Pg (k + 2)%nat ltac:(lia)) as P. replace (S (k + 2)) with (k + 3)%nat in P by lia. assumption. }
  destruct (Hs j Hj) as [Sf _]. rewrite (hermite_unique xs _ _ I ltac:(lia) _ _ Sf).
  rewrite (her0_poly xs _ _ a0 a1 a2 0 I); [ring|lia|].
  intros k Hk v. rewrite L in Hk. split; [rewrite Hy by assumption; fold v|rewrite Dk by assumption; fold v]; unfold x; fold v; ring.
Qed.
Print Assumptions C76_quadratic.

(** Straight lines without parameters, whatever the spacing of their points. *)
Theorem C76_straight : forall junk few qnan empty (r : registry (icreate R)) name (c c' : curve R) s g p u x,
  wf c -> (3 <= c_size c)%nat -> isparametric c = false -> c_dtype c = DFloat ->
  length u = c_ndim c -> line_rows p u x (c_rows c) -> increasing x ->
  reg_find r name = Some (akima junk qnan empty) -> get_grid junk few c s = Ok g ->
  interpolate junk few r name c s = Ok c' ->
  forall i j, (i < length g)%nat -> (j < c_ndim c)%nat -> inside (c_tval junk c) (nth i g 0) ->
    nth j (nth i (c_rows c') []) 0 = nth j p 0 + (nth 0 x 0 + nth i g 0) * nth j u 0.
Proof.
  intros junk few qnan empty r name c c' s g p u x W H P Dt Lu Ln Ix F G E i j Hi Hj Hex.
  assert (N := size_nonempty c ltac:(lia)). assert (L := tval_length junk c W N).
  assert (B : c_bool c = true) by (apply c_bool_wf; assumption).
  assert (Lx : length x = length (c_rows c)) by apply Ln.
  assert (T : forall k, (k < length (c_tval junk c))%nat -> nth k (c_tval junk c) 0 = nth k x 0 - nth 0 x 0).
  { intros k Hk. unfold isparametric in P. unfold c_tval in *. destruct (c_t c); [discriminate|].
    apply (line_cumarclen junk c p u x); try assumption; unfold c_size in *; lia. }
  assert (I : increasing (c_tval junk c)).
  { intros k Hk. rewrite !T by lia. pose proof (Ix k ltac:(unfold c_size in *; lia)). lra. }
  rewrite (C76_quadratic junk few qnan empty r name c c' s g j (nth j p 0 + nth 0 x 0 * nth j u 0) (nth j u 0) 0 0) with (i := i); try assumption.
  - ring.
  - intros k Hk v. unfold v. rewrite T by lia. destruct Ln as (_ & _ & Ln). rewrite (proj2 (Ln k Hk)). ring.
  - left. reflexivity.
Qed.
Print Assumptions C76_straight.

(** With two points the result depends on uninitialised memory: the segment is
    bent by a multiple of the difference of the number found there and the
    slope. *)
Theorem C76_two_points : forall junk few qnan empty (r : registry (icreate R)) name (c c' : curve R) s g i j,
  wf c -> c_size c = 2%nat -> increasing (c_tval junk c) -> c_dtype c = DFloat ->
  reg_find r name = Some (akima junk qnan empty) -> get_grid junk few c s = Ok g ->
  interpolate junk few r name c s = Ok c' -> (i < length g)%nat -> (j < c_ndim c)%nat -> inside (c_tval junk c) (nth i g 0) ->
  let x0 := nth 0 (c_tval junk c) 0 in
  let x1 := nth 1 (c_tval junk c) 0 in
  let y0 := nth j (nth 0 (c_rows c) []) 0 in
  let y1 := nth j (nth 1 (c_rows c) []) 0 in
  let m := (y1 - y0) / (x1 - x0) in
  let v := nth i g 0 in
  nth j (nth i (c_rows c') []) 0 = y0 + m * (v - x0) - (empty j - m) * ((v - x0) * (x1 - v) / (2 * (x1 - x0))).
Proof.
  intros junk few qnan empty r name c c' s g i j W H I Dt F G E Hi Hj Hin x0 x1 y0 y1 m v.
  assert (N := size_nonempty c ltac:(lia)). assert (L := tval_length junk c W N).
  destruct (C76_akima junk few qnan empty r name c s g W ltac:(lia) I F G) as (M & top & ds & Hm & _ & (k0 & j0 & _ & _ & Et) & Hr & f & f1 & rows & Hs & Er & Lr & Dr & A & _).
  rewrite Er in E. injection E as <-. cbn [c_rows]. rewrite Dt, map_cast_float. rewrite A by auto. fold v.
  destruct (Hm j Hj) as [Se S3]. specialize (S3 H). assert (Pt : 0 <= top / 1000000000) by (pose proof (bend_nonneg (M j0) k0); lra).
  set (xs := c_tval junk c) in *.
  assert (Lt : x0 < x1) by (apply (I 0%nat); lia).
  assert (S2 : M j 2%nat = m) by (apply (proj1 Se 0%nat); lia).
  assert (Pg : forall i, (i < length xs + 2)%nat -> M j (S i) - M j i = empty j - m).
  { apply (ext_progression xs _ (M j) (empty j - m)) with (2 := Se); [lia|intros; lra|intros; lia]. }
  assert (D0 : ds j 0%nat = m - (empty j - m) / 2).
  { rewrite (rule_progression (M j) _ 0%nat (ds j 0%nat) (empty j - m) Pt (Hr 0%nat j ltac:(lia) Hj)).
    - pose proof (Pg 1%nat ltac:(lia)). cbn [Nat.add]. lra.
    - apply (Pg 0%nat). lia.
    - apply (Pg 2%nat). lia. }
  assert (D1 : ds j 1%nat = m + (empty j - m) / 2).
  { rewrite (rule_progression (M j) _ 1%nat (ds j 1%nat) (empty j - m) Pt (Hr 1%nat j ltac:(lia) Hj)).
    - cbn [Nat.add]. lra.
    - apply (Pg 1%nat). lia.
    - apply (Pg 3%nat). lia. }
  destruct (Hs j Hj) as [Sf _]. rewrite (hermite_unique xs _ _ I ltac:(lia) _ _ Sf).
  set (q := (empty j - m) / (2 * (x1 - x0))).
  rewrite (her0_poly xs _ _ (y0 - m * x0 + q * (x0 * x1)) (m - q * (x0 + x1)) q 0 I); [unfold q; field; lra|lia|].
  assert (Eq : q * (x1 - x0) = (empty j - m) / 2) by (unfold q; field; lra).
  assert (Em : m * (x1 - x0) = y1 - y0) by (unfold m; field; lra).
  intros [|[|k]] Hk w; [| |lia]; cbn [nth] in w; cbv beta.
  - change w with x0. rewrite D0. fold y0. split; [ring|lra].
  - change w with x1. rewrite D1. fold y1. split; [lra|lra].
Qed.
Print Assumptions C76_two_points.

(** So any value whatsoever may come out between two points. *)
Theorem C76_two_points_refuted : forall target : R, exists (e : nat -> R) (c : curve R), wf c /\ c_size c = 2%nat /\
  c_rows c = [[0; 0]; [1; 1]] /\ c_t c = Some [0; 1] /\
  forall few (r : registry (icreate R)) name s c', reg_find r name = Some (akima 0 0 e) -> get_grid 0 few c s = Ok [1 / 2] ->
    interpolate 0 few r name c s = Ok c' -> c_rows c' = [[target; target]].
Proof.
  intros target. exists (fun _ => 1 + 8 * (1 / 2 - target)), (mkCurve [[0; 0]; [1; 1]] 2 DFloat (Some [0; 1])).
  assert (W : wf (mkCurve [[0; 0]; [1; 1]] 2 DFloat (Some [0; 1]))) by wfr.
  assert (I : increasing [0; 1]) by (intros [|k] Hk; cbn in *; [lra|lia]).
  split; [exact W|]. split; [reflexivity|]. split; [reflexivity|]. split; [reflexivity|].
  intros few r name s c' F G E.
  destruct (C76_akima 0 few 0 _ r name _ s [1 / 2] W ltac:(cbn; lia) I F G) as (M & top & ds & _ & _ & _ & _ & f & f1 & rows & _ & Er & Lr & Dr & _).
  assert (K := C76_two_points 0 few 0 _ r name _ c' s [1 / 2] 0 0 W eq_refl I eq_refl F G E ltac:(cbn; lia) ltac:(cbn; lia)).
  assert (K1 := C76_two_points 0 few 0 _ r name _ c' s [1 / 2] 0 1 W eq_refl I eq_refl F G E ltac:(cbn; lia) ltac:(cbn; lia)).
  assert (In : inside (c_tval 0 (mkCurve [[0; 0]; [1; 1]] 2 DFloat (Some [0; 1]))) (nth 0 [1 / 2] 0)) by (split; cbn; lra).
  specialize (K In). specialize (K1 In). cbn [nth c_tval c_t c_rows] in K, K1.
  rewrite E in Er. injection Er as ->. cbn [c_rows c_dtype] in K, K1 |- *. rewrite map_cast_float in K, K1 |- *.
  destruct rows as [|p [|p' rows]]; try discriminate Lr. cbn [nth] in K, K1.
  assert (Lp : length p = 2%nat) by (apply Dr; left; reflexivity).
  destruct p as [|u [|w [|? ?]]]; try discriminate Lp. cbn [nth] in K, K1.
  rewrite K, K1. f_equal. f_equal; [field|]. f_equal. field.
Qed.
Print Assumptions C76_two_points_refuted.

(** ** Examples *)

Definition areg : registry (icreate float) := [("akima", akima nan nan (fun _ => fz 3))].
Definition al (l : list float) (c : curve float) : res (list (list float)) :=
  do c' <- interpolate nan (fun _ => true) areg "akima" c (SArr l) ; Ok (c_rows c').
Definition ac5 : curve float :=
  mkCurve [[fz 0; fz 0]; [fz 1; fz 1]; [fz 8; fz 4]; [fz 27; fz 9]; [fz 64; fz 16]] 2 DFloat (Some [fz 0; fz 1; fz 2; fz 3; fz 4]).
(** v^2 is reproduced, v^3 is not. *)
Example C76_ex : al [fz (-1); fz 0; fq 1 2; fz 3; fz 5] ac5 = Ok [[nan; nan]; [fz 0; fz 0]; [fq (-1) 8; fq 1 4]; [fz 27; fz 9]; [nan; nan]].
Proof. vm_compute. reflexivity. Qed.
Example C76_ex_two : al [fz 0; fq 1 2; fz 1] (mkCurve [[fz 0; fz 0]; [fz 1; fz 3]] 2 DFloat (Some [fz 0; fz 1]))
  = Ok [[fz 0; fz 0]; [fq 1 4; fq 3 2]; [fz 1; fz 3]].
Proof. vm_compute. reflexivity. Qed.
Example C76_ex_error :
  al [fz 0; fz 1] (mkCurve [[fz 0; fz 0]; [fz 0; fz 0]; [fz 1; fz 0]] 2 DFloat None) = Raise InterpolationError /\
  al [fz 0; fz 1] (mkCurve [[fz 1; fz 0]] 2 DFloat None) = Raise InterpolationError.
Proof. split; vm_compute; reflexivity. Qed.
(** The rule at a corner: slopes 0, 0 before and 1, 2 after give 0. *)
Example C76_ex_rule : let M i := nth i [0; 0; 1; 2] 0 in akima_rule M (1 / 1000) 0 0 /\ ~ akima_rule M (1 / 1000) 0 (1 / 2).
Proof.
  cbv zeta. unfold akima_rule, bend. cbn [nth Nat.add]. replace (2 - 1) with 1 by ring. replace (0 - 0) with 0 by ring. rewrite Rabs_R1, Rabs_R0.
  split; [split; intros; lra|]. intros [A _]. specialize (A ltac:(lra)). lra.
Qed.
Example C76_ex_hyp : wf rt3 /\ (3 <= c_size rt3)%nat /\ increasing (c_tval 0 rt3) /\ c_dtype rt3 = DFloat /\
  get_grid 0 (fun _ => true) rt3 (SArr [0; 2]) = Ok [0; 2] /\ exists ds, curve_prop 0 rt3 PFrenet1 = Ok (AMat ds).
Proof.
  split; [apply rt3_wf|]. split; [cbn; lia|]. split; [apply rt3_increasing|]. split; [reflexivity|]. split.
  - apply C53_validation_iff. split; [discriminate|]. intros [|i] Hi; cbn in *; [lra|lia].
  - eexists. reflexivity.
Qed.
