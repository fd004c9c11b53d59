(** Lemmas for the predefined curves. *)
From Coq Require Import ZArith List Bool Arith Lia Reals Lra Psatz.
From Verif Require Import Num Py Numeric Curve Vec DiffGeom Interp Curves Spec GeomSpec.
From Verif Require Import ListFacts ArrayProofs VecFacts CurveProofs CurveProofs2 CurveProofs3 InterpProofs.
Import ListNotations.
Local Open Scope R_scope.

Lemma nth_concat {A} (cols : list (list A)) n i j d : (forall x, In x cols -> length x = n) -> (i < length cols)%nat -> (j < n)%nat ->
  nth (i * n + j) (concat cols) d = nth j (nth i cols []) d.
Proof.
  revert i. induction cols as [|x cols IH]; intros i H Hi Hj; [cbn in Hi; lia|].
  assert (Lx : length x = n) by (apply H; left; reflexivity). destruct i as [|i]; cbn [concat].
  - rewrite app_nth1 by lia. reflexivity.
  - rewrite app_nth2 by (cbn; lia). replace (S i * n + j - length x)%nat with (i * n + j)%nat by (cbn; lia).
    cbn [nth]. apply IH; [intros y Hy; apply H; right; assumption|cbn in Hi; lia|assumption].
Qed.

(** The rows of the curve are the columns of the coordinate array. *)
Lemma from_coords_ok cols theta : (2 <= length cols)%nat -> theta <> [] -> (forall x, In x cols -> length x = length theta) ->
  exists rows, from_coords cols theta = Ok (mkCurve rows (length cols) DFloat (Some theta)) /\
    length rows = length theta /\ dims (length cols) rows /\
    forall i j, (i < length theta)%nat -> (j < length cols)%nat -> nth j (nth i rows []) 0 = nth i (nth j cols []) 0.
Proof.
  intros Hc Nt Hl. set (n := length theta). assert (Hn : (0 < n)%nat) by (unfold n; destruct theta; [contradiction|cbn; lia]).
  set (a := mkNd [length cols; n] (concat cols)).
  assert (Wa : nd_wf a) by (unfold nd_wf, nd_size; cbn; rewrite (concat_length _ n) by assumption; lia).
  assert (Sa : nd_size a <> 0%nat) by (unfold nd_size; cbn; nia).
  assert (Ax : as2d_axis (nd_ndim a) 1 1) by (split; [cbn; lia|left; reflexivity]).
  destruct (as2d_char a 1 1 n Wa Sa Ax eq_refl) as (rows & E & Lr & Dr & Hr). cbn [nd_shape a firstn skipn app fold_right] in *.
  rewrite Nat.mul_1_r in *.
  exists rows. split.
  - unfold from_coords, curve_init. change (2 <? 2)%Z with false. cbv iota. fold n. fold a. rewrite E. cbn [rbind]. rewrite map_length, Lr.
    destruct (Nat.eqb_spec (n * length cols) 0); [nia|]. rewrite map_length, Lr. destruct (Nat.eqb_spec (n * length cols) 0); [nia|].
    destruct (Nat.ltb_spec (length cols) 2); [lia|]. cbn [negb andb]. unfold nd_ndim, nd_size. cbn [nd_shape length Nat.eqb negb fold_right].
    rewrite Nat.mul_1_r, map_length, Lr, Nat.eqb_refl. cbn [negb nd_flat]. rewrite map_cast_float. reflexivity.
  - split; [assumption|]. split; [assumption|]. intros i j Hi Hj.
    destruct (Hr i [j] Hi ltac:(constructor; [assumption|constructor])) as (row & E1 & E2).
    rewrite (nth_error_nth _ _ [] E1). cbn [ravel firstn skipn app fold_right] in E2. rewrite !Nat.mul_1_r, !Nat.add_0_r in E2.
    assert (Lrow : length row = length cols) by (apply Dr; apply nth_error_In in E1; assumption).
    assert (Q : nth_error row j = Some (nth j row 0)) by (apply nth_error_nth'; lia). rewrite Q in E2. symmetry in E2.
    apply (nth_error_nth _ _ 0) in E2. rewrite <- E2. cbn [nd_flat a]. apply nth_concat; assumption.
Qed.

Lemma from_coords_empty cols : from_coords cols [] = Ok (mkCurve [] 2 DFloat (Some [])).
Proof.
  unfold from_coords, curve_init. change (2 <? 2)%Z with false. cbv iota. rewrite as2d_empty by (unfold nd_size; cbn; lia). reflexivity.
Qed.

(** The map of a coordinate function over the parameters. *)
Lemma nth_map_R (f : R -> R) l i : (i < length l)%nat -> nth i (map f l) 0 = f (nth i l 0).
Proof. intros H. rewrite (nth_indep _ 0 (f 0)) by (rewrite map_length; assumption). apply map_nth. Qed.

Lemma row2 (r : list R) a b : length r = 2%nat -> nth 0 r 0 = a -> nth 1 r 0 = b -> r = [a; b].
Proof. destruct r as [|x [|y [|]]]; cbn; intros H; try lia. intros -> ->. reflexivity. Qed.
Lemma row3 (r : list R) a b c : length r = 3%nat -> nth 0 r 0 = a -> nth 1 r 0 = b -> nth 2 r 0 = c -> r = [a; b; c].
Proof. destruct r as [|x [|y [|z [|]]]]; cbn; intros H; try lia. intros -> -> ->. reflexivity. Qed.

(** A plane or space curve given by coordinate functions of the parameter. *)
Lemma from_coords_2 f g theta : theta <> [] ->
  exists rows, from_coords [map f theta; map g theta] theta = Ok (mkCurve rows 2 DFloat (Some theta)) /\
    length rows = length theta /\ dims 2 rows /\ forall i, (i < length theta)%nat -> nth i rows [] = [f (nth i theta 0); g (nth i theta 0)].
Proof.
  intros N. destruct (from_coords_ok [map f theta; map g theta] theta) as (rows & E & L & D & H); [cbn; lia|assumption| |].
  { intros x [<-|[<-|[]]]; apply map_length. }
  exists rows. split; [exact E|]. split; [assumption|]. split; [assumption|]. intros i Hi.
  apply row2; [apply D, nth_In; lia| |].
  - rewrite H by (cbn; lia). apply nth_map_R. assumption.
  - rewrite H by (cbn; lia). apply nth_map_R. assumption.
Qed.
Lemma from_coords_3 x y z theta : theta <> [] -> length x = length theta -> length y = length theta -> length z = length theta ->
  exists rows, from_coords [x; y; z] theta = Ok (mkCurve rows 3 DFloat (Some theta)) /\
    length rows = length theta /\ dims 3 rows /\
    forall i, (i < length theta)%nat -> nth i rows [] = [nth i x 0; nth i y 0; nth i z 0].
Proof.
  intros N Lx Ly Lz. destruct (from_coords_ok [x; y; z] theta) as (rows & E & L & D & H); [cbn; lia|assumption| |].
  { intros u [<-|[<-|[<-|[]]]]; assumption. }
  exists rows. split; [exact E|]. split; [assumption|]. split; [assumption|]. intros i Hi.
  apply row3; [apply D, nth_In; lia| | |]; rewrite H by (cbn; lia); reflexivity.
Qed.

Lemma linspace_Z a b n : linspace a b (Z.of_nat n) = Ok (linspace_nat a b n) :> res (list R).
Proof. unfold linspace. destruct (Z.ltb_spec (Z.of_nat n) 0); [lia|]. rewrite Nat2Z.id. reflexivity. Qed.
Lemma linspace_neg a b n : (n < 0)%Z -> linspace a b n = Raise ValueError :> res (list R).
Proof. intros H. unfold linspace. destruct (Z.ltb_spec n 0); [reflexivity|lia]. Qed.
Lemma linspace_nonempty (a b : R) n : (0 < n)%nat -> linspace_nat a b n <> [].
Proof. intros H E. apply (f_equal (@length R)) in E. rewrite linspace_length in E. cbn in E. lia. Qed.
