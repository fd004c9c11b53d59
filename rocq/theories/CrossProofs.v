(** Polygons through points of smooth curves: how close they stay to the curves,
    and where two of them cross. *)
From Coq Require Import ZArith List Bool Arith Lia Reals Lra Psatz.
From Verif Require Import Num Vec Geom DiffGeom Spec GeomSpec VecFacts GeomProofs GeomProofs4 DiffGeomProofs2 InterpProofs SampleProofs SampleProofs2 SampleProofs3.
Import ListNotations.
Local Open Scope R_scope.

(** *** Chords *)

Lemma vdot_vec_ext (u : list R) n (g : nat -> R -> R) x y z l p : length u = n -> length p = n ->
  (forall j, (j < n)%nat -> nth j p 0 = g j x + l * (g j y - g j x) - g j z) ->
  vdot u p = vdot u (vec n g x) + l * (vdot u (vec n g y) - vdot u (vec n g x)) - vdot u (vec n g z).
Proof.
  intros Lu Lp H. set (a := vec n g x). set (b := vec n g y). set (c := vec n g z).
  assert (La : length a = n) by apply vec_length. assert (Lb : length b = n) by apply vec_length. assert (Lc : length c = n) by apply vec_length.
  assert (L1 : length (vsub b a) = n) by (rewrite vsub_length; congruence).
  assert (L2 : length (vscale (vsub b a) l) = n) by (rewrite vscale_length; exact L1).
  assert (L3 : length (vadd a (vscale (vsub b a) l)) = n) by (rewrite vadd_length; congruence).
  assert (E : p = vsub (vadd a (vscale (vsub b a) l)) c).
  { apply vec_ext; [rewrite vsub_length; congruence|]. intros j.
    rewrite nth_vsub, nth_vadd, nth_vscale, nth_vsub by congruence.
    destruct (Nat.lt_ge_cases j n) as [L|L]; [unfold a, b, c; rewrite H, !vec_nth by exact L; ring|]. rewrite !nth_overflow by lia. ring. }
  rewrite E, vdot_sub_r, vdot_add_r, vdot_scale_r, vdot_sub_r by congruence. reflexivity.
Qed.

Lemma vec_linear_error n lo hi W (f f1 f2 : nat -> R -> R) x y z p :
  (forall j, (j < n)%nat -> deriv_on lo hi (f j) (f1 j)) -> (forall j, (j < n)%nat -> deriv_on lo hi (f1 j) (f2 j)) ->
  (forall x, lo <= x <= hi -> vnorm (vec n f2 x) <= W) ->
  lo <= x -> x <= z <= y -> y <= hi -> x < y -> length p = n ->
  (forall j, (j < n)%nat -> nth j p 0 = f j x + (z - x) / (y - x) * (f j y - f j x) - f j z) ->
  vnorm p <= W * (y - x) ^ 2 / 8.
Proof.
  intros D0 D1 BW Hx Hz Hy Hxy Lp Hp.
  assert (W0 : 0 <= W) by (pose proof (BW x ltac:(lra)); pose proof (vnorm_nonneg (vec n f2 x)); lra).
  destruct (Req_dec (vnorm p) 0) as [Z|Z]; [rewrite Z; pose proof (Rmult_le_pos W _ W0 (pow2_ge_0 (y - x))); lra|].
  assert (P : 0 < vnorm p) by (pose proof (vnorm_nonneg p); lra). set (u := unit p).
  assert (Lu : length u = n) by (unfold u, unit; rewrite vscale_length; exact Lp).
  pose proof (linear_error lo hi (fun x => vdot u (vec n f x)) (fun x => vdot u (vec n f1 x)) (fun x => vdot u (vec n f2 x)) W x y z
    (vec_deriv n f f1 lo hi u D0) (vec_deriv n f1 f2 lo hi u D1)) as E.
  assert (B : bounded_on lo hi (fun x => vdot u (vec n f2 x)) W).
  { intros t Ht. pose proof (vdot_le_norm u (vec n f2 t) ltac:(rewrite Lu, vec_length; reflexivity)) as C.
    unfold u in C at 2. rewrite unit_norm in C by exact P. pose proof (BW t Ht). lra. }
  specialize (E B Hx Hz Hy Hxy). cbv beta in E. rewrite <- (vdot_vec_ext u n f x y z _ p Lu Lp Hp) in E.
  unfold u in E. rewrite unit_dot in E by exact P. pose proof (Rle_abs (vnorm p)). lra.
Qed.

(** *** A continuous piecewise linear function *)

(** |u| cut off at 0 and h: (|u| - |u - h| + h) / 2. *)
Fixpoint broken (x y : nat -> R) (m : nat) (v : R) : R :=
  match m with
  | O => y 0%nat
  | S k => broken x y k v + (y (S k) - y k) / (x (S k) - x k) * ((Rabs (v - x k) - Rabs (v - x (S k)) + (x (S k) - x k)) / 2)
  end.

Lemma broken_continuous x y m : continuity (broken x y m).
Proof.
  assert (A : forall c, continuity (fun v => Rabs (v - c))).
  { intros c v. apply (continuity_pt_comp (fun v => v - c) Rabs); [|apply Rcontinuity_abs].
    apply (continuity_pt_minus id (fct_cte c)); [apply derivable_continuous_pt, derivable_pt_id|apply continuity_pt_const; intros ? ?; reflexivity]. }
  induction m as [|m IH]; intros v; [apply continuity_pt_const; intros ? ?; reflexivity|]. cbn [broken].
  set (h := x (S m) - x m). set (s := (y (S m) - y m) / h).
  apply (continuity_pt_plus (broken x y m) (fun v => s * ((Rabs (v - x m) - Rabs (v - x (S m)) + h) / 2))); [apply IH|].
  apply (continuity_pt_scal (fun v => (Rabs (v - x m) - Rabs (v - x (S m)) + h) / 2) s). unfold Rdiv.
  apply (continuity_pt_mult (fun v => Rabs (v - x m) - Rabs (v - x (S m)) + h) (fct_cte (/ 2))); [|apply continuity_pt_const; intros ? ?; reflexivity].
  apply (continuity_pt_plus (fun v => Rabs (v - x m) - Rabs (v - x (S m))) (fct_cte h)); [|apply continuity_pt_const; intros ? ?; reflexivity].
  apply (continuity_pt_minus (fun v => Rabs (v - x m)) (fun v => Rabs (v - x (S m)))); apply A.
Qed.

Lemma broken_piece x y m i v : (forall k, (k < m)%nat -> x k < x (S k)) -> (i < m)%nat -> x i <= v <= x (S i) ->
  broken x y m v = y i + (y (S i) - y i) / (x (S i) - x i) * (v - x i).
Proof.
  intros I Hi Hv.
  assert (Le : forall k l, (k <= l <= m)%nat -> x k <= x l).
  { intros k l. induction l as [|l IH]; intros H; [replace k with 0%nat by lia; lra|].
    destruct (Nat.eq_dec k (S l)) as [->|N]; [lra|]. specialize (IH ltac:(lia)). pose proof (I l ltac:(lia)). lra. }
  assert (A : forall k, (k <= i)%nat -> broken x y k v = y k).
  { induction k as [|k IH]; intros Hk; [reflexivity|]. cbn [broken]. rewrite IH by lia.
    pose proof (I k ltac:(lia)). pose proof (Le k i ltac:(lia)). pose proof (Le (S k) i ltac:(lia)).
    rewrite !Rabs_right by lra. field. lra. }
  assert (B : forall k, (i < k)%nat -> (k <= m)%nat -> broken x y k v = y i + (y (S i) - y i) / (x (S i) - x i) * (v - x i)).
  { induction k as [|k IH]; intros H1 H2; [lia|]. cbn [broken]. pose proof (I k ltac:(lia)). destruct (Nat.eq_dec k i) as [->|N].
    - rewrite A by lia. rewrite (Rabs_right (v - x i)), (Rabs_left1 (v - x (S i))) by lra. field. lra.
    - rewrite IH by lia. pose proof (Le (S i) k ltac:(lia)). rewrite !Rabs_left1 by lra. field. split; [pose proof (I i Hi); lra|lra]. }
  apply B; lia.
Qed.

Lemma locate_nat (x : nat -> R) m v : (0 < m)%nat -> x 0%nat <= v <= x m -> exists i, (i < m)%nat /\ x i <= v <= x (S i).
Proof.
  intros Hm (H0 & H1). assert (G : forall l, (l < m)%nat -> v <= x (S l) -> exists k, (k < m)%nat /\ x k <= v <= x (S k)).
  { induction l as [|l IH]; intros Hl H; [exists 0%nat; split; [exact Hl|split; assumption]|].
    destruct (Rle_lt_dec v (x (S l))) as [Q|Q]; [apply IH; [lia|exact Q]|]. exists (S l). split; [exact Hl|lra]. }
  apply (G (m - 1)%nat); [lia|]. replace (S (m - 1)) with m by lia. exact H1.
Qed.

(** Two polygons over the same interval, one above the other at the left end and
    below at the right end, have a common point. *)
Lemma polygons_meet (x y x' y' : nat -> R) m m' : (0 < m)%nat -> (0 < m')%nat ->
  (forall k, (k < m)%nat -> x k < x (S k)) -> (forall k, (k < m')%nat -> x' k < x' (S k)) ->
  x 0%nat = x' 0%nat -> x m = x' m' -> y' 0%nat <= y 0%nat -> y m <= y' m' ->
  exists i j v, (i < m)%nat /\ (j < m')%nat /\ x i <= v <= x (S i) /\ x' j <= v <= x' (S j) /\
    y i + (y (S i) - y i) / (x (S i) - x i) * (v - x i) = y' j + (y' (S j) - y' j) / (x' (S j) - x' j) * (v - x' j).
Proof.
  intros Hm Hm' I I' E0 E1 A0 A1.
  assert (Le : forall (z : nat -> R) q, (forall k, (k < q)%nat -> z k < z (S k)) -> z 0%nat <= z q).
  { intros z q H. induction q as [|q IH]; [lra|]. pose proof (H q ltac:(lia)). specialize (IH ltac:(intros k Hk; apply H; lia)). lra. }
  assert (V0 : forall (z w : nat -> R) q, (0 < q)%nat -> (forall k, (k < q)%nat -> z k < z (S k)) -> broken z w q (z 0%nat) = w 0%nat).
  { intros z w q Hq H. rewrite (broken_piece z w q 0 (z 0%nat) H Hq); [ring|]. pose proof (H 0%nat Hq). lra. }
  assert (V1 : forall (z w : nat -> R) q, (0 < q)%nat -> (forall k, (k < q)%nat -> z k < z (S k)) -> broken z w q (z q) = w q).
  { intros z w [|q] Hq H; [lia|]. pose proof (H q ltac:(lia)). rewrite (broken_piece z w (S q) q (z (S q)) H ltac:(lia)); [field; lra|lra]. }
  destruct (IVT_cor (broken x y m - broken x' y' m')%F (x 0%nat) (x m)) as (v & Hv & Ev).
  { apply continuity_minus; apply broken_continuous. }
  { apply Le, I. }
  { unfold minus_fct. rewrite V0, V1 by assumption. rewrite E0, E1, V0, V1 by assumption. nra. }
  unfold minus_fct in Ev. destruct (locate_nat x m v Hm Hv) as (i & Hi & Bi). destruct (locate_nat x' m' v Hm' ltac:(lra)) as (j & Hj & Bj).
  exists i, j, v. repeat (split; [assumption|]). rewrite <- (broken_piece x y m i v I Hi Bi), <- (broken_piece x' y' m' j v I' Hj Bj). lra.
Qed.
