(** Points: broadcasting, dot product and metrics. *)
From Coq Require Import ZArith String List Bool Arith Lia Reals Lra Psatz.
From Verif Require Import Num Py Numeric Curve Vec Geom Intersect Registry Point Spec GeomSpec ListFacts VecFacts.
Import ListNotations.
Local Open Scope list_scope.
Local Open Scope R_scope.

Lemma map_cast_float {T} {NT : Num T} (l : list T) : map (cast DFloat) l = l.
Proof. apply map_id. Qed.

Lemma point_of_ok {T} {NT : Num T} (a : arr T) : point_of a = Ok (mkPoint a DFloat).
Proof. destruct a; cbn; [reflexivity|]. rewrite map_cast_float. reflexivity. Qed.

Lemma broadcast_eq {T} (f : T -> T -> T) u v : length u = length v -> broadcast f (A1 u) (A1 v) = Ok (A1 (map2 f u v)).
Proof. intros H. cbn. rewrite H, Nat.eqb_refl. reflexivity. Qed.

(** The evaluation of an operator between two points, and with a number. *)
Lemma binop_points {T} {NT : Num T} o (p q : point T) u v : p_data p = A1 u -> p_data q = A1 v -> length u = length v ->
  py_binop o (OPoint p) (OPoint q) = Some (Ok (mkPoint (A1 (map2 (op_fun o) u v)) DFloat)).
Proof.
  intros Hp Hq H. unfold py_binop, p_op. rewrite Hp, Hq, broadcast_eq by assumption. cbn [rbind]. rewrite point_of_ok. reflexivity.
Qed.
Lemma binop_number_r {T} {NT : Num T} o (p : point T) u x : p_data p = A1 u ->
  py_binop o (OPoint p) (ONumber x) = Some (Ok (mkPoint (A1 (map (fun a => op_fun o a x) u)) DFloat)).
Proof. intros Hp. unfold py_binop, p_op. rewrite Hp. cbn [broadcast rbind]. rewrite point_of_ok. reflexivity. Qed.
Lemma binop_number_l {T} {NT : Num T} o (p : point T) u x : p_data p = A1 u ->
  py_binop o (ONumber x) (OPoint p) = Some (Ok (mkPoint (A1 (map (op_fun o x) u)) DFloat)).
Proof. intros Hp. unfold py_binop, p_op. rewrite Hp. cbn [broadcast rbind]. rewrite point_of_ok. reflexivity. Qed.

Lemma inner_vdot (u v : list R) : vdot u v = inner u v.
Proof.
  revert v. induction u as [|a u IH]; intros [|b v]; try reflexivity.
  rewrite vdot_cons, IH. reflexivity.
Qed.
Lemma minus_vsub (u v : list R) : vsub u v = minus u v.
Proof. revert v. induction u as [|a u IH]; intros [|b v]; try reflexivity. cbn [minus]. rewrite <- IH. reflexivity. Qed.

Lemma all_finite (l : list R) : forallb isfinite l = true.
Proof. apply forallb_forall. reflexivity. Qed.

(** ** Sums and maxima of absolute differences *)

Fixpoint sum_abs (u v : list R) : R :=
  match u, v with a :: u', b :: v' => Rabs (a - b) + sum_abs u' v' | _, _ => 0 end.
Fixpoint max_abs (u v : list R) : R :=
  match u, v with a :: u', b :: v' => Rmax (Rabs (a - b)) (max_abs u' v') | _, _ => 0 end.

Lemma cityblock_sum (u v : list R) : vsum (map nabs (vsub u v)) = sum_abs u v.
Proof. revert v. induction u as [|a u IH]; intros [|b v]; try reflexivity. cbn [sum_abs]. rewrite <- IH. reflexivity. Qed.

Lemma fold_max r : forall x, Forall (fun y => 0 <= y) r -> 0 <= x ->
  fold_left (fun m y => if nltb m y then y else m) r x = Rmax x (fold_right Rmax 0 r).
Proof.
  induction r as [|y r IH]; intros x F H; cbn [fold_left fold_right].
  - rewrite Rmax_left by assumption. reflexivity.
  - inversion F; subst. cbn [nltb RNum]. unfold Rltb. destruct (Rlt_dec x y).
    + rewrite IH by assumption. rewrite (Rmax_right x); [reflexivity|]. apply Rle_trans with y; [lra|apply Rmax_l].
    + rewrite IH by assumption. rewrite !Rmax_assoc, (Rmax_left x y) by lra. reflexivity.
Qed.

Lemma chebyshev_max (u v : list R) : u <> [] -> length u = length v ->
  m_chebyshev (A1 u) (A1 v) = Ok (max_abs u v).
Proof.
  intros N H. unfold m_chebyshev, vec_diff. cbn [arr_list]. rewrite broadcast_eq by assumption. cbn [rmap rbind].
  destruct u as [|a u]; [congruence|]. destruct v as [|b v]; [discriminate|]. cbn [map2 arr_list map].
  rewrite fold_max.
  - cbn [max_abs]. f_equal. f_equal. injection H as H. clear. revert v. induction u as [|c u IH]; intros [|d v]; try reflexivity.
    cbn [map2 map fold_right max_abs]. rewrite IH. reflexivity.
  - apply Forall_forall. intros y Hy. apply in_map_iff in Hy as (z & <- & _). apply Rabs_pos.
  - apply Rabs_pos.
Qed.

Lemma sum_abs_sym u : forall v, sum_abs u v = sum_abs v u.
Proof. induction u as [|a u IH]; intros [|b v]; cbn; try reflexivity. rewrite IH, Rabs_minus_sym. reflexivity. Qed.
Lemma max_abs_sym u : forall v, max_abs u v = max_abs v u.
Proof. induction u as [|a u IH]; intros [|b v]; cbn; try reflexivity. rewrite IH, Rabs_minus_sym. reflexivity. Qed.
Lemma sum_abs_nonneg u : forall v, 0 <= sum_abs u v.
Proof. induction u as [|a u IH]; intros [|b v]; cbn; try lra. pose proof (Rabs_pos (a - b)). specialize (IH v). lra. Qed.
Lemma max_abs_nonneg u : forall v, 0 <= max_abs u v.
Proof. induction u as [|a u IH]; intros [|b v]; cbn; try lra. pose proof (Rabs_pos (a - b)). pose proof (Rmax_l (Rabs (a - b)) (max_abs u v)). lra. Qed.
Lemma abs_zero x : Rabs x = 0 -> x = 0.
Proof. unfold Rabs. destruct (Rcase_abs x); lra. Qed.
Lemma sum_abs_zero u : forall v, length u = length v -> sum_abs u v = 0 <-> u = v.
Proof.
  induction u as [|a u IH]; intros [|b v] H; try discriminate; cbn; [tauto|]. injection H as H. specialize (IH v H).
  pose proof (Rabs_pos (a - b)) as P. pose proof (sum_abs_nonneg u v) as Q. split.
  - intros E. assert (E1 : Rabs (a - b) = 0) by lra. apply abs_zero in E1. f_equal; [lra|]. apply IH. lra.
  - intros E. injection E as -> E. apply IH in E. rewrite E, Rminus_diag_eq, Rabs_R0 by reflexivity. lra.
Qed.
Lemma max_abs_zero u : forall v, length u = length v -> max_abs u v = 0 <-> u = v.
Proof.
  induction u as [|a u IH]; intros [|b v] H; try discriminate; cbn; [tauto|]. injection H as H. specialize (IH v H).
  pose proof (Rabs_pos (a - b)) as P. pose proof (max_abs_nonneg u v) as Q.
  pose proof (Rmax_l (Rabs (a - b)) (max_abs u v)). pose proof (Rmax_r (Rabs (a - b)) (max_abs u v)). split.
  - intros E. assert (E1 : Rabs (a - b) = 0) by lra. apply abs_zero in E1. f_equal; [lra|]. apply IH. lra.
  - intros E. injection E as -> E. apply IH in E. rewrite E, Rminus_diag_eq, Rabs_R0 by reflexivity. apply Rmax_left. lra.
Qed.
Lemma abs_tri a b c : Rabs (a - c) <= Rabs (a - b) + Rabs (b - c).
Proof. replace (a - c) with (a - b + (b - c)) by ring. apply Rabs_triang. Qed.
Lemma sum_abs_tri u : forall v w, length u = length v -> length v = length w -> sum_abs u w <= sum_abs u v + sum_abs v w.
Proof.
  induction u as [|a u IH]; intros [|b v] [|c w] H K; try discriminate; cbn; [lra|]. injection H as H. injection K as K.
  pose proof (abs_tri a b c). specialize (IH v w H K). lra.
Qed.
Lemma max_abs_tri u : forall v w, length u = length v -> length v = length w -> max_abs u w <= max_abs u v + max_abs v w.
Proof.
  induction u as [|a u IH]; intros [|b v] [|c w] H K; try discriminate; cbn; [lra|]. injection H as H. injection K as K.
  pose proof (abs_tri a b c). specialize (IH v w H K).
  pose proof (Rmax_l (Rabs (a - b)) (max_abs u v)). pose proof (Rmax_r (Rabs (a - b)) (max_abs u v)).
  pose proof (Rmax_l (Rabs (b - c)) (max_abs v w)). pose proof (Rmax_r (Rabs (b - c)) (max_abs v w)).
  apply Rmax_lub; lra.
Qed.
Lemma max_abs_le_norm u : forall v, length u = length v -> max_abs u v <= norm (minus v u) <= sum_abs u v.
Proof.
  induction u as [|a u IH]; intros [|b v] H; try discriminate; cbn [max_abs sum_abs minus].
  - unfold norm. cbn. rewrite sqrt_0. lra.
  - injection H as H. specialize (IH v H). unfold norm in *. cbn [inner].
    assert (P : 0 <= inner (minus v u) (minus v u)) by (rewrite <- inner_vdot; apply vdot_nonneg).
    pose proof (sqrt_pos (inner (minus v u) (minus v u))) as Q. pose proof (sqrt_sqrt _ P) as S.
    set (i := inner (minus v u) (minus v u)) in *. set (r := sqrt i) in *.
    assert (A : Rabs (a - b) * Rabs (a - b) = (b - a) * (b - a)) by (rewrite <- Rabs_mult, Rabs_right; [ring|apply Rle_ge, Rle_0_sqr]).
    pose proof (Rabs_pos (a - b)) as B. assert (X : 0 <= (b - a) * (b - a)) by apply Rle_0_sqr. split.
    + apply Rmax_lub.
      * rewrite <- (sqrt_square (Rabs (a - b))) by assumption. apply sqrt_le_1; nra.
      * apply Rle_trans with r; [lra|]. unfold r. apply sqrt_le_1; lra.
    + apply Rle_trans with (Rabs (a - b) + r); [|lra].
      rewrite <- (sqrt_square (Rabs (a - b) + r)) by lra. apply sqrt_le_1; nra.
Qed.
