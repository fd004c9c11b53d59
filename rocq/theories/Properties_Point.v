(** Properties C62 and C63: points. *)
From Coq Require Import PrimFloat ZArith String List Bool Arith Lia Reals Lra Psatz.
From Verif Require Import Num Py Numeric Curve Vec Geom Intersect Registry Point Spec GeomSpec ListFacts VecFacts PointProofs.
Import ListNotations.
Local Open Scope string_scope.
Local Open Scope list_scope.
Local Open Scope R_scope.

(** A 1-D point with the coordinates [u] (and some dtype). *)
Definition at_coords {T} (u : list T) (p : point T) : Prop := p_data p = A1 u.

(** The operator yields the float64 point with the coordinates [w]. *)
Definition yields {T} (r : option (res (point T))) (w : list T) : Prop := r = Some (Ok (mkPoint (A1 w) DFloat)).

(** ** C62 *)

(** Operators act coordinate by coordinate on points of one dimension; the
    result is float64 whatever the operands are. *)
Theorem C62_coordinatewise : forall T (NT : Num T) o (p q : point T) u v, at_coords u p -> at_coords v q -> length u = length v ->
  exists w, yields (py_binop o (OPoint p) (OPoint q)) w /\ length w = length u /\
    forall i a b, nth_error u i = Some a -> nth_error v i = Some b -> nth_error w i = Some (op_fun o a b).
Proof.
  intros T NT o p q u v Hp Hq H. eexists. split; [apply binop_points; eassumption|]. split; [rewrite map2_length; lia|].
  clear. revert v. induction u as [|x u IH]; intros [|y v] [|i] a b Ha Hb; try discriminate; cbn in *.
  - injection Ha as <-. injection Hb as <-. reflexivity.
  - apply IH; assumption.
Qed.
Print Assumptions C62_coordinatewise.

(** With a number on either side every coordinate is combined with it, in the
    written order. *)
Theorem C62_numbers : forall T (NT : Num T) o (p : point T) u x, at_coords u p ->
  yields (py_binop o (OPoint p) (ONumber x)) (map (fun a => op_fun o a x) u) /\
  yields (py_binop o (ONumber x) (OPoint p)) (map (fun a => op_fun o x a) u).
Proof. intros T NT o p u x Hp. split; [apply binop_number_r|apply binop_number_l]; assumption. Qed.
Print Assumptions C62_numbers.

(** (1, 2) - (3, 5), 10 - (3, 5) and (3, 5) / 2. *)
Example C62_ex : let p := mkPoint (A1 [1%Z; 2%Z]) DInt in
  py_binop OpSub (OPoint (mkPoint (A1 [fz 1; fz 2]) DInt)) (OPoint (mkPoint (A1 [fz 3; fz 5]) DFloat)) = Some (Ok (mkPoint (A1 [fz (-2); fz (-3)]) DFloat)) /\
  py_binop OpSub (ONumber (fz 10)) (OPoint (mkPoint (A1 [fz 3; fz 5]) DFloat)) = Some (Ok (mkPoint (A1 [fz 7; fz 5]) DFloat)) /\
  py_binop OpDiv (OPoint (mkPoint (A1 [fz 3; fz 5]) DFloat)) (ONumber (fz 2)) = Some (Ok (mkPoint (A1 [fq 3 2; fq 5 2]) DFloat)).
Proof. vm_compute. auto. Qed.

(** Exactly these dimensions can be combined: equal ones, or one of them 1
    (broadcast, so a 1-D point acts like a number); otherwise ValueError. *)
Theorem C62_dimensions_iff : forall T (NT : Num T) o (p q : point T) u v, at_coords u p -> at_coords v q ->
  ((exists r, py_binop o (OPoint p) (OPoint q) = Some (Ok r)) <-> length u = length v \/ length u = 1%nat \/ length v = 1%nat) /\
  (~ (length u = length v \/ length u = 1%nat \/ length v = 1%nat) -> py_binop o (OPoint p) (OPoint q) = Some (Raise ValueError)) /\
  (forall x, u = [x] -> py_binop o (OPoint p) (OPoint q) = py_binop o (ONumber x) (OPoint q)) /\
  (forall x, v = [x] -> py_binop o (OPoint p) (OPoint q) = py_binop o (OPoint p) (ONumber x)).
Proof.
  intros T NT o p q u v Hp Hq. unfold at_coords in *.
  assert (N : ~ (length u = length v \/ length u = 1%nat \/ length v = 1%nat) -> py_binop o (OPoint p) (OPoint q) = Some (Raise ValueError)).
  { intros N. unfold py_binop, p_op. rewrite Hp, Hq. cbn [broadcast]. destruct (Nat.eqb_spec (length u) (length v)); [lia|].
    destruct u as [|a [|b u]]; destruct v as [|c [|d v]]; cbn in *; try reflexivity; exfalso; apply N; auto. }
  assert (L : forall x, u = [x] -> py_binop o (OPoint p) (OPoint q) = py_binop o (ONumber x) (OPoint q)).
  { intros x ->. unfold py_binop, p_op. rewrite Hp, Hq. cbn [broadcast]. destruct (Nat.eqb_spec (length [x]) (length v)) as [E|]; [|reflexivity].
    destruct v as [|c [|d v]]; try discriminate. reflexivity. }
  assert (R : forall x, v = [x] -> py_binop o (OPoint p) (OPoint q) = py_binop o (OPoint p) (ONumber x)).
  { intros x ->. unfold py_binop, p_op. rewrite Hp, Hq. cbn [broadcast]. destruct (Nat.eqb_spec (length u) (length [x])) as [E|].
    - destruct u as [|c [|d u]]; try discriminate. reflexivity.
    - destruct u as [|c [|d u]]; reflexivity || (cbn in *; lia). }
  split; [|auto]. split.
  - intros (r & E). destruct (Nat.eq_dec (length u) (length v)); [auto|]. destruct (Nat.eq_dec (length u) 1); [auto|]. destruct (Nat.eq_dec (length v) 1); [auto|].
    rewrite N in E by lia. discriminate.
  - intros [E|[E|E]].
    + eexists. apply binop_points; eassumption.
    + destruct u as [|x [|]]; try discriminate. rewrite (L x eq_refl). eexists. apply binop_number_l. eassumption.
    + destruct v as [|x [|]]; try discriminate. rewrite (R x eq_refl). eexists. apply binop_number_r. eassumption.
Qed.
Print Assumptions C62_dimensions_iff.
(** A 2-D and a 3-D point cannot be added, a 1-D and a 3-D point can. *)
Example C62_dimensions_ex :
  py_binop OpAdd (OPoint (mkPoint (A1 [fz 1; fz 2]) DFloat)) (OPoint (mkPoint (A1 [fz 1; fz 2; fz 3]) DFloat)) = Some (Raise ValueError) /\
  py_binop OpAdd (OPoint (mkPoint (A1 [fz 1]) DFloat)) (OPoint (mkPoint (A1 [fz 1; fz 2; fz 3]) DFloat)) = Some (Ok (mkPoint (A1 [fz 2; fz 3; fz 4]) DFloat)).
Proof. vm_compute. auto. Qed.

(** Anything that is neither a point nor a number is a TypeError, on either
    side; for @ also numbers. *)
Theorem C62_type_error : forall T (NT : Num T) o (p : point T),
  py_binop o (OPoint p) OOther = Some (Raise TypeError) /\ py_binop o OOther (OPoint p) = Some (Raise TypeError) /\
  p_matmul p OOther = Raise TypeError /\ forall x, p_matmul p (ONumber x) = Raise TypeError.
Proof. intros. repeat split; reflexivity. Qed.
Print Assumptions C62_type_error.
(** The refused call is not the only kind of call. *)
Example C62_type_error_ex : p_matmul (mkPoint (A1 [fz 1; fz 2]) DFloat) (OPoint (mkPoint (A1 [fz 3; fz 4]) DFloat)) = Ok (VNum (fz 11)) /\
  p_matmul (mkPoint (A1 [fz 1; fz 2]) DFloat) (ONumber (fz 3)) = Raise TypeError.
Proof. vm_compute. auto. Qed.

(** The vector space laws, stated on the results of the operators.  [s + p]
    of a number adds to every coordinate, so the zero is also the number 0. *)
Theorem C62_vector_space : forall (p q r : point R) u v w a b, at_coords u p -> at_coords v q -> at_coords w r ->
  length u = length v -> length v = length w ->
  (* p + q = q + p *)
  py_binop OpAdd (OPoint p) (OPoint q) = py_binop OpAdd (OPoint q) (OPoint p) /\
  (* (p + q) + r = p + (q + r) *)
  (exists x y, py_binop OpAdd (OPoint p) (OPoint q) = Some (Ok x) /\ py_binop OpAdd (OPoint q) (OPoint r) = Some (Ok y) /\
     py_binop OpAdd (OPoint x) (OPoint r) = py_binop OpAdd (OPoint p) (OPoint y)) /\
  (* p + 0 = p, 1 * p = p, p - p = 0 * p = 0 *)
  yields (py_binop OpAdd (OPoint p) (ONumber 0)) u /\ yields (py_binop OpMul (ONumber 1) (OPoint p)) u /\
  yields (py_binop OpSub (OPoint p) (OPoint p)) (repeat 0 (length u)) /\
  yields (py_binop OpMul (ONumber 0) (OPoint p)) (repeat 0 (length u)) /\
  (* (p - q) + q = p *)
  (exists x, py_binop OpSub (OPoint p) (OPoint q) = Some (Ok x) /\ yields (py_binop OpAdd (OPoint x) (OPoint q)) u) /\
  (* a * p = p * a, a * (b * p) = (a * b) * p *)
  py_binop OpMul (ONumber a) (OPoint p) = py_binop OpMul (OPoint p) (ONumber a) /\
  (exists x, py_binop OpMul (ONumber b) (OPoint p) = Some (Ok x) /\
     py_binop OpMul (ONumber a) (OPoint x) = py_binop OpMul (ONumber (a * b)) (OPoint p)) /\
  (* a * (p + q) = a * p + a * q *)
  (exists x y z, py_binop OpAdd (OPoint p) (OPoint q) = Some (Ok x) /\ py_binop OpMul (ONumber a) (OPoint p) = Some (Ok y) /\
     py_binop OpMul (ONumber a) (OPoint q) = Some (Ok z) /\
     py_binop OpMul (ONumber a) (OPoint x) = py_binop OpAdd (OPoint y) (OPoint z)) /\
  (* (a + b) * p = a * p + b * p *)
  (exists y z, py_binop OpMul (ONumber a) (OPoint p) = Some (Ok y) /\ py_binop OpMul (ONumber b) (OPoint p) = Some (Ok z) /\
     py_binop OpMul (ONumber (a + b)) (OPoint p) = py_binop OpAdd (OPoint y) (OPoint z)) /\
  (* p / a = (1 / a) * p for a <> 0, and it is undone by * a *)
  (a <> 0 -> exists x, py_binop OpDiv (OPoint p) (ONumber a) = Some (Ok x) /\ py_binop OpMul (ONumber (/ a)) (OPoint p) = Some (Ok x) /\
     yields (py_binop OpMul (OPoint x) (ONumber a)) u).
Proof.
  intros p q r u v w a b Hp Hq Hr H1 H2. unfold yields, at_coords in *.
  assert (E : forall (x y : list R), x = y -> Some (Ok (mkPoint (A1 x) DFloat)) = Some (Ok (mkPoint (A1 y) DFloat))) by congruence.
  split; [|split; [|split; [|split; [|split; [|split; [|split; [|split; [|split; [|split; [|split]]]]]]]]]].
  - rewrite (binop_points OpAdd p q u v), (binop_points OpAdd q p v u) by auto. apply E. clear. revert v.
    induction u as [|x u IH]; intros [|y v]; cbn; try reflexivity. f_equal; [apply Rplus_comm|apply IH].
  - do 2 eexists. split; [apply binop_points; eassumption|]. split; [apply binop_points; eassumption|].
    erewrite binop_points; [|reflexivity|eassumption|rewrite map2_length; lia].
    erewrite binop_points; [|eassumption|reflexivity|rewrite map2_length; lia]. apply E. clear. revert v w.
    induction u as [|x u IH]; intros [|y v] [|z w]; cbn; try reflexivity. f_equal; [apply Rplus_assoc|apply IH].
  - erewrite binop_number_r by eassumption. apply E. rewrite <- (map_id u) at 2. apply map_ext. intros x. cbn. ring.
  - erewrite binop_number_l by eassumption. apply E. rewrite <- (map_id u) at 2. apply map_ext. intros x. cbn. ring.
  - erewrite binop_points by (eassumption || reflexivity). apply E. clear. induction u as [|x u IH]; cbn; [reflexivity|]. f_equal; [ring|apply IH].
  - erewrite binop_number_l by eassumption. apply E. clear. induction u as [|x u IH]; cbn; [reflexivity|]. f_equal; [ring|apply IH].
  - eexists. split; [apply binop_points; eassumption|]. erewrite binop_points; [|reflexivity|eassumption|rewrite map2_length; lia]. apply E.
    clear - H1. revert v H1. induction u as [|x u IH]; intros [|y v] H; try discriminate; cbn; try reflexivity. injection H as H. f_equal; [ring|apply IH, H].
  - erewrite binop_number_l, binop_number_r by eassumption. apply E. apply map_ext. intros x. cbn. ring.
  - eexists. split; [eapply binop_number_l; eassumption|]. erewrite binop_number_l by reflexivity. erewrite binop_number_l by eassumption. apply E. rewrite map_map. apply map_ext. intros x. cbn. ring.
  - do 3 eexists. split; [apply binop_points; eassumption|]. split; [eapply binop_number_l; eassumption|]. split; [eapply binop_number_l; eassumption|].
    erewrite binop_number_l by reflexivity. erewrite binop_points; [|reflexivity|reflexivity|rewrite !map_length; assumption]. apply E.
    clear. revert v. induction u as [|x u IH]; intros [|y v]; cbn; try reflexivity. f_equal; [ring|apply IH].
  - do 2 eexists. split; [eapply binop_number_l; eassumption|]. split; [eapply binop_number_l; eassumption|].
    erewrite binop_number_l by eassumption. erewrite binop_points; [|reflexivity|reflexivity|rewrite !map_length; reflexivity]. apply E.
    clear. induction u as [|x u IH]; cbn; [reflexivity|]. f_equal; [ring|apply IH].
  - intros A. eexists. split; [eapply binop_number_r; eassumption|]. split.
    + erewrite binop_number_l by eassumption. apply E. apply map_ext. intros x. cbn. field. assumption.
    + erewrite binop_number_r by reflexivity. apply E. rewrite map_map. rewrite <- (map_id u) at 2. apply map_ext. intros x. cbn. field. assumption.
Qed.
Print Assumptions C62_vector_space.
(** Two points of the plane and the number 2 meet the hypotheses. *)
Example C62_vector_space_ex : at_coords [1; 2] (mkPoint (A1 [1; 2]) DFloat) /\ at_coords [3; 4] (mkPoint (A1 [3; 4]) DInt) /\ 2 <> 0.
Proof. split; [reflexivity|]. split; [reflexivity|lra]. Qed.

(** In binary64 addition is not associative: (0.1 + 0.2) + 0.3 *)
Theorem C62_binary64_assoc_refuted :
  exists (p q r x y : point float), py_binop OpAdd (OPoint p) (OPoint q) = Some (Ok x) /\ py_binop OpAdd (OPoint q) (OPoint r) = Some (Ok y) /\
    py_binop OpAdd (OPoint x) (OPoint r) <> py_binop OpAdd (OPoint p) (OPoint y).
Proof.
  exists (mkPoint (A1 [fq 1 10; fz 0]) DFloat), (mkPoint (A1 [fq 2 10; fz 0]) DFloat), (mkPoint (A1 [fq 3 10; fz 0]) DFloat).
  do 2 eexists. split; [reflexivity|]. split; [reflexivity|]. intros E.
  pose proof (f_equal (fun r => match r with Some (Ok p) => match p_data p with A1 (x :: _) => PrimFloat.eqb x (fq 6 10) | _ => true end | _ => true end) E) as F.
  vm_compute in F. discriminate.
Qed.
Print Assumptions C62_binary64_assoc_refuted.

(** Division by the number 0 is no error: it gives infinities and NaN. *)
Theorem C62_zero_division : exists x y : float, 
  py_binop OpDiv (OPoint (mkPoint (A1 [fz 1; fz 0]) DFloat)) (ONumber (fz 0)) = Some (Ok (mkPoint (A1 [x; y]) DFloat)) /\
  nisinf x = true /\ nisnan y = true.
Proof. do 2 eexists. split; [reflexivity|]. vm_compute. auto. Qed.
Print Assumptions C62_zero_division.

(** The integer points are closed under no operator: the result of
    every operator is a float64 point. *)
Theorem C62_float_result : forall T (NT : Num T) o (l r : operand T) x, py_binop o l r = Some (Ok x) -> p_dtype x = DFloat.
Proof.
  intros T NT o l r x. assert (P : forall a y, point_of (T:=T) a = Ok y -> p_dtype y = DFloat) by (intros a y; rewrite point_of_ok; intros E; injection E as <-; reflexivity).
  assert (Q : forall s t rt, p_op o s t rt = Ret (Ok x) -> p_dtype x = DFloat).
  { intros s t rt. unfold p_op. destruct t; intros E.
    - injection E as E. destruct (if rt then _ else _); [|discriminate]. cbn [rbind] in E. exact (P _ _ E).
    - injection E as E. destruct (if rt then _ else _); [|discriminate]. cbn [rbind] in E. exact (P _ _ E).
    - destruct rt; discriminate. }
  unfold py_binop. intros E. destruct l as [p|a|]; [|destruct r as [q|b|]; try discriminate..].
  - destruct (p_op o p r false) eqn:F; [discriminate|]. injection E as ->. exact (Q _ _ _ F).
  - destruct (p_op o q (ONumber a) true) eqn:F; [discriminate|]. injection E as ->. exact (Q _ _ _ F).
Qed.
Print Assumptions C62_float_result.
Example C62_float_result_ex : py_binop OpAdd (OPoint (mkPoint (A1 [fz 1; fz 2]) DInt)) (ONumber (fz 1)) = Some (Ok (mkPoint (A1 [fz 2; fz 3]) DFloat)).
Proof. reflexivity. Qed.

(** Copying a point loses an integer dtype: Point(p) (and hence copy(p)) is float64. *)
Theorem C62_copy : forall T (NT : Num T) (p : point T), exists q, point_init (PPoint p) None = Ok q /\ p_data q = p_data p /\ p_dtype q = DFloat.
Proof.
  intros T NT [a d]. eexists. split; [reflexivity|]. split; [|reflexivity]. cbn [p_data]. destruct a; cbn; [reflexivity|].
  rewrite map_cast_float. reflexivity.
Qed.
Print Assumptions C62_copy.
Example C62_copy_ex : point_init (PPoint (mkPoint (A1 [fz 1; fz 2]) DInt)) None = Ok (mkPoint (A1 [fz 1; fz 2]) DFloat).
Proof. reflexivity. Qed.

(** *** The dot product *)

(** p @ q is the sum of the coordinate products for points of one dimension
    and ValueError for different ones (no broadcasting here). *)
Theorem C62_dot : forall (p q : point R) u v, at_coords u p -> at_coords v q ->
  (length u = length v -> p_matmul p (OPoint q) = Ok (VNum (inner u v))) /\
  (length u <> length v -> p_matmul p (OPoint q) = Raise ValueError).
Proof.
  intros p q u v Hp Hq. unfold p_matmul. rewrite Hp, Hq. cbn [np_dot]. destruct (Nat.eqb_spec (length u) (length v)); split; intros; try congruence.
  rewrite inner_vdot. reflexivity.
Qed.
Print Assumptions C62_dot.

(** ... a symmetric, bilinear and positive definite form, whose square root is
    the norm; Cauchy-Schwarz and the triangle inequality. *)
Theorem C62_form : forall (p q r : point R) u v w a, at_coords u p -> at_coords v q -> at_coords w r ->
  length u = length v -> length v = length w ->
  p_matmul p (OPoint q) = p_matmul q (OPoint p) /\
  (exists s x y z, py_binop OpAdd (OPoint p) (OPoint q) = Some (Ok s) /\ p_matmul s (OPoint r) = Ok (VNum x) /\
     p_matmul p (OPoint r) = Ok (VNum y) /\ p_matmul q (OPoint r) = Ok (VNum z) /\ x = y + z) /\
  (exists s x y, py_binop OpMul (ONumber a) (OPoint p) = Some (Ok s) /\ p_matmul s (OPoint r) = Ok (VNum x) /\
     p_matmul p (OPoint r) = Ok (VNum y) /\ x = a * y) /\
  (exists x, p_matmul p (OPoint p) = Ok (VNum x) /\ 0 <= x /\ (x = 0 <-> u = repeat 0 (length u)) /\ p_norm p = sqrt x) /\
  (exists x, p_matmul p (OPoint q) = Ok (VNum x) /\ Rabs x <= p_norm p * p_norm q) /\
  (exists s, py_binop OpAdd (OPoint p) (OPoint q) = Some (Ok s) /\ p_norm s <= p_norm p + p_norm q) /\
  (exists s, py_binop OpMul (ONumber a) (OPoint p) = Some (Ok s) /\ p_norm s = Rabs a * p_norm p).
Proof.
  intros p q r u v w a Hp Hq Hr H1 H2. unfold at_coords in *.
  assert (D : forall (p q : point R) u v, p_data p = A1 u -> p_data q = A1 v -> length u = length v -> p_matmul p (OPoint q) = Ok (VNum (vdot u v))).
  { intros p' q' u' v' E1 E2 E3. unfold p_matmul. rewrite E1, E2. cbn [np_dot]. rewrite E3, Nat.eqb_refl. reflexivity. }
  assert (Nm : forall (p : point R) u, p_data p = A1 u -> p_norm p = vnorm u) by (intros p' u' E; unfold p_norm; rewrite E; reflexivity).
  assert (Sc : map (op_fun OpMul a) u = vscale u a) by (apply map_ext; intros x; apply Rmult_comm).
  repeat split.
  - rewrite (D p q u v), (D q p v u), vdot_comm by auto. reflexivity.
  - do 4 eexists. split; [apply binop_points; eassumption|]. split; [apply D; [reflexivity|eassumption|rewrite map2_length; lia]|].
    split; [apply D; try eassumption; congruence|]. split; [apply D; eassumption|]. apply (vdot_add_l u v w). assumption.
  - do 3 eexists. split; [eapply binop_number_l; eassumption|]. split; [apply D; [reflexivity|eassumption|rewrite map_length; congruence]|].
    split; [apply D; try eassumption; congruence|]. rewrite Sc. apply vdot_scale_l.
  - exists (vdot u u). split; [apply D; auto|]. split; [apply vdot_nonneg|]. split; [apply vdot_eq0_iff|]. rewrite (Nm p u Hp). reflexivity.
  - eexists. split; [apply D; eassumption|]. rewrite (Nm p u Hp), (Nm q v Hq). apply vdot_le_norm. assumption.
  - eexists. split; [apply binop_points; eassumption|]. rewrite (Nm p u Hp), (Nm q v Hq). erewrite Nm by reflexivity. apply vnorm_triangle. assumption.
  - eexists. split; [eapply binop_number_l; eassumption|]. rewrite (Nm p u Hp). erewrite Nm by reflexivity. rewrite Sc. apply vnorm_scale.
Qed.
Print Assumptions C62_form.
(** A 3-4-5 triangle. *)
Example C62_form_ex : p_norm (mkPoint (A1 [fz 3; fz 4]) DFloat) = fz 5 /\ p_matmul (mkPoint (A1 [fz 3; fz 4]) DFloat) (OPoint (mkPoint (A1 [fz (-4); fz 3]) DFloat)) = Ok (VNum (fz 0)).
Proof. vm_compute. auto. Qed.

(** The point Point(5) is 0-D: its product with another point is an array,
    not a number, and it has no coordinate 0. *)
Theorem C62_scalar_point_refuted : exists p q : point float, point_init (PNumber (fz 5)) None = Ok p /\ p_ndim p = 1%nat /\
  p_matmul p (OPoint q) = Ok (VArr [fz 5; fz 10]) /\ p_getitem p (IxInt 0) = Raise IndexError.
Proof. exists (mkPoint (A0 (fz 5)) DFloat), (mkPoint (A1 [fz 1; fz 2]) DFloat). split; [reflexivity|]. vm_compute. auto. Qed.
Print Assumptions C62_scalar_point_refuted.

(** p[i] is the coordinate; p[i:j] with at least two coordinates is the point
    of these coordinates (as float64), with fewer it is a bare array. *)
Theorem C62_getitem : forall T (NT : Num T) (p : point T) u, at_coords u p ->
  (forall i, p_getitem p (IxInt i) = match norm_index (length u) i with Some k => match nth_error u k with Some x => Ok (VNum x) | None => Raise IndexError end | None => Raise IndexError end) /\
  (forall s d, np_slice u s = Ok d -> p_getitem p (IxSlice s) = Ok (if Nat.leb 2 (length d) then VPoint (mkPoint (A1 d) DFloat) else VArr d)) /\
  (forall ix d, np_take u ix = Ok d -> p_getitem p (IxList ix) = Ok (if Nat.leb 2 (length d) then VPoint (mkPoint (A1 d) DFloat) else VArr d)).
Proof.
  intros T NT p u Hp. unfold p_getitem. rewrite Hp. split; [|split].
  - intros i. unfold np_get. destruct (norm_index (length u) i) as [k|]; [|reflexivity]. destruct (nth_error u k); reflexivity.
  - intros s d ->. cbn [rbind]. rewrite point_of_ok. unfold Nat.ltb. destruct (Nat.leb 2 (length d)); reflexivity.
  - intros ix d ->. cbn [rbind]. rewrite point_of_ok. unfold Nat.ltb. destruct (Nat.leb 2 (length d)); reflexivity.
Qed.
Print Assumptions C62_getitem.
Example C62_getitem_ex : p_getitem (mkPoint (A1 [fz 1; fz 2; fz 3]) DFloat) (IxSlice (mkSlice (Some 1%Z) None None)) = Ok (VPoint (mkPoint (A1 [fz 2; fz 3]) DFloat)) /\
  p_getitem (mkPoint (A1 [fz 1; fz 2; fz 3]) DFloat) (IxSlice (mkSlice (Some 2%Z) None None)) = Ok (VArr [fz 3]).
Proof. vm_compute. auto. Qed.

(** ** C63 *)

Section Metric.
  Context (K : Type) (ext : string -> option K -> metric (T:=R)).
  Let distance := p_distance ext.

  (** The value of a metric on two points. *)
  Definition gives (name : string) (p q : point R) (d : R) : Prop := distance p q (MName name) None = Ok d.
End Metric.

Lemma vec_diff_eq (u v : list R) : length u = length v -> vec_diff (A1 u) (A1 v) = Ok (vsub u v).
Proof. intros H. unfold vec_diff. cbn [arr_list]. rewrite broadcast_eq by assumption. reflexivity. Qed.

Lemma euclidean_dist (u v : list R) : length u = length v -> m_euclidean (A1 u) (A1 v) = Ok (dist u v).
Proof.
  intros H. unfold m_euclidean. rewrite vec_diff_eq by assumption. cbn [rbind]. rewrite all_finite. f_equal.
  unfold dist, norm. rewrite <- inner_vdot, <- minus_vsub. change (vdist u v = vdist v u). apply vdist_sym. assumption.
Qed.

(** The euclidean distance of two points of one dimension is the length of
    their difference, and it is a metric on the points of that dimension. *)
Theorem C63_euclidean : forall K ext (p q r : point R) u v w, at_coords u p -> at_coords v q -> at_coords w r ->
  length u = length v -> length v = length w ->
  gives K ext "euclidean" p q (dist u v) /\ gives K ext "minkowski" p q (dist u v) /\
  0 <= dist u v /\ dist u v = dist v u /\ (dist u v = 0 <-> u = v) /\ dist u w <= dist u v + dist v w /\
  exists d, py_binop OpSub (OPoint q) (OPoint p) = Some (Ok d) /\ p_norm d = dist u v.
Proof.
  intros K ext p q r u v w Hp Hq Hr H1 H2. unfold at_coords in *.
  assert (D : forall x y : list R, length x = length y -> dist x y = vdist x y).
  { intros x y E. unfold dist, norm. rewrite <- inner_vdot, <- minus_vsub. change (vdist y x = vdist x y). apply vdist_sym. congruence. }
  split; [|split; [|split; [|split; [|split; [|split]]]]].
  - unfold gives, p_distance. cbn. rewrite Hp, Hq. apply euclidean_dist. assumption.
  - unfold gives, p_distance. cbn. rewrite Hp, Hq. apply euclidean_dist. assumption.
  - rewrite D by assumption. apply vdist_nonneg.
  - rewrite !D by congruence. apply vdist_sym. assumption.
  - rewrite D by assumption. split; [apply vdist_zero; assumption|]. intros ->. apply vdist_refl.
  - rewrite !D by congruence. apply vdist_triangle; assumption.
  - eexists. split; [apply binop_points; try eassumption; congruence|]. rewrite D, vdist_sym by congruence. reflexivity.
Qed.
Print Assumptions C63_euclidean.

(** The city block and chebyshev distances are metrics as well; the latter
    needs a coordinate.  All three compare. *)
Theorem C63_other_metrics : forall K ext (p q : point R) u v, at_coords u p -> at_coords v q -> length u = length v ->
  gives K ext "cityblock" p q (sum_abs u v) /\ (u <> [] -> gives K ext "chebyshev" p q (max_abs u v)) /\
  (u = [] -> p_distance ext p q (MName "chebyshev") None = Raise ValueError) /\
  gives K ext "sqeuclidean" p q (dist u v * dist u v) /\
  max_abs u v <= dist u v <= sum_abs u v /\
  (sum_abs u v = 0 <-> u = v) /\ (max_abs u v = 0 <-> u = v) /\ sum_abs u v = sum_abs v u /\ max_abs u v = max_abs v u /\
  forall w, length v = length w -> sum_abs u w <= sum_abs u v + sum_abs v w /\ max_abs u w <= max_abs u v + max_abs v w.
Proof.
  intros K ext p q u v Hp Hq H. unfold at_coords in *.
  split; [|split; [|split; [|split; [|split; [|split; [|split; [|split; [|split]]]]]]]].
  - unfold gives, p_distance. cbn. rewrite Hp, Hq. unfold m_cityblock. rewrite vec_diff_eq by assumption. cbn [rbind]. rewrite cityblock_sum. reflexivity.
  - intros N. unfold gives, p_distance. cbn. rewrite Hp, Hq. apply chebyshev_max; assumption.
  - intros ->. destruct v; [|discriminate]. unfold p_distance. cbn. rewrite Hp, Hq. reflexivity.
  - unfold gives, p_distance. cbn. rewrite Hp, Hq. unfold m_sqeuclidean. rewrite vec_diff_eq by assumption. cbn [rbind]. f_equal.
    unfold dist, norm. rewrite sqrt_sqrt by (rewrite <- inner_vdot; apply vdot_nonneg). rewrite <- inner_vdot, <- minus_vsub.
    replace (vsub v u) with (vopp (vsub u v)); [rewrite vdot_opp_l, vdot_opp_r; ring|].
    apply vec_ext; [rewrite vopp_length, !vsub_length; congruence|]. intros i. rewrite nth_vopp, !nth_vsub by congruence. ring.
  - apply max_abs_le_norm. assumption.
  - apply sum_abs_zero. assumption.
  - apply max_abs_zero. assumption.
  - apply sum_abs_sym.
  - apply max_abs_sym.
  - intros w Hw. split; [apply sum_abs_tri|apply max_abs_tri]; assumption.
Qed.
Print Assumptions C63_other_metrics.
(** (0, 0) and (3, 4): distances 5, 7, 4 and 25. *)
Example C63_ex : forall ext : string -> option unit -> metric (T:=float), let d name := p_distance ext (mkPoint (A1 [fz 0; fz 0]) DFloat) (mkPoint (A1 [fz 3; fz 4]) DFloat) (MName name) None in
  d "euclidean" = Ok (fz 5) /\ d "cityblock" = Ok (fz 7) /\ d "chebyshev" = Ok (fz 4) /\ d "sqeuclidean" = Ok (fz 25).
Proof. intros ext. vm_compute. auto. Qed.

(** The squared distance breaks the triangle inequality. *)
Theorem C63_sqeuclidean_refuted : forall K ext, exists (p q r : point R) x y z,
  gives K ext "sqeuclidean" p r x /\ gives K ext "sqeuclidean" p q y /\ gives K ext "sqeuclidean" q r z /\ y + z < x.
Proof.
  intros K ext. exists (mkPoint (A1 [0]) DFloat), (mkPoint (A1 [1]) DFloat), (mkPoint (A1 [2]) DFloat). do 3 eexists.
  split; [reflexivity|]. split; [reflexivity|]. split; [reflexivity|]. cbn. lra.
Qed.
Print Assumptions C63_sqeuclidean_refuted.

(** Points of different dimension: ValueError, except that a 1-D point is
    broadcast.  So points of different dimension can have distance 0 (they are
    not equal as points). *)
Theorem C63_dimensions : forall K ext (p q : point R) u v, at_coords u p -> at_coords v q -> length u <> length v ->
  (length u <> 1%nat -> length v <> 1%nat -> forall name, In name ["euclidean"; "minkowski"; "cityblock"; "chebyshev"; "sqeuclidean"] ->
     p_distance (K:=K) ext p q (MName name) None = Raise ValueError) /\
  (forall x, u = [x] -> gives K ext "euclidean" p q (dist (repeat x (length v)) v)).
Proof.
  intros K ext p q u v Hp Hq H. unfold at_coords in *. split.
  - intros N1 N2 name Hn.
    assert (E : vec_diff (A1 u) (A1 v) = Raise ValueError).
    { unfold vec_diff. cbn [arr_list broadcast]. destruct (Nat.eqb_spec (length u) (length v)); [congruence|].
      destruct u as [|a [|b u]]; destruct v as [|c [|d v]]; cbn in *; try reflexivity; exfalso; auto. }
    unfold p_distance. cbn [In] in Hn.
    destruct Hn as [<- | [<- | [<- | [<- | [<- | []]]]]]; cbn; rewrite Hp, Hq; unfold m_euclidean, m_cityblock, m_chebyshev, m_sqeuclidean; rewrite E; reflexivity.
  - intros x ->. unfold gives, p_distance. cbn [get_metric metrics reg_find String.eqb Ascii.eqb Bool.eqb rbind]. rewrite Hp, Hq.
    rewrite <- euclidean_dist by apply repeat_length. unfold m_euclidean, vec_diff. cbn [arr_list]. rewrite (broadcast_eq _ (repeat x (length v)) v) by apply repeat_length.
    assert (M : map2 nsub (repeat x (length v)) v = map (nsub x) v) by (clear; induction v as [|y v IH]; cbn in *; [reflexivity|f_equal; assumption]). rewrite M.
    cbn [broadcast]. destruct (Nat.eqb_spec (length [x]) (length v)); [congruence|]. reflexivity.
Qed.
Print Assumptions C63_dimensions.
Theorem C63_dimension_zero_refuted : forall K ext, exists p q : point R, p_ndim p <> p_ndim q /\ p_eq p q = false /\ gives K ext "euclidean" p q 0.
Proof.
  intros K ext. exists (mkPoint (A1 [1]) DFloat), (mkPoint (A1 [1; 1]) DFloat). split; [cbn; lia|]. split; [reflexivity|].
  destruct (C63_dimensions K ext (mkPoint (A1 [1]) DFloat) (mkPoint (A1 [1; 1]) DFloat) [1] [1; 1] eq_refl eq_refl ltac:(cbn; lia)) as [_ H].
  specialize (H 1 eq_refl). cbn [length repeat] in H. unfold dist, norm in H. cbn [minus inner] in H.
  replace ((1 - 1) * (1 - 1) + ((1 - 1) * (1 - 1) + 0)) with 0 in H by ring. rewrite sqrt_0 in H. exact H.
Qed.
Print Assumptions C63_dimension_zero_refuted.

(** Lookup: a name outside the table is a NameError (whatever the keyword
    arguments), an object that is neither a string nor callable a TypeError, a
    callable is called with the two arrays and gets no keyword arguments. *)
Theorem C63_lookup : forall T (NT : Num T) (ST : NumSqrt T) K (ext : string -> option K -> metric) (p q : point T) kw,
  (forall name, ~ In name (known_metrics ext) <-> p_distance ext p q (MName name) kw = Raise NameError /\ get_metric ext name kw = Raise NameError) /\
  p_distance ext p q MOther kw = Raise TypeError /\
  (forall f, p_distance ext p q (MCall f) kw = f (p_data p) (p_data q)) /\
  known_metrics ext = ["braycurtis"; "canberra"; "chebyshev"; "cityblock"; "correlation"; "cosine"; "euclidean"; "jensenshannon"; "mahalanobis"; "minkowski"; "seuclidean"; "sqeuclidean"; "wminkowski"].
Proof.
  intros T NT ST K ext p q kw. split; [|split; [reflexivity|split; reflexivity]]. intros name.
  assert (F : forall A (r : registry A), ~ In name (reg_names r) <-> reg_find r name = None).
  { intros A r. induction r as [|[k a] r IH]; cbn; [tauto|]. destruct (String.eqb_spec k name) as [->|N].
    - split; [intros H; exfalso; apply H; left; reflexivity|discriminate].
    - rewrite <- IH. split; intros H; [|intros [E|E]; tauto]. intros E. apply H. right. assumption. }
  unfold known_metrics. rewrite F. unfold p_distance, get_metric. split.
  - intros ->. split; reflexivity.
  - intros [_ E]. destruct (reg_find (metrics ext) name); [discriminate|reflexivity].
Qed.
Print Assumptions C63_lookup.
(** "manhattan" is not a known name. *)
Example C63_lookup_ex : forall ext : string -> option unit -> metric (T:=float), p_distance ext (mkPoint (A1 [fz 0]) DFloat) (mkPoint (A1 [fz 1]) DFloat) (MName "manhattan") None = Raise NameError.
Proof. reflexivity. Qed.

(** Keyword arguments given along with a callable are silently dropped. *)
Theorem C63_kwargs_dropped : forall T (NT : Num T) (ST : NumSqrt T) K (ext : string -> option K -> metric) (p q : point T) f kw,
  p_distance ext p q (MCall f) kw = p_distance ext p q (MCall f) None.
Proof. reflexivity. Qed.
Print Assumptions C63_kwargs_dropped.
Example C63_kwargs_ex : forall ext : string -> option unit -> metric (T:=float), p_distance ext (mkPoint (A1 [fz 1]) DFloat) (mkPoint (A1 [fz 3]) DFloat) (MCall m_cityblock) (Some tt) = Ok (fz 2).
Proof. reflexivity. Qed.

(** In binary64 the distance to a point with an infinite coordinate is a
    ValueError (scipy checks for finite differences), and so is the distance
    of two finite points whose difference overflows. *)
Theorem C63_nonfinite_refuted : forall ext : string -> option unit -> metric (T:=float), 
  let d p q := p_distance ext (mkPoint (A1 [p]) DFloat) (mkPoint (A1 [q]) DFloat) (MName "euclidean") None in
  d (fz 0) PrimFloat.infinity = Raise ValueError /\
  exists x : float, isfinite x = true /\ d x (nopp x) = Raise ValueError.
Proof.
  intros ext. split; [vm_compute; reflexivity|]. exists (fz (2 ^ 1023)). vm_compute. auto.
Qed.
Print Assumptions C63_nonfinite_refuted.
