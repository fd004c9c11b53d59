(** Geometric notions on lists of real coordinates, written independently of
    the model. *)
From Coq Require Import List Arith Reals.
Import ListNotations.
Local Open Scope R_scope.

(** All points have [n] coordinates. *)
Definition dims (n : nat) (pts : list (list R)) : Prop := forall p, In p pts -> length p = n.

(** [x] is the affine combination p + t*(q - p). *)
Definition affine_at (p q : list R) (t : R) (x : list R) : Prop :=
  length x = length p /\ forall i, nth i x 0 = nth i p 0 + t * (nth i q 0 - nth i p 0).

(** [x] is a point of the closed segment from [p] to [q]. *)
Definition on_segment (p q x : list R) : Prop := exists t, 0 <= t <= 1 /\ affine_at p q t x.

(** [x] = p + t*u. *)
Definition along (p u : list R) (t : R) (x : list R) : Prop :=
  forall i, nth i x 0 = nth i p 0 + t * nth i u 0.

(** All points lie on one straight line (or coincide). *)
Definition on_common_line (n : nat) (pts : list (list R)) : Prop :=
  exists p u, length p = n /\ length u = n /\ forall x, In x pts -> exists t, along p u t x.

(** ... on one straight line through the origin. *)
Definition on_line_through_origin (n : nat) (pts : list (list R)) : Prop :=
  exists u, length u = n /\ forall x, In x pts -> exists t, forall i, nth i x 0 = t * nth i u 0.

(** All points lie in one affine plane (or line, or point). *)
Definition in_common_plane (n : nat) (pts : list (list R)) : Prop :=
  exists p u v, length p = n /\ length u = n /\ length v = n /\
    forall x, In x pts -> exists s t, forall i, nth i x 0 = nth i p 0 + s * nth i u 0 + t * nth i v 0.

(** The numpy closeness of two points, coordinate by coordinate. *)
Definition near (x p : list R) : Prop :=
  Forall2 (fun a b => Rabs (a - b) <= / 100000000 + / 100000 * Rabs b) x p.

(** Sum over coordinates of x_i * y_i, and squared length. *)
Fixpoint inner (x y : list R) : R :=
  match x, y with
  | a :: x', b :: y' => a * b + inner x' y'
  | _, _ => 0
  end.
Definition norm (x : list R) : R := sqrt (inner x x).

(** Coordinate-wise difference q - p. *)
Fixpoint minus (q p : list R) : list R :=
  match q, p with
  | a :: q', b :: p' => (a - b) :: minus q' p'
  | _, _ => []
  end.

(** Euclidean distance. *)
Definition dist (p q : list R) : R := norm (minus q p).

(** x and y have proportional coordinates (one of them may be zero). *)
Definition proportional (x y : list R) : Prop :=
  exists a b, (a <> 0 \/ b <> 0) /\ forall i, a * nth i x 0 = b * nth i y 0.

(** Sum over all pairs i < j of (x_i y_j - x_j y_i)^2: the squared area of the
    parallelogram spanned by x and y. *)
Fixpoint minors_with (a b : R) (x y : list R) : R :=
  match x, y with
  | c :: x', d :: y' => (a * d - c * b) * (a * d - c * b) + minors_with a b x' y'
  | _, _ => 0
  end.
Fixpoint area_sq (x y : list R) : R :=
  match x, y with
  | a :: x', b :: y' => minors_with a b x' y' + area_sq x' y'
  | _, _ => 0
  end.

(** [g] maps the points with [n] coordinates to points with [m] coordinates and
    preserves all distances. *)
Definition isometry (n m : nat) (g : list R -> list R) : Prop :=
  (forall p, length p = n -> length (g p) = m) /\
  (forall p q, length p = n -> length q = n -> dist (g p) (g q) = dist p q).

(** The action of [g] on vectors. *)
Definition vector_of (n : nat) (g : list R -> list R) (v : list R) : list R := minus (g v) (g (repeat 0 n)).
