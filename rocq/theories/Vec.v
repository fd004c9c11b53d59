(** Vector and matrix arithmetic used by the geometric code: the element-wise
    numpy operators, numpy.dot and numpy.linalg routines the sources call. *)

From Coq Require Import ZArith List Bool Arith.
From Verif Require Import Num Py Numeric Curve.
Import ListNotations.
Local Open Scope num_scope.

(** Element-wise application of a binary operator to two arrays of one length
    (numpy ufunc semantics; used throughout /repo/skcurve/_geomalg.py). *)
Fixpoint map2 {A B C} (f : A -> B -> C) (u : list A) (v : list B) : list C :=
  match u, v with
  | a :: u', b :: v' => f a b :: map2 f u' v'
  | _, _ => []
  end.

Section Vec.
  Context {T : Type} {NT : Num T} {ST : NumSqrt T}.

  (** Point + Point on the data: /repo/skcurve/_base.py:225-226, 362-380. *)
  Definition vadd (u v : list T) : list T := map2 nadd u v.

  (** Point - Point on the data: /repo/skcurve/_base.py:231-232, 362-380. *)
  Definition vsub (u v : list T) : list T := map2 nsub u v.

  (** Point * number on the data: /repo/skcurve/_base.py:237-238, 362-380. *)
  Definition vscale (u : list T) (s : T) : list T := map (fun x => x * s) u.

  (** -array, as in /repo/skcurve/_intersect.py:490. *)
  Definition vopp (u : list T) : list T := map nopp u.

  (** Point @ Point, i.e. numpy.dot: /repo/skcurve/_base.py:255-272, and the
      row-wise dot1d of /repo/skcurve/_numeric.py:70-87.  The order in which
      BLAS adds the products is not specified by numpy; here it is right to
      left (irrelevant in exact arithmetic). *)
  Definition vdot (u v : list T) : T := vsum (map2 nmul u v).

  (** Point.norm: /repo/skcurve/_base.py:318-328. *)
  Definition vnorm (u : list T) : T := nsqrt (vdot u u).

  (** scipy.spatial.distance.euclidean, the default of Point.distance:
      /repo/skcurve/_base.py:330-360. *)
  Definition vdist (u v : list T) : T := vnorm (vsub u v).

  (** numpy.minimum / numpy.maximum of two numbers (NaN propagates):
      used at /repo/skcurve/_geomalg.py:291-299. *)
  Definition npmin (a b : T) : T := if nisnan a then a else if nisnan b then b else if b <? a then b else a.
  (** numpy.maximum: /repo/skcurve/_geomalg.py:295-299. *)
  Definition npmax (a b : T) : T := if nisnan a then a else if nisnan b then b else if a <? b then b else a.

  (** *** numpy.linalg.matrix_rank (used at /repo/skcurve/_geomalg.py:228 and 260)

      numpy counts the singular values above a relative tolerance; the model
      is the exact rank, computed by elimination. *)

  (** First non-zero entry of a vector: its position and value.
      Part of the rank, /repo/skcurve/_geomalg.py:228, 260. *)
  Fixpoint pivot (r : list T) : option (nat * T) :=
    match r with
    | [] => None
    | x :: r' => if x =? n0
                 then option_map (fun '(j, y) => (S j, y)) (pivot r')
                 else Some (O, x)
    end.

  (** First non-zero row with its pivot.
      Part of the rank, /repo/skcurve/_geomalg.py:228, 260. *)
  Fixpoint pivot_row (rows : list (list T)) : option (list T * nat * T) :=
    match rows with
    | [] => None
    | r :: rows' => match pivot r with
                    | Some (j, x) => Some (r, j, x)
                    | None => pivot_row rows'
                    end
    end.

  (** Subtract the multiple of the pivot row that clears column [j].
      Part of the rank, /repo/skcurve/_geomalg.py:228, 260. *)
  Definition clear_col (r : list T) (j : nat) (x : T) (y : list T) : list T :=
    vsub y (vscale r (nth j y n0 / x)).

  (** Is the rank of the matrix at most [k]?
      /repo/skcurve/_geomalg.py:228, 260. *)
  Fixpoint rank_le (k : nat) (rows : list (list T)) : bool :=
    match pivot_row rows with
    | None => true
    | Some (r, j, x) =>
        match k with
        | O => false
        | S k' => rank_le k' (map (clear_col r j x) rows)
        end
    end.

  (** numpy.linalg.lstsq(a, b) for one column [a] (used at
      /repo/skcurve/_geomalg.py:99): the minimum-norm least squares solution. *)
  Definition lstsq1 (a b : list T) : T :=
    if vdot a a =? n0 then n0 else vdot a b / vdot a a.

  (** numpy.linalg.solve for a 2x2 system with the columns [a1], [a2] (used at
      /repo/skcurve/_intersect.py:495): Cramer's rule; None is LinAlgError. *)
  Definition solve2 (a1 a2 b : list T) : option (T * T) :=
    let x i v := nth i v n0 in
    let det := x 0 a1 * x 1 a2 - x 0 a2 * x 1 a1 in
    if det =? n0 then None
    else Some ((x 0 b * x 1 a2 - x 0 a2 * x 1 b) / det,
               (x 0 a1 * x 1 b - x 0 b * x 1 a1) / det).

  (** numpy.linalg.lstsq for two columns (used at
      /repo/skcurve/_intersect.py:500): the normal equations.  The callers
      guarantee independent columns, so the solution is unique. *)
  Definition lstsq2 (a1 a2 b : list T) : T * T :=
    let g11 := vdot a1 a1 in
    let g12 := vdot a1 a2 in
    let g22 := vdot a2 a2 in
    let h1 := vdot a1 b in
    let h2 := vdot a2 b in
    let det := g11 * g22 - g12 * g12 in
    ((h1 * g22 - g12 * h2) / det, (g11 * h2 - g12 * h1) / det).
End Vec.
