(** Model of /repo/skcurve/_numeric.py, /repo/skcurve/_utils.py and the
    numpy closeness test. *)

From Coq Require Import ZArith List Bool Arith.
From Verif Require Import Num Py.
Import ListNotations.
Local Open Scope num_scope.

(** dtypes: int64 or float64 (float32 and complex are not modelled);
    /repo/skcurve/_base.py:78 (DEFAULT_DTYPE = float64). *)
Inductive dtype : Type := DInt | DFloat.

(** np.issubdtype(dtype, np.integer): /repo/skcurve/_numeric.py:38. *)
Definition is_int (d : dtype) : bool :=
  match d with DInt => true | DFloat => false end.

(** numpy type promotion of two arrays (np.vstack in /repo/skcurve/_base.py:1346). *)
Definition promote (a b : dtype) : dtype :=
  match a, b with DInt, DInt => DInt | _, _ => DFloat end.

Section Closeness.
  Context {T : Type} {NT : Num T}.

  (** astype(dtype), as in /repo/skcurve/_base.py:1142. *)
  Definition cast (d : dtype) (x : T) : T :=
    match d with DInt => ntrunc x | DFloat => x end.

  (** numpy.isfinite
      Inside np.isclose, /repo/skcurve/_numeric.py:41. *)
  Definition isfinite (x : T) : bool := negb (nisnan x) && negb (nisinf x).

  (** numpy.isclose(a, b, rtol, atol) (used by /repo/skcurve/_numeric.py:41):
      |a - b| <= atol + rtol*|b| when both are finite, a == b otherwise. *)
  Definition isclose_tol (rtol atol a b : T) : bool :=
    if isfinite a && isfinite b
    then nabs (a - b) <=? atol + rtol * nabs b
    else a =? b.

  (** The numpy defaults rtol = 1e-05, atol = 1e-08.
      /repo/skcurve/_numeric.py:41. *)
  Definition rtol_default : T := nlit 1 100000.
  (** See /repo/skcurve/_numeric.py:41. *)
  Definition atol_default : T := nlit 1 100000000.

  (** np.isclose with the defaults: /repo/skcurve/_numeric.py:41, /repo/skcurve/_diffgeom.py:64, 159. *)
  Definition isclose (a b : T) : bool := isclose_tol rtol_default atol_default a b.

  (** isequal: /repo/skcurve/_numeric.py:15-43, one element. *)
  Definition isequal (d1 d2 : dtype) (a b : T) : bool :=
    if is_int d1 && is_int d2 then a =? b else isclose a b.

  (** allequal over two vectors of the same length:
      /repo/skcurve/_numeric.py:46-67 (np.all of the element-wise test).
      Vectors of different length would be broadcast or rejected by numpy;
      every caller compares vectors of one dimension, and here the result is
      False. *)
  Fixpoint allequal (d1 d2 : dtype) (u v : list T) : bool :=
    match u, v with
    | [], [] => true
    | a :: u', b :: v' => isequal d1 d2 a b && allequal d1 d2 u' v'
    | _, _ => false
    end.

  (** allequal over two MxN arrays (axis=None):
      /repo/skcurve/_numeric.py:46-67. *)
  Fixpoint allequal2 (d1 d2 : dtype) (r s : list (list T)) : bool :=
    match r, s with
    | [], [] => true
    | a :: r', b :: s' => allequal d1 d2 a b && allequal2 d1 d2 r' s'
    | _, _ => false
    end.

  (** linrescale: /repo/skcurve/_numeric.py:126-138 for given in_range and
      out_range (the default ranges are computed by the callers; out_dtype is
      left at None). *)
  Definition linrescale (in_data : list T) (in_range out_range : T * T) : list T :=
    let scaled := map (fun x => (x - fst in_range) / (snd in_range - fst in_range)) in_data in
    map (fun x => x * (snd out_range - fst out_range) + fst out_range) scaled.
End Closeness.
Local Close Scope num_scope.

(** ** N-dimensional arrays *)

Section NdArray.
  Context {T : Type} {NT : Num T}.

  (** A numpy array: shape and the elements in row-major (C) order.
      The argument of as2d, /repo/skcurve/_utils.py:6. *)
  Record ndarray : Type := mkNd { nd_shape : list nat; nd_flat : list T }.

  (** ndarray.size: /repo/skcurve/_utils.py:32, 43. *)
  Definition nd_size (a : ndarray) : nat := fold_right Nat.mul 1%nat (nd_shape a).
  (** ndarray.ndim: /repo/skcurve/_utils.py:36-41. *)
  Definition nd_ndim (a : ndarray) : nat := length (nd_shape a).

  (** Well-formed arrays: as many elements as the shape says.
      Every array given to as2d, /repo/skcurve/_utils.py:6, is. *)
  Definition nd_wf (a : ndarray) : Prop := length (nd_flat a) = nd_size a.
End NdArray.
Arguments ndarray T : clear implicits.

(** Row-major position of a multi-index in a shape (numpy C order).
    /repo/skcurve/_utils.py:45. *)
Fixpoint ravel (shape idx : list nat) : nat :=
  match shape, idx with
  | n :: shape', i :: idx' => i * fold_right Nat.mul 1 shape' + ravel shape' idx'
  | _, _ => 0
  end.

(** Multi-index at a row-major position.
    /repo/skcurve/_utils.py:45. *)
Fixpoint unravel (shape : list nat) (k : nat) : list nat :=
  match shape with
  | [] => []
  | n :: shape' =>
      let b := fold_right Nat.mul 1 shape' in
      (k / b) :: unravel shape' (k mod b)
  end.

(** list.insert(0, list.pop(a)) on a list: /repo/skcurve/_utils.py:42. *)
Definition move_front {A} (l : list A) (a : nat) : list A :=
  pick l [a] ++ firstn a l ++ skipn (S a) l.

(** The inverse permutation: the head goes back to place [a].
    /repo/skcurve/_utils.py:42-45. *)
Definition move_back {A} (l : list A) (a : nat) : list A :=
  match l with
  | [] => []
  | x :: l' => firstn a l' ++ x :: skipn a l'
  end.

(** Split a flat list into rows of length [n] (reshape to m rows).
    /repo/skcurve/_utils.py:45. *)
Fixpoint chunk {A} (m n : nat) (l : list A) : list (list A) :=
  match m with
  | O => []
  | S m' => firstn n l :: chunk m' n (skipn n l)
  end.

(** as2d: /repo/skcurve/_utils.py:6-45.  Result: rows and row length.
    [axis] still negative after the first wrap is passed on to list.pop /
    shape[...], which wrap it a second time (IndexError below -ndim).  The
    transpose+reshape of line 45 is the enumeration of the transposed array in
    row-major order. *)
Definition as2d {T} (a : ndarray T) (axis : Z) : res (list (list T) * nat) :=
  if Nat.eqb (nd_size a) 0 then Ok ([], 2)
  else
    let nd := Z.of_nat (nd_ndim a) in
    let ax := if (axis <? 0)%Z then (nd + axis)%Z else axis in
    if (nd <=? ax)%Z then Raise ValueError
    else match norm_index (nd_ndim a) ax with
         | None => Raise IndexError
         | Some k =>
             let shape' := move_front (nd_shape a) k in
             let m := nth k (nd_shape a) 0 in
             let n := nd_size a / m in
             let elem q := nth_error (nd_flat a)
                             (ravel (nd_shape a) (move_back (unravel shape' q) k)) in
             let flat := flat_map (fun q => match elem q with Some x => [x] | None => [] end)
                                  (seq 0 (nd_size a)) in
             Ok (chunk m n flat, n)
         end.
