(** Model of iteration over curves and points.  Point and Curve inherit from
    collections.abc.Sequence (/repo/skcurve/_base.py:94, 988) and define neither
    __iter__ nor __reversed__, so that the mixin methods of the standard library
    are used. *)

From Coq Require Import ZArith List Bool Arith.
From Verif Require Import Num Py Numeric Curve Point.
Import ListNotations.

Section Iter.
  Context {A : Type}.

  (** The state of an iteration that was asked for some number of items: the
      items delivered so far, and whether it has ended (None: it has not; an
      exception other than IndexError leaves the loop).
      /repo/skcurve/_base.py:94, 988. *)
  Inductive istate : Type := Running | Ended | Failed (e : exn).

  (** Sequence.__iter__: i = 0; while True: yield self[i]; i += 1, where an
      IndexError ends the iteration.  [iter_steps get k i]: what [k] calls of
      next() deliver when the counter is [i].  /repo/skcurve/_base.py:94, 988. *)
  Fixpoint iter_steps (get : Z -> res A) (k : nat) (i : Z) : list A * istate :=
    match k with
    | O => ([], Running)
    | S k' => match get i with
              | Ok v => let '(vs, s) := iter_steps get k' (i + 1)%Z in (v :: vs, s)
              | Raise IndexError => ([], Ended)
              | Raise e => ([], Failed e)
              end
    end.

  (** Sequence.__reversed__: for i in reversed(range(len(self))): yield self[i].
      /repo/skcurve/_base.py:94, 988. *)
  Definition iter_reversed (get : Z -> res A) (len : nat) : res (list A) :=
    rseq (map (fun k => get (Z.of_nat k)) (rev (seq 0 len))).
End Iter.

Section Objects.
  Context {T : Type} {NT : Num T}.

  (** [k] steps of iter(curve): /repo/skcurve/_base.py:988, 1203-1250. *)
  Definition curve_iter (c : curve T) (k : nat) : list (Z * list T) * istate :=
    iter_steps (getitem_int c) k 0.

  (** list(reversed(curve)): /repo/skcurve/_base.py:988, 1179-1189. *)
  Definition curve_reversed (c : curve T) : res (list (Z * list T)) :=
    iter_reversed (getitem_int c) (c_size c).

  (** [k] steps of iter(point): /repo/skcurve/_base.py:94, 173-200. *)
  Definition point_iter (p : point T) (k : nat) : list (value T) * istate :=
    iter_steps (fun i => p_getitem p (IxInt i)) k 0.

  (** list(reversed(point)): /repo/skcurve/_base.py:94, 158-168. *)
  Definition point_reversed (p : point T) : res (list (value T)) :=
    iter_reversed (fun i => p_getitem p (IxInt i)) (p_ndim p).
End Objects.
