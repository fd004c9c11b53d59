(** Programs over curves: a store of curve objects and the operations that
    create new curves from stored ones.  Curves are never changed in place by
    these operations (/repo/skcurve/_base.py builds a new Curve each time), so
    the store only grows. *)

From Coq Require Import ZArith List Bool Arith.
From Verif Require Import Num Py Numeric Curve.
Import ListNotations.

Section Program.
  Context {T : Type} {NT : Num T} {ST : NumSqrt T}.

  (** One call of the public API; a [nat] refers to a curve created earlier.
      Constructor: /repo/skcurve/_base.py:1095-1168; the others are cited at
      the functions of Curve.v they run. *)
  Inductive op : Type :=
  | ONewArray (a : ndarray T) (dt : dtype) (tdata : option (ndarray T)) (axis ndmin : option Z) (d : option dtype)
  | ONewSeq (a : ndarray T) (tdata : option (ndarray T)) (axis ndmin : option Z) (d : option dtype)
  | ONewCurve (h : nat) (tdata : option (ndarray T)) (axis ndmin : option Z) (d : option dtype)
  | OSlice (h : nat) (s : slice)
  | OList (h : nat) (ix : list Z)
  | OMask (h : nat) (m : list bool)
  | OSub (h : nat) (i j : Z) (endpoint : bool)
  | OAdd (h1 h2 : nat)
  | OReverse (h : nat)
  | OInsertPoint (h : nat) (ix : indexer) (p : list T)
  | OInsertCurve (h : nat) (ix : indexer) (h2 : nat)
  | OAppendPoint (h : nat) (p : list T)
  | OAppendCurve (h : nat) (h2 : nat)
  | ODelete (h : nat) (ix : indexer)
  | OInsertDim (h : nat) (axis : Z) (vals : option (list T))
  | OAppendDim (h : nat) (vals : option (list T))
  | ODeleteDim (h : nat) (ix : indexer)
  | OUnique (h : nat)
  | ODrop (h : nat) (isa : list (list T) -> drop_spec)
  | ONonsingular (h : nat)
  | OCopy (h : nat)
  | OCoorient (h : nat) (a1 a2 : Z).

  (** Dereference (a dangling reference is a Python NameError). *)
  Definition deref (st : list (curve T)) (h : nat) : res (curve T) :=
    match nth_error st h with Some c => Ok c | None => Raise NameError end.

  (** The result of one call (dispatch to the functions of Curve.v, see the
      citations there). *)
  Definition exec (st : list (curve T)) (o : op) : res (curve T) :=
    match o with
    | ONewArray a dt td ax nm d => curve_init (SArray a dt) td ax nm d
    | ONewSeq a td ax nm d => curve_init (SSeq a) td ax nm d
    | ONewCurve h td ax nm d => do c <- deref st h ; curve_init (SCurve c) td ax nm d
    | OSlice h s => do c <- deref st h ; getitem_slice c s
    | OList h ix => do c <- deref st h ; getitem_list c ix
    | OMask h m => do c <- deref st h ; getitem_mask c m
    | OSub h i j e => do c <- deref st h ; subcurve c i j e
    | OAdd h1 h2 => do c <- deref st h1 ; do c2 <- deref st h2 ; c_add c c2
    | OReverse h => do c <- deref st h ; c_reverse c
    | OInsertPoint h ix p => do c <- deref st h ; c_insert c ix (IPoint p)
    | OInsertCurve h ix h2 => do c <- deref st h ; do c2 <- deref st h2 ; c_insert c ix (ICurve c2)
    | OAppendPoint h p => do c <- deref st h ; c_append c (IPoint p)
    | OAppendCurve h h2 => do c <- deref st h ; do c2 <- deref st h2 ; c_append c (ICurve c2)
    | ODelete h ix => do c <- deref st h ; c_delete c ix
    | OInsertDim h a v => do c <- deref st h ; c_insertdim c a v
    | OAppendDim h v => do c <- deref st h ; c_appenddim c v
    | ODeleteDim h ix => do c <- deref st h ; c_deletedim c ix
    | OUnique h => do c <- deref st h ; c_unique c
    | ODrop h isa => do c <- deref st h ; c_drop c isa
    | ONonsingular h => do c <- deref st h ; c_nonsingular c
    | OCopy h => do c <- deref st h ; c_copy c
    | OCoorient h a1 a2 => do c <- deref st h ; c_coorientplane c a1 a2
    end.

  (** A failing call leaves the store alone; a successful one adds its result. *)
  Definition step (st : list (curve T)) (o : op) : list (curve T) :=
    match exec st o with Ok c => st ++ [c] | Raise _ => st end.

  (** Run a program from the empty store. *)
  Definition run (prog : list op) : list (curve T) := fold_left step prog [].

  (** numpy arrays have as many elements as their shape says. *)
  Definition valid_op (o : op) : Prop :=
    match o with
    | ONewArray a _ td _ _ _ | ONewSeq a td _ _ _ =>
        nd_wf a /\ (forall t, td = Some t -> nd_wf t)
    | ONewCurve _ td _ _ _ => forall t, td = Some t -> nd_wf t
    | _ => True
    end.
End Program.
Arguments op T : clear implicits.
