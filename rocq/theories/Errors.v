(** The failure table: which calls of Program.v raise which exception, written
    as conditions on the arguments and on the curves they refer to (number of
    points, number of coordinates), without running the model. *)

From Coq Require Import ZArith List Bool Arith.
From Verif Require Import Num Py Numeric Curve Program Spec.
Import ListNotations.

(** An index outside an axis of length [n] (the numpy rule -n <= i < n,
    /repo/skcurve/_base.py:410, 1230-1233). *)
Definition outside (n : nat) (i : Z) : Prop := (i < - Z.of_nat n \/ Z.of_nat n <= i)%Z.

(** Selecting or deleting with an indexer on an axis of length [n]:
    /repo/skcurve/_base.py:1849-1853, 2029. *)
Definition index_fails (n : nat) (ix : indexer) (e : exn) : Prop :=
  match ix with
  | IxInt i => outside n i /\ e = IndexError
  | IxSlice s => s_step s = Some 0%Z /\ e = ValueError
  | IxList l => Exists (outside n) l /\ e = IndexError
  end.

(** Inserting [k] points at an indexer into [n] points:
    /repo/skcurve/_base.py:1762.  An index may also be [n].  Several indices
    take one point each, or share a single one. *)
Definition insert_fails (n k : nat) (ix : indexer) (e : exn) : Prop :=
  match ix with
  | IxInt i => (i < - Z.of_nat n \/ Z.of_nat n < i)%Z /\ e = IndexError
  | IxSlice s =>
      e = ValueError /\
      (s_step s = Some 0%Z \/
       (length (slice_spec s n) <> 1 /\ k <> 1 /\ k <> length (slice_spec s n)))
  | IxList l =>
      (Exists (fun i => i < - Z.of_nat n \/ Z.of_nat n < i)%Z l /\ e = IndexError) \/
      (Forall (fun i => - Z.of_nat n <= i <= Z.of_nat n)%Z l /\
       length l <> 1 /\ k <> 1 /\ k <> length l /\ e = ValueError)
  end.

(** Several indices of which one is below -n: the only argument the table
    leaves out (C65_index_error_low_refuted shows why; /repo/skcurve/_base.py:1762). *)
Definition low_list (n : nat) (ix : indexer) : Prop :=
  match ix with
  | IxList l => length l <> 1 /\ Exists (fun i => i < - Z.of_nat n)%Z l
  | _ => False
  end.

(** Which axis of an array of [nd] dimensions an axis argument names
    (/repo/skcurve/_utils.py:28-45; negative numbers may wrap twice). *)
Definition names_axis (nd : nat) (axis : Z) (k : nat) : Prop :=
  k < nd /\ (axis = Z.of_nat k \/ axis = Z.of_nat k - Z.of_nat nd
             \/ axis = Z.of_nat k - 2 * Z.of_nat nd)%Z.

(** A parameter array that does not fit [m] points: /repo/skcurve/_base.py:1155-1163. *)
Definition bad_tdata {T} (m : nat) (td : option (ndarray T)) : Prop :=
  exists t, td = Some t /\ (nd_ndim t <> 1 \/ nd_size t <> m).

(** Construction from an array: /repo/skcurve/_base.py:1095-1168,
    /repo/skcurve/_utils.py:6-45. *)
Definition new_fails {T} (a : ndarray T) (td : option (ndarray T)) (axis : Z) (ndmin : option Z) (e : exn) : Prop :=
  (exists k, ndmin = Some k /\ (k < 2)%Z /\ e = ValueError) \/
  ((forall k, ndmin = Some k -> (2 <= k)%Z) /\
   ((nd_size a = 0 /\ bad_tdata 0 td /\ e = ValueError) \/
    (nd_size a <> 0 /\
     (((Z.of_nat (nd_ndim a) <= axis)%Z /\ e = ValueError) \/
      ((axis < -2 * Z.of_nat (nd_ndim a))%Z /\ e = IndexError) \/
      (exists k m, names_axis (nd_ndim a) axis k /\ nth_error (nd_shape a) k = Some m /\
         (nd_size a = m \/ bad_tdata m td) /\ e = ValueError))))).

(** What a checker given to drop may return: /repo/skcurve/_base.py:2107-2121. *)
Definition drop_fails (n : nat) (d : drop_spec) (e : exn) : Prop :=
  match d with
  | DropMask m => length m <> n /\ e = IndexError
  | DropMask2 mm => length mm <> n /\ e = IndexError
  | DropIndices l => Exists (outside n) l /\ e = IndexError
  | DropNumeric2 => e = ValueError
  end.

(** The number of coordinates an indexer leaves of [n]:
    /repo/skcurve/_base.py:2027-2030. *)
Definition left_over (n : nat) (ix : indexer) (k : nat) : Prop :=
  exists ks : list nat, NoDup ks /\ length ks = k /\
    forall j, In j ks <-> (j < n /\ ~ addressed ix n j).

Section Table.
  Context {T : Type}.

  (** A property of the curve a handle refers to; a dangling handle is a
      NameError (an unbound variable in a program of Program.v, which runs the
      methods of /repo/skcurve/_base.py:1095-2301). *)
  Definition with_curve (st : list (curve T)) (h : nat) (e : exn) (P : curve T -> Prop) : Prop :=
    match nth_error st h with
    | None => e = NameError
    | Some c => P c
    end.

  (** Curve.insert and Curve.append: /repo/skcurve/_base.py:1751-1766, 1804. *)
  Definition put_fails (c : curve T) (ix : indexer) (ndim k : nat) (e : exn) : Prop :=
    (c_ndim c <> ndim /\ e = ValueError) \/
    (c_ndim c = ndim /\ insert_fails (length (c_rows c)) k ix e).

  (** Curve.insertdim and Curve.appenddim: /repo/skcurve/_base.py:1937-1946, 1984. *)
  Definition dim_fails (c : curve T) (axis : Z) (v : option (list T)) (e : exn) : Prop :=
    ((axis < - Z.of_nat (c_ndim c) \/ Z.of_nat (c_ndim c) < axis)%Z /\ e = IndexError) \/
    ((- Z.of_nat (c_ndim c) <= axis <= Z.of_nat (c_ndim c))%Z /\ e = ValueError /\
     exists l, v = Some l /\ length l <> 1 /\ length l <> length (c_rows c)).

  (** The table: [fails st o e] says that the call [o] in the store [st] raises
      [e].  The code behind each row is cited at the function of Curve.v that
      Program.exec runs for it; the raise statements are at
      /repo/skcurve/_base.py:1113, 1150, 1161, 1163, 1765, 1857, 1945, 2025, 2032, 2111, 2301 and
      /repo/skcurve/_utils.py:39, the others come from numpy and Python. *)
  Definition fails (st : list (curve T)) (o : op T) (e : exn) : Prop :=
    match o with
    | ONewArray a _ td ax nm _ => new_fails a td (match ax with None => 0%Z | Some k => k end) nm e
    | ONewSeq a td ax nm _ => new_fails a td (match ax with None => 1%Z | Some k => k end) nm e
    | ONewCurve h _ _ nm _ => with_curve st h e (fun _ => exists k, nm = Some k /\ (k < 2)%Z /\ e = ValueError)
    | OSlice h s => with_curve st h e (fun _ => s_step s = Some 0%Z /\ e = ValueError)
    | OList h ix => with_curve st h e (fun c => Exists (outside (length (c_rows c))) ix /\ e = IndexError)
    | OMask h m => with_curve st h e (fun c => length m <> length (c_rows c) /\ e = IndexError)
    | OAdd h1 h2 => with_curve st h1 e (fun c => with_curve st h2 e (fun c2 => c_ndim c <> c_ndim c2 /\ e = ValueError))
    | OInsertPoint h ix p => with_curve st h e (fun c => put_fails c ix (length p) 1 e)
    | OInsertCurve h ix h2 =>
        with_curve st h e (fun c => with_curve st h2 e (fun c2 => put_fails c ix (c_ndim c2) (length (c_rows c2)) e))
    | OAppendPoint h p => with_curve st h e (fun c => c_ndim c <> length p /\ e = ValueError)
    | OAppendCurve h h2 => with_curve st h e (fun c => with_curve st h2 e (fun c2 => c_ndim c <> c_ndim c2 /\ e = ValueError))
    | ODelete h ix => with_curve st h e (fun c => index_fails (length (c_rows c)) ix e)
    | OInsertDim h a v => with_curve st h e (fun c => dim_fails c a v e)
    | OAppendDim h v => with_curve st h e (fun c => dim_fails c (Z.of_nat (c_ndim c)) v e)
    | ODeleteDim h ix => with_curve st h e (fun c =>
        (c_ndim c = 2 /\ e = ValueError) \/
        (c_ndim c <> 2 /\ index_fails (c_ndim c) ix e) \/
        (c_ndim c <> 2 /\ (forall e', ~ index_fails (c_ndim c) ix e') /\
         c_rows c <> [] /\ left_over (c_ndim c) ix 1 /\ e = ValueError))
    | ODrop h isa => with_curve st h e (fun c => drop_fails (length (c_rows c)) (isa (c_rows c)) e)
    | ONonsingular h => with_curve st h e (fun c => c_rows c = [] /\ e = ValueError)
    | OCoorient h a1 a2 => with_curve st h e (fun c =>
        2 <= length (c_rows c) /\ (outside (c_ndim c) a1 \/ outside (c_ndim c) a2) /\ e = IndexError)
    | OSub h _ _ _ | OReverse h | OUnique h | OCopy h => with_curve st h e (fun _ => False)
    end.

  (** The calls the table covers: all but an insertion at several indices one of
      which is below minus the number of points (/repo/skcurve/_base.py:1762). *)
  Definition covered (st : list (curve T)) (o : op T) : Prop :=
    match o with
    | OInsertPoint h ix _ | OInsertCurve h ix _ =>
        forall c, nth_error st h = Some c -> ~ low_list (length (c_rows c)) ix
    | _ => True
    end.
End Table.
