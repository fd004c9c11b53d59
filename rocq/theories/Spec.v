(** Specifications of the container operations, written without the helper
    functions of the model: relations on plain lists. *)

From Coq Require Import ZArith List Bool Arith.
From Verif Require Import Num Py Numeric Curve.
Import ListNotations.

(** [l'] lists the elements of [l] found at the positions [ks]. *)
Definition at_positions {A} (l : list A) (ks : list nat) (l' : list A) : Prop :=
  Forall2 (fun k a => nth_error l k = Some a) ks l'.

(** The same for optional parameter vectors: both absent, or both present and
    selected at the same positions. *)
Definition at_positions_opt {A} (t : option (list A)) (ks : list nat) (t' : option (list A)) : Prop :=
  match t, t' with
  | None, None => True
  | Some a, Some a' => at_positions a ks a'
  | _, _ => False
  end.

(** A well-formed curve: at least two dimensions, every point has [ndim]
    coordinates, one parameter per point. *)
Definition wf {T} (c : curve T) : Prop :=
  2 <= c_ndim c
  /\ (forall p, In p (c_rows c) -> length p = c_ndim c)
  /\ (forall t, c_t c = Some t -> length t = length (c_rows c)).

(** Python's positions of l[start:stop:step] for a list of length n, as the
    language reference puts it: for a positive step the indices k with
    lo <= k < hi and k = lo + j*step, ascending, where omitted bounds are 0 and
    n, negative bounds have n added, and the bounds are clipped to [0, n];
    for a negative step the indices k with hi < k <= lo and k = lo - j*|step|,
    descending, with bounds clipped to [-1, n-1]. *)
Definition clip (lo hi x : Z) : Z := Z.max lo (Z.min hi x).

Definition bound (n : Z) (lo hi dflt : Z) (x : option Z) : Z :=
  match x with
  | None => dflt
  | Some v => clip lo hi (if (v <? 0)%Z then v + n else v)%Z
  end.

Definition slice_spec (s : slice) (n : nat) : list nat :=
  let len := Z.of_nat n in
  let step := match s_step s with None => 1%Z | Some k => k end in
  if (0 <? step)%Z then
    let lo := bound len 0 len 0 (s_start s) in
    let hi := bound len 0 len len (s_stop s) in
    filter (fun k => let z := Z.of_nat k in
                     (lo <=? z)%Z && (z <? hi)%Z && ((z - lo) mod step =? 0)%Z) (seq 0 n)
  else
    let lo := bound len (-1) (len - 1) (len - 1) (s_start s) in
    let hi := bound len (-1) (len - 1) (-1) (s_stop s) in
    rev (filter (fun k => let z := Z.of_nat k in
                     (hi <? z)%Z && (z <=? lo)%Z && ((lo - z) mod (- step) =? 0)%Z) (seq 0 n)).

(** Positions of [0..n-1] satisfying a test, ascending. *)
Definition positions (n : nat) (f : nat -> bool) : list nat := filter f (seq 0 n).

(** Python's meaning of one index: i or n+i. *)
Definition py_index (n : nat) (i : Z) (k : nat) : Prop :=
  (k < n)%nat /\ (i = Z.of_nat k \/ i = (Z.of_nat k - Z.of_nat n)%Z).

(** [c'] consists of the points (and parameters) of [c] at the positions [ks],
    in that order; dtype kept; dimension kept unless the result is empty. *)
Definition selects {T} (c : curve T) (ks : list nat) (c' : curve T) : Prop :=
  at_positions (c_rows c) ks (c_rows c')
  /\ at_positions_opt (c_t c) ks (c_t c')
  /\ c_dtype c' = c_dtype c
  /\ (ks <> [] -> c_ndim c' = c_ndim c).

(** The positions an indexer addresses on an axis of length n. *)
Definition addressed (ix : indexer) (n : nat) (k : nat) : Prop :=
  match ix with
  | IxInt i => py_index n i k
  | IxSlice s => In k (slice_spec s n)
  | IxList l => exists i, In i l /\ py_index n i k
  end.

(** All integers of an indexer are within range; a slice has a non-zero step. *)
Definition in_range (ix : indexer) (n : nat) : Prop :=
  match ix with
  | IxInt i => (- Z.of_nat n <= i < Z.of_nat n)%Z
  | IxSlice s => s_step s <> Some 0%Z
  | IxList l => forall i, In i l -> (- Z.of_nat n <= i < Z.of_nat n)%Z
  end.

(** Inserting [vals] into [l], the i-th value in front of the element found at
    position [ks_i] of the original list (position [length l]: after the last
    one): before each original element come the values aimed at it, in the
    order in which they are given. *)
Definition inserted {A} (l : list A) (ks : list nat) (vals : list A) : list A :=
  flat_map (fun j => map snd (filter (fun kv => Nat.eqb (fst kv) j) (combine ks vals))
                     ++ firstn 1 (skipn j l))
           (seq 0 (S (length l))).

(** Python's meaning of an index at which something is inserted: the position
    i (which may be n), or n+i for a negative i. *)
Definition insert_index (n : nat) (i : Z) (k : nat) : Prop :=
  (k <= n)%nat /\ (i = Z.of_nat k \/ ((i < 0)%Z /\ i = (Z.of_nat k - Z.of_nat n)%Z)).

(** Strictly ascending list of naturals. *)
Definition ascending (ks : list nat) : Prop :=
  forall i j a b, (i < j)%nat -> nth_error ks i = Some a -> nth_error ks j = Some b -> (a < b)%nat.

(** Horner evaluation of a multi-index: the position of element [idx] when the
    array of the given shape is listed with the last index running fastest. *)
Definition offset (shape idx : list nat) : nat :=
  fold_left (fun acc p => acc * fst p + snd p) (combine shape idx) 0.

(** The determinant of the coordinates [a] and [b] of two points. *)
Definition plane_det {T} {NT : Num T} (a b : nat) (p q : list T) : T :=
  nsub (nmul (nth a p n0) (nth b q n0)) (nmul (nth a q n0) (nth b p n0)).

(** Euclidean length of the chord between two points. *)
Fixpoint sq_gap {T} {NT : Num T} (p q : list T) : T :=
  match p, q with
  | a :: p', b :: q' => nadd (nmul (nsub b a) (nsub b a)) (sq_gap p' q')
  | _, _ => n0
  end.
Definition chord {T} {NT : Num T} {ST : NumSqrt T} (p q : list T) : T := nsqrt (sq_gap p q).

(** All coordinates are finite numbers. *)
Definition finite_point {T} {NT : Num T} (p : list T) : Prop :=
  forall x, In x p -> nisnan x = false /\ nisinf x = false.
