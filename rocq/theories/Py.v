(** Python run-time notions shared by all modules: exceptions, sequence
    indexing, slices, and the numpy selection / deletion / insertion
    primitives used by /repo/skcurve. *)

From Coq Require Import ZArith List Bool Arith Lia.
Import ListNotations.

(** ** Exceptions *)

(** The exception classes raised by the modelled code.  The library's own are
    IntersectionError (_intersect.py:45), InterpolationError
    (_interpolate.py:43) and SmoothingError (_smooth.py:24-26).
    Messages and exception chaining are not modelled.
    /repo/skcurve/_intersect.py:45, /repo/skcurve/_interpolate.py:43, /repo/skcurve/_smooth.py:24. *)
Inductive exn : Type :=
| ValueError | TypeError | IndexError | NameError | OtherError
| IntersectionError | InterpolationError | SmoothingError | NotImplementedError.

(** Outcome of a call: a value or a raised exception.
    For instance return and raise at /repo/skcurve/_base.py:1765-1766. *)
Inductive res (A : Type) : Type :=
| Ok (a : A)
| Raise (e : exn).
Arguments Ok {A} a.
Arguments Raise {A} e.

(** Sequencing of two statements, as at /repo/skcurve/_base.py:1751-1762. *)
Definition rbind {A B} (r : res A) (f : A -> res B) : res B :=
  match r with Ok a => f a | Raise e => Raise e end.

(** A statement that cannot fail after one that can, as at /repo/skcurve/_base.py:938-941. *)
Definition rmap {A B} (f : A -> B) (r : res A) : res B :=
  match r with Ok a => Ok (f a) | Raise e => Raise e end.

Notation "'do' x <- r ; f" := (rbind r (fun x => f))
  (at level 200, x pattern, r at level 100, f at level 200).

(** Evaluate a list of calls from left to right, stopping at the first
    exception.
    List comprehensions, as at /repo/skcurve/_base.py:1637. *)
Fixpoint rseq {A} (l : list (res A)) : res (list A) :=
  match l with
  | [] => Ok []
  | r :: l' =>
      match r with
      | Raise e => Raise e
      | Ok a => match rseq l' with Raise e => Raise e | Ok l'' => Ok (a :: l'') end
      end
  end.

(** ** Indexing *)

(** Bounds check and wrap of one integer index against an axis of length [n]
    (numpy/Python rule: valid iff -n <= i < n, negatives count from the end).
    /repo/skcurve/_base.py:403-410, 1235-1236. *)
Definition norm_index (n : nat) (i : Z) : option nat :=
  if ((i <? - Z.of_nat n) || (Z.of_nat n <=? i))%Z then None
  else Some (Z.to_nat (if (i <? 0)%Z then i + Z.of_nat n else i)%Z).

(** arr[i] with an integer index.
    /repo/skcurve/_base.py:410, 464; /repo/skcurve/_diffgeom.py:212. *)
Definition np_get {A} (l : list A) (i : Z) : res A :=
  match norm_index (length l) i with
  | None => Raise IndexError
  | Some k => match nth_error l k with Some a => Ok a | None => Raise IndexError end
  end.

(** arr[[i0; i1; ...]] along the first axis.
    /repo/skcurve/_base.py:1230-1233, 2058-2062. *)
Definition np_take {A} (l : list A) (ix : list Z) : res (list A) :=
  rseq (map (np_get l) ix).

(** ** Slices *)

(** slice(start, stop, step); None components are omitted ones.
    /repo/skcurve/_base.py:495, 1238-1239, 1385. *)
Record slice : Type := mkSlice {
  s_start : option Z;
  s_stop : option Z;
  s_step : option Z
}.

(** CPython's slice.indices(n) (PySlice_AdjustIndices): the resolved
    (start, stop, step).  A zero step raises ValueError.
    /repo/skcurve/_base.py:495, 1238-1239, 1385. *)
Definition slice_indices (s : slice) (n : nat) : res (Z * Z * Z) :=
  let len := Z.of_nat n in
  let step := match s_step s with None => 1%Z | Some k => k end in
  if (step =? 0)%Z then Raise ValueError
  else
    let lower := if (step <? 0)%Z then (-1)%Z else 0%Z in
    let upper := if (step <? 0)%Z then (len - 1)%Z else len in
    let clamp (x : Z) : Z :=
      if (x <? 0)%Z then (if (x + len <? lower)%Z then lower else (x + len)%Z)
      else (if (upper <? x)%Z then upper else x) in
    let start := match s_start s with
                 | None => if (step <? 0)%Z then upper else lower
                 | Some x => clamp x end in
    let stop := match s_stop s with
                | None => if (step <? 0)%Z then lower else upper
                | Some x => clamp x end in
    Ok (start, stop, step).

(** Length of range(start, stop, step).
    /repo/skcurve/_base.py:1238-1239. *)
Definition range_len (start stop step : Z) : nat :=
  if (0 <? step)%Z
  then (if (start <? stop)%Z then Z.to_nat ((stop - start - 1) / step + 1) else 0)
  else (if (stop <? start)%Z then Z.to_nat ((start - stop - 1) / (- step) + 1) else 0).

(** range(start, stop, step) as a list.
    /repo/skcurve/_base.py:1238-1239. *)
Definition range_list (start stop step : Z) : list Z :=
  map (fun k => (start + Z.of_nat k * step)%Z) (seq 0 (range_len start stop step)).

(** Positions selected by a slice on an axis of length n.
    /repo/skcurve/_base.py:1238-1239, 1385. *)
Definition slice_positions (s : slice) (n : nat) : res (list nat) :=
  rmap (fun '(a, b, k) => map Z.to_nat (range_list a b k)) (slice_indices s n).

(** The elements of [l] at the positions [ps] (positions past the end, which
    no caller produces, are skipped).
    /repo/skcurve/_base.py:1230-1233. *)
Definition pick {A} (l : list A) (ps : list nat) : list A :=
  flat_map (fun k => match nth_error l k with Some a => [a] | None => [] end) ps.

(** arr[start:stop:step] along the first axis.
    /repo/skcurve/_base.py:1230-1233, 1385. *)
Definition np_slice {A} (l : list A) (s : slice) : res (list A) :=
  rmap (pick l) (slice_positions s (length l)).

(** arr[mask] along the first axis with a boolean mask; numpy requires equal
    lengths.
    /repo/skcurve/_base.py:1230-1233, 2121. *)
Fixpoint mask_select {A} (l : list A) (m : list bool) : list A :=
  match l, m with
  | a :: l', b :: m' => if b then a :: mask_select l' m' else mask_select l' m'
  | _, _ => []
  end.

(** /repo/skcurve/_base.py:1230-1233, 2121. *)
Definition np_mask {A} (l : list A) (m : list bool) : res (list A) :=
  if Nat.eqb (length l) (length m) then Ok (mask_select l m) else Raise IndexError.

(** ** Indexers *)

(** The index arguments accepted by Curve.delete / numpy.delete /
    numpy.insert: an integer, a slice, or an integer array (a mask is modelled
    separately).
    /repo/skcurve/_base.py:1695, 1806, 1986. *)
Inductive indexer : Type :=
| IxInt (i : Z)
| IxSlice (s : slice)
| IxList (l : list Z).

(** Resolve a list of integer indices against an axis of length [n].
    /repo/skcurve/_base.py:1849-1853, 2029. *)
Definition norm_indices (n : nat) (ix : list Z) : res (list nat) :=
  rseq (map (fun i => match norm_index n i with
                      | Some k => Ok k | None => Raise IndexError end) ix).

(** The positions an indexer addresses on an axis of length [n].
    /repo/skcurve/_base.py:1849-1853, 2029. *)
Definition indexer_positions (ix : indexer) (n : nat) : res (list nat) :=
  match ix with
  | IxInt i => norm_indices n [i]
  | IxSlice s => slice_positions s n
  | IxList l => norm_indices n l
  end.

(** Membership test inside np.delete, /repo/skcurve/_base.py:1849-1853. *)
Definition mem_nat (k : nat) (l : list nat) : bool := existsb (Nat.eqb k) l.

(** The keep-mask numpy.delete builds: True everywhere except at the addressed
    positions.
    /repo/skcurve/_base.py:1849-1853. *)
Definition keep_mask (n : nat) (ps : list nat) : list bool :=
  map (fun k => negb (mem_nat k ps)) (seq 0 n).

(** numpy.delete(arr, ix) along the first axis (numpy 1.19 - 1.23 semantics:
    negative indices wrap, out-of-bounds ones raise IndexError).
    /repo/skcurve/_base.py:1849-1853, 2029. *)
Definition np_delete {A} (l : list A) (ix : indexer) : res (list A) :=
  rmap (fun ps => mask_select l (keep_mask (length l) ps))
       (indexer_positions ix (length l)).

(** numpy.insert(arr, i, values) along the first axis for one integer index:
    -n <= i <= n, negatives count from the end.
    /repo/skcurve/_base.py:1762, 1942. *)
Definition np_insert {A} (l : list A) (i : Z) (values : list A) : res (list A) :=
  let n := Z.of_nat (length l) in
  if ((i <? - n) || (n <? i))%Z then Raise IndexError
  else
    let k := Z.to_nat (if (i <? 0)%Z then i + n else i)%Z in
    Ok (firstn k l ++ values ++ skipn k l).

(** numpy.insert with several indices (anything but exactly one):
    negatives wrap once, the index of rank r in stable ascending order is
    shifted by r, the shifted positions receive the values (one row is
    broadcast), the other positions receive the old elements in order.
    /repo/skcurve/_base.py:1762. *)
Definition insert_rank (ix : list Z) (p : nat) (i : Z) : nat :=
  length (filter (fun '(q, j) => ((j <? i) || ((j =? i) && (Z.of_nat q <? Z.of_nat p)))%Z)
                 (combine (seq 0 (length ix)) ix)).

(** The final positions of the inserted values (see [np_insert_many]).
    /repo/skcurve/_base.py:1762. *)
Definition insert_finals (n : nat) (ix : list Z) : res (list nat) :=
  let wrapped := map (fun i => if (i <? 0)%Z then (i + Z.of_nat n)%Z else i) ix in
  let shifted := map (fun '(p, i) => (i + Z.of_nat (insert_rank wrapped p i))%Z)
                     (combine (seq 0 (length ix)) wrapped) in
  norm_indices (n + length ix) shifted.

(** Position of the last occurrence of [p] in [l] (later writes win).
    /repo/skcurve/_base.py:1762. *)
Fixpoint last_pos (p : nat) (l : list nat) (from : nat) : option nat :=
  match l with
  | [] => None
  | x :: l' => match last_pos p l' (S from) with
               | Some q => Some q
               | None => if Nat.eqb x p then Some from else None
               end
  end.

(** The interleaving performed by new[indices] = values; new[old_mask] = arr.
    /repo/skcurve/_base.py:1762. *)
Definition weave {A} (l : list A) (finals : list nat) (values : list A) : list A :=
  flat_map (fun p =>
    match last_pos p finals 0 with
    | Some q => match nth_error values q with Some v => [v] | None => [] end
    | None =>
        match nth_error l (p - length (filter (fun f => Nat.ltb f p) finals)) with
        | Some a => [a] | None => [] end
    end) (seq 0 (length l + length finals)).

(** Has duplicates? (then old_mask has too many True entries and numpy raises
    ValueError on the shape mismatch).
    /repo/skcurve/_base.py:1762. *)
Fixpoint nodupb (l : list nat) : bool :=
  match l with [] => true | x :: l' => negb (mem_nat x l') && nodupb l' end.

(** numpy.insert with several indices, as described above: /repo/skcurve/_base.py:1762. *)
Definition np_insert_many {A} (l : list A) (ix : list Z) (values : list A) : res (list A) :=
  do finals <- insert_finals (length l) ix ;
  do vals <- (if Nat.eqb (length values) (length ix) then Ok values
              else match values with
                   | [v] => Ok (repeat v (length ix))
                   | _ => Raise ValueError
                   end) ;
  if nodupb finals then Ok (weave l finals vals) else Raise ValueError.

(** numpy.insert(arr, ix, values) along the first axis, any indexer.
    /repo/skcurve/_base.py:1762. *)
Definition np_insert_ix {A} (l : list A) (ix : indexer) (values : list A) : res (list A) :=
  let go (js : list Z) :=
    match js with
    | [i] => np_insert l i values
    | _ => np_insert_many l js values
    end in
  match ix with
  | IxInt i => np_insert l i values
  | IxList js => go js
  | IxSlice s => do ps <- slice_positions s (length l) ; go (map Z.of_nat ps)
  end.
