(** Singular values and distances of point sets from lines and planes, for the
    statements of C89; independent of the model. *)
From Coq Require Import List Arith Reals.
From Verif Require Import GeomSpec.
Import ListNotations.
Local Open Scope R_scope.

Definition entry (M : list (list R)) (i j : nat) : R := nth j (nth i M []) 0.

(** An m x n matrix, given by its rows. *)
Definition shape (m n : nat) (M : list (list R)) : Prop := length M = m /\ dims n M.

Definition sum_below (k : nat) (f : nat -> R) : R := fold_right Rplus 0 (map f (seq 0 k)).

(** Unit vectors of dimension n, orthogonal to each other. *)
Definition orthonormal (n : nat) (vs : list (list R)) : Prop :=
  dims n vs /\ forall i j, (i < length vs)%nat -> (j < length vs)%nat ->
    inner (nth i vs []) (nth j vs []) = if Nat.eqb i j then 1 else 0.

(** [s] are the singular values of M: M = U diag(s) V^T with orthonormal columns
    in U and V, s decreasing and not negative. *)
Definition singular_values (m n : nat) (M : list (list R)) (s : list R) : Prop :=
  length s = Nat.min m n /\
  (forall i j, (i <= j)%nat -> (j < length s)%nat -> 0 <= nth j s 0 <= nth i s 0) /\
  exists us vs, length us = length s /\ length vs = length s /\ orthonormal m us /\ orthonormal n vs /\
    forall i j, (i < m)%nat -> (j < n)%nat ->
      entry M i j = sum_below (length s) (fun k => nth k s 0 * entry us k i * entry vs k j).

(** What numpy.linalg.svd promises. *)
Definition correct_svd (svd : list (list R) -> list R) : Prop :=
  forall m n M, shape m n M -> singular_values m n M (svd M).

(** The sum of the squares of the components of the points in direction [x]. *)
Definition along_sq (pts : list (list R)) (x : list R) : R :=
  fold_right Rplus 0 (map (fun p => inner p x * inner p x) pts).

Definition minus_all (ps qs : list (list R)) : list (list R) :=
  map (fun pq => minus (fst pq) (snd pq)) (combine ps qs).

(** The points [qs] are approximations of the points [ps]: in every direction,
    the root of the sum of the squared errors is at most d. *)
Definition within (n : nat) (ps qs : list (list R)) (d : R) : Prop :=
  length qs = length ps /\ dims n qs /\
  forall x, length x = n -> along_sq (minus_all ps qs) x <= d * d * inner x x.

(** The largest extension of the points, seen from the origin. *)
Definition extension (n : nat) (pts : list (list R)) (e : R) : Prop :=
  0 <= e /\ (forall x, length x = n -> along_sq pts x <= e * e * inner x x) /\
  exists x, length x = n /\ inner x x = 1 /\ along_sq pts x = e * e.

(** All points lie in one plane through the origin. *)
Definition in_plane_through_origin (n : nat) (pts : list (list R)) : Prop :=
  exists u v, length u = n /\ length v = n /\
    forall x, In x pts -> exists s t, forall i, nth i x 0 = s * nth i u 0 + t * nth i v 0.

(** The tolerance: the given one, or the extension times the larger side of the
    matrix times 2^-52. *)
Definition tolerance (n : nat) (pts : list (list R)) (tol : option R) (d : R) : Prop :=
  match tol with
  | Some t => d = t
  | None => exists e, extension n pts e /\ d = e * INR (Nat.max (length pts) n) / 2 ^ 52
  end.

(** The points relative to the last one. *)
Definition relative (pts : list (list R)) : list (list R) := map (fun p => minus p (last pts [])) (removelast pts).

(** The rows are combinations of k vectors. *)
Definition rank_at_most (n k : nat) (B : list (list R)) : Prop :=
  exists bs, length bs = k /\ dims n bs /\
    forall b, In b B -> exists cs, forall i, nth i b 0 = sum_below k (fun j => nth j cs 0 * entry bs j i).

(** c times the point. *)
Definition times (c : R) (p : list R) : list R := map (fun a => c * a) p.
