(** Curves of narrower integers: numpy's int8, int16, int32 and uint8, uint16, uint32.

    A curve made from an array keeps its dtype (/repo/skcurve/_base.py:1133), and
    chordlen works on the array itself: np.diff and ** 2 stay in the dtype of the
    data and wrap around, np.sum adds in 64 bits, np.sqrt gives binary64. *)
From Coq Require Import ZArith List Bool.
From Coq Require Import PrimFloat FloatOps SpecFloat.
From Verif Require Import Num Py Numeric Curve.
Import ListNotations.

(** An integer dtype: the number of bits and whether it is signed.
    /repo/skcurve/_base.py:1133-1137. *)
Record ity := mkIty { i_bits : Z; i_signed : bool }.

(** The number of this dtype that is [z] modulo 2^bits: np.diff, ** of
    /repo/skcurve/_diffgeom.py:91. *)
Definition iwrap (d : ity) (z : Z) : Z :=
  if i_signed d then ((z + 2 ^ (i_bits d - 1)) mod 2 ^ i_bits d - 2 ^ (i_bits d - 1))%Z
  else (z mod 2 ^ i_bits d)%Z.

(** The dtype in which np.sum adds (int64 or uint64, on Linux): /repo/skcurve/_diffgeom.py:91. *)
Definition sum_type (d : ity) : ity := mkIty 64 (i_signed d).

(** np.diff of two rows: /repo/skcurve/_diffgeom.py:91. *)
Fixpoint idiff (d : ity) (p q : list Z) : list Z :=
  match p, q with
  | a :: p', b :: q' => iwrap d (b - a) :: idiff d p' q'
  | _, _ => []
  end.

(** np.sum of a row: /repo/skcurve/_diffgeom.py:91. *)
Definition isum (d : ity) (l : list Z) : Z :=
  fold_right (fun x s => iwrap (sum_type d) (x + s)) 0%Z l.

(** The length of one chord: /repo/skcurve/_diffgeom.py:91. *)
Definition ichord (d : ity) (p q : list Z) : float :=
  PrimFloat.sqrt (f_of_Z (isum d (map (fun x => iwrap d (x * x)) (idiff d p q)))).

(** chordlen: /repo/skcurve/_diffgeom.py:88-91 (curves that are not empty). *)
Fixpoint ichordlen (d : ity) (rows : list (list Z)) : list float :=
  match rows with
  | p :: ((q :: _) as rest) => ichord d p q :: ichordlen d rest
  | _ => []
  end.

(** arclen: /repo/skcurve/_diffgeom.py:113-115. *)
Definition iarclen (d : ity) (rows : list (list Z)) : float := fold_right PrimFloat.add PrimFloat.zero (ichordlen d rows).

(** nonsingular: /repo/skcurve/_diffgeom.py:60-66; integers are never NaN or Inf. *)
Definition inonsingular (d : ity) (c : curve Z) : res (curve Z) :=
  if negb (c_bool c) then Raise ValueError
  else c_drop c (fun rows => DropMask (map (fun l => isclose l PrimFloat.zero) (PrimFloat.one :: ichordlen d rows))).
