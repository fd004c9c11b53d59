(** The arithmetic of numpy arrays of 64-bit integers, which the sources use on
    the data of an integer curve: sums, differences and products wrap around,
    division and square root give binary64, and a mixed operation converts the
    integer to binary64.

    An instance of [Num]: chordlen, arclen, cumarclen and nonsingular
    (/repo/skcurve/_diffgeom.py:41-115) and the almost method
    (/repo/skcurve/_geomalg.py:438-561, /repo/skcurve/_intersect.py:652-660) work on
    the integer data themselves; the other functions convert the data to binary64
    first (points, /repo/skcurve/_base.py:144, 410; np.gradient,
    /repo/skcurve/_diffgeom.py:154), and for them the instance FNum is the right one. *)

From Coq Require Import ZArith List Bool.
From Coq Require Import PrimFloat FloatOps SpecFloat.
From Verif Require Import Num.
Import ListNotations.

(** An element of an int64 or of a float64 array: /repo/skcurve/_diffgeom.py:91. *)
Inductive npnum : Type := NI (z : Z) | NF (x : float).

(** The int64 with the value [z] modulo 2^64 (np.diff, ** and np.sum of
    /repo/skcurve/_diffgeom.py:91; np.einsum, - and * of
    /repo/skcurve/_geomalg.py:476-492). *)
Definition wrap (z : Z) : Z := ((z + 2 ^ 63) mod 2 ^ 64 - 2 ^ 63)%Z.

(** Conversion of an integer in a mixed operation, e.g.
    /repo/skcurve/_geomalg.py:498 (dd < tol) and 555 (sn / sd). *)
Definition to_f (x : npnum) : float := match x with NI z => f_of_Z z | NF x => x end.

(** The integer part of a float (0 if there is none): assignment to an integer
    array, /repo/skcurve/_geomalg.py:555-556. *)
Definition f_to_Z (x : float) : Z :=
  match Prim2SF x with
  | S754_finite s m e =>
      let z := if (0 <=? e)%Z then (Zpos m * 2 ^ e)%Z else (Zpos m / 2 ^ (- e))%Z in
      if s then (- z)%Z else z
  | _ => 0%Z
  end.
(** The same as an int64; NaN and numbers out of range give -2^63 (on x86-64).
    /repo/skcurve/_geomalg.py:555-556. *)
Definition to_int64 (x : float) : Z :=
  let z := f_to_Z x in
  if PrimFloat.is_nan x || PrimFloat.is_infinity x || (z <? - 2 ^ 63)%Z || (2 ^ 63 <=? z)%Z then (- 2 ^ 63)%Z else z.

(** A binary operator on arrays: integers stay integers, otherwise binary64.
    /repo/skcurve/_diffgeom.py:91, /repo/skcurve/_geomalg.py:476-492. *)
Definition np_op (fi : Z -> Z -> Z) (ff : float -> float -> float) (x y : npnum) : npnum :=
  match x, y with NI a, NI b => NI (wrap (fi a b)) | _, _ => NF (ff (to_f x) (to_f y)) end.
(** A comparison: /repo/skcurve/_geomalg.py:498, 513, 519, 525, 538. *)
Definition np_cmp (fi : Z -> Z -> bool) (ff : float -> float -> bool) (x y : npnum) : bool :=
  match x, y with NI a, NI b => fi a b | _, _ => ff (to_f x) (to_f y) end.

(** The operators of /repo/skcurve/_diffgeom.py:41-115 and
    /repo/skcurve/_geomalg.py:476-561 on such arrays. *)
#[export] Instance NPNum : Num npnum := {
  n0 := NI 0;
  n1 := NI 1;
  nlit p q := NF (nlit p q);
  nadd := np_op Z.add PrimFloat.add;
  nsub := np_op Z.sub PrimFloat.sub;
  nmul := np_op Z.mul PrimFloat.mul;
  ndiv x y := NF (PrimFloat.div (to_f x) (to_f y));
  nopp x := match x with NI a => NI (wrap (- a)) | NF f => NF (PrimFloat.opp f) end;
  nabs x := match x with NI a => NI (wrap (Z.abs a)) | NF f => NF (PrimFloat.abs f) end;
  nltb := np_cmp Z.ltb PrimFloat.ltb;
  nleb := np_cmp Z.leb PrimFloat.leb;
  neqb := np_cmp Z.eqb PrimFloat.eqb;
  nisnan x := PrimFloat.is_nan (to_f x);
  nisinf x := PrimFloat.is_infinity (to_f x);
  ntrunc x := match x with NI a => NI a | NF f => NI (to_int64 f) end
}.
(** np.sqrt: /repo/skcurve/_diffgeom.py:91, /repo/skcurve/_intersect.py:655. *)
#[export] Instance NPSqrt : NumSqrt npnum := { nsqrt x := NF (PrimFloat.sqrt (to_f x)) }.
