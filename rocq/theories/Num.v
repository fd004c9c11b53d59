(** Scalars.

    numpy computes with IEEE binary64 (and int64) scalars.  The model is
    written once over the class [Num] of scalar operations and then read at
    these instances (Int64.v adds one for int64 arrays that wrap around):
      - [RNum]: the real numbers (exact arithmetic; used by the proofs);
      - [QNum]: the rationals (exact and executable; used by examples);
      - [FNum]: IEEE binary64 (Coq primitive floats; executable, used where
        NaN, infinities or rounding matter).
    Nothing in this file models a line of /repo; it fixes the meaning of the
    Python/numpy scalar operators used there. *)

From Coq Require Import ZArith List Bool Reals QArith Qabs Lia Lra.
From Coq Require Import PrimFloat FloatOps SpecFloat.
Import ListNotations.

(** The scalar operators used by the sources: literals, + - * / unary minus,
    abs, comparisons, numpy.isnan / numpy.isinf, and the float -> int64
    conversion of [astype] (truncation towards zero).
    The operators of e.g. /repo/skcurve/_geomalg.py:377-427, /repo/skcurve/_numeric.py:133-134, /repo/skcurve/_diffgeom.py:586-593; truncation: /repo/skcurve/_base.py:1142. *)
Class Num (T : Type) := {
  n0 : T;
  n1 : T;
  nlit : Z -> positive -> T;
  nadd : T -> T -> T;
  nsub : T -> T -> T;
  nmul : T -> T -> T;
  ndiv : T -> T -> T;
  nopp : T -> T;
  nabs : T -> T;
  nltb : T -> T -> bool;
  nleb : T -> T -> bool;
  neqb : T -> T -> bool;
  nisnan : T -> bool;
  nisinf : T -> bool;
  ntrunc : T -> T
}.

(** numpy.sqrt, and the nearest-integer rounding of Python's round().
    /repo/skcurve/_diffgeom.py:91, /repo/skcurve/_base.py:328; round: /repo/skcurve/_interpolate.py:131. *)
Class NumSqrt (T : Type) := { nsqrt : T -> T }.

Declare Scope num_scope.
Delimit Scope num_scope with num.
Infix "+" := nadd : num_scope.
Infix "-" := nsub : num_scope.
Infix "*" := nmul : num_scope.
Infix "/" := ndiv : num_scope.
Infix "<?" := nltb : num_scope.
Infix "<=?" := nleb : num_scope.
Infix "=?" := neqb : num_scope.

(** ** Reals *)

(** The comparison x < y of e.g. /repo/skcurve/_geomalg.py:191, at the reals. *)
Definition Rltb (a b : R) : bool := if Rlt_dec a b then true else false.
(** The comparison x <= y of e.g. /repo/skcurve/_geomalg.py:228, at the reals. *)
Definition Rleb (a b : R) : bool := if Rle_dec a b then true else false.
(** The comparison x == y of /repo/skcurve/_numeric.py:39 (np.equal), at the reals. *)
Definition Reqb (a b : R) : bool := if Req_EM_T a b then true else false.

(** Truncation towards zero.
    astype(int) of /repo/skcurve/_base.py:1142. *)
Definition Rtrunc (x : R) : R :=
  if Rle_dec 0 x then IZR (Int_part x) else Ropp (IZR (Int_part (Ropp x))).

(** The arithmetic of e.g. /repo/skcurve/_geomalg.py:377-427 at the reals. *)
#[export] Instance RNum : Num R := {
  n0 := 0%R;
  n1 := 1%R;
  nlit p q := Rdiv (IZR p) (IZR (Zpos q));
  nadd := Rplus;
  nsub := Rminus;
  nmul := Rmult;
  ndiv := Rdiv;
  nopp := Ropp;
  nabs := Rabs;
  nltb := Rltb;
  nleb := Rleb;
  neqb := Reqb;
  nisnan _ := false;
  nisinf _ := false;
  ntrunc := Rtrunc
}.

(** np.sqrt of /repo/skcurve/_diffgeom.py:91, /repo/skcurve/_base.py:328 at the reals. *)
#[export] Instance RSqrt : NumSqrt R := { nsqrt := R_sqrt.sqrt }.

(** ** Rationals (always reduced) *)

(** astype(int) of /repo/skcurve/_base.py:1142 at the rationals. *)
Definition Qtrunc (x : Q) : Q := inject_Z (Z.quot (Qnum x) (Zpos (Qden x))).

(** The arithmetic of e.g. /repo/skcurve/_geomalg.py:377-427 at the rationals. *)
#[export] Instance QNum : Num Q := {
  n0 := 0%Q;
  n1 := 1%Q;
  nlit p q := Qred (Qmake p q);
  nadd a b := Qred (Qplus a b);
  nsub a b := Qred (Qminus a b);
  nmul a b := Qred (Qmult a b);
  ndiv a b := Qred (Qdiv a b);
  nopp a := Qred (Qopp a);
  nabs a := Qabs a;
  nltb a b := negb (Qle_bool b a);
  nleb a b := Qle_bool a b;
  neqb a b := Qeq_bool a b;
  nisnan _ := false;
  nisinf _ := false;
  ntrunc := Qtrunc
}.

(** ** IEEE binary64 *)

(** The binary64 number of an integer literal, e.g. 0.5 = 1/2 at /repo/skcurve/_intersect.py:193. *)
Definition f_of_Z (z : Z) : float :=
  SF2Prim (binary_normalize FloatOps.prec FloatOps.emax z 0 false).

(** astype(int) of /repo/skcurve/_base.py:1142 in binary64. *)
Definition f_trunc (x : float) : float :=
  match Prim2SF x with
  | S754_finite s m e =>
      let z := if (0 <=? e)%Z then (Zpos m * 2 ^ e)%Z
               else (Zpos m / 2 ^ (- e))%Z in
      f_of_Z (if s then (- z)%Z else z)
  | _ => x
  end.

(** The arithmetic of e.g. /repo/skcurve/_geomalg.py:377-427 in binary64 (DEFAULT_DTYPE, /repo/skcurve/_base.py:78). *)
#[export] Instance FNum : Num float := {
  n0 := PrimFloat.zero;
  n1 := PrimFloat.one;
  nlit p q := PrimFloat.div (f_of_Z p) (f_of_Z (Zpos q));
  nadd := PrimFloat.add;
  nsub := PrimFloat.sub;
  nmul := PrimFloat.mul;
  ndiv := PrimFloat.div;
  nopp := PrimFloat.opp;
  nabs := PrimFloat.abs;
  nltb := PrimFloat.ltb;
  nleb := PrimFloat.leb;
  neqb := PrimFloat.eqb;
  nisnan := PrimFloat.is_nan;
  nisinf := PrimFloat.is_infinity;
  ntrunc := f_trunc
}.

(** np.sqrt of /repo/skcurve/_diffgeom.py:91, /repo/skcurve/_base.py:328 in binary64. *)
#[export] Instance FSqrt : NumSqrt float := { nsqrt := PrimFloat.sqrt }.

(** Shorthand used in examples: the binary64 number [z].
    For instance the literals 0.0 and 1.0 of /repo/skcurve/_geomalg.py:377-427. *)
Definition fz (z : Z) : float := f_of_Z z.
(** Shorthand used in examples: the binary64 number nearest to [p/q].
    For instance the literal 0.5 of /repo/skcurve/_intersect.py:193. *)
Definition fq (p : Z) (q : positive) : float := nlit (T:=float) p q.
