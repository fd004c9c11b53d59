(** Curves of other floating-point numbers: dtype=np.float32, and any other IEEE format.

    A curve made from a float32 array, or with dtype=np.float32, keeps its data in
    binary32 (/repo/skcurve/_base.py:1132-1142).  np.diff, ** 2, np.sum, np.sqrt
    and np.cumsum then compute in binary32.  The Python floats put in front of the
    results by np.hstack (/repo/skcurve/_diffgeom.py:64, 240) are binary64 and turn
    them into binary64.

    The formats are those of Flocq: [prec] bits, exponents up to [emax].  binary32
    is 24, 128; binary64 is 53, 1024; the 80 bit long double of x86 is 64, 16384. *)
From Coq Require Import PrimFloat FloatOps.
From Coq Require Import ZArith List Bool.
From Flocq Require Import Core BinarySingleNaN.
From Flocq Require IEEE754.PrimFloat.
From Verif Require Import Num Py Numeric Curve DiffGeom.
Import ListNotations.
Local Notation float := PrimFloat.float.

Section Format.
  Context (prec emax : Z) (Hp : Prec_gt_0 prec) (Hm : Prec_lt_emax prec emax).

  (** An integer literal: e.g. /repo/skcurve/_diffgeom.py:64. *)
  Definition b_of_Z (z : Z) : binary_float prec emax := binary_normalize prec emax Hp Hm mode_NE z 0 false.

  (** The arithmetic of /repo/skcurve/_diffgeom.py:91 in this format. *)
  Definition BNum : Num (binary_float prec emax) := {|
    n0 := B754_zero false;
    n1 := b_of_Z 1;
    nlit p q := Bdiv mode_NE (b_of_Z p) (b_of_Z (Zpos q));
    nadd := Bplus mode_NE;
    nsub := Bminus mode_NE;
    nmul := Bmult mode_NE;
    ndiv := Bdiv mode_NE;
    nopp := Bopp;
    nabs := Babs;
    nltb := Bltb;
    nleb := Bleb;
    neqb := Beqb;
    nisnan := is_nan;
    nisinf x := match x with B754_infinity _ => true | _ => false end;
    ntrunc := Bnearbyint mode_ZR
  |}.

  (** np.sqrt in this format: /repo/skcurve/_diffgeom.py:91. *)
  Definition BSqrt : NumSqrt (binary_float prec emax) := {| nsqrt := Bsqrt mode_NE |}.
End Format.

(** Conversion between formats (nearest, ties to even; too large values become
    infinite): astype of /repo/skcurve/_base.py:1142, and the common dtype of
    np.hstack at /repo/skcurve/_diffgeom.py:64, 240. *)
Definition b_conv {prec emax} (prec' emax' : Z) (Hp : Prec_gt_0 prec') (Hm : Prec_lt_emax prec' emax')
  (x : binary_float prec emax) : binary_float prec' emax' :=
  match x with
  | B754_zero s => B754_zero s
  | B754_infinity s => B754_infinity s
  | B754_nan => B754_nan
  | B754_finite s m e _ => binary_normalize prec' emax' Hp Hm mode_NE (cond_Zopp s (Zpos m)) e s
  end.

(** ** binary32 *)

(** np.float32: /repo/skcurve/_base.py:110. *)
Definition f32 : Type := binary_float 24 128.
(** The format is one: /repo/skcurve/_base.py:110. *)
Definition Hp32 : Prec_gt_0 24 := eq_refl.
(** The format is one: /repo/skcurve/_base.py:110. *)
Definition Hm32 : Prec_lt_emax 24 128 := eq_refl.
(** The arithmetic of /repo/skcurve/_diffgeom.py:91 in binary32. *)
#[export] Instance F32Num : Num f32 := BNum 24 128 Hp32 Hm32.
(** np.sqrt of /repo/skcurve/_diffgeom.py:91 in binary32. *)
#[export] Instance F32Sqrt : NumSqrt f32 := BSqrt 24 128 Hp32 Hm32.

(** binary32 to binary64: np.hstack at /repo/skcurve/_diffgeom.py:64, 240, float() at
    /repo/skcurve/_diffgeom.py:115, and Curve(c, dtype=np.float64), /repo/skcurve/_base.py:1142. *)
Definition widen (x : f32) : float :=
  IEEE754.PrimFloat.B2Prim (b_conv FloatOps.prec FloatOps.emax IEEE754.PrimFloat.Hprec IEEE754.PrimFloat.Hmax x).
(** binary64 to binary32: Curve(c, dtype=np.float32), /repo/skcurve/_base.py:1142. *)
Definition narrow (x : float) : f32 := b_conv 24 128 Hp32 Hm32 (IEEE754.PrimFloat.Prim2B x).

(** arclen: /repo/skcurve/_diffgeom.py:115 (a Python float; np.sum adds in binary32).
    [junk] is the uninitialised entry of an empty curve's chordlen. *)
Definition arclen32 (junk : f32) (c : curve f32) : float := widen (c_arclen junk c).
(** cumarclen: /repo/skcurve/_diffgeom.py:240 (np.cumsum adds in binary32). *)
Definition cumarclen32 (junk : f32) (c : curve f32) : list float := PrimFloat.zero :: map widen (cumsum (c_chordlen junk c)).
(** The test of nonsingular: /repo/skcurve/_diffgeom.py:62-64; the lengths are
    compared with 1e-8 in binary64. *)
Definition singular_mask32 (rows : list (list f32)) : list bool :=
  map (fun '(r, l) => existsb (fun x => nisnan x || nisinf x) r || isclose l PrimFloat.zero)
      (combine rows (PrimFloat.one :: map widen (chordlen_rows rows))).
(** nonsingular: /repo/skcurve/_diffgeom.py:60-66. *)
Definition nonsingular32 (c : curve f32) : res (curve f32) :=
  if negb (c_bool c) then Raise ValueError
  else c_drop c (fun rows => DropMask (singular_mask32 rows)).

(** Curve(c, dtype=np.float32) of a float64 curve without parameters:
    /repo/skcurve/_base.py:1110-1170. *)
Definition to_float32 (c : curve float) : curve f32 :=
  mkCurve (map (map narrow) (c_rows c)) (c_ndim c) DFloat None.
(** Curve(c, dtype=np.float64) of a float32 curve without parameters:
    /repo/skcurve/_base.py:1110-1170. *)
Definition to_float64 (c : curve f32) : curve float :=
  mkCurve (map (map widen) (c_rows c)) (c_ndim c) DFloat None.
