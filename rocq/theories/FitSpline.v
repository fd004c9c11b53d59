(** Model of the 'spline' interpolator of /repo/skcurve/_interpolate.py (lines
    561-606) with its parameters; scipy's UnivariateSpline and the part of
    FITPACK (fpcurf, splev) that it uses for smooth = 0 are modelled after their
    sources.  FITPACK computes with B-splines, by Givens rotations; here the
    spline is written in the basis of powers and truncated powers of the same
    space, and the least squares problem is solved by its normal equations.  The
    exact solution is the same; the rounding errors are not modelled. *)

From Coq Require Import ZArith String List Bool Arith.
From Verif Require Import Num Py Numeric Curve Vec DiffGeom Csaps Registry Interp Splines Savgol.
Import ListNotations.
Local Open Scope string_scope.
Local Open Scope list_scope.
Local Open Scope num_scope.

Section FitSpline.
  Context {T : Type} {NT : Num T} {ST : NumSqrt T}.
  (** See Splines.v. *)
  Variable junk : T.

  (** The truncated power (u)_+ ^ k.  /repo/skcurve/_interpolate.py:594-598. *)
  Definition tpow (k : nat) (u : T) : T := if u <=? n0 then n0 else npow u k.

  (** The interior knots of an interpolating spline of degree k: samples for an
      odd degree, midpoints between samples for an even one; k + 1 degrees of
      freedom are left for the boundary (fpcurf, label 10).
      /repo/skcurve/_interpolate.py:594-598. *)
  Definition fit_knots (k : nat) (xs : list T) : list T :=
    let h := Nat.div k 2 in
    map (fun l => if Nat.odd k then nth (h + 1 + l) xs n0
                  else (nth (h + 1 + l) xs n0 + nth (h + l) xs n0) * nlit 1 2)
        (seq 0 (length xs - (k + 1))).

  (** The basis at one abscissa.  /repo/skcurve/_interpolate.py:594-598. *)
  Definition basis (k : nat) (ks : list T) (x : T) : list T :=
    map (npow x) (seq 0 (S k)) ++ map (fun q => tpow k (x - q)) ks.

  (** The rows of the observation matrix, times the weights (fpcurf, label 60).
      /repo/skcurve/_interpolate.py:594-598. *)
  Definition design (k : nat) (ks xs ws : list T) : list (list T) :=
    map2 (fun x w => map (nmul w) (basis k ks x)) xs ws.

  (** The normal equations, the right side last.
      /repo/skcurve/_interpolate.py:594-598. *)
  Definition fit_system (dim : nat) (a : list (list T)) (b : list T) : list (list T) :=
    map (fun i => map (fun j => vdot (column a i) (column a j)) (seq 0 dim) ++ [vdot (column a i) b]) (seq 0 dim).

  (** The coefficients.  /repo/skcurve/_interpolate.py:594-598. *)
  Definition fit_coeffs (k : nat) (xs ys ws : list T) : list T :=
    let ks := fit_knots k xs in
    let dim := (k + 1 + length ks)%nat in
    gauss dim (fit_system dim (design k ks xs ws) (map2 nmul ys ws)).

  (** The value of a spline; outside the samples the end pieces are continued.
      /repo/skcurve/_interpolate.py:604. *)
  Definition fit_value (k : nat) (ks cf : list T) (x : T) : T := vdot cf (basis k ks x).

  (** The argument ext and its meaning: /repo/skcurve/_interpolate.py:591, 596. *)
  Inductive xarg : Type := XInt (z : Z) | XName (s : string).
  (** See [xarg]: /repo/skcurve/_interpolate.py:591, 596. *)
  Inductive xmode : Type := XExtrapolate | XZeros | XRaise | XConst.

  (** _extrap_modes[ext]; an unknown key is a ValueError.
      /repo/skcurve/_interpolate.py:591, 596. *)
  Definition xmode_of (a : xarg) : res xmode :=
    match a with
    | XInt z =>
        if Z.eqb z 0 then Ok XExtrapolate else if Z.eqb z 1 then Ok XZeros
        else if Z.eqb z 2 then Ok XRaise else if Z.eqb z 3 then Ok XConst else Raise ValueError
    | XName s =>
        if String.eqb s "extrapolate" then Ok XExtrapolate else if String.eqb s "zeros" then Ok XZeros
        else if String.eqb s "raise" then Ok XRaise else if String.eqb s "const" then Ok XConst else Raise ValueError
    end.

  (** splev: the values at a grid; an argument outside [tb, te] is evaluated,
      gives zero, is an error, or is moved to the end.
      /repo/skcurve/_interpolate.py:604. *)
  Definition splev (m : xmode) (tb te : T) (f : T -> T) (g : list T) : res (list T) :=
    let outside x := (x <? tb) || (te <? x) in
    match m with
    | XExtrapolate => Ok (map f g)
    | XZeros => Ok (map (fun x => if outside x then n0 else f x) g)
    | XRaise => if existsb outside g then Raise ValueError else Ok (map f g)
    | XConst => Ok (map (fun x => f (if x <? tb then tb else if te <? x then te else x)) g)
    end.

  (** [smoothing k s ws xs ys]: fpcurf for s > 0, the spline as a function; the
      choice of its knots is not modelled. *)
  Variable smoothing : nat -> T -> list T -> list T -> list T -> res (T -> T).

  (** UnivariateSpline(x, y, w=w, k=k, s=s, ext=ext, check_finite=False): the
      validation, the fit, and evaluation.  Fewer than k + 1 samples are an error
      of the FITPACK wrapper (OtherError).
      /repo/skcurve/_interpolate.py:594-598, 604. *)
  Definition univariate (k : Z) (s : T) (w : option (list T)) (ext : xarg) (xs ys : list T) : res (list T -> res (list T)) :=
    let n := length xs in
    if (if n0 <? s then existsb (fun d => negb (n0 <=? d)) (diff xs) else existsb (fun d => negb (n0 <? d)) (diff xs))
    then Raise ValueError
    else if negb (Nat.eqb n (length ys)) then Raise ValueError
    else if match w with Some w' => negb (Nat.eqb (length w') n) | None => false end then Raise ValueError
    else if negb ((1 <=? k)%Z && (k <=? 5)%Z) then Raise ValueError
    else if negb (n0 <=? s) then Raise ValueError
    else
      do m <- xmode_of ext ;
      let k' := Z.to_nat k in
      if Nat.leb n k' then Raise OtherError
      else
        let ws := match w with Some w' => w' | None => repeat n1 n end in
        do f <- (if n0 <? s then smoothing k' s ws xs ys
                 else Ok (fit_value k' (fit_knots k' xs) (fit_coeffs k' xs ys ws))) ;
        Ok (splev m (nth 0 xs n0) (nth (n - 1) xs n0) f).

  (** The method 'spline' with its parameters: /repo/skcurve/_interpolate.py:587-606. *)
  Definition fit_spline (k : Z) (smooth : T) (weights : option (list T)) (ext : xarg) : icreate T :=
    spline junk (univariate k smooth weights ext).
End FitSpline.
