(** Model of the periodic variants of the 'cubic' and 'hermite' interpolators of
    /repo/skcurve/_interpolate.py (bc_type='periodic' and extrapolate='periodic'),
    after the sources of CubicSpline and PPoly of scipy. *)

From Coq Require Import ZArith String List Bool Arith.
From Verif Require Import Num Py Numeric Curve Vec Geom DiffGeom Intersect Registry Interp Splines Splines2.
Import ListNotations.
Local Open Scope string_scope.
Local Open Scope list_scope.
Local Open Scope num_scope.

Section Periodic.
  Context {T : Type} {NT : Num T} {ST : NumSqrt T}.
  (** See Splines.v. *)
  Variable junk : T.
  Variable qnan : T.
  (** numpy's remainder (the operator % of arrays): used at
      /repo/skcurve/_interpolate.py:469, 501. *)
  Variable fmod : T -> T -> T.

  (** ** Evaluation *)

  (** The argument extrapolate: a bool or 'periodic'.
      /repo/skcurve/_interpolate.py:460-466, 494-498. *)
  Inductive exmode : Type := ExBool (b : bool) | ExPeriodic.

  (** PPoly.__call__ with extrapolate='periodic': the abscissa is moved into the
      range of the samples.  /repo/skcurve/_interpolate.py:469, 501. *)
  Definition wrap (xs : list T) (v : T) : T :=
    let x0 := nth 0 xs n0 in
    x0 + fmod (v - x0) (nth (length xs - 1) xs n0 - x0).

  (** The abscissae at which the pieces are evaluated, and whether the end pieces
      are continued: /repo/skcurve/_interpolate.py:469, 501. *)
  Definition spline_at (ex : exmode) (xs : list T) (ys ds : list (list T)) (ndim : nat) (v : T) : list T :=
    match ex with
    | ExBool b => hermite_at qnan b xs ys ds ndim v
    | ExPeriodic => hermite_at qnan false xs ys ds ndim (wrap xs v)
    end.

  (** CubicHermiteSpline with any extrapolate: /repo/skcurve/_interpolate.py:497-498. *)
  Definition spline_new (ex : exmode) (xs : list T) (ys : list (list T)) (ds : option (list (list T)))
      (ndim : nat) : res (list T -> list (list T)) :=
    match ds with
    | Some ds => do f <- hermite_new qnan false xs ys (Some ds) ndim ; Ok (map (spline_at ex xs ys ds ndim))
    | None => Raise ValueError
    end.

  (** ** The slopes of the periodic spline *)

  (** The right side of the equation between the pieces i and k.
      /repo/skcurve/_interpolate.py:465-466. *)
  Definition joint_rhs (xs ys : list T) (i k : nat) : T :=
    nlit 3 1 * (step_at xs k * slope_at xs ys i + step_at xs i * slope_at xs ys k).

  (** The condensed matrix (the last column and the last row of the cyclic system
      removed), with the right side [r].  /repo/skcurve/_interpolate.py:465-466. *)
  Definition condensed (xs : list T) (r : nat -> T) : list (T * T * T * T) :=
    let n := length xs in
    let h := step_at xs in
    map (fun k =>
      if Nat.eqb k 0 then (n0, nlit 2 1 * (h (n - 2)%nat + h 0%nat), h (n - 2)%nat, r 0%nat)
      else (h k, nlit 2 1 * (h (k - 1)%nat + h k), h (k - 1)%nat, r k)) (seq 0 (n - 2)).

  (** The derivatives of one coordinate: two samples, three samples, more.
      /repo/skcurve/_interpolate.py:465-466. *)
  Definition periodic_derivs (xs ys : list T) : list T :=
    let n := length xs in
    let h := step_at xs in
    let m := slope_at xs ys in
    if Nat.eqb n 2 then [m 0%nat; m 0%nat]
    else if Nat.eqb n 3 then
      let t := (m 0%nat / h 0%nat + m 1%nat / h 1%nat) / (n1 / h 0%nat + n1 / h 1%nat) in [t; t; t]
    else
      let b k := if Nat.eqb k 0 then joint_rhs xs ys (n - 2) 0 else joint_rhs xs ys (k - 1) k in
      let s1 := tri_solve n0 n0 (condensed xs b) in
      let s2 := tri_solve n0 n0 (condensed xs (fun k =>
                  if Nat.eqb k (n - 3) then nopp (h (n - 4)%nat) else if Nat.eqb k 0 then nopp (h 0%nat) else n0)) in
      let last := (b (n - 2)%nat - h (n - 3)%nat * nth 0 s1 n0 - h (n - 2)%nat * nth (n - 3) s1 n0)
                  / (nlit 2 1 * (h (n - 2)%nat + h (n - 3)%nat) + h (n - 3)%nat * nth 0 s2 n0 + h (n - 2)%nat * nth (n - 3) s2 n0) in
      let s k := nth k s1 n0 + last * nth k s2 n0 in
      map s (seq 0 (n - 2)) ++ [last; s 0%nat].

  (** The derivatives of all coordinates, one row per sample.
      /repo/skcurve/_interpolate.py:465-466. *)
  Definition periodic_rows (xs : list T) (rows : list (list T)) (ndim : nat) : list (list T) :=
    map (fun k => map (fun j => nth k (periodic_derivs xs (column rows j)) n0) (seq 0 ndim)) (seq 0 (length xs)).

  (** np.allclose(y[0], y[-1], rtol=1e-15, atol=1e-15) for finite values.
      /repo/skcurve/_interpolate.py:465-466. *)
  Definition ends_close (rows : list (list T)) (ndim : nat) : bool :=
    let tol := nlit 1 1000000000000000 in
    let a := nth 0 rows [] in
    let b := nth (length rows - 1) rows [] in
    forallb (fun j => nabs (nth j a n0 - nth j b n0) <=? tol + tol * nabs (nth j b n0)) (seq 0 ndim).

  (** CubicSplineInterpolator with bc_type='periodic'; [ex] = None: the default,
      'periodic' here.  To be used as the argument of [cubic] (Splines2.v).
      /repo/skcurve/_interpolate.py:460-469. *)
  Definition cubic_periodic (ex : option exmode) : icreate T := fun c =>
    let xs := c_tval junk c in
    if prepare_ok xs (c_rows c) then
      if ends_close (c_rows c) (c_ndim c) then
        do f <- spline_new (match ex with Some e => e | None => ExPeriodic end) xs (c_rows c)
                  (Some (periodic_rows xs (c_rows c) (c_ndim c))) (c_ndim c) ;
        Ok (as_array (c_ndim c) f)
      else Raise ValueError
    else Raise ValueError.

  (** CubicSplineInterpolator for every boundary condition and every extrapolate;
      None: 'periodic' for periodic boundary conditions, else True.
      /repo/skcurve/_interpolate.py:460-469. *)
  Definition cubic_any (b : bctype T) (ex : option exmode) : icreate T := fun c =>
    match ex with
    | None => cubic junk qnan (cubic_periodic None) b true c
    | Some (ExBool e) => cubic junk qnan (cubic_periodic ex) b e c
    | Some ExPeriodic =>
        if is_periodic b then cubic_periodic ex c
        else
          let xs := c_tval junk c in
          if prepare_ok xs (c_rows c) then
            do bcs <- validate_bc (c_ndim c) b ;
            do f <- spline_new ExPeriodic xs (c_rows c)
                      (Some (cubic_rows (fst bcs) (snd bcs) xs (c_rows c) (c_ndim c))) (c_ndim c) ;
            Ok (as_array (c_ndim c) f)
          else Raise ValueError
    end.

  (** CubicHermiteSplineInterpolator for every extrapolate; None: True.
      /repo/skcurve/_interpolate.py:494-501. *)
  Definition hermite_any (ex : option exmode) : icreate T := fun c =>
    do d <- curve_prop junk c PFrenet1 ;
    do f <- spline_new (match ex with Some e => e | None => ExBool true end) (c_tval junk c) (c_rows c)
              (match d with AMat m => Some m | _ => None end) (c_ndim c) ;
    Ok (as_array (c_ndim c) f).
End Periodic.
