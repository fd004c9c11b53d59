(** Model of the piecewise cubic interpolators of /repo/skcurve/_interpolate.py:
    'hermite' and 'pchip' (the scipy classes are modelled after their sources),
    and of 'spline' around an arbitrary one-dimensional spline. *)

From Coq Require Import ZArith String List Bool Arith.
From Verif Require Import Num Py Numeric Curve Vec Geom DiffGeom Intersect Registry Interp.
Import ListNotations.
Local Open Scope list_scope.
Local Open Scope num_scope.

Section Splines.
  Context {T : Type} {NT : Num T} {ST : NumSqrt T} {RT : NumRound T}.
  (** See DiffGeom.v; [qnan] is the NaN scipy returns where a spline is not
      defined. *)
  Variable junk : T.
  Variable qnan : T.

  (** ** scipy.interpolate.CubicHermiteSpline *)

  (** The coefficients of one piece in powers of x - x0, highest first.
      /repo/skcurve/_interpolate.py:497-498, 555. *)
  Definition hermite_coeffs (dx y0 y1 d0 d1 : T) : T * T * T * T :=
    let slope := (y1 - y0) / dx in
    let t := (d0 + d1 - nlit 2 1 * slope) / dx in
    (t / dx, (slope - d0) / dx - t, d0, y0).

  (** Evaluation of a piece (PPoly, lowest power first).
      /repo/skcurve/_interpolate.py:501, 558. *)
  Definition poly_eval (c : T * T * T * T) (s : T) : T :=
    let '(c0, c1, c2, c3) := c in
    n0 + c3 * n1 + c2 * s + c1 * (s * s) + c0 * (s * s * s).

  (** The piece PPoly uses for v: the last one starting at or before v, the
      first or last piece outside.  /repo/skcurve/_interpolate.py:501, 558. *)
  Definition piece_of (xs : list T) (v : T) : nat :=
    Nat.min (length (filter (fun x => x <=? v) xs) - 1) (length xs - 2).

  (** Not evaluated: NaN, or out of bounds without extrapolation.
      /repo/skcurve/_interpolate.py:501, 558. *)
  Definition undefined_at (extrapolate : bool) (xs : list T) (v : T) : bool :=
    nisnan v ||
    negb extrapolate && ((v <? nth 0 xs n0) || (nth (length xs - 1) xs n0 <? v)).

  (** One value of the spline through [ys] with the derivatives [ds].
      /repo/skcurve/_interpolate.py:501, 558. *)
  Definition hermite_at (extrapolate : bool) (xs : list T) (ys ds : list (list T)) (ndim : nat) (v : T) : list T :=
    let i := piece_of xs v in
    let x0 := nth i xs n0 in
    let x1 := nth (S i) xs n0 in
    map (fun j =>
      if undefined_at extrapolate xs v then qnan
      else poly_eval (hermite_coeffs (x1 - x0) (nth j (nth i ys []) n0) (nth j (nth (S i) ys []) n0)
                                     (nth j (nth i ds []) n0) (nth j (nth (S i) ds []) n0))
                     (v - x0))
      (seq 0 ndim).

  (** The validation of the samples (prepare_input): at least two, as many
      values as abscissae, everything finite, strictly increasing.
      /repo/skcurve/_interpolate.py:497-498, 555. *)
  Definition prepare_ok (xs : list T) (ys : list (list T)) : bool :=
    Nat.leb 2 (length xs) && Nat.eqb (length xs) (length ys)
    && forallb isfinite xs && forallb (forallb isfinite) ys
    && negb (existsb (fun d => d <=? n0) (diff xs)).

  (** The constructor; [ds] = None: an array of another shape.
      /repo/skcurve/_interpolate.py:497-498, 555. *)
  Definition hermite_new (extrapolate : bool) (xs : list T) (ys : list (list T)) (ds : option (list (list T)))
      (ndim : nat) : res (list T -> list (list T)) :=
    if prepare_ok xs ys then
      match ds with
      | Some ds => if Nat.eqb (length ds) (length ys) && forallb (forallb isfinite) ds
                   then Ok (fun g => map (hermite_at extrapolate xs ys ds ndim) g)
                   else Raise ValueError
      | None => Raise ValueError
      end
    else Raise ValueError.

  (** The array returned for a grid: /repo/skcurve/_interpolate.py:500-501, 557-558. *)
  Definition as_array (ndim : nat) (f : list T -> list (list T)) : ifun T :=
    fun g => Ok (mkNd [length g; ndim] (concat (f g))).

  (** CubicHermiteSplineInterpolator: /repo/skcurve/_interpolate.py:494-501.
      [extrapolate]: None counts as True; 'periodic' is in Periodic.v. *)
  Definition hermite (extrapolate : bool) : icreate T := fun c =>
    do d <- curve_prop junk c PFrenet1 ;
    do f <- hermite_new extrapolate (c_tval junk c) (c_rows c)
              (match d with AMat m => Some m | _ => None end) (c_ndim c) ;
    Ok (as_array (c_ndim c) f).

  (** ** scipy.interpolate.PchipInterpolator *)

  (** np.sign(a) == np.sign(b): /repo/skcurve/_interpolate.py:555. *)
  Definition same_sign (a b : T) : bool :=
    ((n0 <? a) && (n0 <? b)) || ((a <? n0) && (b <? n0)) || ((a =? n0) && (b =? n0)).

  (** PchipInterpolator._edge_case: /repo/skcurve/_interpolate.py:555. *)
  Definition pchip_edge (h0 h1 m0 m1 : T) : T :=
    let d := ((nlit 2 1 * h0 + h1) * m0 - h0 * m1) / (h0 + h1) in
    if negb (same_sign d m0) then n0
    else if negb (same_sign m0 m1) && (nlit 3 1 * nabs m0 <? nabs d) then nlit 3 1 * m0
    else d.

  (** The derivative at an inner sample: a weighted harmonic mean of the slopes
      on both sides, or zero.  /repo/skcurve/_interpolate.py:555. *)
  Definition pchip_inner (h0 h1 m0 m1 : T) : T :=
    if negb (same_sign m1 m0) || (m1 =? n0) || (m0 =? n0) then n0
    else
      let w1 := nlit 2 1 * h1 + h0 in
      let w2 := h1 + nlit 2 1 * h0 in
      n1 / ((w1 / m0 + w2 / m1) / (w1 + w2)).

  (** PchipInterpolator._find_derivatives for one coordinate.
      /repo/skcurve/_interpolate.py:555. *)
  Definition pchip_derivs (xs ys : list T) : list T :=
    let n := length xs in
    let h k := nth (S k) xs n0 - nth k xs n0 in
    let m k := (nth (S k) ys n0 - nth k ys n0) / h k in
    map (fun k =>
      if Nat.eqb n 2 then m 0%nat
      else if Nat.eqb k 0 then pchip_edge (h 0%nat) (h 1%nat) (m 0%nat) (m 1%nat)
      else if Nat.eqb k (n - 1) then pchip_edge (h (n - 2)%nat) (h (n - 3)%nat) (m (n - 2)%nat) (m (n - 3)%nat)
      else pchip_inner (h (k - 1)%nat) (h k) (m (k - 1)%nat) (m k))
      (seq 0 n).

  (** Column j of an array: /repo/skcurve/_interpolate.py:555, 597. *)
  Definition column (rows : list (list T)) (j : nat) : list T := map (fun r => nth j r n0) rows.

  (** The derivatives of all coordinates, one row per sample.
      /repo/skcurve/_interpolate.py:555. *)
  Definition pchip_rows (xs : list T) (rows : list (list T)) (ndim : nat) : list (list T) :=
    map (fun k => map (fun j => nth k (pchip_derivs xs (column rows j)) n0) (seq 0 ndim)) (seq 0 (length xs)).

  (** PchipInterpolator: /repo/skcurve/_interpolate.py:553-558 (scipy validates
      the samples before it computes the derivatives, and again with them). *)
  Definition pchip (extrapolate : bool) : icreate T := fun c =>
    let xs := c_tval junk c in
    if prepare_ok xs (c_rows c) then
      do f <- hermite_new extrapolate xs (c_rows c) (Some (pchip_rows xs (c_rows c) (c_ndim c))) (c_ndim c) ;
      Ok (as_array (c_ndim c) f)
    else Raise ValueError.

  (** ** 'spline' *)

  (** A one-dimensional spline constructor (scipy's UnivariateSpline with its
      options fixed): samples to a function of a grid. *)
  Variable spline1 : list T -> list T -> res (list T -> res (list T)).

  (** interp_data[:, i] = values: as many values as rows, or one for all.
      /repo/skcurve/_interpolate.py:604. *)
  Definition fill_column (n : nat) (v : list T) : res (list T) :=
    if Nat.eqb (length v) n then Ok v
    else match v with [x] => Ok (repeat x n) | _ => Raise ValueError end.

  (** SplineInterpolator: /repo/skcurve/_interpolate.py:587-606. *)
  Definition spline : icreate T := fun c =>
    do fs <- rseq (map (spline1 (c_tval junk c)) (c_values_all c)) ;
    Ok (fun g =>
      do cols <- rseq (map (fun f => do v <- f g ; fill_column (length g) v) fs) ;
      Ok (mkNd [length g; c_ndim c]
            (concat (map (fun i => map (fun col => nth i col n0) cols) (seq 0 (length g)))))).
End Splines.
