(** Model of the 'cubic' and 'akima' interpolators of
    /repo/skcurve/_interpolate.py (lines 426-530); the classes CubicSpline and
    Akima1DInterpolator of scipy are modelled after their sources. *)

From Coq Require Import ZArith String List Bool Arith.
From Verif Require Import Num Py Numeric Curve Vec Geom DiffGeom Intersect Registry Interp Splines.
Import ListNotations.
Local Open Scope string_scope.
Local Open Scope list_scope.
Local Open Scope num_scope.

Section Splines2.
  Context {T : Type} {NT : Num T} {ST : NumSqrt T}.
  (** See Splines.v. *)
  Variable junk : T.
  Variable qnan : T.

  (** ** scipy.interpolate.CubicSpline *)

  (** scipy.linalg.solve_banded((1, 1), ...) for the rows (lower, diagonal,
      upper, right side) of a tridiagonal system: elimination from above and back
      substitution.  LAPACK may exchange rows, which does not change the exact
      solution; the LinAlgError for singular systems is not modelled (the systems
      of CubicSpline are regular, see C75).
      /repo/skcurve/_interpolate.py:465-466. *)
  Fixpoint tri_solve (cp dp : T) (rows : list (T * T * T * T)) : list T :=
    match rows with
    | [] => []
    | (a, b, c, r) :: rest =>
        let den := b - a * cp in
        let cp' := c / den in
        let dp' := (r - a * dp) / den in
        let xs := tri_solve cp' dp' rest in
        (match xs with [] => dp' | x :: _ => dp' - cp' * x end) :: xs
    end.

  (** A boundary condition: 'not-a-knot', or a prescribed first or second
      derivative (one number per coordinate).
      /repo/skcurve/_interpolate.py:459, 466. *)
  Inductive bc : Type := NotAKnot | Deriv1 (v : list T) | Deriv2 (v : list T).

  (** One element of bc_type: a name or a pair (order, derivative).
      /repo/skcurve/_interpolate.py:459, 466. *)
  Inductive bcarg : Type := BName (name : string) | BDeriv (order : Z) (v : list T).

  (** The argument bc_type: a name, a pair, a sequence of another length.
      /repo/skcurve/_interpolate.py:459, 466. *)
  Inductive bctype : Type := BCName (name : string) | BCPair (a b : bcarg) | BCOther.

  (** CubicSpline._validate_bc, one element: /repo/skcurve/_interpolate.py:466. *)
  Definition parse_bc (ndim : nat) (a : bcarg) : res bc :=
    match a with
    | BName s =>
        if String.eqb s "clamped" then Ok (Deriv1 (repeat n0 ndim))
        else if String.eqb s "natural" then Ok (Deriv2 (repeat n0 ndim))
        else if String.eqb s "not-a-knot" then Ok NotAKnot
        else Raise ValueError
    | BDeriv order v =>
        if negb (Z.eqb order 1 || Z.eqb order 2) then Raise ValueError
        else if negb (Nat.eqb (length v) ndim) then Raise ValueError
        else Ok (if Z.eqb order 1 then Deriv1 v else Deriv2 v)
    end.

  (** CubicSpline._validate_bc: /repo/skcurve/_interpolate.py:466.  The name
      'periodic' does not reach this function, see [cubic]. *)
  Definition validate_bc (ndim : nat) (b : bctype) : res (bc * bc) :=
    match b with
    | BCName s => do x <- parse_bc ndim (BName s) ; Ok (x, x)
    | BCPair a b => do x <- parse_bc ndim a ; do y <- parse_bc ndim b ; Ok (x, y)
    | BCOther => Raise ValueError
    end.

  (** The condition for one coordinate: /repo/skcurve/_interpolate.py:466. *)
  Inductive bc1 : Type := Nak | D1 (v : T) | D2 (v : T).
  (** See [bc1]: /repo/skcurve/_interpolate.py:466. *)
  Definition bc_coord (b : bc) (j : nat) : bc1 :=
    match b with NotAKnot => Nak | Deriv1 v => D1 (nth j v n0) | Deriv2 v => D2 (nth j v n0) end.

  (** dx[k] and slope[k] of CubicSpline: /repo/skcurve/_interpolate.py:465-466. *)
  Definition step_at (xs : list T) (k : nat) : T := nth (S k) xs n0 - nth k xs n0.
  (** See [step_at]: /repo/skcurve/_interpolate.py:465-466. *)
  Definition slope_at (xs ys : list T) (k : nat) : T := (nth (S k) ys n0 - nth k ys n0) / step_at xs k.

  (** The equation at the first sample: /repo/skcurve/_interpolate.py:465-466. *)
  Definition start_row (b : bc1) (xs ys : list T) : T * T * T * T :=
    let h := step_at xs in
    let m := slope_at xs ys in
    match b with
    | Nak =>
        if Nat.eqb (length xs) 2 then (n0, n1, n0, m 0%nat)
        else
          let d := nth 2 xs n0 - nth 0 xs n0 in
          (n0, h 1%nat, d, ((h 0%nat + nlit 2 1 * d) * h 1%nat * m 0%nat + h 0%nat * h 0%nat * m 1%nat) / d)
    | D1 v => (n0, n1, n0, v)
    | D2 v => (n0, nlit 2 1 * h 0%nat, h 0%nat,
               nlit (-1) 2 * v * (h 0%nat * h 0%nat) + nlit 3 1 * (nth 1 ys n0 - nth 0 ys n0))
    end.

  (** The equation at the last sample: /repo/skcurve/_interpolate.py:465-466. *)
  Definition end_row (b : bc1) (xs ys : list T) : T * T * T * T :=
    let n := length xs in
    let h := step_at xs in
    let m := slope_at xs ys in
    match b with
    | Nak =>
        if Nat.eqb n 2 then (n0, n1, n0, m 0%nat)
        else
          let d := nth (n - 1) xs n0 - nth (n - 3) xs n0 in
          (d, h (n - 3)%nat, n0,
           (h (n - 2)%nat * h (n - 2)%nat * m (n - 3)%nat
            + (nlit 2 1 * d + h (n - 2)%nat) * h (n - 3)%nat * m (n - 2)%nat) / d)
    | D1 v => (n0, n1, n0, v)
    | D2 v => (h (n - 2)%nat, nlit 2 1 * h (n - 2)%nat, n0,
               nlit 1 2 * v * (h (n - 2)%nat * h (n - 2)%nat) + nlit 3 1 * (nth (n - 1) ys n0 - nth (n - 2) ys n0))
    end.

  (** Sample k between the ends: equal second derivatives on both sides.
      /repo/skcurve/_interpolate.py:465-466. *)
  Definition inner_row (xs ys : list T) (k : nat) : T * T * T * T :=
    let h := step_at xs in
    let m := slope_at xs ys in
    (h k, nlit 2 1 * (h (k - 1)%nat + h k), h (k - 1)%nat, nlit 3 1 * (h k * m (k - 1)%nat + h (k - 1)%nat * m k)).

  (** Three samples and 'not-a-knot' twice: a parabola.
      /repo/skcurve/_interpolate.py:465-466. *)
  Definition parabola_rows (xs ys : list T) : list (T * T * T * T) :=
    let h := step_at xs in
    let m := slope_at xs ys in
    [(n0, n1, n1, nlit 2 1 * m 0%nat);
     (h 1%nat, nlit 2 1 * (h 0%nat + h 1%nat), h 0%nat, nlit 3 1 * (h 0%nat * m 1%nat + h 1%nat * m 0%nat));
     (n1, n1, n0, nlit 2 1 * m 1%nat)].

  (** The equations for the derivatives of one coordinate.
      /repo/skcurve/_interpolate.py:465-466. *)
  Definition cubic_system (b0 b1 : bc1) (xs ys : list T) : list (T * T * T * T) :=
    let n := length xs in
    if Nat.eqb n 3 && match b0, b1 with Nak, Nak => true | _, _ => false end then parabola_rows xs ys
    else map (fun k => if Nat.eqb k 0 then start_row b0 xs ys
                       else if Nat.eqb k (n - 1) then end_row b1 xs ys else inner_row xs ys k) (seq 0 n).

  (** The derivatives of one coordinate: /repo/skcurve/_interpolate.py:465-466. *)
  Definition cubic_derivs (b0 b1 : bc1) (xs ys : list T) : list T := tri_solve n0 n0 (cubic_system b0 b1 xs ys).

  (** The derivatives of all coordinates, one row per sample.
      /repo/skcurve/_interpolate.py:465-466. *)
  Definition cubic_rows (b0 b1 : bc) (xs : list T) (rows : list (list T)) (ndim : nat) : list (list T) :=
    map (fun k => map (fun j => nth k (cubic_derivs (bc_coord b0 j) (bc_coord b1 j) xs (column rows j)) n0) (seq 0 ndim))
        (seq 0 (length xs)).

  (** bc_type == 'periodic': /repo/skcurve/_interpolate.py:466. *)
  Definition is_periodic (b : bctype) : bool :=
    match b with BCName s => String.eqb s "periodic" | _ => false end.

  (** CubicSplineInterpolator: /repo/skcurve/_interpolate.py:460-469.
      [extrapolate]: None counts as True; bc_type='periodic' ([periodic] stands
      for it here) and extrapolate='periodic' are in Periodic.v. *)
  Definition cubic (periodic : icreate T) (b : bctype) (extrapolate : bool) : icreate T := fun c =>
    if is_periodic b then periodic c
    else
      let xs := c_tval junk c in
      if prepare_ok xs (c_rows c) then
        do bcs <- validate_bc (c_ndim c) b ;
        do f <- hermite_new qnan extrapolate xs (c_rows c)
                  (Some (cubic_rows (fst bcs) (snd bcs) xs (c_rows c) (c_ndim c))) (c_ndim c) ;
        Ok (as_array (c_ndim c) f)
      else Raise ValueError.

  (** ** scipy.interpolate.Akima1DInterpolator *)

  (** The slopes of one coordinate with two more on both sides.  With two samples
      m[3] is read before it is written: [empty] is what np.empty left there.
      /repo/skcurve/_interpolate.py:527. *)
  Definition akima_slopes (empty : T) (xs ys : list T) : list T :=
    let n := length xs in
    let s := map (slope_at xs ys) (seq 0 (n - 1)) in
    let two := nlit 2 1 in
    let m2 := nth 0 s n0 in
    let m3 := if Nat.eqb n 2 then empty else nth 1 s n0 in
    let m1 := two * m2 - m3 in
    let m0 := two * m1 - m2 in
    let r1 := two * nth (n - 2) s n0 - (if Nat.eqb n 2 then m1 else nth (n - 3) s n0) in
    let r2 := two * r1 - nth (n - 2) s n0 in
    [m0; m1] ++ s ++ [r1; r2].

  (** f1, f2 at sample i: the absolute changes of the slopes after and before.
      /repo/skcurve/_interpolate.py:527. *)
  Definition akima_f1 (m : list T) (i : nat) : T := nabs (nth (i + 3) m n0 - nth (i + 2) m n0).
  (** See [akima_f1]: /repo/skcurve/_interpolate.py:527. *)
  Definition akima_f2 (m : list T) (i : nat) : T := nabs (nth (i + 1) m n0 - nth i m n0).
  (** f12 = f1 + f2: /repo/skcurve/_interpolate.py:527. *)
  Definition akima_f12 (m : list T) (i : nat) : T := akima_f1 m i + akima_f2 m i.

  (** The derivative at sample i; [bound] = 1e-9 * max(f12).
      /repo/skcurve/_interpolate.py:527. *)
  Definition akima_deriv (bound : T) (m : list T) (i : nat) : T :=
    if bound <? akima_f12 m i
    then (akima_f1 m i * nth (i + 1) m n0 + akima_f2 m i * nth (i + 2) m n0) / akima_f12 m i
    else nlit 1 2 * (nth (i + 3) m n0 + nth i m n0).

  (** numpy.max of a non-empty list: /repo/skcurve/_interpolate.py:527. *)
  Definition max_list (l : list T) : T :=
    match l with [] => n0 | x :: r => fold_left npmax r x end.

  (** The derivatives of all coordinates; the maximum is taken over all samples
      and coordinates.  /repo/skcurve/_interpolate.py:527. *)
  Definition akima_rows (empty : nat -> T) (xs : list T) (rows : list (list T)) (ndim : nat) : list (list T) :=
    let m j := akima_slopes (empty j) xs (column rows j) in
    let bound := nlit 1 1000000000
                 * max_list (concat (map (fun i => map (fun j => akima_f12 (m j) i) (seq 0 ndim)) (seq 0 (length xs)))) in
    map (fun i => map (fun j => akima_deriv bound (m j) i) (seq 0 ndim)) (seq 0 (length xs)).

  (** AkimaInterpolator: /repo/skcurve/_interpolate.py:525-530. *)
  Definition akima (empty : nat -> T) : icreate T := fun c =>
    let xs := c_tval junk c in
    if prepare_ok xs (c_rows c) then
      do f <- hermite_new qnan false xs (c_rows c) (Some (akima_rows empty xs (c_rows c) (c_ndim c))) (c_ndim c) ;
      Ok (as_array (c_ndim c) f)
    else Raise ValueError.
End Splines2.
Arguments bc T : clear implicits.
Arguments bc1 T : clear implicits.
Arguments bcarg T : clear implicits.
Arguments bctype T : clear implicits.
