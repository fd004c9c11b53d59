(** Model of the 'savgol' smoothing method of /repo/skcurve/_smooth.py (lines
    121-145); scipy.signal.savgol_filter (versions before 1.9, which demand an
    odd window) is modelled after its source. *)

From Coq Require Import ZArith String List Bool Arith.
From Verif Require Import Num Py Numeric Curve Vec Csaps Registry Smooth.
Import ListNotations.
Local Open Scope string_scope.
Local Open Scope list_scope.
Local Open Scope num_scope.

Section Savgol.
  Context {T : Type} {NT : Num T}.

  (** x ** m: scipy's savgol_coeffs and _fit_edge.
      /repo/skcurve/_smooth.py:136-145. *)
  Fixpoint npow (x : T) (m : nat) : T := match m with O => n1 | S m' => x * npow x m' end.

  (** float_factorial, without its overflow at 171.
      /repo/skcurve/_smooth.py:136-145. *)
  Fixpoint nfact (m : nat) : T := match m with O => n1 | S m' => nlit (Z.of_nat m) 1 * nfact m' end.

  (** np.arange(-pos, w - pos, dtype=float).
      /repo/skcurve/_smooth.py:136-145. *)
  Definition offsets (w : nat) (pos : Z) : list T := map (fun k => nlit (Z.of_nat k - pos) 1) (seq 0 w).

  (** Row m of the matrix A = x ** order, order = 0, 1, ...
      /repo/skcurve/_smooth.py:136-145. *)
  Definition power_row (xs : list T) (m : nat) : list T := map (fun x => npow x m) xs.

  (** The normal equations A A^T z = b for the powers 0..p: the matrix with the
      right side in the last column.
      /repo/skcurve/_smooth.py:136-145. *)
  Definition normal_system (xs : list T) (p : nat) (b : nat -> T) : list (list T) :=
    map (fun m => map (fun l => vdot (power_row xs m) (power_row xs l)) (seq 0 (S p)) ++ [b m]) (seq 0 (S p)).

  (** savgol_coeffs(w, p, deriv=d, delta=delta) with the position in the middle
      and use='conv': linalg.lstsq of an underdetermined system of full rank is
      the solution of minimal norm, A^T z with A A^T z = y.
      /repo/skcurve/_smooth.py:136-145. *)
  Definition savgol_coeffs (w p d : nat) (delta : T) : list T :=
    let xs := rev (offsets w (Z.of_nat (w / 2))) in
    let z := gauss (S p) (normal_system xs p (fun m => if Nat.eqb m d then nfact d / npow delta d else n0)) in
    map (fun x => vdot z (map (npow x) (seq 0 (S p)))) xs.

  (** np.polyfit(xs, ys, p) with the lowest power first: the least squares
      solution (np.polyfit cuts off small singular values and may give a
      RankWarning, which is not modelled).
      /repo/skcurve/_smooth.py:136-145. *)
  Definition polyfit (xs ys : list T) (p : nat) : list T :=
    gauss (S p) (normal_system xs p (fun m => vdot (power_row xs m) ys)).

  (** np.polyval: Horner's rule, lowest power first here.
      /repo/skcurve/_smooth.py:136-145. *)
  Fixpoint polyval (a : list T) (x : T) : T := match a with [] => n0 | c :: a' => c + x * polyval a' x end.

  (** One derivative; scipy's _polyder(p, m) takes m of them.
      /repo/skcurve/_smooth.py:136-145. *)
  Definition pder (a : list T) : list T :=
    match a with [] => [] | _ :: a' => map2 (fun k c => nlit (Z.of_nat (S k)) 1 * c) (seq 0 (length a')) a' end.

  (** Rows [i0, i0 + m) of the output, from the polynomials fitted to the w rows
      from [start] on: _fit_edge.
      /repo/skcurve/_smooth.py:136-145. *)
  Definition fit_edge (rows : list (list T)) (ncol w p d : nat) (delta : T) (start i0 m : nat) : list (list T) :=
    let win := firstn w (skipn start rows) in
    let polys := map (fun col => Nat.iter d pder (polyfit (offsets w 0) (map (fun r => nth col r n0) win) p)) (seq 0 ncol) in
    map (fun i => map (fun a => polyval a (nlit (Z.of_nat i - Z.of_nat start) 1) / npow delta d) polys) (seq i0 m).

  (** The modes accepted by savgol_filter ('reflect' is not among them).
      /repo/skcurve/_smooth.py:136-145. *)
  Definition savgol_modes : list string := ["mirror"; "constant"; "nearest"; "interp"; "wrap"].

  (** scipy.signal.savgol_filter(x, w, p, deriv, delta, axis=0, mode, cval) for
      an array of [ncol] columns.  A derivative beyond the degree has zero
      weights.  delta ** deriv = 0 is a ZeroDivisionError (OtherError).  A window
      longer than the curve in mode 'interp' is a ValueError, as in newer
      versions; older ones compare it with the number of coordinates and leave
      the rest to a TypeError of np.polyfit.
      /repo/skcurve/_smooth.py:136-145. *)
  Definition savgol_scipy (w p d : Z) (delta : T) (mode : string) (cval : T) (ncol : nat) (rows : list (list T)) : res (ndarray T) :=
    if negb (existsb (String.eqb mode) savgol_modes) then Raise ValueError
    else if ((w <=? p) || (w mod 2 =? 0) || (w <=? 0))%Z then Raise ValueError
    else
      let w' := Z.to_nat w in
      let n := length rows in
      let arr (r : list (list T)) := Ok (mkNd [n; ncol] (concat r)) in
      do coeffs <- (if (p <? d)%Z then Ok (repeat n0 w')
                    else if (d <? 0)%Z then Raise ValueError
                    else if npow delta (Z.to_nat d) =? n0 then Raise OtherError
                    else Ok (savgol_coeffs w' (Z.to_nat p) (Z.to_nat d) delta)) ;
      if String.eqb mode "interp" then
        if Nat.ltb n w' then Raise ValueError
        else
          do y <- convolve1d rows ncol DFloat coeffs "constant" n0 ;
          if (p <? 0)%Z then Raise ValueError
          else
            let h := Nat.div w' 2 in
            let fit := fit_edge rows ncol w' (Z.to_nat p) (Z.to_nat d) delta in
            arr (fit 0 0 h ++ firstn (n - h - h) (skipn h y) ++ fit (n - w') (n - h) h)%nat
      else
        do y <- convolve1d rows ncol DFloat coeffs mode cval ;
        arr y.

  (** The method 'savgol' with its parameters: /repo/skcurve/_smooth.py:121-145. *)
  Definition savgol (w p d : Z) (delta : T) (mode : string) (cval : T) : smethod T := fun c =>
    savgol_filter (savgol_scipy w p d delta mode cval (c_ndim c)) c.
End Savgol.
