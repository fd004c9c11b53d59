(** Model of the 'csaps' interpolator of /repo/skcurve/_interpolate.py (lines
    609-638); the class CubicSmoothingSpline of csaps (versions 0.9-0.11) is
    modelled after its source. *)

From Coq Require Import ZArith String List Bool Arith.
From Verif Require Import Num Py Numeric Curve Vec Geom DiffGeom Intersect Registry Interp Splines Splines2.
Import ListNotations.
Local Open Scope list_scope.
Local Open Scope num_scope.

Section Csaps.
  Context {T : Type} {NT : Num T} {ST : NumSqrt T}.
  (** See Splines.v. *)
  Variable junk : T.
  Variable qnan : T.

  (** scipy.sparse.linalg.spsolve for one right side: Gauss elimination of the
      first unknown from the rows (coefficients, then the right side), and so on;
      SuperLU may exchange rows, which matters for rounding only.
      /repo/skcurve/_interpolate.py:634-635. *)
  Fixpoint gauss (k : nat) (rows : list (list T)) : list T :=
    match k, rows with
    | S k', (p :: r) :: rest =>
        let sub q := match q with [] => [] | c :: q' => map2 (fun a b => a - c / p * b) q' r end in
        let sol := gauss k' (map sub rest) in
        (nth k' r n0 - vdot r sol) / p :: sol
    | _, _ => []
    end.

  (** Entry (k, l) of the matrix R, from the steps of the abscissae.
      /repo/skcurve/_interpolate.py:634-635. *)
  Definition r_entry (xs : list T) (k l : nat) : T :=
    if Nat.eqb l k then nlit 2 1 * (step_at xs (S k) + step_at xs k)
    else if Nat.eqb l (S k) then step_at xs (S k)
    else if Nat.eqb k (S l) then step_at xs k
    else n0.

  (** Entry (k, i) of the matrix of second divided differences.
      /repo/skcurve/_interpolate.py:634-635. *)
  Definition q_entry (xs : list T) (k i : nat) : T :=
    if Nat.eqb i k then n1 / step_at xs k
    else if Nat.eqb i (S k) then nopp (n1 / step_at xs (S k) + n1 / step_at xs k)
    else if Nat.eqb i (S (S k)) then n1 / step_at xs (S k)
    else n0.

  (** Row k of the same divided by the square roots of the weights.
      /repo/skcurve/_interpolate.py:634-635. *)
  Definition qtw_row (xs ws : list T) (k : nat) : list T :=
    map (fun i => q_entry xs k i * (n1 / nsqrt (nth i ws n0))) (seq 0 (length xs)).

  (** qtw @ qtw.T: /repo/skcurve/_interpolate.py:634-635. *)
  Definition gram (xs ws : list T) (k l : nat) : T := vdot (qtw_row xs ws k) (qtw_row xs ws l).

  (** The number of unknowns: /repo/skcurve/_interpolate.py:634-635. *)
  Definition unknowns (xs : list T) : nat := (length xs - 2)%nat.

  (** The smoothing parameter; None: from the traces of the matrices
      (_compute_smooth).  /repo/skcurve/_interpolate.py:634-635. *)
  Definition smooth_of (xs ws : list T) (smooth : option T) : T :=
    match smooth with
    | Some p => p
    | None => n1 / (n1 + vsum (map (fun k => r_entry xs k k) (seq 0 (unknowns xs)))
                         / (nlit 6 1 * vsum (map (fun k => gram xs ws k k) (seq 0 (unknowns xs)))))
    end.

  (** pp = 6 * (1 - p): /repo/skcurve/_interpolate.py:634-635. *)
  Definition rough (p : T) : T := nlit 6 1 * (n1 - p).

  (** The linear system of one coordinate, the right side last.
      /repo/skcurve/_interpolate.py:634-635. *)
  Definition csaps_system (xs ws : list T) (p : T) (ys : list T) : list (list T) :=
    map (fun k => map (fun l => rough p * gram xs ws k l + p * r_entry xs k l) (seq 0 (unknowns xs))
                  ++ [slope_at xs ys (S k) - slope_at xs ys k])
        (seq 0 (unknowns xs)).

  (** u with zeros on both sides: /repo/skcurve/_interpolate.py:634-635. *)
  Definition csaps_u (xs ws : list T) (p : T) (ys : list T) : list T :=
    [n0] ++ gauss (unknowns xs) (csaps_system xs ws p ys) ++ [n0].

  (** d1 with zeros on both sides: /repo/skcurve/_interpolate.py:634-635. *)
  Definition csaps_d1 (xs u : list T) : list T :=
    [n0] ++ map (fun k => (nth (S k) u n0 - nth k u n0) / step_at xs k) (seq 0 (length xs - 1)) ++ [n0].

  (** The fitted values yi at the abscissae: /repo/skcurve/_interpolate.py:634-635. *)
  Definition csaps_fit (xs ws : list T) (p : T) (ys u : list T) (i : nat) : T :=
    let d1 := csaps_d1 xs u in
    nth i ys n0 - rough p * (n1 / nth i ws n0) * (nth (S i) d1 n0 - nth i d1 n0).

  (** The coefficients of piece k, highest power first.
      /repo/skcurve/_interpolate.py:634-635. *)
  Definition csaps_coeffs (xs ws : list T) (p : T) (ys : list T) (k : nat) : T * T * T * T :=
    let u := csaps_u xs ws p ys in
    let yi := csaps_fit xs ws p ys u in
    let pu i := p * nth i u n0 in
    let h := step_at xs k in
    ((pu (S k) - pu k) / h, nlit 3 1 * pu k, (yi (S k) - yi k) / h - h * (nlit 2 1 * pu k + pu (S k)), yi k).

  (** One value of the spline; with two samples it is the line through them.
      /repo/skcurve/_interpolate.py:637-638. *)
  Definition csaps_at (xs ws : list T) (p : T) (rows : list (list T)) (ndim : nat) (v : T) : list T :=
    let i := piece_of xs v in
    map (fun j =>
      let ys := column rows j in
      if undefined_at true xs v then qnan
      else if Nat.eqb (length xs) 2 then n0 + nth 0 ys n0 * n1 + slope_at xs ys 0 * (v - nth 0 xs n0)
      else poly_eval (csaps_coeffs xs ws p ys i) (v - nth i xs n0))
      (seq 0 ndim).

  (** CsapsInterpolator: /repo/skcurve/_interpolate.py:630-638.  [weights] = None:
      all equal to one.  The weights are not checked for their sign. *)
  Definition csaps (smooth : option T) (weights : option (list T)) : icreate T := fun c =>
    let xs := c_tval junk c in
    let ws := match weights with Some w => w | None => repeat n1 (length xs) end in
    if Nat.leb 2 (length xs) && Nat.eqb (length (c_rows c)) (length xs) && Nat.eqb (length ws) (length xs)
       && forallb (fun d => n0 <? d) (diff xs)
    then Ok (as_array (c_ndim c) (map (csaps_at xs ws (smooth_of xs ws smooth) (c_rows c) (c_ndim c))))
    else Raise ValueError.
End Csaps.
