(** Model of /repo/skcurve/_smooth.py: smoothing dispatch, the moving window
    filter and the Savitzky-Golay wrapper. *)

From Coq Require Import ZArith String List Bool Arith.
From Verif Require Import Num Py Numeric Curve Vec Registry.
Import ListNotations.
Local Open Scope string_scope.
Local Open Scope list_scope.

(** ** scipy.ndimage boundary modes *)

(** The mode argument of convolve1d (/repo/skcurve/_smooth.py:175).  The aliases
    grid-mirror, grid-wrap and grid-constant of newer scipy versions are not
    modelled. *)
Inductive bmode : Type := BReflect | BNearest | BMirror | BWrap | BConstant.

(** An unknown name is a RuntimeError (OtherError).
    /repo/skcurve/_smooth.py:175. *)
Definition bmode_of (s : string) : res bmode :=
  if String.eqb s "reflect" then Ok BReflect
  else if String.eqb s "nearest" then Ok BNearest
  else if String.eqb s "mirror" then Ok BMirror
  else if String.eqb s "wrap" then Ok BWrap
  else if String.eqb s "constant" then Ok BConstant
  else Raise OtherError.

(** Which of the [n] samples stands at position [j] of the extended line, for
    n > 0; None: the fill value (used at /repo/skcurve/_smooth.py:172-178). *)
Definition ext_index (m : bmode) (n : nat) (j : Z) : option nat :=
  let z := Z.of_nat n in
  match m with
  | BReflect => let k := (j mod (2 * z))%Z in Some (Z.to_nat (if (k <? z)%Z then k else 2 * z - 1 - k)%Z)
  | BNearest => Some (Z.to_nat (Z.max 0 (Z.min j (z - 1))))
  | BMirror =>
      if Nat.eqb n 1 then Some 0%nat
      else let k := (j mod (2 * (z - 1)))%Z in Some (Z.to_nat (if (k <? z)%Z then k else 2 * (z - 1) - k)%Z)
  | BWrap => Some (Z.to_nat (j mod z)%Z)
  | BConstant => if (0 <=? j)%Z && (j <? z)%Z then Some (Z.to_nat j) else None
  end.

Local Open Scope num_scope.

Section Smooth.
  Context {T : Type} {NT : Num T}.

  (** The extended line at position [j], all columns at once.
      /repo/skcurve/_smooth.py:172-178. *)
  Definition ext_row (m : bmode) (cval : T) (rows : list (list T)) (ncol : nat) (j : Z) : list T :=
    match ext_index m (length rows) j with
    | Some i => nth i rows []
    | None => repeat cval ncol
    end.

  (** Output row [i] of scipy.ndimage.convolve1d(data, w, axis=0, mode, cval):
      the weights run backwards over the extended line, centred at
      w[len(w) // 2] (/repo/skcurve/_smooth.py:172-178).  The order of the
      floating-point summation, which scipy chooses by the symmetry of the
      window, is not modelled. *)
  Definition conv_row (m : bmode) (cval : T) (w : list T) (rows : list (list T)) (ncol : nat) (i : nat) : list T :=
    map (fun col => vsum (map (fun k => nth k w n0 * nth col (ext_row m cval rows ncol (Z.of_nat i + Z.of_nat (length w / 2) - Z.of_nat k)) n0)
                              (seq 0 (length w))))
        (seq 0 ncol).

  (** scipy.ndimage.convolve1d: no weights is a RuntimeError; the output array
      has the dtype of the input.
      /repo/skcurve/_smooth.py:172-178. *)
  Definition convolve1d (rows : list (list T)) (ncol : nat) (dt : dtype) (w : list T) (mode : string) (cval : T) : res (list (list T)) :=
    match w with
    | [] => Raise OtherError
    | _ =>
        do m <- bmode_of mode ;
        Ok (map (fun i => map (cast dt) (conv_row m cval w rows ncol i)) (seq 0 (length rows)))
    end.

  (** What a window callable returns: a 1-D float array, an integer array
      (in-place true division fails with a TypeError), another float array, an
      object without the needed methods (/repo/skcurve/_smooth.py:161-170). *)
  Inductive wres : Type := WFloat (w : list T) | WInt | WShape | WNotArray.

  (** The window_type argument (/repo/skcurve/_smooth.py:150, 161): a callable,
      or a name (or tuple) handed to scipy's get_window. *)
  Inductive wtype : Type := WCall (f : Z -> res wres) | WName (name : string).

  (** window /= window.sum(): /repo/skcurve/_smooth.py:170. *)
  Definition normalise (w : list T) : list T := let s := vsum w in map (fun x => x / s) w.

  (** [get_window name size]: scipy.signal.windows.get_window(name, size,
      fftbins=False), an external function returning a float array. *)
  Variable get_window : string -> Z -> res (list T).

  (** window_filter: /repo/skcurve/_smooth.py:148-178. *)
  Definition window_filter (c : curve T) (size : Z) (wt : wtype) (mode : string) (cval : T) : res (source T) :=
    do w <- match wt with
            | WCall f => match f size with Ok w => Ok w | Raise _ => Raise ValueError end
            | WName name => rmap WFloat (get_window name size)
            end ;
    match w with
    | WFloat w =>
        do rows <- convolve1d (c_rows c) (c_ndim c) (c_dtype c) (normalise w) mode cval ;
        Ok (SArray (mkNd [c_size c; c_ndim c] (concat rows)) (c_dtype c))
    | WInt => Raise TypeError
    | WShape => Raise OtherError
    | WNotArray => Raise OtherError
    end.

  (** savgol_filter: /repo/skcurve/_smooth.py:124-145; [ext] is
      scipy.signal.savgol_filter with the given parameters along axis 0, whose
      result is a float array. *)
  Definition savgol_filter (ext : list (list T) -> res (ndarray T)) (c : curve T) : res (source T) :=
    rmap (fun a => SArray a DFloat) (ext (c_rows c)).

  (** A smoothing method with its parameters given: an array or array-like, or
      an exception (/repo/skcurve/_smooth.py:29-51). *)
  Definition smethod : Type := curve T -> res (source T).

  (** smooth: /repo/skcurve/_smooth.py:181-219; Curve.smooth:
      /repo/skcurve/_base.py:2224-2258. *)
  Definition smooth (r : registry smethod) (name : string) (c : curve T) : res (curve T) :=
    do f <- reg_get r name ;
    match f c with
    | Ok data => curve_init data None None None None
    | Raise ValueError => Raise ValueError
    | Raise TypeError => Raise TypeError
    | Raise _ => Raise SmoothingError
    end.
End Smooth.
Arguments wres T : clear implicits.
Arguments wtype T : clear implicits.
Arguments smethod T : clear implicits.
