(** Model of /repo/skcurve/_interpolate.py: interpolation grids, grid
    validation, the interpolator protocol and its dispatch, and linear
    interpolation.  Warnings are in Warn.v. *)

From Coq Require Import ZArith String List Bool Arith Reals QArith Qround PrimFloat FloatOps SpecFloat.
From Verif Require Import Num Py Numeric Curve Vec Geom DiffGeom Intersect Registry.
Import ListNotations.
Local Open Scope string_scope.
Local Open Scope list_scope.

(** ** Rounding *)

(** int(round(x)) (/repo/skcurve/_interpolate.py:131, 188-189): round half to
    even; NaN is a ValueError and an infinity an OverflowError (OtherError). *)
Class NumRound (T : Type) := { nround : T -> res Z }.

(** Half-to-even rounding of k + f with 0 <= f < 1, given f compared with 1/2.
    /repo/skcurve/_interpolate.py:131. *)
Definition half_even (k : Z) (c : comparison) : Z :=
  match c with
  | Lt => k
  | Gt => (k + 1)%Z
  | Eq => if Z.even k then k else (k + 1)%Z
  end.

(** Rounding at the three scalar types (/repo/skcurve/_interpolate.py:131). *)
Definition Rround (x : R) : Z :=
  let k := Int_part x in
  let f := frac_part x in
  half_even k (if Rlt_dec f (/ 2)%R then Lt else if Rlt_dec (/ 2)%R f then Gt else Eq).
(** Python round at the reals, /repo/skcurve/_interpolate.py:131. *)
#[export] Instance RRound : NumRound R := { nround x := Ok (Rround x) }.

(** Python round at the rationals, /repo/skcurve/_interpolate.py:131. *)
Definition Qround_he (x : Q) : Z :=
  let k := Qfloor x in half_even k (Qcompare (x - inject_Z k)%Q (1 # 2)%Q).
(** Python round at the rationals, /repo/skcurve/_interpolate.py:131. *)
#[export] Instance QRound : NumRound Q := { nround x := Ok (Qround_he x) }.

(** Python round in binary64, /repo/skcurve/_interpolate.py:131. *)
Definition Fround (x : float) : res Z :=
  match Prim2SF x with
  | S754_nan => Raise ValueError
  | S754_infinity _ => Raise OtherError
  | S754_zero _ => Ok 0%Z
  | S754_finite s m e =>
      let k := if (0 <=? e)%Z then (Zpos m * 2 ^ e)%Z
               else let d := (2 ^ (- e))%Z in half_even (Zpos m / d) ((2 * (Zpos m mod d)) ?= d)%Z in
      Ok (if s then (- k)%Z else k)
  end.
(** Python round in binary64, /repo/skcurve/_interpolate.py:131. *)
#[export] Instance FRound : NumRound float := { nround := Fround }.

Local Open Scope num_scope.

(** ** numpy and scipy *)

Section Arrays.
  Context {T : Type} {NT : Num T}.

  (** The binary64 value of a small integer.
      np.arange inside np.linspace, /repo/skcurve/_interpolate.py:135. *)
  Definition of_nat (k : nat) : T := nlit (Z.of_nat k) 1.

  (** numpy.linspace(a, b, n) for a non-negative count (used at
      /repo/skcurve/_interpolate.py:135, 191-195, 248-249 and in
      /repo/skcurve/curves.py). *)
  Definition linspace_nat (a b : T) (n : nat) : list T :=
    let delta := b - a in
    match n with
    | O => []
    | S O => [of_nat 0 * delta + a]
    | _ =>
        let div := of_nat (n - 1)%nat in
        let step := delta / div in
        let y k := if step =? n0 then of_nat k / div * delta + a else of_nat k * step + a in
        map y (seq 0 (n - 1)%nat) ++ [b]
    end.

  (** numpy.linspace(a, b, n): a negative count is a ValueError.
      /repo/skcurve/_interpolate.py:135, 191-195, 248-249. *)
  Definition linspace (a b : T) (n : Z) : res (list T) :=
    if (n <? 0)%Z then Raise ValueError else Ok (linspace_nat a b (Z.to_nat n)).

  (** numpy.diff of a 1-D array (/repo/skcurve/_interpolate.py:182, 358). *)
  Fixpoint diff (l : list T) : list T :=
    match l with
    | a :: ((b :: _) as l') => (b - a) :: diff l'
    | _ => []
    end.

  (** ndarray.mean (/repo/skcurve/_interpolate.py:182); of no elements: 0/0. *)
  Definition mean (l : list T) : T := vsum l / of_nat (length l).

  (** numpy.min / numpy.max of a 1-D array: ValueError for no elements.
      /repo/skcurve/_interpolate.py:366, /repo/skcurve/_numeric.py:129. *)
  Definition np_min (l : list T) : res T :=
    match l with [] => Raise ValueError | x :: l' => Ok (fold_left npmin l' x) end.
  (** numpy.max: /repo/skcurve/_interpolate.py:366, /repo/skcurve/_numeric.py:129. *)
  Definition np_max (l : list T) : res T :=
    match l with [] => Raise ValueError | x :: l' => Ok (fold_left npmax l' x) end.

  (** linrescale with the default in_range: /repo/skcurve/_numeric.py:126-138. *)
  Definition linrescale_default (in_data : list T) (out_range : T * T) : res (list T) :=
    do lo <- np_min in_data ;
    do hi <- np_max in_data ;
    Ok (linrescale in_data (lo, hi) out_range).

  (** The sort order of numpy: NaN after everything else.
      Inside interp1d, /repo/skcurve/_interpolate.py:251, 420. *)
  Definition lt_nan (a b : T) : bool := (a <? b) || (nisnan b && negb (nisnan a)).

  (** numpy.argsort(x, kind="mergesort") applied to the samples, as scipy's
      interp1d does (used at /repo/skcurve/_interpolate.py:251, 420): a stable
      sort by the first component. *)
  Fixpoint insert_sample {Y} (p : T * Y) (l : list (T * Y)) : list (T * Y) :=
    match l with
    | [] => [p]
    | q :: l' => if lt_nan (fst p) (fst q) then p :: l else q :: insert_sample p l'
    end.
  (** The samples sorted: /repo/skcurve/_interpolate.py:251, 420. *)
  Definition sort_samples {Y} (l : list (T * Y)) : list (T * Y) :=
    fold_left (fun acc p => insert_sample p acc) l [].

  (** numpy.searchsorted(x, v) (left side) on a sorted array.
      Inside interp1d, /repo/skcurve/_interpolate.py:251, 420. *)
  Definition searchsorted (xs : list T) (v : T) : nat := length (filter (fun x => lt_nan x v) xs).

  (** One value of scipy.interpolate.interp1d(x, y, kind='linear',
      fill_value='extrapolate', axis=0) on sorted samples: the bracketing index
      is clipped to [1, len(x) - 1], so the end pieces are extended.
      /repo/skcurve/_interpolate.py:251-252, 420-423. *)
  Definition interp_at (xs : list T) (ys : list (list T)) (v : T) : list T :=
    let hi := Nat.max 1 (Nat.min (searchsorted xs v) (length xs - 1)) in
    let lo := (hi - 1)%nat in
    let xl := nth lo xs n0 in
    let xh := nth hi xs n0 in
    map2 (fun yl yh => (yh - yl) / (xh - xl) * (v - xl) + yl) (nth lo ys []) (nth hi ys []).

  (** scipy.interpolate.interp1d for linear interpolation
      (/repo/skcurve/_interpolate.py:251, 420): the interpolating function.
      [few n] tells whether scipy accepts [n] < 2 samples (this depends on the
      version); the values for fewer than two samples are not modelled. *)
  Definition interp1d (few : nat -> bool) (xs : list T) (ys : list (list T)) : res (T -> res (list T)) :=
    if negb (Nat.eqb (length xs) (length ys)) then Raise ValueError
    else if Nat.ltb (length xs) 2 then
      if few (length xs) then Ok (fun _ => Raise OtherError) else Raise ValueError
    else
      let s := sort_samples (combine xs ys) in
      Ok (fun v => Ok (interp_at (map fst s) (map snd s) v)).

  (** The same with fill_value = None (/repo/skcurve/_interpolate.py:416-420),
      which scipy takes for a fill value without extrapolation: values outside
      of the samples raise ValueError (bounds_error becomes True), so the fill
      value itself is never stored. *)
  Definition interp1d_bounded (few : nat -> bool) (xs : list T) (ys : list (list T)) : res (T -> res (list T)) :=
    do f <- interp1d few xs ys ;
    let sx := map fst (sort_samples (combine xs ys)) in
    if Nat.ltb (length xs) 2 then Ok f
    else Ok (fun v => if (v <? nth 0 sx n0) || (nth (length sx - 1) sx n0 <? v) then Raise ValueError else f v).
End Arrays.

(** ** Grids *)

Section Interp.
  Context {T : Type} {NT : Num T} {ST : NumSqrt T} {RT : NumRound T}.
  (** The contents of the uninitialised array, see DiffGeom.v; [few]: see
      [interp1d]. *)
  Variable junk : T.
  Variable few : nat -> bool.

  (** An argument that should be a number: a Python int (bool included), a
      Python float, anything else.
      /repo/skcurve/_interpolate.py:115-121, 169-173. *)
  Inductive narg : Type := NInt (z : Z) | NFloat (x : T) | NOther.

  (** The value of a number (/repo/skcurve/_interpolate.py:131, 188-189). *)
  Definition narg_val (a : narg) : T :=
    match a with NInt z => nlit z 1 | NFloat x => x | NOther => n0 end.

  (** The state of a UniformInterpolationGrid: kind and fill
      (/repo/skcurve/_interpolate.py:111-124). *)
  Inductive ugrid : Type := UPoint (n : Z) | ULength (fill : T).

  (** UniformInterpolationGrid.__init__: /repo/skcurve/_interpolate.py:111-124. *)
  Definition uniform_init (fill : narg) (kind : string) : res ugrid :=
    if String.eqb kind "point" then
      match fill with
      | NInt n => if (n <? 2)%Z then Raise ValueError else Ok (UPoint n)
      | _ => Raise TypeError
      end
    else if String.eqb kind "length" then
      match fill with
      | NOther => Raise TypeError
      | a => Ok (ULength (narg_val a))
      end
    else Raise ValueError.

  (** int(round(a / b)) of numpy floats: division by zero is not an error but
      gives an infinity or NaN, which cannot be rounded
      (/repo/skcurve/_interpolate.py:131, 188-189). *)
  Definition round_div (a b : T) : res Z :=
    if b =? n0 then Raise (if nisnan a || (a =? n0) then ValueError else OtherError)
    else nround (a / b).

  (** UniformInterpolationGrid.__call__: /repo/skcurve/_interpolate.py:126-135. *)
  Definition uniform_call (u : ugrid) (c : curve T) : res (list T) :=
    if Nat.ltb (c_size c) 2 then Raise ValueError
    else
      do n <- match u with
              | UPoint n => Ok n
              | ULength fill => rmap (fun k => (k + 1)%Z) (round_div (c_arclen junk c) fill)
              end ;
      do a <- np_get (c_tval junk c) 0 ;
      do b <- np_get (c_tval junk c) (-1) ;
      linspace a b n.

  (** The state of a UniformExtrapolationGrid: kind, before and after
      (/repo/skcurve/_interpolate.py:162-178). *)
  Inductive egrid : Type := EPoint (before after : Z) | ELength (before after : T).

  (** UniformExtrapolationGrid.__init__: /repo/skcurve/_interpolate.py:162-178. *)
  Definition extrap_init (before after : narg) (kind : string) : res egrid :=
    if String.eqb kind "point" then
      match before, after with
      | NInt b, NInt a => Ok (EPoint b a)
      | _, _ => Raise TypeError
      end
    else if String.eqb kind "length" then
      match before, after with
      | NOther, _ => Raise TypeError
      | _, NOther => Raise TypeError
      | b, a => Ok (ELength (narg_val b) (narg_val a))
      end
    else Raise ValueError.

  (** UniformExtrapolationGrid.__call__ on the values of the inner grid:
      /repo/skcurve/_interpolate.py:180-197. *)
  Definition extrap_call (e : egrid) (g : list T) : res (list T) :=
    let cl := mean (diff g) in
    do (nb, na) <- match e with
                   | EPoint b a => Ok (b, a)
                   | ELength b a => do nb <- round_div b cl ; do na <- round_div a cl ; Ok (nb, na)
                   end ;
    do g0 <- np_get g 0 ;
    do gb <- linspace (nopp cl * nlit nb 1 + g0) (nopp cl + g0) nb ;
    do gl <- np_get g (-1) ;
    do ga <- linspace (gl + cl) (gl + cl * nlit na 1) na ;
    Ok (gb ++ g ++ ga).

  (** PreservedSpeedInterpolationGrid.__call__ with interp_kind = 'linear':
      /repo/skcurve/_interpolate.py:246-260.  The abscissae lie in [0, 1], so
      that the bounds check of interp1d passes. *)
  Definition speed_call (pcount : Z) (c : curve T) : res (list T) :=
    if negb (isparametric c) then
      do x <- linspace n0 n1 (Z.of_nat (c_size c)) ;
      do xi <- linspace n0 n1 pcount ;
      do f <- interp1d few x (map (fun y => [y]) (c_cumarclen junk c)) ;
      do ys <- rseq (map f xi) ;
      linrescale_default (map (fun r => nth 0 r n0) ys) (n0, c_arclen junk c)
    else
      do u <- uniform_init (NInt pcount) "point" ;
      uniform_call u c.

  (** What a grid object returns: a 1-D numeric array, an array with another
      number of axes, or an array of another dtype
      (/repo/skcurve/_interpolate.py:347-353). *)
  Inductive gdata : Type := D1 (l : list T) | DShape | DType.

  (** InterpolationGrid objects; [GCustom] is any user-defined one
      (/repo/skcurve/_interpolate.py:53-88). *)
  Inductive grid : Type :=
  | GUniform (u : ugrid)
  | GExtrap (g : grid) (e : egrid)
  | GSpeed (pcount : Z)
  | GCustom (f : curve T -> res gdata).

  (** grid(curve): /repo/skcurve/_interpolate.py:126-135, 180-197, 246-260.  An
      extrapolation grid around a user-defined grid that does not return a 1-D
      array is not modelled (OtherError). *)
  Fixpoint grid_call (g : grid) (c : curve T) : res gdata :=
    match g with
    | GUniform u => rmap D1 (uniform_call u c)
    | GExtrap g' e =>
        do d <- grid_call g' c ;
        match d with
        | D1 l => rmap D1 (extrap_call e l)
        | _ => Raise OtherError
        end
    | GSpeed n => rmap D1 (speed_call n c)
    | GCustom f => f c
    end.

  (** The grid_spec argument: a grid object, an int, an array or sequence
      (1-D; or of another shape, or not convertible to float64), anything else
      (/repo/skcurve/_interpolate.py:343-350). *)
  Inductive gspec : Type :=
  | SGrid (g : grid)
  | SInt (n : Z)
  | SArr (l : list T)
  | SShape
  | SBad (e : exn)
  | SOther.

  (** The checks of a grid: /repo/skcurve/_interpolate.py:358-370.  The last
      lines warn, but np.min of an empty grid raises ValueError. *)
  Definition check_grid (l : list T) : res (list T) :=
    let dt := diff l in
    if existsb (fun d => d <? n0) dt || existsb (fun d => isclose d n0) dt then Raise ValueError
    else do _ <- np_min l ; Ok l.

  (** InterpolatorBase._get_interpolation_grid: /repo/skcurve/_interpolate.py:328-372. *)
  Definition get_grid (c : curve T) (s : gspec) : res (list T) :=
    do d <- match s with
            | SGrid g => grid_call g c
            | SInt n => do u <- uniform_init (NInt n) "point" ; rmap D1 (uniform_call u c)
            | SArr l => Ok (D1 l)
            | SShape => Ok DShape
            | SBad e => Raise e
            | SOther => Raise ValueError
            end ;
    match d with
    | D1 l => check_grid l
    | _ => Raise ValueError
    end.

  (** ** Interpolators *)

  (** The result of creating an interpolator for a curve: its _interpolate
      method (/repo/skcurve/_interpolate.py:310-326). *)
  Definition ifun : Type := list T -> res (ndarray T).

  (** InterpolatorBase.__call__: /repo/skcurve/_interpolate.py:282-304. *)
  Definition interp_call (c : curve T) (f : ifun) (s : gspec) : res (curve T) :=
    if negb (c_bool c) then
      curve_init (SSeq (mkNd [0%nat] [])) None None (Some (Z.of_nat (c_ndim c))) (Some (c_dtype c))
    else if Nat.eqb (c_size c) 1 then Raise ValueError
    else
      do g <- get_grid c s ;
      match f g with
      | Raise _ => Raise InterpolationError
      | Ok data =>
          let tdata := if isparametric c then Some (mkNd [length g] g) else None in
          curve_init (SArray data DFloat) tdata None None (Some (c_dtype c))
      end.

  (** An interpolator class with its parameters given: creating the object may
      fail (/repo/skcurve/_interpolate.py:689-693). *)
  Definition icreate : Type := curve T -> res ifun.

  (** get_interpolator: /repo/skcurve/_interpolate.py:654-693. *)
  Definition get_interpolator (r : registry icreate) (name : string) (c : curve T) : res ifun :=
    match reg_find r name with
    | None => Raise NameError
    | Some create => match create c with Ok f => Ok f | Raise _ => Raise InterpolationError end
    end.

  (** interpolate: /repo/skcurve/_interpolate.py:696-726; Curve.interpolate:
      /repo/skcurve/_base.py:2143-2222. *)
  Definition interpolate (r : registry icreate) (name : string) (c : curve T) (s : gspec) : res (curve T) :=
    do f <- get_interpolator r name c ;
    interp_call c f s.

  (** LinearInterpolator with extrapolate = True:
      /repo/skcurve/_interpolate.py:400-423. *)
  Definition linear : icreate := fun c =>
    do f <- interp1d few (c_tval junk c) (c_rows c) ;
    Ok (fun g => do rows <- rseq (map f g) ; Ok (mkNd [length g; c_ndim c] (concat rows))).
  (** LinearInterpolator with extrapolate = False: /repo/skcurve/_interpolate.py:400-423. *)
  Definition linear_bounded : icreate := fun c =>
    do f <- interp1d_bounded few (c_tval junk c) (c_rows c) ;
    Ok (fun g => do rows <- rseq (map f g) ; Ok (mkNd [length g; c_ndim c] (concat rows))).
End Interp.
Arguments gspec T : clear implicits.
Arguments grid T : clear implicits.
Arguments gdata T : clear implicits.
Arguments ugrid T : clear implicits.
Arguments egrid T : clear implicits.
Arguments narg T : clear implicits.
Arguments ifun T : clear implicits.
Arguments icreate T : clear implicits.
