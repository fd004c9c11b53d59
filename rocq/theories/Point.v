(** Model of the class Point (/repo/skcurve/_base.py:94-380) and of the metric
    table (/repo/skcurve/_distance.py).

    Not modelled: complex numbers and other dtypes than int64 / float64,
    int64 overflow, the conversion of NaN to an integer dtype, hashing,
    and numpy arrays or numpy scalars as left operands (numpy then converts
    the point itself and returns an array, no code of Point runs). *)

From Coq Require Import ZArith String List Bool Arith.
From Verif Require Import Num Py Numeric Curve Vec Geom Intersect Registry.
Import ListNotations.
Local Open Scope string_scope.
Local Open Scope list_scope.
Local Open Scope num_scope.

(** The data array of a point: 0-D ([Point(5)]) or 1-D
    (/repo/skcurve/_base.py:144-148 rejects everything else). *)
Inductive arr (T : Type) : Type :=
| A0 (x : T)
| A1 (l : list T).
Arguments A0 {T} x.
Arguments A1 {T} l.

(** Point: /repo/skcurve/_base.py:94-151 (slot _data and its dtype). *)
Record point (T : Type) : Type := mkPoint { p_data : arr T; p_dtype : dtype }.
Arguments mkPoint {T}.
Arguments p_data {T}.
Arguments p_dtype {T}.

(** What the constructor is given: a number, a sequence of numbers, another
    point, or nested sequences (an array of two or more dimensions):
    /repo/skcurve/_base.py:102-110. *)
Inductive pdata (T : Type) : Type :=
| PNumber (x : T)
| PSeq (l : list T)
| PPoint (p : point T)
| PNested.
Arguments PNumber {T} x.
Arguments PSeq {T} l.
Arguments PPoint {T} p.
Arguments PNested {T}.

(** The operators of /repo/skcurve/_base.py:225-253. *)
Inductive binop : Type := OpAdd | OpSub | OpMul | OpDiv | OpFloorDiv.

(** An operand of an operator: a point, a Python number, or something else
    (/repo/skcurve/_base.py:365-376). *)
Inductive operand (T : Type) : Type :=
| OPoint (p : point T)
| ONumber (x : T)
| OOther.
Arguments OPoint {T} p.
Arguments ONumber {T} x.
Arguments OOther {T}.

(** Result of a special method: NotImplemented or an outcome.
    /repo/skcurve/_base.py:362-380. *)
Inductive opres (A : Type) : Type :=
| NotImpl
| Ret (r : res A).
Arguments NotImpl {A}.
Arguments Ret {A} r.

(** Result of indexing and of numpy.dot: a number, an array or a point.
    /repo/skcurve/_base.py:173-200, 255-272. *)
Inductive value (T : Type) : Type :=
| VNum (x : T)
| VArr (l : list T)
| VPoint (p : point T).
Arguments VNum {T} x.
Arguments VArr {T} l.
Arguments VPoint {T} p.

(** The index of Point.__getitem__ (/repo/skcurve/_base.py:173-200). *)
Inductive pindex : Type :=
| IxInt (i : Z)
| IxSlice (s : slice)
| IxList (l : list Z).

Section Point.
  Context {T : Type} {NT : Num T} {ST : NumSqrt T}.

  (** The elements of an array in order (ndarray.ravel).
      /repo/skcurve/_base.py:150-151. *)
  Definition arr_list (a : arr T) : list T := match a with A0 x => [x] | A1 l => l end.

  (** ndarray.size: /repo/skcurve/_base.py:168, 171, 316. *)
  Definition arr_size (a : arr T) : nat := length (arr_list a).

  (** Element-wise conversion of an array.
      astype: /repo/skcurve/_base.py:144. *)
  Definition arr_map (f : T -> T) (a : arr T) : arr T :=
    match a with A0 x => A0 (f x) | A1 l => A1 (map f l) end.

  (** Point.__init__: /repo/skcurve/_base.py:131-151.  The dtype of a given
      point is not kept: without dtype the result is float64.  (A non-numeric
      dtype is not rejected either, line 142 builds the exception without
      raising it; such dtypes are not modelled.) *)
  Definition point_init (d : pdata T) (dt : option dtype) : res (point T) :=
    let dt := match dt with None => DFloat | Some dt => dt end in
    match d with
    | PNumber x => Ok (mkPoint (A0 (cast dt x)) dt)
    | PSeq l => Ok (mkPoint (A1 (map (cast dt) l)) dt)
    | PPoint p => Ok (mkPoint (arr_map (cast dt) (p_data p)) dt)
    | PNested => Raise ValueError
    end.

  (** Point.ndim and len(): /repo/skcurve/_base.py:158-168, 306-316. *)
  Definition p_ndim (p : point T) : nat := arr_size (p_data p).

  (** bool(point): /repo/skcurve/_base.py:170-171. *)
  Definition p_bool (p : point T) : bool := Nat.ltb 0 (p_ndim p).

  (** Point(data) of an array that is already float64 or int64:
      /repo/skcurve/_base.py:198 and 380. *)
  Definition point_of (a : arr T) : res (point T) :=
    match a with A0 x => point_init (PNumber x) None | A1 l => point_init (PSeq l) None end.

  (** Point.__getitem__: /repo/skcurve/_base.py:173-200.  A 0-D array cannot
      be indexed. *)
  Definition p_getitem (p : point T) (ix : pindex) : res (value T) :=
    match p_data p with
    | A0 _ => Raise IndexError
    | A1 l =>
        let wrap d := if Nat.ltb 1 (length d) then rmap VPoint (point_of (A1 d)) else Ok (VArr d) in
        match ix with
        | IxInt i => rmap VNum (np_get l i)
        | IxSlice s => do d <- np_slice l s ; wrap d
        | IxList is => do d <- np_take l is ; wrap d
        end
    end.

  (** Point.__eq__ for another point: /repo/skcurve/_base.py:202-223. *)
  Definition p_eq (p q : point T) : bool :=
    Nat.eqb (p_ndim p) (p_ndim q) && allequal (p_dtype p) (p_dtype q) (arr_list (p_data p)) (arr_list (p_data q)).

  (** numpy floor_divide in exact arithmetic (in binary64 numpy goes through
      fmod and may differ from this by rounding).
      /repo/skcurve/_base.py:249-253. *)
  Definition nfloordiv (a b : T) : T :=
    let q := a / b in
    let t := ntrunc q in
    if q <? t then t - n1 else t.

  (** The functions operator.add, sub, mul, truediv and floordiv on numbers:
      /repo/skcurve/_base.py:226-253. *)
  Definition op_fun (o : binop) : T -> T -> T :=
    match o with
    | OpAdd => nadd | OpSub => nsub | OpMul => nmul | OpDiv => ndiv | OpFloorDiv => nfloordiv
    end.

  (** The same operators on arrays with numpy broadcasting
      (/repo/skcurve/_base.py:380). *)
  Definition broadcast (f : T -> T -> T) (a b : arr T) : res (arr T) :=
    match a, b with
    | A0 x, A0 y => Ok (A0 (f x y))
    | A0 x, A1 v => Ok (A1 (map (f x) v))
    | A1 u, A0 y => Ok (A1 (map (fun x => f x y) u))
    | A1 u, A1 v =>
        if Nat.eqb (length u) (length v) then Ok (A1 (map2 f u v))
        else match u, v with
             | [x], _ => Ok (A1 (map (f x) v))
             | _, [y] => Ok (A1 (map (fun x => f x y) u))
             | _, _ => Raise ValueError
             end
    end.

  (** Point._op: /repo/skcurve/_base.py:362-380. *)
  Definition p_op (o : binop) (self : point T) (other : operand T) (right : bool) : opres (point T) :=
    let run (d : arr T) :=
      Ret (do a <- (if right then broadcast (op_fun o) d (p_data self) else broadcast (op_fun o) (p_data self) d) ;
           point_of a) in
    match other with
    | OPoint q => run (p_data q)
    | ONumber x => run (A0 x)
    | OOther => if right then NotImpl else Ret (Raise TypeError)
    end.

  (** The expression `l op r` with at least one point: the methods
      __add__ ... __floordiv__ of a left point, otherwise the reflected method of the
      right point (/repo/skcurve/_base.py:225-253); a left operand that is no
      point answers NotImplemented to a point, and NotImplemented from both
      sides is a TypeError.  None: no point involved. *)
  Definition py_binop (o : binop) (l r : operand T) : option (res (point T)) :=
    let finish x := match x with NotImpl => Raise TypeError | Ret y => y end in
    match l, r with
    | OPoint p, _ => Some (finish (p_op o p r false))
    | _, OPoint q => Some (finish (p_op o q l true))
    | _, _ => None
    end.

  (** numpy.dot of two arrays of at most one dimension.
      /repo/skcurve/_base.py:272. *)
  Definition np_dot (a b : arr T) : res (value T) :=
    match a, b with
    | A0 x, A0 y => Ok (VNum (x * y))
    | A0 x, A1 v => Ok (VArr (map (nmul x) v))
    | A1 u, A0 y => Ok (VArr (map (fun x => x * y) u))
    | A1 u, A1 v => if Nat.eqb (length u) (length v) then Ok (VNum (vdot u v)) else Raise ValueError
    end.

  (** The expression `p @ other`: /repo/skcurve/_base.py:255-272. *)
  Definition p_matmul (p : point T) (other : operand T) : res (value T) :=
    match other with
    | OPoint q => np_dot (p_data p) (p_data q)
    | _ => Raise TypeError
    end.

  (** Point.norm: /repo/skcurve/_base.py:318-328 (np.sqrt of p @ p, which is a
      number for every point). *)
  Definition p_norm (p : point T) : T :=
    nsqrt (match p_data p with A0 x => x * x | A1 l => vdot l l end).

  (** ** Metrics *)

  (** A metric: what scipy.spatial.distance functions (and user callables) do
      with two arrays.
      /repo/skcurve/_distance.py:12-29. *)
  Definition metric : Type := arr T -> arr T -> res T.

  (** u - v of two validated vectors (scipy's _validate_vector makes 0-D
      arrays 1-D); the shapes are broadcast.
      /repo/skcurve/_distance.py:18-28. *)
  Definition vec_diff (a b : arr T) : res (list T) :=
    rmap arr_list (broadcast nsub (A1 (arr_list a)) (A1 (arr_list b))).

  (** scipy.spatial.distance.euclidean: norm(u - v), where scipy.linalg.norm
      raises ValueError for non-finite entries.
      /repo/skcurve/_distance.py:22. *)
  Definition m_euclidean : metric := fun a b =>
    do d <- vec_diff a b ;
    if forallb isfinite d then Ok (vnorm d) else Raise ValueError.

  (** scipy.spatial.distance.sqeuclidean: dot(u - v, u - v).
      /repo/skcurve/_distance.py:27. *)
  Definition m_sqeuclidean : metric := fun a b => do d <- vec_diff a b ; Ok (vdot d d).

  (** scipy.spatial.distance.cityblock: sum of |u - v|.
      /repo/skcurve/_distance.py:19. *)
  Definition m_cityblock : metric := fun a b => do d <- vec_diff a b ; Ok (vsum (map nabs d)).

  (** scipy.spatial.distance.chebyshev: max(|u - v|), ValueError without
      coordinates.
      /repo/skcurve/_distance.py:18. *)
  Definition m_chebyshev : metric := fun a b =>
    do d <- vec_diff a b ;
    match map nabs d with
    | [] => Raise ValueError
    | x :: r => Ok (fold_left (fun m y => if m <? y then y else m) r x)
    end.

  (** [K]: keyword arguments; [ext]: the other scipy metrics, and the four
      above when they are given keyword arguments. *)
  Context {K : Type} (ext : string -> option K -> metric).

  (** _METRICS: /repo/skcurve/_distance.py:15-29. *)
  Definition metrics : registry (option K -> metric) :=
    let base name (m : metric) := (name, fun k => match k with None => m | Some _ => ext name k end) in
    let other name := (name, ext name) in
    [ other "braycurtis"; other "canberra"; base "chebyshev" m_chebyshev; base "cityblock" m_cityblock;
      other "correlation"; other "cosine"; base "euclidean" m_euclidean; other "jensenshannon";
      other "mahalanobis"; base "minkowski" m_euclidean; other "seuclidean"; base "sqeuclidean" m_sqeuclidean;
      other "wminkowski" ].

  (** known_metrics: /repo/skcurve/_distance.py:38-48. *)
  Definition known_metrics : list string := reg_names metrics.

  (** get_metric: /repo/skcurve/_distance.py:51-80. *)
  Definition get_metric (name : string) (kwargs : option K) : res metric :=
    match reg_find metrics name with
    | None => Raise NameError
    | Some m => Ok (m kwargs)
    end.

  (** The metric argument: a string, a callable, or something else.
      /repo/skcurve/_base.py:354-358. *)
  Inductive metric_arg : Type :=
  | MName (name : string)
  | MCall (m : metric)
  | MOther.

  (** Point.distance: /repo/skcurve/_base.py:330-360 (default 'euclidean'). *)
  Definition p_distance (p q : point T) (m : metric_arg) (kwargs : option K) : res T :=
    match m with
    | MName name => do f <- get_metric name kwargs ; f (p_data p) (p_data q)
    | MCall f => f (p_data p) (p_data q)
    | MOther => Raise TypeError
    end.
End Point.
