(** Model of the method registries of /repo/skcurve/_intersect.py,
    /repo/skcurve/_interpolate.py and /repo/skcurve/_smooth.py, and of the
    functions `intersect`, `Curve.intersect` and `Segment.intersect` that
    dispatch on them.

    A Python dict is the list of its items in insertion order. *)

From Coq Require Import ZArith List Bool Arith String.
From Verif Require Import Num Py Numeric Curve Vec Geom Intersect.
Import ListNotations.

(** dict with string keys: /repo/skcurve/_intersect.py:36,
    /repo/skcurve/_interpolate.py:32, /repo/skcurve/_smooth.py:21. *)
Definition registry (A : Type) : Type := list (string * A).

(** d[name] / name in d: /repo/skcurve/_intersect.py:364-368. *)
Fixpoint reg_find {A} (r : registry A) (name : string) : option A :=
  match r with
  | [] => None
  | (k, a) :: r' => if String.eqb k name then Some a else reg_find r' name
  end.

(** list(d.keys()): /repo/skcurve/_intersect.py:335, /repo/skcurve/_interpolate.py:651,
    /repo/skcurve/_smooth.py:92. *)
Definition reg_names {A} (r : registry A) : list string := map fst r.

(** d[name] = a for a name that is not a key yet
    (/repo/skcurve/_intersect.py:433, /repo/skcurve/_interpolate.py:396,
    /repo/skcurve/_smooth.py:73). *)
Definition reg_add {A} (r : registry A) (name : string) (a : A) : registry A := (r ++ [(name, a)])%list.

(** The decorators of register_interpolator
    (/repo/skcurve/_interpolate.py:391-397), register_smooth_method
    (/repo/skcurve/_smooth.py:69-75) and register_intersect_method
    (/repo/skcurve/_intersect.py:428-438, without the default): [ok] tells
    whether the registered object passes the issubclass test; the smoothing
    registry has no such test, there [ok] is true. *)
Definition reg_register {A} (r : registry A) (name : string) (ok : bool) (a : A) : registry A * res unit :=
  match reg_find r name with
  | Some _ => (r, Raise ValueError)
  | None => if negb ok then (r, Raise TypeError) else (reg_add r name a, Ok tt)
  end.

(** get_smooth_method: /repo/skcurve/_smooth.py:95-121; the lookup of
    get_interpolator (/repo/skcurve/_interpolate.py:684-687) and of
    get_intersect_method (/repo/skcurve/_intersect.py:364-368). *)
Definition reg_get {A} (r : registry A) (name : string) : res A :=
  match reg_find r name with
  | None => Raise NameError
  | Some a => Ok a
  end.

Section Intersect.
  (** [P]: keyword parameters of a method. *)
  Context {T P : Type} {NT : Num T} {ST : NumSqrt T}.

  (** A class of intersection methods: calling it with keyword parameters
      creates a method or fails (/repo/skcurve/_intersect.py:368). *)
  Definition icls : Type := P -> res (imethod T).

  (** The module state: /repo/skcurve/_intersect.py:36-37. *)
  Record istate : Type := mkIState { is_methods : registry icls; is_default : option string }.

  (** The state of the module before the first registration:
      /repo/skcurve/_intersect.py:36-37. *)
  Definition is_empty : istate := mkIState [] None.

  (** set_default_intersect_method: /repo/skcurve/_intersect.py:383-403. *)
  Definition set_default (s : istate) (name : string) : istate * res unit :=
    match reg_find (is_methods s) name with
    | None => (s, Raise NameError)
    | Some _ => (mkIState (is_methods s) (Some name), Ok tt)
    end.

  (** register_intersect_method: /repo/skcurve/_intersect.py:406-438. *)
  Definition register_intersect (s : istate) (name : string) (default subclass : bool) (cls : icls) : istate * res unit :=
    let '(r, e) := reg_register (is_methods s) name subclass cls in
    let s' := mkIState r (is_default s) in
    match e with
    | Raise x => (s', Raise x)
    | Ok _ => if default then set_default s' name else (s', Ok tt)
    end.

  (** get_intersect_method: /repo/skcurve/_intersect.py:338-368. *)
  Definition get_intersect (s : istate) (name : string) (params : P) : res (imethod T) :=
    do cls <- reg_get (is_methods s) name ; cls params.

  (** One call of the registry interface: /repo/skcurve/_intersect.py:320-438. *)
  Inductive iop : Type :=
  | IRegister (name : string) (default subclass : bool) (cls : icls)
  | ISetDefault (name : string)
  | IGet (name : string) (params : P)
  | INames.

  (** State and success of one call (/repo/skcurve/_intersect.py:320-438). *)
  Definition istep (s : istate) (o : iop) : istate * res unit :=
    match o with
    | IRegister name default subclass cls => register_intersect s name default subclass cls
    | ISetDefault name => set_default s name
    | IGet name params => (s, rmap (fun _ => tt) (get_intersect s name params))
    | INames => (s, Ok tt)
    end.

  (** The state after a sequence of calls: /repo/skcurve/_intersect.py:320-438. *)
  Definition irun (s : istate) (l : list iop) : istate := fold_left (fun s o => fst (istep s o)) l s.

  (** The method argument of `intersect`: None, a string, an instance of
      IntersectionMethodBase, anything else (/repo/skcurve/_intersect.py:789-804). *)
  Inductive marg : Type := MNone | MStr (name : string) | MInst (m : imethod T) | MOther.

  (** intersect: /repo/skcurve/_intersect.py:749-809.  Exception classes other
      than the listed ones are OtherError (here AttributeError). *)
  Definition intersect (s : istate) (o1 o2 : iobj T) (same : bool) (method : marg) (params : P) : res (iresult T) :=
    let method := match method with
                  | MNone => match is_default s with Some name => MStr name | None => MNone end
                  | m => m
                  end in
    match obj_ndim o1, obj_ndim o2 with
    | Some n1, Some n2 =>
        if negb (Nat.eqb n1 n2) then Raise ValueError
        else
          do m <- match method with
                  | MStr name => get_intersect s name params
                  | MInst m => Ok m
                  | MNone | MOther => Raise ValueError
                  end ;
          match method_call m o1 o2 same with
          | Ok r => Ok r
          | Raise _ => Raise IntersectionError
          end
    | _, _ => Raise OtherError
    end.

  (** The argument [other] of Curve.intersect: nothing, the same object, or
      another object (/repo/skcurve/_base.py:2260-2297). *)
  Inductive oarg : Type := ArgNone | ArgSelf | ArgObj (o : iobj T).

  (** Curve.intersect: /repo/skcurve/_base.py:2260-2297. *)
  Definition curve_intersect (s : istate) (c : curve T) (other : oarg) (method : marg) (params : P) : res (iresult T) :=
    match other with
    | ArgNone | ArgSelf => intersect s (OCurve c) (OCurve c) true method params
    | ArgObj o => intersect s (OCurve c) o false method params
    end.

  (** Segment.intersect: /repo/skcurve/_base.py:809-837. *)
  Definition segment_intersect (s : istate) (sg : segment T) (other : iobj T) (method : marg) (params : P) : res (iresult T) :=
    intersect s (OSeg sg) other false method params.
End Intersect.
Arguments icls T P : clear implicits.
Arguments istate T P : clear implicits.
Arguments iop T P : clear implicits.
Arguments marg T : clear implicits.
Arguments oarg T : clear implicits.

(** The registry of a module without a default: one call of the interface
    (/repo/skcurve/_interpolate.py:375-397, 641-693;
    /repo/skcurve/_smooth.py:54-121). *)
Inductive rop (A : Type) : Type :=
| RRegister (name : string) (ok : bool) (a : A)
| RGet (name : string)
| RNames.
Arguments RRegister {A}. Arguments RGet {A}. Arguments RNames {A}.

(** State and success of one call, and the state after a sequence of calls
    (/repo/skcurve/_interpolate.py:375-397, 641-693; /repo/skcurve/_smooth.py:54-121). *)
Definition rstep {A} (r : registry A) (o : rop A) : registry A * res unit :=
  match o with
  | RRegister name ok a => reg_register r name ok a
  | RGet name => (r, rmap (fun _ => tt) (reg_get r name))
  | RNames => (r, Ok tt)
  end.
(** The state after a sequence of calls: /repo/skcurve/_interpolate.py:375-397, 641-693, /repo/skcurve/_smooth.py:54-121. *)
Definition rrun {A} (r : registry A) (l : list (rop A)) : registry A := fold_left (fun r o => fst (rstep r o)) l r.
