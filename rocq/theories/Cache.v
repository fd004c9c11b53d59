(** Model of the cached properties of curves and curve points with their
    aliasing: the decorator cached_property
    (/repo/skcurve/_base.py:1568-1626, /repo/skcurve/_diffgeom.py:226-604)
    stores the computed object in the instance, later reads return that very
    object, and the arrays are writable.

    The heap holds the arrays that property reads have created; a property
    cache holds an address.  The data of the curve are read-only
    (/repo/skcurve/_base.py:1166), so they are no part of the state.  The
    property `segments` (an array of objects) is not modelled. *)

From Coq Require Import ZArith List Bool Arith.
From Verif Require Import Num Py Numeric Curve Vec DiffGeom.
Import ListNotations.
Local Open Scope num_scope.

(** The cached array properties of a curve: chordlen
    (/repo/skcurve/_base.py:1596-1607) and those of [prop]. *)
Inductive key : Type := KChord | KProp (q : prop).

(** Equality of keys (dict keys are property names).
    /repo/skcurve/_diffgeom.py:226-606. *)
Definition prop_eqb (a b : prop) : bool :=
  match a, b with
  | PT, PT | PCumarclen, PCumarclen | PFirst, PFirst | PSecond, PSecond | PThird, PThird | PTangent, PTangent
  | PNormal, PNormal | PBinormal, PBinormal | PSpeed, PSpeed | PFrenet1, PFrenet1 | PFrenet2, PFrenet2
  | PFrenet3, PFrenet3 | PCurvature, PCurvature | PTorsion, PTorsion => true
  | _, _ => false
  end.
(** Equality of keys, /repo/skcurve/_base.py:1596-1597 and /repo/skcurve/_diffgeom.py:226-606. *)
Definition key_eqb (a b : key) : bool :=
  match a, b with
  | KChord, KChord => true
  | KProp p, KProp q => prop_eqb p q
  | _, _ => false
  end.

(** What a point has cached: a number, a view of a row of an array of the
    curve (basic numpy indexing), or an array without elements.
    /repo/skcurve/_diffgeom.py:208-214. *)
Inductive pref (T : Type) : Type :=
| PScalar (x : T)
| PView (addr : nat) (row : nat)
| PNilView (axes : nat).
Arguments PScalar {T} x.
Arguments PView {T} addr row.
Arguments PNilView {T} axes.

(** A live CurvePoint: stored index and its instance dictionary
    (/repo/skcurve/_base.py:403-410). *)
Record pobj (T : Type) : Type := mkPobj { o_idx : Z; o_cache : prop -> option (pref T) }.
Arguments mkPobj {T}.
Arguments o_idx {T}.
Arguments o_cache {T}.

(** The state of one curve object: arrays, instance dictionary (addresses),
    cached arclen, and the points taken from it.
    /repo/skcurve/_base.py:1568-1624. *)
Record state (T : Type) : Type := mkState {
  s_heap : list (arr T);
  s_cache : key -> option nat;
  s_arclen : option T;
  s_points : list (pobj T)
}.
Arguments mkState {T}.
Arguments s_heap {T}.
Arguments s_cache {T}.
Arguments s_arclen {T}.
Arguments s_points {T}.

Section Cache.
  Context {T : Type} {NT : Num T} {ST : NumSqrt T}.
  (** As in DiffGeom.v; the contents that uninitialised memory happens to have. *)
  Variable junk : T.
  Variable c : curve T.

  (** State after Curve.__init__: only the parameter vector exists, read-only
      (/repo/skcurve/_base.py:1156-1168). *)
  Definition init : state T :=
    mkState (match c_t c with Some t => [AVec t] | None => [] end) (fun _ => None) None [].

  (** Is the array read-only?
      /repo/skcurve/_base.py:1158. *)
  Definition readonly (a : nat) : bool :=
    match c_t c with Some _ => Nat.eqb a 0 | None => false end.

  (** Stateful computations.
      Statements of the property bodies, /repo/skcurve/_diffgeom.py:226-638. *)
  Definition M (A : Type) : Type := state T -> res A * state T.
  (** return without effect, as /repo/skcurve/_diffgeom.py:298. *)
  Definition mret {A} (a : A) : M A := fun s => (Ok a, s).
  (** Sequencing, as /repo/skcurve/_diffgeom.py:348-356. *)
  Definition mbind {A B} (m : M A) (f : A -> M B) : M B :=
    fun s => let '(r, s1) := m s in
             match r with Ok a => f a s1 | Raise e => (Raise e, s1) end.
  (** A call without effect on the caches, as /repo/skcurve/_diffgeom.py:417. *)
  Definition mlift {A} (r : res A) : M A := fun s => (r, s).

  (** Contents of an array.
      /repo/skcurve/_diffgeom.py:226-638. *)
  Definition deref (s : state T) (a : nat) : arr T := nth a (s_heap s) (ANil 0).
  (** Use of an array read before, as /repo/skcurve/_diffgeom.py:279. *)
  Definition load (a : nat) : M (arr T) := fun s => (Ok (deref s a), s).

  (** What the body of a property returns: a new array or an existing one.
      New: /repo/skcurve/_diffgeom.py:260, alias: /repo/skcurve/_diffgeom.py:320, /repo/skcurve/_base.py:1591-1594. *)
  Inductive made : Type := New (v : arr T) | Alias (a : nat).

  (** Storing the result of a cached_property, /repo/skcurve/_base.py:1568, 1596. *)
  Definition set_cache (s : state T) (k : key) (a : nat) : key -> option nat :=
    fun k' => if key_eqb k' k then Some a else s_cache s k'.

  (** cached_property.__get__: the value of the instance dictionary, or the
      result of the body, stored there.
      /repo/skcurve/_base.py:1568, 1596; /repo/skcurve/_diffgeom.py:226. *)
  Definition cached (k : key) (body : M made) : M nat := fun s =>
    match s_cache s k with
    | Some a => (Ok a, s)
    | None =>
        let '(r, s1) := body s in
        match r with
        | Raise e => (Raise e, s1)
        | Ok (Alias a) => (Ok a, mkState (s_heap s1) (set_cache s1 k a) (s_arclen s1) (s_points s1))
        | Ok (New v) =>
            let a := length (s_heap s1) in
            (Ok a, mkState (s_heap s1 ++ [v]) (set_cache s1 k a) (s_arclen s1) (s_points s1))
        end
    end.

  (** Read a property and look at its contents.
      As /repo/skcurve/_diffgeom.py:279. *)
  Definition use (m : M nat) : M (arr T) := mbind m load.

  (** *** The bodies of the properties, on the contents of the arrays they read *)

  (** np.array([], ndmin=curve.ndim) for an empty curve, otherwise the body.
      /repo/skcurve/_diffgeom.py:350-351, 387-388. *)
  Definition unless_empty (m : M made) : M made :=
    if negb (c_bool c) then mret (New (ANil (c_ndim c))) else m.

  (** The rows of a matrix.
      /repo/skcurve/_diffgeom.py:356. *)
  Definition rows_of (a : arr T) : list (list T) := match a with AMat r => r | _ => [] end.
  (** The entries of a vector, /repo/skcurve/_diffgeom.py:240. *)
  Definition vec_of (a : arr T) : list T := match a with AVec v => v | _ => [] end.

  (** _gradient of an array: /repo/skcurve/_diffgeom.py:118-154. *)
  Definition gradient_arr (a : arr T) : arr T :=
    match a with AMat r => AMat (gradient r) | _ => ANil 1 end.

  (** Curve.chordlen: /repo/skcurve/_base.py:1596-1607. *)
  Definition read_chord : M nat := cached KChord (mret (New (AVec (c_chordlen junk c)))).

  (** cumarclen: /repo/skcurve/_diffgeom.py:226-240. *)
  Definition read_cum : M nat := cached (KProp PCumarclen)
    (mbind (use read_chord) (fun l => mret (New (AVec (n0 :: cumsum (vec_of l)))))).

  (** Curve.t: /repo/skcurve/_base.py:1568-1594. *)
  Definition read_t : M nat := cached (KProp PT)
    (match c_t c with Some _ => mret (Alias 0) | None => mbind read_cum (fun a => mret (Alias a)) end).

  (** firstderiv: /repo/skcurve/_diffgeom.py:242-260. *)
  Definition read_first : M nat := cached (KProp PFirst)
    (mret (New (if negb (c_bool c) then ANil 1 else AMat (gradient (c_rows c))))).

  (** secondderiv: /repo/skcurve/_diffgeom.py:262-279. *)
  Definition read_second : M nat := cached (KProp PSecond)
    (mbind (use read_first) (fun a => mret (New (gradient_arr a)))).

  (** thirdderiv: /repo/skcurve/_diffgeom.py:281-298. *)
  Definition read_third : M nat := cached (KProp PThird)
    (mbind (use read_second) (fun a => mret (New (gradient_arr a)))).

  (** tangent: /repo/skcurve/_diffgeom.py:300-320. *)
  Definition read_tangent : M nat := cached (KProp PTangent) (mbind read_first (fun a => mret (Alias a))).

  (** speed: /repo/skcurve/_diffgeom.py:396-417 (the norm along axis 1 of a
      1-D array is an AxisError). *)
  Definition read_speed : M nat := cached (KProp PSpeed)
    (mbind (use read_tangent) (fun a =>
       mlift (match a with AMat r => Ok (New (AVec (map vnorm r))) | _ => Raise ValueError end))).

  (** frenet1: /repo/skcurve/_diffgeom.py:419-452. *)
  Definition read_frenet1 : M nat := cached (KProp PFrenet1)
    (unless_empty (mbind (use read_tangent) (fun a => mret (New (AMat (map unit_row (rows_of a))))))).

  (** normal: /repo/skcurve/_diffgeom.py:322-356. *)
  Definition read_normal : M nat := cached (KProp PNormal)
    (unless_empty (mbind (use read_second) (fun sder =>
      mbind (use read_frenet1) (fun e1 => mret (New (AMat (map2 reject (rows_of sder) (rows_of e1)))))))).

  (** frenet2: /repo/skcurve/_diffgeom.py:454-495. *)
  Definition read_frenet2 : M nat := cached (KProp PFrenet2)
    (unless_empty (mbind (use read_normal) (fun a => mret (New (AMat (map unit_row (rows_of a))))))).

  (** binormal: /repo/skcurve/_diffgeom.py:358-394. *)
  Definition read_binormal : M nat := cached (KProp PBinormal)
    (unless_empty (mbind (use read_third) (fun tder =>
      mbind (use read_frenet1) (fun e1 => mbind (use read_frenet2) (fun e2 =>
        mret (New (AMat (map2 (fun t '(e1, e2) => vsub (vsub t (vscale e1 (vdot t e1))) (vscale e2 (vdot t e2)))
                              (rows_of tder) (combine (rows_of e1) (rows_of e2)))))))))).

  (** frenet3: /repo/skcurve/_diffgeom.py:497-537. *)
  Definition read_frenet3 : M nat := cached (KProp PFrenet3)
    (unless_empty (mbind (use read_binormal) (fun a => mret (New (AMat (map unit_row (rows_of a))))))).

  (** curvature: /repo/skcurve/_diffgeom.py:539-602. *)
  Definition read_curvature : M nat := cached (KProp PCurvature)
    (unless_empty
      (if Nat.eqb (c_ndim c) 2
       then mbind (use read_first) (fun fd =>
              if Nat.eqb (length (rows_of fd)) 1 then mlift (Raise IndexError)
              else mbind (use read_second) (fun sd =>
                mret (New (AVec (map2 curvature2 (rows_of fd) (rows_of sd))))))
       else mbind (use read_frenet1) (fun e1 => mbind (use read_tangent) (fun t =>
              mret (New (AVec (map2 (fun g t => vnorm g / vnorm t) (gradient (rows_of e1)) (rows_of t)))))))).

  (** torsion: /repo/skcurve/_diffgeom.py:604-638. *)
  Definition read_torsion : M nat := cached (KProp PTorsion)
    (unless_empty (mbind (use read_frenet2) (fun e2 => mbind (use read_tangent) (fun t =>
      mbind (use read_frenet3) (fun e3 =>
        mret (New (AVec (map2 (fun '(g, e3) t => vdot g e3 / vnorm t)
                              (combine (gradient (rows_of e2)) (rows_of e3)) (rows_of t))))))))).

  (** Reading the property [k] of the curve.
      /repo/skcurve/_base.py:1568-1607, /repo/skcurve/_diffgeom.py:226-638. *)
  Definition read (k : key) : M nat :=
    match k with
    | KChord => read_chord
    | KProp q =>
        match q with
        | PT => read_t | PCumarclen => read_cum | PFirst => read_first | PSecond => read_second
        | PThird => read_third | PTangent => read_tangent | PNormal => read_normal
        | PBinormal => read_binormal | PSpeed => read_speed | PFrenet1 => read_frenet1
        | PFrenet2 => read_frenet2 | PFrenet3 => read_frenet3 | PCurvature => read_curvature
        | PTorsion => read_torsion
        end
    end.

  (** Curve.arclen: /repo/skcurve/_base.py:1609-1624; it calls the function
      chordlen, not the cached property (/repo/skcurve/_diffgeom.py:115). *)
  Definition read_arclen : M T := fun s =>
    match s_arclen s with
    | Some x => (Ok x, s)
    | None => let x := c_arclen junk c in (Ok x, mkState (s_heap s) (s_cache s) (Some x) (s_points s))
    end.

  (** *** Points *)

  (** array[idx] as an object: a number, a view, or an array without elements.
      /repo/skcurve/_diffgeom.py:212. *)
  Definition sub_ref (s : state T) (a : nat) (i : Z) : res (pref T) :=
    match deref s a with
    | AVec v => rmap PScalar (np_get v i)
    | AMat rows => match norm_index (length rows) i with
                   | Some k => Ok (PView a k)
                   | None => Raise IndexError
                   end
    | ANil 0 | ANil 1 => Raise IndexError
    | ANil (S n) => if (Z.eqb i 0 || Z.eqb i (-1))%bool then Ok (PNilView n) else Raise IndexError
    end.

  (** The current contents of such an object.
      /repo/skcurve/_diffgeom.py:212. *)
  Definition pderef (s : state T) (p : pref T) : pval T :=
    match p with
    | PScalar x => VNum x
    | PView a k => VRow (nth k (rows_of (deref s a)) [])
    | PNilView n => VNil n
    end.

  (** Storing a property in a point, /repo/skcurve/_diffgeom.py:208-214 below cached_property. *)
  Definition set_point (ps : list (pobj T)) (n : nat) (q : prop) (p : pref T) : list (pobj T) :=
    firstn n ps ++
    match nth_error ps n with
    | Some o => mkPobj (o_idx o) (fun q' => if prop_eqb q' q then Some p else o_cache o q') :: skipn (S n) ps
    | None => []
    end.

  (** A wrapped property of the point number [n]: _maybe_curve_point
      (/repo/skcurve/_diffgeom.py:208-214) below cached_property. *)
  Definition point_cached (n : nat) (o : pobj T) (q : prop) : M (pref T) := fun s =>
    match o_cache o q with
    | Some p => (Ok p, s)
    | None =>
        let '(r, s1) := read (KProp q) s in
        match r with
        | Raise e => (Raise e, s1)
        | Ok a =>
            match sub_ref s1 a (o_idx o) with
            | Raise e => (Raise e, s1)
            | Ok p => (Ok p, mkState (s_heap s1) (s_cache s1) (s_arclen s1) (set_point (s_points s1) n q p))
            end
        end
    end.

  (** The property [q] of the point number [n].  CurvePoint.t is an ordinary
      property (/repo/skcurve/_base.py:453-464); tangent is a cached alias of
      the point's own firstderiv (/repo/skcurve/_diffgeom.py:300-320). *)
  Definition read_point (n : nat) (q : prop) : M (pref T) := fun s =>
    match nth_error (s_points s) n with
    | None => (Raise OtherError, s)
    | Some o =>
        match q with
        | PT => let '(r, s1) := read (KProp PT) s in
                match r with
                | Raise e => (Raise e, s1)
                | Ok a => (sub_ref s1 a (o_idx o), s1)
                end
        | PTangent =>
            match o_cache o PTangent with
            | Some p => (Ok p, s)
            | None => let '(r, s1) := point_cached n o PFirst s in
                      match r with
                      | Raise e => (Raise e, s1)
                      | Ok p => (Ok p, mkState (s_heap s1) (s_cache s1) (s_arclen s1) (set_point (s_points s1) n PTangent p))
                      end
            end
        | q => point_cached n o q s
        end
    end.

  (** *** Histories *)

  (** Two arrays of one shape.
      Shape of the result of a property, /repo/skcurve/_diffgeom.py:226-638. *)
  Definition same_shape (a b : arr T) : bool :=
    match a, b with
    | AVec u, AVec v => Nat.eqb (length u) (length v)
    | AMat r, AMat s => Nat.eqb (length r) (length s) && forallb (fun '(u, v) => Nat.eqb (length u) (length v)) (combine r s)
    | ANil m, ANil n => Nat.eqb m n
    | _, _ => false
    end.

  (** What a program does with a curve: read a property, read arclen, take the
      point with an index, read a property of a point taken before, assign
      into an array it was given.
      /repo/skcurve/_base.py:1203-1236, 1568-1624; /repo/skcurve/_diffgeom.py:217-638. *)
  Inductive event : Type :=
  | ERead (k : key)
  | EArclen
  | EPoint (i : Z)
  | EPointRead (n : nat) (q : prop)
  | EWrite (a : nat) (v : arr T).

  (** What the program sees.
      /repo/skcurve/_base.py:1203-1236, 1568-1624; /repo/skcurve/_diffgeom.py:217-638. *)
  Inductive answer : Type :=
  | OArr (r : res (arr T))
  | ONum (r : res T)
  | OVal (r : res (pval T))
  | OUnit (r : res unit).

  (** c[i] (CurvePoint.__init__: /repo/skcurve/_base.py:403-410): the stored
      index is i, or size + i for a negative i; it must address the data. *)
  Definition stored_index (i : Z) : Z := if (i <? 0)%Z then (Z.of_nat (c_size c) + i)%Z else i.

  (** Assignment into an array that is not read-only (/repo/skcurve/_base.py:1158, 1166). *)
  Definition update {A} (l : list A) (a : nat) (v : A) : list A := firstn a l ++ v :: skipn (S a) l.

  (** /repo/skcurve/_base.py:1203-1236, 1568-1624; /repo/skcurve/_diffgeom.py:217-638. *)
  Definition step (s : state T) (e : event) : answer * state T :=
    match e with
    | ERead k => let '(r, s1) := read k s in (OArr (rmap (deref s1) r), s1)
    | EArclen => let '(r, s1) := read_arclen s in (ONum r, s1)
    | EPoint i =>
        let j := stored_index i in
        match norm_index (c_size c) j with
        | None => (OUnit (Raise IndexError), s)
        | Some _ => (OUnit (Ok tt), mkState (s_heap s) (s_cache s) (s_arclen s) (s_points s ++ [mkPobj j (fun _ => None)]))
        end
    | EPointRead n q => let '(r, s1) := read_point n q s in (OVal (rmap (pderef s1) r), s1)
    | EWrite a v =>
        if Nat.ltb a (length (s_heap s)) && same_shape (deref s a) v && negb (readonly a)
        then (OUnit (Ok tt), mkState (update (s_heap s) a v) (s_cache s) (s_arclen s) (s_points s))
        else (OUnit (Raise ValueError), s)
    end.

  (** The answers of a history, with the state before each event.
      /repo/skcurve/_base.py:1203-1236, 1568-1624; /repo/skcurve/_diffgeom.py:217-638. *)
  Fixpoint run (s : state T) (h : list event) : list (state T * event * answer) :=
    match h with
    | [] => []
    | e :: h' => let '(o, s1) := step s e in (s, e, o) :: run s1 h'
    end.
End Cache.
Arguments event T : clear implicits.
Arguments answer T : clear implicits.
Arguments made T : clear implicits.
