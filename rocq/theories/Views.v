(** CurvePoint and CurveSegment as views of a curve object: identity, copies,
    stored indices.  /repo/skcurve/_base.py:383-495, 908-979. *)
From Coq Require Import ZArith List Bool Arith.
From Verif Require Import Num Py Numeric Curve Vec Geom DiffGeom.
Import ListNotations.
Local Open Scope list_scope.

Section Views.
  Context {T : Type} {NT : Num T} {ST : NumSqrt T}.
  Variable junk : T.

  (** A curve object: its identity (for the operator "is",
      /repo/skcurve/_base.py:491) and its contents, which nothing in the
      package changes. *)
  Record cref : Type := mkRef { rf_id : nat; rf_curve : curve T }.

  (** A CurvePoint: the curve object, the stored index, the coordinates.
      /repo/skcurve/_base.py:401-410. *)
  Record cpoint : Type := mkCPoint { cp_ref : cref; cp_idx : Z; cp_data : list T }.

  (** CurvePoint(curve, index): /repo/skcurve/_base.py:403-410. *)
  Definition cp_new (r : cref) (i : Z) : res cpoint :=
    do x <- getitem_int (rf_curve r) i ; Ok (mkCPoint r (fst x) (snd x)).

  (** CurvePoint.__copy__ and __deepcopy__: a point of the same curve object
      (the curve is not copied).  /repo/skcurve/_base.py:417-421. *)
  Definition cp_copy (p : cpoint) : res cpoint := cp_new (cp_ref p) (cp_idx p).

  (** CurvePoint.t: /repo/skcurve/_base.py:453-464. *)
  Definition cp_t (p : cpoint) : res T := np_get (c_tval junk (rf_curve (cp_ref p))) (cp_idx p).

  (** What is passed as other_point: a CurvePoint or anything else (a Point
      included).  /repo/skcurve/_base.py:488. *)
  Inductive parg : Type := PAView (p : cpoint) | PAOther.

  (** CurvePoint.subcurve: /repo/skcurve/_base.py:488-495. *)
  Definition cp_subcurve (p : cpoint) (other : parg) (endpoint : bool) : res (curve T) :=
    match other with
    | PAOther => Raise TypeError
    | PAView o =>
        if negb (Nat.eqb (rf_id (cp_ref p)) (rf_id (cp_ref o))) then Raise ValueError
        else subcurve (rf_curve (cp_ref p)) (cp_idx p) (cp_idx o) endpoint
    end.

  (** A CurveSegment: the curve object, the stored index, the two end points
      (CurvePoint objects).  /repo/skcurve/_base.py:935-941. *)
  Record csegment : Type := mkCSeg { cs_ref : cref; cs_idx : Z; cs_p1 : cpoint; cs_p2 : cpoint }.

  (** CurveSegment(curve, index): /repo/skcurve/_base.py:929-941, with
      Segment.__init__ (511-520): the points of a curve are never empty and
      have the same dimension. *)
  Definition cs_new (r : cref) (i : Z) : res csegment :=
    let m := (Z.of_nat (c_size (rf_curve r)) - 1)%Z in
    let idx := if (i <? 0)%Z then (m + i)%Z else i in
    if (m <=? idx)%Z then Raise ValueError
    else
      do p <- cp_new r idx ;
      do q <- cp_new r (idx + 1) ;
      Ok (mkCSeg r idx p q).

  (** CurveSegment.chordlen: /repo/skcurve/_base.py:968-979. *)
  Definition cs_chordlen (s : csegment) : res T := np_get (c_chordlen junk (rf_curve (cs_ref s))) (cs_idx s).

  (** Segment.seglen: /repo/skcurve/_base.py:593-602. *)
  Definition cs_seglen (s : csegment) : T := vdist (cp_data (cs_p1 s)) (cp_data (cs_p2 s)).

  (** curve.segments, as objects: /repo/skcurve/_base.py:1626-1637. *)
  Definition cs_all (r : cref) : res (list csegment) :=
    rseq (map (fun k => cs_new r (Z.of_nat k)) (seq 0 (c_size (rf_curve r) - 1))).
End Views.
Arguments cref T : clear implicits.
Arguments cpoint T : clear implicits.
Arguments parg T : clear implicits.
Arguments csegment T : clear implicits.
