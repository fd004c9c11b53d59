(** Model of /repo/skcurve/_diffgeom.py: chord and arc length, numerical
    gradient, Frenet vectors, curvature and torsion; and of Curve.t,
    Curve.chordlen, Curve.arclen of /repo/skcurve/_base.py.

    Over exact numbers int64 data do not overflow; for the instance of Int64.v they
    do.  Warnings are in Warn.v. *)

From Coq Require Import ZArith List Bool Arith.
From Verif Require Import Num Py Numeric Curve Vec.
Import ListNotations.
Local Open Scope num_scope.

Section DiffGeom.
  Context {T : Type} {NT : Num T} {ST : NumSqrt T}.

  (** The value found in uninitialised memory: for an empty curve chordlen is
      np.ndarray([], dtype=float64), a 0-d array with arbitrary contents
      (/repo/skcurve/_diffgeom.py:88-89). *)
  Variable junk : T.

  (** ** Chord and arc length *)

  (** chordlen: /repo/skcurve/_diffgeom.py:69-91, as the flat list of its
      elements; Curve.chordlen: /repo/skcurve/_base.py:1596-1607. *)
  Definition c_chordlen (c : curve T) : list T :=
    if negb (c_bool c) then [junk] else chordlen_rows (c_rows c).

  (** arclen: /repo/skcurve/_diffgeom.py:94-115; Curve.arclen:
      /repo/skcurve/_base.py:1609-1624.  The order of the summation is not
      specified by numpy; here it is right to left. *)
  Definition c_arclen (c : curve T) : T := vsum (c_chordlen c).

  (** numpy.cumsum (used at /repo/skcurve/_diffgeom.py:240). *)
  Fixpoint cumsum_from (a : T) (l : list T) : list T :=
    match l with
    | [] => []
    | x :: l' => (a + x) :: cumsum_from (a + x) l'
    end.
  (** numpy.cumsum: /repo/skcurve/_diffgeom.py:240. *)
  Definition cumsum (l : list T) : list T :=
    match l with [] => [] | x :: l' => x :: cumsum_from x l' end.

  (** cumarclen of a curve: /repo/skcurve/_diffgeom.py:226-240. *)
  Definition c_cumarclen (c : curve T) : list T := n0 :: cumsum (c_chordlen c).

  (** Curve.t: /repo/skcurve/_base.py:1568-1594. *)
  Definition c_tval (c : curve T) : list T :=
    match c_t c with Some t => t | None => c_cumarclen c end.

  (** ** Gradient *)

  (** numpy.gradient(data, axis=0, edge_order) with unit spacing (used at
      /repo/skcurve/_diffgeom.py:154): central differences inside, one-sided
      differences of first or second order at the ends. *)
  Definition np_gradient (edge2 : bool) (rows : list (list T)) : list (list T) :=
    let m := length rows in
    let f i := nth i rows [] in
    map (fun i =>
      if Nat.eqb i 0 then
        if edge2
        then vadd (vadd (vscale (f 0%nat) (nlit (-3) 2)) (vscale (f 1%nat) (nlit 2 1))) (vscale (f 2%nat) (nlit (-1) 2))
        else vsub (f 1%nat) (f 0%nat)
      else if Nat.eqb i (m - 1) then
        if edge2
        then vadd (vadd (vscale (f (m - 3)%nat) (nlit 1 2)) (vscale (f (m - 2)%nat) (nlit (-2) 1))) (vscale (f (m - 1)%nat) (nlit 3 2))
        else vsub (f (m - 1)%nat) (f (m - 2)%nat)
      else map (fun x => x / nlit 2 1) (vsub (f (i + 1)%nat) (f (i - 1)%nat)))
    (seq 0 m).

  (** _gradient: /repo/skcurve/_diffgeom.py:118-154, with the default
      edge_order = 2: the loop falls back to edge_order 1 for two rows and to
      np.zeros((m_rows, 1)) for one row.  No rows: an empty 1-D array, here []. *)
  Definition gradient (rows : list (list T)) : list (list T) :=
    match length rows with
    | 0 => []
    | 1 => [[n0]]
    | 2 => np_gradient false rows
    | _ => np_gradient true rows
    end%nat.

  (** ** Derivatives and Frenet vectors of the rows of a non-empty curve *)

  (** firstderiv, tangent: /repo/skcurve/_diffgeom.py:242-260, 300-320. *)
  Definition deriv1 (rows : list (list T)) : list (list T) := gradient rows.
  (** secondderiv: /repo/skcurve/_diffgeom.py:262-279. *)
  Definition deriv2 (rows : list (list T)) : list (list T) := gradient (deriv1 rows).
  (** thirdderiv: /repo/skcurve/_diffgeom.py:281-298. *)
  Definition deriv3 (rows : list (list T)) : list (list T) := gradient (deriv2 rows).

  (** One entry of _frenet_vector_norm: /repo/skcurve/_diffgeom.py:157-166. *)
  Definition frenet_norm (v : list T) : T :=
    let n := vnorm v in if isclose n n0 then n1 else n.

  (** v / norm: /repo/skcurve/_diffgeom.py:452, 491, 533. *)
  Definition unit_row (v : list T) : list T := map (fun x => x / frenet_norm v) v.

  (** v - <v, e> e: /repo/skcurve/_diffgeom.py:356, 394. *)
  Definition reject (v e : list T) : list T := vsub v (vscale e (vdot v e)).

  (** speed: /repo/skcurve/_diffgeom.py:396-417. *)
  Definition speed_rows (rows : list (list T)) : list T := map vnorm (deriv1 rows).
  (** frenet1: /repo/skcurve/_diffgeom.py:419-452. *)
  Definition frenet1_rows (rows : list (list T)) : list (list T) := map unit_row (deriv1 rows).
  (** normal: /repo/skcurve/_diffgeom.py:322-356. *)
  Definition normal_rows (rows : list (list T)) : list (list T) := map2 reject (deriv2 rows) (frenet1_rows rows).
  (** frenet2: /repo/skcurve/_diffgeom.py:454-495. *)
  Definition frenet2_rows (rows : list (list T)) : list (list T) := map unit_row (normal_rows rows).
  (** binormal: /repo/skcurve/_diffgeom.py:358-394. *)
  Definition binormal_rows (rows : list (list T)) : list (list T) :=
    map2 (fun t '(e1, e2) => vsub (vsub t (vscale e1 (vdot t e1))) (vscale e2 (vdot t e2)))
         (deriv3 rows) (combine (frenet1_rows rows) (frenet2_rows rows)).
  (** frenet3: /repo/skcurve/_diffgeom.py:497-537. *)
  Definition frenet3_rows (rows : list (list T)) : list (list T) := map unit_row (binormal_rows rows).

  (** ** Curvature and torsion *)

  (** One value of the plane curvature: /repo/skcurve/_diffgeom.py:586-593.
      x ** 1.5 is modelled as x * sqrt x (equal up to rounding). *)
  Definition curvature2 (fd sd : list T) : T :=
    let fx := nth 0 fd n0 in
    let fy := nth 1 fd n0 in
    let sx := nth 0 sd n0 in
    let sy := nth 1 sd n0 in
    let q := fx * fx + fy * fy in
    (sy * fx - sx * fy) / (q * nsqrt q).

  (** curvature of a plane curve; the one-column derivative of a one-point
      curve has no column 1: /repo/skcurve/_diffgeom.py:586-593. *)
  Definition curvature_plane (rows : list (list T)) : res (list T) :=
    if Nat.eqb (length rows) 1 then Raise IndexError
    else Ok (map2 curvature2 (deriv1 rows) (deriv2 rows)).

  (** curvature of a curve in three or more dimensions:
      /repo/skcurve/_diffgeom.py:594-600. *)
  Definition curvature_space (rows : list (list T)) : list T :=
    map2 (fun g t => vnorm g / vnorm t) (gradient (frenet1_rows rows)) (deriv1 rows).

  (** torsion: /repo/skcurve/_diffgeom.py:604-638. *)
  Definition torsion_rows (rows : list (list T)) : list T :=
    map2 (fun '(g, e3) t => vdot g e3 / vnorm t)
         (combine (gradient (frenet2_rows rows)) (frenet3_rows rows)) (deriv1 rows).

  (** ** The properties of curves and of curve points *)

  (** A result: a vector, a matrix given by its rows, or an array without
      elements and of shape (1, ..., 1, 0) with the given number of axes.
      /repo/skcurve/_diffgeom.py:140, 226-638. *)
  Inductive arr : Type := AVec (v : list T) | AMat (rows : list (list T)) | ANil (axes : nat).

  (** The properties of CurvePointFunctionMixin:
      /repo/skcurve/_diffgeom.py:217-638, and Curve.t. *)
  Inductive prop : Type :=
  | PT | PCumarclen | PFirst | PSecond | PThird | PTangent | PNormal | PBinormal | PSpeed
  | PFrenet1 | PFrenet2 | PFrenet3 | PCurvature | PTorsion.

  (** The property of a curve: lines as above.  For the empty curve:
      _gradient gives a 1-D array (lines 139-140), its norm along axis 1 is an
      AxisError (a ValueError), the others return
      np.array([], ndmin=curve.ndim).
      /repo/skcurve/_diffgeom.py:217-638. *)
  Definition curve_prop (c : curve T) (q : prop) : res arr :=
    let rows := c_rows c in
    if negb (c_bool c) then
      match q with
      | PT => Ok (AVec (c_tval c))
      | PCumarclen => Ok (AVec (c_cumarclen c))
      | PFirst | PSecond | PThird | PTangent => Ok (ANil 1)
      | PSpeed => Raise ValueError
      | _ => Ok (ANil (c_ndim c))
      end
    else
      match q with
      | PT => Ok (AVec (c_tval c))
      | PCumarclen => Ok (AVec (c_cumarclen c))
      | PFirst => Ok (AMat (deriv1 rows))
      | PSecond => Ok (AMat (deriv2 rows))
      | PThird => Ok (AMat (deriv3 rows))
      | PTangent => Ok (AMat (deriv1 rows))
      | PNormal => Ok (AMat (normal_rows rows))
      | PBinormal => Ok (AMat (binormal_rows rows))
      | PSpeed => Ok (AVec (speed_rows rows))
      | PFrenet1 => Ok (AMat (frenet1_rows rows))
      | PFrenet2 => Ok (AMat (frenet2_rows rows))
      | PFrenet3 => Ok (AMat (frenet3_rows rows))
      | PCurvature => if Nat.eqb (c_ndim c) 2 then rmap AVec (curvature_plane rows) else Ok (AVec (curvature_space rows))
      | PTorsion => Ok (AVec (torsion_rows rows))
      end.

  (** A value at a point.
      /repo/skcurve/_diffgeom.py:212. *)
  Inductive pval : Type := VNum (x : T) | VRow (v : list T) | VNil (axes : nat).

  (** array[idx] with an integer.
      /repo/skcurve/_diffgeom.py:212. *)
  Definition arr_get (a : arr) (i : Z) : res pval :=
    match a with
    | AVec v => rmap VNum (np_get v i)
    | AMat rows => rmap VRow (np_get rows i)
    | ANil 0 | ANil 1 => Raise IndexError
    | ANil (S n) => if (Z.eqb i 0 || Z.eqb i (-1))%bool then Ok (VNil n) else Raise IndexError
    end.

  (** The property of a CurvePoint with the stored index [idx]
      (/repo/skcurve/_base.py:403-410): _maybe_curve_point reads the property of
      the curve and indexes it (/repo/skcurve/_diffgeom.py:208-214); CurvePoint.t
      does the same (/repo/skcurve/_base.py:453-464); tangent is not wrapped
      but returns firstderiv of the point (/repo/skcurve/_diffgeom.py:300-320). *)
  Definition point_prop (c : curve T) (idx : Z) (q : prop) : res pval :=
    let q' := match q with PTangent => PFirst | q => q end in
    do a <- curve_prop c q' ; arr_get a idx.
End DiffGeom.
Arguments arr T : clear implicits.
Arguments pval T : clear implicits.
