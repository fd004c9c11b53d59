(** Model of the Segment class (/repo/skcurve/_base.py:498-985) and of
    /repo/skcurve/_geomalg.py.

    Points carry float64 coordinates (the default dtype; points of a curve are
    always converted to it, /repo/skcurve/_base.py:410), so a point is its list
    of coordinates.  Warnings are in Warn.v.  A NaN result of a function
    that cannot otherwise produce NaN is [None]. *)

From Coq Require Import ZArith List Bool Arith.
From Verif Require Import Num Py Numeric Curve Vec.
Import ListNotations.
Local Open Scope num_scope.

(** F_EPS = numpy.finfo(float64).eps = 2^-52: /repo/skcurve/_numeric.py:12. *)
Definition f_eps {T} {NT : Num T} : T := nlit 1 4503599627370496.

Section Geom.
  Context {T : Type} {NT : Num T} {ST : NumSqrt T}.

  (** Segment: /repo/skcurve/_base.py:498-521. *)
  Record segment : Type := mkSeg { sg_p1 : list T; sg_p2 : list T }.

  (** Segment.__init__: /repo/skcurve/_base.py:512-521 (the TypeError for
      non-points is a Python type test). *)
  Definition mk_segment (p1 p2 : list T) : res segment :=
    if Nat.eqb (length p1) 0 || Nat.eqb (length p2) 0 then Raise ValueError
    else if negb (Nat.eqb (length p1) (length p2)) then Raise ValueError
    else Ok (mkSeg p1 p2).

  (** Segment.ndim: /repo/skcurve/_base.py:571-580. *)
  Definition sg_ndim (s : segment) : nat := length (sg_p1 s).

  (** Point.__eq__: /repo/skcurve/_base.py:202-223 (float data). *)
  Definition pt_eqb (p q : list T) : bool :=
    if negb (Nat.eqb (length p) (length q)) then false else allequal DFloat DFloat p q.

  (** Segment.__eq__: /repo/skcurve/_base.py:529-532. *)
  Definition sg_eqb (s t : segment) : bool :=
    pt_eqb (sg_p1 s) (sg_p1 t) && pt_eqb (sg_p2 s) (sg_p2 t).

  (** Segment.singular: /repo/skcurve/_base.py:582-592. *)
  Definition sg_singular (s : segment) : bool := pt_eqb (sg_p1 s) (sg_p2 s).

  (** Segment.seglen: /repo/skcurve/_base.py:594-604. *)
  Definition sg_len (s : segment) : T := vdist (sg_p1 s) (sg_p2 s).

  (** Segment.dot: /repo/skcurve/_base.py:606-616. *)
  Definition sg_dot (s : segment) : T := vdot (sg_p1 s) (sg_p2 s).

  (** Segment.direction: /repo/skcurve/_base.py:618-628. *)
  Definition sg_dir (s : segment) : list T := vsub (sg_p2 s) (sg_p1 s).

  (** Segment.reverse: /repo/skcurve/_base.py:903-912. *)
  Definition sg_reverse (s : segment) : segment := mkSeg (sg_p2 s) (sg_p1 s).

  (** Segment.to_curve: /repo/skcurve/_base.py:892-901. *)
  Definition sg_to_curve (s : segment) : res (curve T) :=
    curve_init (SArray (mkNd [2%nat; sg_ndim s] (sg_p1 s ++ sg_p2 s)) DFloat) None None None None.

  (** The argument of Segment.point: a number, a 1-D sequence, or an array of
      higher dimension.
      /repo/skcurve/_geomalg.py:51-61. *)
  Inductive tparam : Type := TNum (t : T) | TSeq (ts : list T) | TNd.

  (** segment_point for one number: /repo/skcurve/_geomalg.py:61. *)
  Definition sg_point (s : segment) (t : T) : list T :=
    vadd (sg_p1 s) (vscale (sg_dir s) t).

  (** segment_point for a sequence: /repo/skcurve/_geomalg.py:51-59 (the rows of
      the broadcast product are direction*t). *)
  Definition sg_points (s : segment) (ts : list T) : list (list T) :=
    let dt := map (fun t => vscale (sg_dir s) t) ts in
    map (fun r => vadd (sg_p1 s) r) dt.

  (** segment_point: /repo/skcurve/_geomalg.py:26-61. *)
  Definition segment_point (s : segment) (t : tparam) : res (list T + list (list T)) :=
    match t with
    | TNd => Raise ValueError
    | TSeq ts => Ok (inr (sg_points s ts))
    | TNum x => Ok (inl (sg_point s x))
    end.

  (** numpy.unique(points.T, axis=1): /repo/skcurve/_geomalg.py:223; the unique
      columns, as points, in lexicographic order. *)
  Definition unique_points (pts : list (list T)) : list (list T) :=
    pick pts (np_unique_index pts).

  (** collinear_points: /repo/skcurve/_geomalg.py:194-228.  [rank_le] is the
      exact rank (a matrix and its transpose have the same rank). *)
  Definition collinear_points (pts : list (list T)) : bool :=
    let m := unique_points pts in
    if Nat.ltb (length m) 3 then true else rank_le 1 m.

  (** Segment.collinear(Point): /repo/skcurve/_base.py:718-754. *)
  Definition sg_collinear_point (s : segment) (p : list T) : bool :=
    if pt_eqb p (sg_p1 s) || pt_eqb p (sg_p2 s) then true
    else collinear_points [sg_p1 s; sg_p2 s; p].

  (** Segment.collinear(Segment): /repo/skcurve/_base.py:718-754. *)
  Definition sg_collinear (s o : segment) : bool :=
    if sg_eqb o s || sg_eqb (sg_reverse o) s then true
    else collinear_points [sg_p1 s; sg_p2 s; sg_p1 o; sg_p2 o].

  (** segment_t for one point: /repo/skcurve/_geomalg.py:85-109; None is NaN. *)
  Definition sg_t (s : segment) (p : list T) : option T :=
    if sg_collinear_point s p then Some (lstsq1 (sg_dir s) (vsub p (sg_p1 s))) else None.

  (** segment_t for a sequence of points: /repo/skcurve/_geomalg.py:92-117.  An
      empty sequence fails in np.stack; for a single point squeeze() yields a
      0-d array, which the mask assignment of line 114 cannot index. *)
  Definition sg_ts (s : segment) (ps : list (list T)) : res (list (option T)) :=
    match ps with
    | [] => Raise ValueError
    | [p] => if sg_collinear_point s p then Ok [sg_t s p] else Raise IndexError
    | _ => Ok (map (sg_t s) ps)
    end.

  (** parallel_segments: /repo/skcurve/_geomalg.py:163-191. *)
  Definition parallel_segments (s1 s2 : segment) (tol : T) : bool :=
    let u := sg_dir s1 in
    let v := sg_dir s2 in
    let a := vdot u u in
    let b := vdot u v in
    let c := vdot v v in
    let d := a * c - b * b in
    d <? tol.

  (** coplanar_points: /repo/skcurve/_geomalg.py:231-260 for a list of points of
      one dimension; np.vstack of no point raises ValueError, and so does
      np.linalg.matrix_rank for the empty matrix left by a single point (the
      default tolerance is the maximum of no singular value). *)
  Definition coplanar_points (pts : list (list T)) : res bool :=
    match pts with
    | [] => Raise ValueError
    | p :: rest =>
        if Nat.ltb (length p) 3 then Ok true
        else match rest with
             | [] => Raise ValueError
             | _ =>
                 let q := last pts [] in
                 let rel := map (fun r => vsub r q) pts in
                 Ok (rank_le 2 (removelast rel))
             end
    end.

  (** coplanar_points for an MxN array: /repo/skcurve/_geomalg.py:249-260; an
      empty array of dimension >= 3 fails at [-1, :]. *)
  Definition coplanar_array (rows : list (list T)) (ndim : nat) : res bool :=
    if Nat.ltb ndim 3 then Ok true
    else match rows with
         | [] => Raise IndexError
         | _ => coplanar_points rows
         end.

  (** Curve.isplane: /repo/skcurve/_base.py:1530-1548. *)
  Definition c_isplane (c : curve T) : res bool := coplanar_array (c_rows c) (c_ndim c).

  (** Segment.coplanar: /repo/skcurve/_base.py:756-787. *)
  Definition sg_coplanar_point (s : segment) (p : list T) : res bool :=
    coplanar_points [sg_p1 s; sg_p2 s; p].
  (** Segment.coplanar(Segment): /repo/skcurve/_base.py:756-787. *)
  Definition sg_coplanar (s o : segment) : res bool :=
    coplanar_points [sg_p1 s; sg_p2 s; sg_p1 o; sg_p2 o].

  (** overlap_segments: /repo/skcurve/_geomalg.py:263-305. *)
  Definition overlap_segments (s1 s2 : segment) (check_collinear : bool) : option segment :=
    if check_collinear && negb (sg_collinear s1 s2) then None
    else
      let minmax := map2 npmin (map2 npmax (sg_p1 s1) (sg_p2 s1)) (map2 npmax (sg_p1 s2) (sg_p2 s2)) in
      let maxmin := map2 npmax (map2 npmin (sg_p1 s1) (sg_p2 s1)) (map2 npmin (sg_p1 s2) (sg_p2 s2)) in
      if existsb (fun b => b) (map2 (fun x y => y <? x) maxmin minmax) then None
      else Some (mkSeg maxmin minmax).

  (** segment_to_point: /repo/skcurve/_geomalg.py:308-339. *)
  Definition segment_to_point (s : segment) (p : list T) : T :=
    let u := sg_dir s in
    let w := vsub p (sg_p1 s) in
    let c1 := vdot w u in
    if (c1 <? n0) || isclose c1 n0 then n0
    else
      let c2 := vdot u u in
      if (c2 <? c1) || isclose c2 c1 then n1
      else c1 / c2.

  (** The body of segment_to_segment after the dot products:
      /repo/skcurve/_geomalg.py:377-427. *)
  Definition closest_params (a b c d e tol : T) : T * T :=
    let dd := a * c - b * b in
    let '(sn, sd, tn, td) :=
      if dd <? tol then (n0, n1, e, c)
      else
        let sn := b * e - c * d in
        let tn := a * e - b * d in
        if sn <? n0 then (n0, dd, e, c)
        else if dd <? sn then (dd, dd, e + b, c)
        else (sn, dd, tn, dd) in
    let '(sn, sd, tn) :=
      if tn <? n0 then
        if nopp d <? n0 then (n0, sd, n0)
        else if a <? nopp d then (sd, sd, n0)
        else (nopp d, a, n0)
      else if td <? tn then
        if nopp d + b <? n0 then (n0, sd, td)
        else if a <? nopp d + b then (sd, sd, td)
        else (nopp d + b, a, td)
      else (sn, sd, tn) in
    let t1 := if nabs sn <? tol then n0 else sn / sd in
    let t2 := if nabs tn <? tol then n0 else tn / td in
    (t1, t2).

  (** segment_to_segment: /repo/skcurve/_geomalg.py:342-427. *)
  Definition segment_to_segment (s1 s2 : segment) (tol : T) : T * T :=
    let u := sg_dir s1 in
    let v := sg_dir s2 in
    let w := vsub (sg_p1 s1) (sg_p1 s2) in
    closest_params (vdot u u) (vdot u v) (vdot v v) (vdot u w) (vdot v w) tol.

  (** Segment.shortest_segment(Point): /repo/skcurve/_base.py:879-882. *)
  Definition sg_shortest_point (s : segment) (p : list T) : segment :=
    mkSeg (sg_point s (segment_to_point s p)) p.

  (** Segment.shortest_segment(Segment): /repo/skcurve/_base.py:883-886. *)
  Definition sg_shortest (s o : segment) : segment :=
    let '(t1, t2) := segment_to_segment s o f_eps in
    mkSeg (sg_point s t1) (sg_point o t2).

  (** Segment.distance: /repo/skcurve/_base.py:839-858. *)
  Definition sg_distance_point (s : segment) (p : list T) : T := sg_len (sg_shortest_point s p).
  (** Segment.distance(Segment): /repo/skcurve/_base.py:839-858. *)
  Definition sg_distance (s o : segment) : T := sg_len (sg_shortest s o).

  (** *** segments_to_segments: /repo/skcurve/_geomalg.py:438-561.

      An M1xM2 array is a function of the two indices, valid for i < M1 and
      j < M2. *)
  Definition mat : Type := nat -> nat -> T.
  (** A boolean M1xM2 array, as /repo/skcurve/_geomalg.py:498. *)
  Definition bmat : Type := nat -> nat -> bool.

  (** x[mask] = y[mask]: masked assignment of whole arrays
      (/repo/skcurve/_geomalg.py:501-556). *)
  Definition upd (x : mat) (mask : bmat) (y : mat) : mat :=
    fun i j => if mask i j then y i j else x i j.

  (** The i-th row of np.diff(data, axis=0): /repo/skcurve/_geomalg.py:476-477. *)
  Definition row_dir (rows : list (list T)) (i : nat) : list T :=
    vsub (nth (S i) rows []) (nth i rows []).

  (** The parameter matrices t1, t2.
      /repo/skcurve/_geomalg.py:472-556. *)
  Definition segments_params (data1 data2 : list (list T)) (tol : T) : mat * mat :=
    let u i := row_dir data1 i in
    let v j := row_dir data2 j in
    let w i j := vsub (nth i data1 []) (nth j data2 []) in
    let a : mat := fun i j => vdot (u i) (u i) in
    let b : mat := fun i j => vdot (u i) (v j) in
    let c : mat := fun i j => vdot (v j) (v j) in
    let d : mat := fun i j => vdot (u i) (w i j) in
    let e : mat := fun i j => vdot (v j) (w i j) in
    let dd : mat := fun i j => a i j * c i j - b i j * b i j in
    let zeros : mat := fun i j => n0 in
    let ones : mat := fun i j => n1 in
    let lt_tol : bmat := fun i j => dd i j <? tol in
    let not_lt_tol : bmat := fun i j => negb (lt_tol i j) in
    let sd := upd dd lt_tol ones in
    let tn := upd zeros lt_tol e in
    let td := upd dd lt_tol c in
    let be_cd : mat := fun i j => b i j * e i j - c i j * d i j in
    let ae_bd : mat := fun i j => a i j * e i j - b i j * d i j in
    let sn := upd zeros not_lt_tol be_cd in
    let tn := upd tn not_lt_tol ae_bd in
    let sn_lt_zero : bmat := fun i j => (sn i j <? n0) && not_lt_tol i j in
    let sn := upd sn sn_lt_zero zeros in
    let tn := upd tn sn_lt_zero e in
    let td := upd td sn_lt_zero c in
    let sn_gt_sd : bmat := fun i j => (sd i j <? sn i j) && not_lt_tol i j in
    let sn := upd sn sn_gt_sd sd in
    let tn := upd tn sn_gt_sd (fun i j => e i j + b i j) in
    let td := upd td sn_gt_sd c in
    let tn_lt_zero : bmat := fun i j => tn i j <? n0 in
    let tn := upd tn tn_lt_zero zeros in
    let md_lt_zero : bmat := fun i j => (nopp (d i j) <? n0) && tn_lt_zero i j in
    let md_gt_a : bmat := fun i j => (a i j <? nopp (d i j)) && tn_lt_zero i j in
    let md_else : bmat := fun i j => (negb (md_lt_zero i j) && negb (md_gt_a i j)) && tn_lt_zero i j in
    let sn := upd sn md_lt_zero zeros in
    let sn := upd sn md_gt_a sd in
    let sn := upd sn md_else (fun i j => nopp (d i j)) in
    let sd := upd sd md_else a in
    let tn_gt_td : bmat := fun i j => td i j <? tn i j in
    let tn := upd tn tn_gt_td td in
    let bmd : mat := fun i j => b i j - d i j in
    let bmd_lt_zero : bmat := fun i j => (bmd i j <? n0) && tn_gt_td i j in
    let bmd_gt_a : bmat := fun i j => (a i j <? bmd i j) && tn_gt_td i j in
    let bmd_else : bmat := fun i j => (negb (bmd_lt_zero i j) && negb (bmd_gt_a i j)) && tn_gt_td i j in
    let sn := upd sn bmd_lt_zero zeros in
    let sn := upd sn bmd_gt_a sd in
    let sn := upd sn bmd_else bmd in
    let sd := upd sd bmd_else a in
    let big_sn : bmat := fun i j => negb (nabs (sn i j) <? tol) in
    let big_tn : bmat := fun i j => negb (nabs (tn i j) <? tol) in
    let t1 := upd zeros big_sn (fun i j => sn i j / sd i j) in
    let t2 := upd zeros big_tn (fun i j => tn i j / td i j) in
    (t1, t2).

  (** The end points p1, p2 at entry (i, j).  The arrays t1 and t2 have the
      dtype [dt] of dd (np.zeros_like, lines 552-553), that is the promoted
      dtype of the two data arrays: for two integer arrays the parameters are
      truncated to integers when they are stored (lines 555-556).
      /repo/skcurve/_geomalg.py:552-561. *)
  Definition segments_points (dt : dtype) (data1 data2 : list (list T)) (tol : T) (i j : nat) : list T * list T :=
    let '(t1, t2) := segments_params data1 data2 tol in
    (vadd (nth i data1 []) (vscale (row_dir data1 i) (cast dt (t1 i j))),
     vadd (nth j data2 []) (vscale (row_dir data2 j) (cast dt (t2 i j)))).
End Geom.
Arguments segment T : clear implicits.
Arguments tparam T : clear implicits.
