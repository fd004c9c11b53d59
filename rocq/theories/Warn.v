(** The warnings: which calls issue which warnings, in which order.

    A computation with warnings is a list of warnings and a result.  The text
    of a warning is not modelled, only its class; Python's filters (by default a
    repeated warning is shown once) are outside the model, as are the
    RuntimeWarnings of numpy's own floating-point operations. *)

From Coq Require Import ZArith String List Bool Arith Reals.
From Verif Require Import Num Py Numeric Curve Vec Geom DiffGeom Intersect Registry Interp Angle.
Import ListNotations.
Local Open Scope num_scope.

(** The classes: UserWarning and RuntimeWarning (/repo/skcurve/_base.py:1117, 1119),
    DifferentialGeometryWarning (/repo/skcurve/_diffgeom.py:144-151),
    GeometryAlgorithmsWarning (/repo/skcurve/_geomalg.py:21-23),
    InterpolationWarning (/repo/skcurve/_interpolate.py:48-50),
    IntersectionWarning (/repo/skcurve/_intersect.py:40-42). *)
Inductive warning : Type := WUser | WRuntime | WDiffGeom | WGeomAlg | WInterp | WInter.

(** A call: warnings issued, then a value or an exception.
    /repo/skcurve/_interpolate.py:286, 367. *)
Definition W (A : Type) : Type := (list warning * res A)%type.
(** return, as /repo/skcurve/_geomalg.py:109. *)
Definition wret {A} (a : A) : W A := ([], Ok a).
(** A call without warnings, as /repo/skcurve/_interpolate.py:293. *)
Definition wlift {A} (r : res A) : W A := ([], r).
(** warnings.warn(...), as /repo/skcurve/_interpolate.py:286. *)
Definition wwarn {A} (ws : list warning) (m : W A) : W A := (ws ++ fst m, snd m).
(** One statement after another, as /repo/skcurve/_interpolate.py:291-296. *)
Definition wbind {A B} (m : W A) (f : A -> W B) : W B :=
  match snd m with
  | Ok a => wwarn (fst m) (f a)
  | Raise e => (fst m, Raise e)
  end.
(** A loop: /repo/skcurve/_intersect.py:533-534. *)
Fixpoint wseq {A} (l : list (W A)) : W (list A) :=
  match l with
  | [] => wret []
  | m :: l' => wbind m (fun a => wbind (wseq l') (fun r => wret (a :: r)))
  end.
(** A warning under a condition, as /repo/skcurve/_intersect.py:502-505. *)
Definition when (b : bool) (w : warning) : list warning := if b then [w] else [].

Section Warn.
  Context {T : Type} {NT : Num T} {ST : NumSqrt T} {RT : NumRound T}.
  Variable junk : T.

  (** ** Construction: /repo/skcurve/_base.py:1112-1119 *)

  (** Curve.__init__ with its warnings: /repo/skcurve/_base.py:1095-1168. *)
  Definition curve_init_w (src : source T) (tdata : option (ndarray T)) (axis : option Z)
             (ndmin : option Z) (dt : option dtype) : W (curve T) :=
    (match src with
     | SCurve _ =>
         if (match ndmin with None => 2 | Some k => k end <? 2)%Z then []
         else when (match tdata with Some _ => true | None => false end) WUser
              ++ when (match axis with Some _ => true | None => false end) WRuntime
     | _ => []
     end, curve_init src tdata axis ndmin dt).

  (** ** Differential geometry *)

  (** _gradient of an array of [m] rows: the loop over edge_order = 2, 1 and its
      else branch.  /repo/skcurve/_diffgeom.py:139-152. *)
  Definition gradient_warns (m : nat) : list warning :=
    if Nat.eqb m 0 then []
    else if Nat.ltb m 3 then
      WDiffGeom :: (if Nat.ltb m 2 then WDiffGeom :: [WDiffGeom] else [])
    else [].

  (** _frenet_vector_norm: /repo/skcurve/_diffgeom.py:157-166. *)
  Definition frenet_warns (rows : list (list T)) : list warning :=
    when (existsb (fun v => isclose (vnorm v) n0) rows) WDiffGeom.

  (** The caches of a curve as far as warnings matter: the properties computed
      so far, the last one first.  The values are those of [curve_prop]; that
      caching does not change them is property C61.
      /repo/skcurve/_diffgeom.py:226-638. *)
  Definition caches : Type := list prop.

  (** Equality of property names: /repo/skcurve/_diffgeom.py:226-638. *)
  Definition pname (q : prop) : nat :=
    match q with
    | PT => 0 | PCumarclen => 1 | PFirst => 2 | PSecond => 3 | PThird => 4 | PTangent => 5 | PNormal => 6
    | PBinormal => 7 | PSpeed => 8 | PFrenet1 => 9 | PFrenet2 => 10 | PFrenet3 => 11 | PCurvature => 12 | PTorsion => 13
    end%nat.
  (** Is the property in the instance dictionary?
      /repo/skcurve/_diffgeom.py:226. *)
  Definition has (s : caches) (q : prop) : bool := existsb (fun q' => Nat.eqb (pname q') (pname q)) s.

  (** Reads with warnings: /repo/skcurve/_diffgeom.py:226-638. *)
  Definition R_ : Type := caches -> W unit * caches.
  (** A body that reads nothing, /repo/skcurve/_diffgeom.py:242-260. *)
  Definition rdone (ws : list warning) : R_ := fun s => ((ws, Ok tt), s).
  (** A body that fails, /repo/skcurve/_diffgeom.py:417, 593. *)
  Definition rfail (e : exn) : R_ := fun s => (([], Raise e), s).
  (** One read after another, as /repo/skcurve/_diffgeom.py:353-356. *)
  Definition rthen (m k : R_) : R_ := fun s =>
    let '((ws, r), s1) := m s in
    match r with
    | Raise e => ((ws, Raise e), s1)
    | Ok _ => let '((ws', r'), s2) := k s1 in ((ws ++ ws', r'), s2)
    end.
  (** cached_property: /repo/skcurve/_diffgeom.py:226. *)
  Definition rcached (q : prop) (body : R_) : R_ := fun s =>
    if has s q then (wret tt, s)
    else let '((ws, r), s1) := body s in
         match r with
         | Ok _ => ((ws, Ok tt), q :: s1)
         | Raise e => ((ws, Raise e), s1)
         end.
  (** if not curve: return np.array([], ...): /repo/skcurve/_diffgeom.py:350-351. *)
  Definition runless (c : curve T) (m : R_) : R_ := if negb (c_bool c) then rdone [] else m.

  (** cumarclen: /repo/skcurve/_diffgeom.py:226-240. *)
  Definition w_cum (c : curve T) : R_ := rcached PCumarclen (rdone []).
  (** Curve.t: /repo/skcurve/_base.py:1568-1594. *)
  Definition w_t (c : curve T) : R_ := rcached PT (if isparametric c then rdone [] else w_cum c).
  (** firstderiv: /repo/skcurve/_diffgeom.py:242-260. *)
  Definition w_first (c : curve T) : R_ := rcached PFirst (rdone (gradient_warns (c_size c))).
  (** secondderiv: /repo/skcurve/_diffgeom.py:262-279. *)
  Definition w_second (c : curve T) : R_ :=
    rcached PSecond (rthen (w_first c) (rdone (gradient_warns (length (deriv1 (c_rows c)))))).
  (** thirdderiv: /repo/skcurve/_diffgeom.py:281-298. *)
  Definition w_third (c : curve T) : R_ :=
    rcached PThird (rthen (w_second c) (rdone (gradient_warns (length (deriv2 (c_rows c)))))).
  (** tangent: /repo/skcurve/_diffgeom.py:300-320. *)
  Definition w_tangent (c : curve T) : R_ := rcached PTangent (w_first c).
  (** speed: /repo/skcurve/_diffgeom.py:396-417; the AxisError of the empty
      curve as in [curve_prop]. *)
  Definition w_speed (c : curve T) : R_ :=
    rcached PSpeed (rthen (w_tangent c) (if negb (c_bool c) then rfail ValueError else rdone [])).
  (** frenet1: /repo/skcurve/_diffgeom.py:419-452. *)
  Definition w_frenet1 (c : curve T) : R_ :=
    rcached PFrenet1 (runless c (rthen (w_tangent c) (rdone (frenet_warns (deriv1 (c_rows c)))))).
  (** normal: /repo/skcurve/_diffgeom.py:322-356. *)
  Definition w_normal (c : curve T) : R_ :=
    rcached PNormal (runless c (rthen (w_second c) (w_frenet1 c))).
  (** frenet2: /repo/skcurve/_diffgeom.py:454-495. *)
  Definition w_frenet2 (c : curve T) : R_ :=
    rcached PFrenet2 (runless c (rthen (w_normal c) (rdone (frenet_warns (normal_rows (c_rows c)))))).
  (** binormal: /repo/skcurve/_diffgeom.py:358-394. *)
  Definition w_binormal (c : curve T) : R_ :=
    rcached PBinormal (runless c (rthen (w_third c) (rthen (w_frenet1 c) (w_frenet2 c)))).
  (** frenet3: /repo/skcurve/_diffgeom.py:497-537. *)
  Definition w_frenet3 (c : curve T) : R_ :=
    rcached PFrenet3 (runless c (rthen (w_binormal c) (rdone (frenet_warns (binormal_rows (c_rows c)))))).
  (** curvature: /repo/skcurve/_diffgeom.py:539-602. *)
  Definition w_curvature (c : curve T) : R_ :=
    rcached PCurvature (runless c
      (if Nat.eqb (c_ndim c) 2
       then rthen (w_first c) (if Nat.eqb (c_size c) 1 then rfail IndexError else w_second c)
       else rthen (w_frenet1 c) (rthen (rdone (gradient_warns (length (frenet1_rows (c_rows c))))) (w_tangent c)))).
  (** torsion: /repo/skcurve/_diffgeom.py:604-638. *)
  Definition w_torsion (c : curve T) : R_ :=
    rcached PTorsion (runless c
      (rthen (w_frenet2 c) (rthen (rdone (gradient_warns (length (frenet2_rows (c_rows c)))))
        (rthen (w_tangent c) (w_frenet3 c))))).

  (** Reading a property of the curve: /repo/skcurve/_base.py:1568-1594,
      /repo/skcurve/_diffgeom.py:226-638. *)
  Definition w_read (c : curve T) (q : prop) : R_ :=
    match q with
    | PT => w_t c | PCumarclen => w_cum c | PFirst => w_first c | PSecond => w_second c | PThird => w_third c
    | PTangent => w_tangent c | PNormal => w_normal c | PBinormal => w_binormal c | PSpeed => w_speed c
    | PFrenet1 => w_frenet1 c | PFrenet2 => w_frenet2 c | PFrenet3 => w_frenet3 c
    | PCurvature => w_curvature c | PTorsion => w_torsion c
    end.

  (** Several reads, failing ones included: all warnings, and the caches.
      /repo/skcurve/_diffgeom.py:226-638. *)
  Fixpoint w_reads (c : curve T) (l : list prop) (s : caches) : list warning * caches :=
    match l with
    | [] => ([], s)
    | q :: l' => let '((ws, _), s1) := w_read c q s in
                 let '(ws', s2) := w_reads c l' s1 in (ws ++ ws', s2)
    end.

  (** ** Segments *)

  (** residuals.size > 0 and residuals[0] > F_EPS for one column [a]: numpy
      returns residuals if there are more rows than columns and the rank is
      full.  /repo/skcurve/_geomalg.py:99-101. *)
  Definition residual1 (a b : list T) : bool :=
    Nat.ltb 1 (length a) && negb (vdot a a =? n0) &&
    (let r := vsub b (vscale a (lstsq1 a b)) in f_eps <? vdot r r).

  (** segment_t for a point: /repo/skcurve/_geomalg.py:85-109. *)
  Definition sg_t_w (s : segment T) (p : list T) : W (option T) :=
    if negb (sg_collinear_point s p) then wwarn [WGeomAlg] (wret None)
    else
      let a := sg_dir s in
      let b := vsub p (sg_p1 s) in
      wwarn (when (residual1 a b) WGeomAlg) (wret (Some (lstsq1 a b))).

  (** segment_t for a sequence of points: /repo/skcurve/_geomalg.py:92-117; the
      residual of the first point only. *)
  Definition sg_ts_w (s : segment T) (ps : list (list T)) : W (list (option T)) :=
    match ps with
    | [] => wlift (sg_ts s ps)
    | p :: _ =>
        wwarn (when (residual1 (sg_dir s) (vsub p (sg_p1 s))) WGeomAlg)
          (wwarn (when (negb (forallb (sg_collinear_point s) ps)) WGeomAlg) (wlift (sg_ts s ps)))
    end.

  (** ** Interpolation *)

  (** _get_interpolation_grid with the last lines: /repo/skcurve/_interpolate.py:328-372. *)
  Definition get_grid_w (few : nat -> bool) (c : curve T) (s : gspec T) : W (list T) :=
    match get_grid junk few c s with
    | Raise e => wlift (Raise e)
    | Ok g =>
        let check :=
          do lo <- np_min g ;
          do hi <- np_max g ;
          do a <- np_get (c_tval junk c) 0 ;
          do b <- np_get (c_tval junk c) (-1) ;
          Ok ((a <? lo) || (hi <? b)) in
        match check with
        | Raise e => wlift (Raise e)
        | Ok out => wwarn (when out WInterp) (wret g)
        end
    end.

  (** InterpolatorBase.__call__: /repo/skcurve/_interpolate.py:282-304; [f] may warn
      itself. *)
  Definition interp_call_w (few : nat -> bool) (c : curve T) (f : list T -> W (ndarray T)) (s : gspec T) : W (curve T) :=
    if negb (c_bool c) then
      wwarn [WInterp] (wlift (curve_init (SSeq (mkNd [0%nat] [])) None None (Some (Z.of_nat (c_ndim c))) (Some (c_dtype c))))
    else if Nat.eqb (c_size c) 1 then wlift (Raise ValueError)
    else
      wbind (get_grid_w few c s) (fun g =>
        let m := f g in
        match snd m with
        | Raise _ => (fst m, Raise InterpolationError)
        | Ok data =>
            let tdata := if isparametric c then Some (mkNd [length g] g) else None in
            wwarn (fst m) (wlift (curve_init (SArray data DFloat) tdata None None (Some (c_dtype c))))
        end).

  (** ** Intersection *)

  (** From the solution t to the result: /repo/skcurve/_intersect.py:507-523. *)
  Definition exact_result_w (feps : T) (s1 s2 : segment T) (t1 t2 : T) : W (info T) :=
    if in_unit t1 && in_unit t2 then
      let q1 := sg_point s1 t1 in
      let q2 := sg_point s2 t2 in
      if negb (pt_eqb q1 q2) && (feps <? vdist q1 q2) then wwarn [WInter] (wret not_intersected)
      else wlift (make_info IExact (IDPoint q1))
    else wret not_intersected.

  (** residuals.size > 0 and residuals[0] > feps for two columns of the
      solution [t1], [t2]: /repo/skcurve/_intersect.py:500-502. *)
  Definition residual2 (feps : T) (a1 a2 b : list T) (t1 t2 : T) : bool :=
    Nat.ltb 2 (length a1) && negb (rank_le 1 [a1; a2]) &&
    (let r := vsub b (vadd (vscale a1 t1) (vscale a2 t2)) in feps <? vdot r r).

  (** ExactIntersectionMethod._intersect_segments:
      /repo/skcurve/_intersect.py:467-523. *)
  Definition exact_segments_w (feps : T) (s1 s2 : segment T) : W (info T) :=
    if sg_collinear s1 s2 then
      match overlap_segments s1 s2 false with
      | None => wret not_intersected
      | Some q => wlift (make_info IOverlap (IDSegment q))
      end
    else if parallel_segments s1 s2 f_eps then wret not_intersected
    else
      wbind (wlift (sg_coplanar s1 s2)) (fun cop =>
      if negb cop then wret not_intersected
      else if sg_singular s1 || sg_singular s2 then wret not_intersected
      else
        let a1 := sg_dir s1 in
        let a2 := vopp (sg_dir s2) in
        let b := vsub (sg_p1 s2) (sg_p1 s1) in
        if Nat.eqb (sg_ndim s1) 2 then
          match solve2 a1 a2 b with
          | None => wwarn [WInter] (wret not_intersected)
          | Some (t1, t2) => exact_result_w feps s1 s2 t1 t2
          end
        else
          let '(t1, t2) := lstsq2 a1 a2 b in
          wwarn (when (residual2 feps a1 a2 b t1 t2) WInter) (exact_result_w feps s1 s2 t1 t2)).

  (** ExactIntersectionMethod._intersect_curves:
      /repo/skcurve/_intersect.py:525-542. *)
  Definition exact_curves_w (feps : T) (c1 c2 : curve T) (same : bool) : W (list (inter T)) :=
    let prs := bbox_pairs c1 c2 same in
    match prs with
    | [] => wret []
    | _ =>
      wbind (wlift (take_segments true c1 (map fst prs))) (fun l1 =>
      wbind (wlift (take_segments false c2 (map snd prs))) (fun l2 =>
      wbind (wseq (map2 (fun r1 r2 =>
               wbind (exact_segments_w feps (sr_seg r1) (sr_seg r2)) (fun i =>
               wret (mkInter r1 r2 i))) l1 l2)) (fun rs =>
      wret (filter in_bool rs))))
    end.

  (** A method whose functions may warn: /repo/skcurve/_intersect.py:309-317. *)
  Record imethod_w : Type := mkMethodW {
    mw_segments : segment T -> segment T -> W (info T);
    mw_curves : curve T -> curve T -> bool -> W (list (inter T))
  }.
  (** The same method without its warnings: /repo/skcurve/_intersect.py:309-317. *)
  Definition forget (m : imethod_w) : imethod T :=
    mkMethod (fun s1 s2 => snd (mw_segments m s1 s2)) (fun c1 c2 same => snd (mw_curves m c1 c2 same)).
  (** The exact method: /repo/skcurve/_intersect.py:441-464. *)
  Definition exact_method_w (feps : T) : imethod_w := mkMethodW (exact_segments_w feps) (exact_curves_w feps).

  (** The warnings of IntersectionMethodBase.__call__: those of the function it
      calls.  /repo/skcurve/_intersect.py:228-271. *)
  Definition call_warns (m : imethod_w) (o1 o2 : iobj T) (same : bool) : list warning :=
    let curves c1 c2 same :=
      if Nat.eqb (c_size c1) 0 || Nat.eqb (c_size c2) 0 then [] else fst (mw_curves m c1 c2 same) in
    match o1, o2 with
    | OOther _, _ | _, OOther _ => []
    | OSeg s1, OSeg s2 => if negb (Nat.eqb (sg_ndim s1) (sg_ndim s2)) then [] else fst (mw_segments m s1 s2)
    | OCurve c1, OCurve c2 => if negb (Nat.eqb (c_ndim c1) (c_ndim c2)) then [] else curves c1 c2 same
    | OSeg s1, OCurve c2 =>
        if negb (Nat.eqb (sg_ndim s1) (c_ndim c2)) then []
        else match sg_to_curve s1 with Ok c1 => curves c1 c2 false | Raise _ => [] end
    | OCurve c1, OSeg s2 =>
        if negb (Nat.eqb (c_ndim c1) (sg_ndim s2)) then []
        else match sg_to_curve s2 with Ok c2 => curves c1 c2 false | Raise _ => [] end
    end.

  (** The method argument: /repo/skcurve/_intersect.py:789-804. *)
  Inductive marg_w : Type := MWNone | MWStr (name : string) | MWInst (m : imethod_w) | MWOther.

  (** intersect: /repo/skcurve/_intersect.py:749-809.  [default] and [get] are
      the default name and get_intersect_method; [given]: are there parameters? *)
  Definition intersect_w {P} (default : option string) (get : string -> P -> res imethod_w) (given : P -> bool)
             (o1 o2 : iobj T) (same : bool) (method : marg_w) (params : P) : W (iresult T) :=
    let method := match method with
                  | MWNone => match default with Some name => MWStr name | None => MWNone end
                  | m => m
                  end in
    match obj_ndim o1, obj_ndim o2 with
    | Some n1, Some n2 =>
        if negb (Nat.eqb n1 n2) then wlift (Raise ValueError)
        else
          wbind (match method with
                 | MWStr name => wlift (get name params)
                 | MWInst m => wwarn (when (given params) WInter) (wret m)
                 | MWNone | MWOther => wlift (Raise ValueError)
                 end) (fun m =>
          (call_warns m o1 o2 same,
           match method_call (forget m) o1 o2 same with
           | Ok r => Ok r
           | Raise _ => Raise IntersectionError
           end))
    | _, _ => wlift (Raise OtherError)
    end.
End Warn.
Arguments imethod_w T : clear implicits.
Arguments marg_w T : clear implicits.

(** segments_angle: /repo/skcurve/_geomalg.py:120-160. *)
Definition segments_angle_w (s1 s2 : segment R) (rnd : option (R -> R)) : W (option R) :=
  wwarn (when (isclose (vnorm (sg_dir s1) * vnorm (sg_dir s2)) n0) WGeomAlg) (wret (segments_angle s1 s2 rnd)).
