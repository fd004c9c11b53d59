(** Model of /repo/skcurve/_intersect.py (the intersection methods; the
    registry is in Registry.v).

    Warnings are in Warn.v.  Object identity is made explicit where the code
    uses it: [same] is `curve2 is curve1`, and the elements of a list of
    intersections are identified by their position. *)

From Coq Require Import ZArith List Bool Arith.
From Verif Require Import Num Py Numeric Curve Vec Geom.
Import ListNotations.
Local Open Scope num_scope.

(** IntersectionType: /repo/skcurve/_intersect.py:51-57. *)
Inductive itype : Type := INone | IExact | IOverlap | IAlmost.

(** `==` of two IntersectionType members: /repo/skcurve/_intersect.py:60-67. *)
Definition itype_eqb (a b : itype) : bool :=
  match a, b with
  | INone, INone | IExact, IExact | IOverlap, IOverlap | IAlmost, IAlmost => true
  | _, _ => false
  end.

Section Intersect.
  Context {T : Type} {NT : Num T} {ST : NumSqrt T}.

  (** The data argument of an IntersectionInfo: None, a Point, a Segment
      (/repo/skcurve/_intersect.py:73-76). *)
  Inductive idata : Type := IDNone | IDPoint (p : list T) | IDSegment (s : segment T).

  (** IntersectionInfo: /repo/skcurve/_intersect.py:73-76. *)
  Record info : Type := mkInfo { i_data : idata; i_type : itype }.

  (** IntersectionType.__call__: /repo/skcurve/_intersect.py:59-70.  The first
      test compares the data with the class IntersectionType itself, which it
      never is. *)
  Definition make_info (t : itype) (d : idata) : res info :=
    if itype_eqb t INone then Raise ValueError
    else if itype_eqb t IExact && negb (match d with IDPoint _ => true | _ => false end) then Raise ValueError
    else if (itype_eqb t IOverlap || itype_eqb t IAlmost)
            && negb (match d with IDSegment _ => true | _ => false end) then Raise ValueError
    else Ok (mkInfo d t).

  (** NOT_INTERSECTED: /repo/skcurve/_intersect.py:79. *)
  Definition not_intersected : info := mkInfo IDNone INone.

  (** A reference to a segment object: the object passed by the caller, or the
      idx-th CurveSegment of the first or second curve
      (/repo/skcurve/_intersect.py:243-271, 533). *)
  Inductive segref : Type :=
  | SegObj (s : segment T)
  | SegOf (first : bool) (idx : Z) (s : segment T).

  (** The geometry of the referenced segment (used at
      /repo/skcurve/_intersect.py:534, 734-738). *)
  Definition sr_seg (r : segref) : segment T :=
    match r with SegObj s => s | SegOf _ _ s => s end.

  (** SegmentsIntersection: /repo/skcurve/_intersect.py:83-103. *)
  Record inter : Type := mkInter { in_seg1 : segref; in_seg2 : segref; in_info : info }.

  (** SegmentsIntersection.__bool__: /repo/skcurve/_intersect.py:114-115. *)
  Definition in_bool (x : inter) : bool := negb (itype_eqb (i_type (in_info x)) INone).

  (** SegmentsIntersection.intersect_point: /repo/skcurve/_intersect.py:167-193.
      `data.point(0.5)` on something that is not a Segment is an
      AttributeError (OtherError). *)
  Definition in_point (x : inter) : res idata :=
    if negb (in_bool x) then Ok IDNone
    else if itype_eqb (i_type (in_info x)) IExact then Ok (i_data (in_info x))
    else match i_data (in_info x) with
         | IDSegment s => Ok (IDPoint (sg_point s (nlit 1 2)))
         | _ => Raise OtherError
         end.

  (** SegmentsIntersection.intersect_segment: /repo/skcurve/_intersect.py:195-221;
      Segment(data, data) needs a point. *)
  Definition in_segment (x : inter) : res idata :=
    if negb (in_bool x) then Ok IDNone
    else if itype_eqb (i_type (in_info x)) IExact then
      match i_data (in_info x) with
      | IDPoint p => rmap IDSegment (mk_segment p p)
      | _ => Raise TypeError
      end
    else Ok (i_data (in_info x)).

  (** *** Candidate pairs *)

  (** _curves_intersect_indices: /repo/skcurve/_intersect.py:273-307 for an
      m1 x m2 matrix; np.nonzero lists the entries in row-major order. *)
  Definition curves_intersect_indices (m1 m2 : nat) (m : bmat) (self : bool) : list (nat * nat) :=
    let m' : bmat := if self then fun i j => if Nat.leb j i then false else m i j else m in
    let nz := flat_map (fun i => map (fun j => (i, j)) (filter (m' i) (seq 0 m2))) (seq 0 m1) in
    if self then filter (fun '(i, j) => negb (Z.abs (Z.of_nat i - Z.of_nat j) <? 2)%Z) nz else nz.

  (** *** Exact method *)

  (** The range test of one parameter: /repo/skcurve/_intersect.py:507-508. *)
  Definition in_unit (t : T) : bool :=
    ((n0 <? t) || isclose t n0) && ((t <? n1) || isclose t n1).

  (** From the solution t to the result.
      /repo/skcurve/_intersect.py:507-523. *)
  Definition exact_result (feps : T) (s1 s2 : segment T) (t1 t2 : T) : res info :=
    if in_unit t1 && in_unit t2 then
      let q1 := sg_point s1 t1 in
      let q2 := sg_point s2 t2 in
      if negb (pt_eqb q1 q2) && (feps <? vdist q1 q2) then Ok not_intersected
      else make_info IExact (IDPoint q1)
    else Ok not_intersected.

  (** ExactIntersectionMethod._intersect_segments:
      /repo/skcurve/_intersect.py:467-523. *)
  Definition exact_segments (feps : T) (s1 s2 : segment T) : res info :=
    if sg_collinear s1 s2 then
      match overlap_segments s1 s2 false with
      | None => Ok not_intersected
      | Some q => make_info IOverlap (IDSegment q)
      end
    else if parallel_segments s1 s2 f_eps then Ok not_intersected
    else
      do cop <- sg_coplanar s1 s2 ;
      if negb cop then Ok not_intersected
      else if sg_singular s1 || sg_singular s2 then Ok not_intersected
      else
        let a1 := sg_dir s1 in
        let a2 := vopp (sg_dir s2) in
        let b := vsub (sg_p1 s2) (sg_p1 s1) in
        if Nat.eqb (sg_ndim s1) 2 then
          match solve2 a1 a2 b with
          | None => Ok not_intersected
          | Some (t1, t2) => exact_result feps s1 s2 t1 t2
          end
        else
          let '(t1, t2) := lstsq2 a1 a2 b in exact_result feps s1 s2 t1 t2.

  (** Bounding box of the i-th segment: /repo/skcurve/_intersect.py:559-574. *)
  Definition seg_pmin (rows : list (list T)) (i : nat) : list T := map2 npmin (nth i rows []) (nth (S i) rows []).
  (** Upper corner: /repo/skcurve/_intersect.py:559-574. *)
  Definition seg_pmax (rows : list (list T)) (i : nat) : list T := map2 npmax (nth i rows []) (nth (S i) rows []).

  (** is_intersect[i, j]: /repo/skcurve/_intersect.py:578-587. *)
  Definition bbox_intersect (rows1 rows2 : list (list T)) : bmat :=
    fun i j =>
      forallb id (map2 andb
        (map2 (fun a b => (a <? b) || isclose a b) (seg_pmin rows1 i) (seg_pmax rows2 j))
        (map2 (fun a b => (b <? a) || isclose a b) (seg_pmax rows1 i) (seg_pmin rows2 j))).

  (** _find_segments_bbox_intersection: /repo/skcurve/_intersect.py:544-590. *)
  Definition bbox_pairs (c1 c2 : curve T) (same : bool) : list (nat * nat) :=
    if Nat.eqb (c_size c1) 0 || Nat.eqb (c_size c2) 0 then []
    else curves_intersect_indices (c_size c1 - 1) (c_size c2 - 1)
           (bbox_intersect (c_rows c1) (if same then c_rows c1 else c_rows c2)) same.

  (** curve.segments[ix] as references: /repo/skcurve/_intersect.py:533, 667-668. *)
  Definition take_segments (first : bool) (c : curve T) (ix : list nat) : res (list segref) :=
    do segs <- c_segments c ;
    do l <- np_take segs (map Z.of_nat ix) ;
    Ok (map (fun '(k, p, q) => SegOf first k (mkSeg p q)) l).

  (** ExactIntersectionMethod._intersect_curves:
      /repo/skcurve/_intersect.py:525-542. *)
  Definition exact_curves (feps : T) (c1 c2 : curve T) (same : bool) : res (list inter) :=
    let prs := bbox_pairs c1 c2 same in
    match prs with
    | [] => Ok []
    | _ =>
      do l1 <- take_segments true c1 (map fst prs) ;
      do l2 <- take_segments false c2 (map snd prs) ;
      do rs <- rseq (map2 (fun r1 r2 =>
                 do i <- exact_segments feps (sr_seg r1) (sr_seg r2) ;
                 Ok (mkInter r1 r2 i)) l1 l2) ;
      Ok (filter in_bool rs)
    end.

  (** *** Almost method *)

  (** Parameters of AlmostIntersectionMethod: /repo/skcurve/_intersect.py:622-631. *)
  Record almost_params : Type := mkAlmost {
    al_dist_tol : T;
    al_remove_extra : bool;
    al_extra_tol : T;
    al_correct_overlap : bool;
    al_parallel_tol : T
  }.

  (** _correct_overlap: /repo/skcurve/_intersect.py:730-746. *)
  Definition correct_overlap (pr : almost_params) (x : inter) : res inter :=
    let s1 := sr_seg (in_seg1 x) in
    let s2 := sr_seg (in_seg2 x) in
    if parallel_segments s1 s2 (al_parallel_tol pr) then
      match overlap_segments s1 s2 false with
      | Some q => do i <- make_info IOverlap (IDSegment q) ; Ok (mkInter (in_seg1 x) (in_seg2 x) i)
      | None => Ok x
      end
    else Ok x.

  (** AlmostIntersectionMethod._intersect_segments:
      /repo/skcurve/_intersect.py:634-650. *)
  Definition almost_segments (pr : almost_params) (s1 s2 : segment T) : res info :=
    let sh := sg_shortest s1 s2 in
    if sg_len sh <? al_dist_tol pr then
      do i <- make_info IAlmost (IDSegment sh) ;
      if al_correct_overlap pr then
        do x <- correct_overlap pr (mkInter (SegObj s1) (SegObj s2) i) ;
        Ok (in_info x)
      else Ok i
    else Ok not_intersected.

  (** *** _remove_extra_intersections: /repo/skcurve/_intersect.py:690-728 *)

  (** Is there an edge between the points i < j (dists below the
      tolerance become NaN, NaN entries become edges).
      /repo/skcurve/_intersect.py:706-709. *)
  Definition extra_edge (tol : T) (pts : list (list T)) (i j : nat) : bool :=
    let d := vdist (nth i pts []) (nth j pts []) in (d <? tol) || nisnan d.

  (** The edge list (upper triangle, row-major).
      /repo/skcurve/_intersect.py:709-712. *)
  Definition extra_edges (tol : T) (pts : list (list T)) : list (nat * nat) :=
    let n := length pts in
    flat_map (fun i => map (fun j => (i, j))
                (filter (fun j => if Nat.leb j i then false else extra_edge tol pts i j) (seq 0 n))) (seq 0 n).

  (** nx.Graph.add_edges_from: the nodes in insertion order.
      /repo/skcurve/_intersect.py:714-715. *)
  Fixpoint add_nodes (seen : list nat) (l : list nat) : list nat :=
    match l with
    | [] => seen
    | v :: l' => if existsb (Nat.eqb v) seen then add_nodes seen l' else add_nodes (seen ++ [v]) l'
    end.
  (** The nodes of the graph: /repo/skcurve/_intersect.py:714-715. *)
  Definition graph_nodes (edges : list (nat * nat)) : list nat :=
    add_nodes [] (flat_map (fun '(i, j) => [i; j]) edges).

  (** One breadth-first round of nx.connected_components: the nodes
      that are in [S] or have a neighbour in [S].
      /repo/skcurve/_intersect.py:719. *)
  Definition grow (nodes : list nat) (edges : list (nat * nat)) (S : list nat) : list nat :=
    filter (fun v => existsb (Nat.eqb v) S
             || existsb (fun '(i, j) => (Nat.eqb i v && existsb (Nat.eqb j) S)
                                        || (Nat.eqb j v && existsb (Nat.eqb i) S)) edges) nodes.

  (** The component of a node: rounds until every node is reached.
      /repo/skcurve/_intersect.py:719. *)
  Fixpoint grow_n (fuel : nat) (nodes : list nat) (edges : list (nat * nat)) (S : list nat) : list nat :=
    match fuel with
    | O => S
    | Datatypes.S f => grow_n f nodes edges (grow nodes edges S)
    end.
  (** The component of a node: /repo/skcurve/_intersect.py:719. *)
  Definition component (nodes : list nat) (edges : list (nat * nat)) (v : nat) : list nat :=
    grow_n (length nodes) nodes edges [v].

  (** nx.connected_components; components of the nodes not seen yet.
      /repo/skcurve/_intersect.py:719. *)
  Fixpoint components (nodes : list nat) (edges : list (nat * nat)) (seen todo : list nat) : list (list nat) :=
    match todo with
    | [] => []
    | v :: todo' =>
        if existsb (Nat.eqb v) seen then components nodes edges seen todo'
        else let c := component nodes edges v in
             c :: components nodes edges (seen ++ c) todo'
    end.

  (** sorted(..., key=...): stable sort by a key.
      /repo/skcurve/_intersect.py:720-723. *)
  Fixpoint insert_by (key : nat -> T) (x : nat) (l : list nat) : list nat :=
    match l with
    | [] => [x]
    | y :: l' => if key y <? key x then y :: insert_by key x l' else x :: y :: l'
    end.
  (** sorted: /repo/skcurve/_intersect.py:720-723. *)
  Fixpoint sort_by (key : nat -> T) (l : list nat) : list nat :=
    match l with
    | [] => []
    | x :: l' => insert_by key x (sort_by key l')
    end.

  (** Positions of the intersections kept.  [order] is the iteration order of
      the sets returned by networkx (any permutation).
      /repo/skcurve/_intersect.py:706-726. *)
  Definition kept_positions (tol : T) (order : list nat -> list nat)
             (pts : list (list T)) (lens : list T) : list nat :=
    let edges := extra_edges tol pts in
    let nodes := graph_nodes edges in
    let comps := components nodes edges [] nodes in
    let key k := nth k lens n0 in
    let extra := flat_map (fun c => tl (sort_by key (order c))) comps in
    filter (fun k => negb (existsb (Nat.eqb k) extra)) (seq 0 (length pts)).

  (** intersect_point of a truthy intersection, as coordinates.
      /repo/skcurve/_intersect.py:704. *)
  Definition in_point_data (x : inter) : res (list T) :=
    do d <- in_point x ; match d with IDPoint p => Ok p | _ => Raise TypeError end.
  (** intersect_segment.seglen of a truthy intersection.
      /repo/skcurve/_intersect.py:722. *)
  Definition in_seglen (x : inter) : res T :=
    do d <- in_segment x ; match d with IDSegment s => Ok (sg_len s) | _ => Raise OtherError end.

  (** _remove_extra_intersections: /repo/skcurve/_intersect.py:690-728.  The
      lengths are evaluated for all elements here, for those in a component
      there; for ALMOST intersections neither can fail. *)
  Definition remove_extra (tol : T) (order : list nat -> list nat) (l : list inter) : res (list inter) :=
    do pts <- rseq (map in_point_data l) ;
    do lens <- rseq (map in_seglen l) ;
    np_take l (map Z.of_nat (kept_positions tol order pts lens)).

  (** AlmostIntersectionMethod._intersect_curves:
      /repo/skcurve/_intersect.py:652-688. *)
  Definition almost_curves (pr : almost_params) (order : list nat -> list nat)
             (c1 c2 : curve T) (same : bool) : res (list inter) :=
    let pts := segments_points (promote (c_dtype c1) (c_dtype c2)) (c_rows c1) (c_rows c2) f_eps in
    let dist i j := vdist (fst (pts i j)) (snd (pts i j)) in
    let prs := curves_intersect_indices (c_size c1 - 1) (c_size c2 - 1)
                 (fun i j => dist i j <? al_dist_tol pr) same in
    match prs with
    | [] => Ok []
    | _ =>
      do l1 <- take_segments true c1 (map fst prs) ;
      do l2 <- take_segments false c2 (map snd prs) ;
      do l <- rseq (map2 (fun '(r1, r2) '(i, j) =>
                do sh <- mk_segment (fst (pts i j)) (snd (pts i j)) ;
                do x <- make_info IAlmost (IDSegment sh) ;
                Ok (mkInter r1 r2 x)) (combine l1 l2) prs) ;
      do l <- (if al_remove_extra pr then remove_extra (al_extra_tol pr) order l else Ok l) ;
      if al_correct_overlap pr then rseq (map (correct_overlap pr) l) else Ok l
    end.

  (** *** Calling a method *)

  (** An argument of a method call: a Segment, a Curve, anything else, with or
      without an attribute ndim (/repo/skcurve/_intersect.py:234-238). *)
  Inductive iobj : Type := OSeg (s : segment T) | OCurve (c : curve T) | OOther (nd : option nat).

  (** Result: one intersection or a list.
      /repo/skcurve/_intersect.py:228-271. *)
  Definition iresult : Type := inter + list inter.

  (** A method: the two abstract functions of IntersectionMethodBase
      (/repo/skcurve/_intersect.py:309-317). *)
  Record imethod : Type := mkMethod {
    im_segments : segment T -> segment T -> res info;
    im_curves : curve T -> curve T -> bool -> res (list inter)
  }.

  (** obj.ndim, None if there is no such attribute:
      /repo/skcurve/_intersect.py:792. *)
  Definition obj_ndim (o : iobj) : option nat :=
    match o with OSeg s => Some (sg_ndim s) | OCurve c => Some (c_ndim c) | OOther nd => nd end.

  (** Put the caller's segment object into its slot.
      /repo/skcurve/_intersect.py:262-269. *)
  Definition replace_seg (first : bool) (s : segment T) (x : inter) : inter :=
    if first then mkInter (SegObj s) (in_seg2 x) (in_info x)
    else mkInter (in_seg1 x) (SegObj s) (in_info x).

  (** IntersectionMethodBase.__call__: /repo/skcurve/_intersect.py:228-271.
      [same]: the two arguments are one object. *)
  Definition method_call (m : imethod) (o1 o2 : iobj) (same : bool) : res iresult :=
    match o1, o2 with
    | OOther _, _ | _, OOther _ => Raise TypeError
    | OSeg s1, OSeg s2 =>
        if negb (Nat.eqb (sg_ndim s1) (sg_ndim s2)) then Raise ValueError
        else do i <- im_segments m s1 s2 ; Ok (inl (mkInter (SegObj s1) (SegObj s2) i))
    | OCurve c1, OCurve c2 =>
        if negb (Nat.eqb (c_ndim c1) (c_ndim c2)) then Raise ValueError
        else if Nat.eqb (c_size c1) 0 || Nat.eqb (c_size c2) 0 then Ok (inr [])
        else rmap inr (im_curves m c1 c2 same)
    | OSeg s1, OCurve c2 =>
        if negb (Nat.eqb (sg_ndim s1) (c_ndim c2)) then Raise ValueError
        else
          do c1 <- sg_to_curve s1 ;
          if Nat.eqb (c_size c1) 0 || Nat.eqb (c_size c2) 0 then Ok (inr [])
          else do l <- im_curves m c1 c2 false ; Ok (inr (map (replace_seg true s1) l))
    | OCurve c1, OSeg s2 =>
        if negb (Nat.eqb (c_ndim c1) (sg_ndim s2)) then Raise ValueError
        else
          do c2 <- sg_to_curve s2 ;
          if Nat.eqb (c_size c1) 0 || Nat.eqb (c_size c2) 0 then Ok (inr [])
          else do l <- im_curves m c1 c2 false ; Ok (inr (map (replace_seg false s2) l))
    end.

  (** The two methods of the library: /repo/skcurve/_intersect.py:441-464, 593-631. *)
  Definition exact_method (feps : T) : imethod := mkMethod (exact_segments feps) (exact_curves feps).
  (** AlmostIntersectionMethod: /repo/skcurve/_intersect.py:593-631. *)
  Definition almost_method (pr : almost_params) (order : list nat -> list nat) : imethod :=
    mkMethod (almost_segments pr) (almost_curves pr order).
End Intersect.
Arguments inter T : clear implicits.
Arguments info T : clear implicits.
Arguments idata T : clear implicits.
Arguments segref T : clear implicits.
Arguments iobj T : clear implicits.
Arguments iresult T : clear implicits.
Arguments imethod T : clear implicits.
Arguments almost_params T : clear implicits.
