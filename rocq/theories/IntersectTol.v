(** The exact intersection method with numpy's rank: the collinearity and
    coplanarity tests use the singular values (an oracle, numpy.linalg.svd) and
    the default tolerance, as in SvdRank.v.  Intersect.v has the same method with
    the exact rank. *)
From Coq Require Import ZArith List Bool Arith.
From Verif Require Import Num Py Numeric Curve Vec Geom Intersect SvdRank.
Import ListNotations.
Local Open Scope num_scope.

Section ExactTol.
  Context {T : Type} {NT : Num T} {ST : NumSqrt T}.

  (** numpy.linalg.svd(M, compute_uv=False), called by matrix_rank at
      /repo/skcurve/_geomalg.py:228, 260. *)
  Variable svd : list (list T) -> list T.

  (** ExactIntersectionMethod._intersect_segments:
      /repo/skcurve/_intersect.py:467-523. *)
  Definition exact_segments_tol (feps : T) (s1 s2 : segment T) : res (info T) :=
    do col <- sg_collinear_tol svd None s1 s2 ;
    if col then
      match overlap_segments s1 s2 false with
      | None => Ok not_intersected
      | Some q => make_info IOverlap (IDSegment q)
      end
    else if parallel_segments s1 s2 f_eps then Ok not_intersected
    else
      do cop <- sg_coplanar_tol svd None s1 s2 ;
      if negb cop then Ok not_intersected
      else if sg_singular s1 || sg_singular s2 then Ok not_intersected
      else
        let a1 := sg_dir s1 in
        let a2 := vopp (sg_dir s2) in
        let b := vsub (sg_p1 s2) (sg_p1 s1) in
        if Nat.eqb (sg_ndim s1) 2 then
          match solve2 a1 a2 b with
          | None => Ok not_intersected
          | Some (t1, t2) => exact_result feps s1 s2 t1 t2
          end
        else
          let '(t1, t2) := lstsq2 a1 a2 b in exact_result feps s1 s2 t1 t2.

  (** ExactIntersectionMethod._intersect_curves:
      /repo/skcurve/_intersect.py:525-542. *)
  Definition exact_curves_tol (feps : T) (c1 c2 : curve T) (same : bool) : res (list (inter T)) :=
    let prs := bbox_pairs c1 c2 same in
    match prs with
    | [] => Ok []
    | _ =>
      do l1 <- take_segments true c1 (map fst prs) ;
      do l2 <- take_segments false c2 (map snd prs) ;
      do rs <- rseq (map2 (fun r1 r2 =>
                 do i <- exact_segments_tol feps (sr_seg r1) (sr_seg r2) ;
                 Ok (mkInter r1 r2 i)) l1 l2) ;
      Ok (filter in_bool rs)
    end.
End ExactTol.
