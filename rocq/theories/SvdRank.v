(** The collinearity and coplanarity tests with numpy's rank: the number of
    singular values above a tolerance.  The singular values are an oracle
    (numpy.linalg.svd); Geom.v has the same tests with the exact rank.  Objects
    of another type than Point and Segment (TypeError) are not repeated here. *)
From Coq Require Import ZArith List Bool Arith.
From Verif Require Import Num Py Numeric Curve Vec Geom.
Import ListNotations.
Local Open Scope num_scope.

Section Svd.
  Context {T : Type} {NT : Num T}.

  (** numpy.linalg.svd(M, compute_uv=False), called by matrix_rank at
      /repo/skcurve/_geomalg.py:228, 260; the matrix is given by its rows. *)
  Variable svd : list (list T) -> list T.

  (** numpy.linalg.matrix_rank(M, tol=tol) for an r x c matrix:
      /repo/skcurve/_geomalg.py:228, 260.  Without [tol] the tolerance is
      S.max() * max(M.shape) * eps; the maximum of no value is a ValueError. *)
  Definition matrix_rank (tol : option T) (rows : list (list T)) (r c : nat) : res nat :=
    let s := svd rows in
    let count t := length (filter (fun x => t <? x) s) in
    match tol with
    | Some t => Ok (count t)
    | None =>
        match s with
        | [] => Raise ValueError
        | x :: s' => Ok (count (fold_left npmax s' x * nlit (Z.of_nat (Nat.max r c)) 1 * f_eps))
        end
    end.

  (** points_data = np.vstack(...).T: /repo/skcurve/_geomalg.py:219-221; the rows
      of the transposed matrix of points of dimension [n]. *)
  Definition transposed (n : nat) (pts : list (list T)) : list (list T) :=
    map (fun j => map (fun p => nth j p n0) pts) (seq 0 n).

  (** collinear_points: /repo/skcurve/_geomalg.py:194-228 for a list of points of
      one dimension. *)
  Definition collinear_points_tol (tol : option T) (pts : list (list T)) : res bool :=
    match pts with
    | [] => Raise ValueError
    | p :: _ =>
        let n := length p in
        let m := unique_points pts in
        if Nat.ltb (length m) 3 then Ok true
        else do r <- matrix_rank tol (transposed n m) n (length m) ; Ok (Nat.leb r 1)
    end.

  (** coplanar_points: /repo/skcurve/_geomalg.py:231-260 for a list of points of
      one dimension. *)
  Definition coplanar_points_tol (tol : option T) (pts : list (list T)) : res bool :=
    match pts with
    | [] => Raise ValueError
    | p :: _ =>
        let n := length p in
        if Nat.ltb n 3 then Ok true
        else
          let q := last pts [] in
          let rel := map (fun r => vsub r q) pts in
          do r <- matrix_rank tol (removelast rel) (length pts - 1)%nat n ; Ok (Nat.leb r 2)
    end.

  (** Curve.isplane: /repo/skcurve/_base.py:1530-1548. *)
  Definition c_isplane_tol (c : curve T) : res bool :=
    if Nat.ltb (c_ndim c) 3 then Ok true
    else match c_rows c with
         | [] => Raise IndexError
         | rows => coplanar_points_tol None rows
         end.

  (** Segment.collinear(Point, tol): /repo/skcurve/_base.py:718-754. *)
  Definition sg_collinear_point_tol (tol : option T) (s : segment T) (p : list T) : res bool :=
    if pt_eqb p (sg_p1 s) || pt_eqb p (sg_p2 s) then Ok true
    else collinear_points_tol tol [sg_p1 s; sg_p2 s; p].

  (** Segment.collinear(Segment, tol): /repo/skcurve/_base.py:718-754. *)
  Definition sg_collinear_tol (tol : option T) (s o : segment T) : res bool :=
    if sg_eqb o s || sg_eqb (sg_reverse o) s then Ok true
    else collinear_points_tol tol [sg_p1 s; sg_p2 s; sg_p1 o; sg_p2 o].

  (** Segment.coplanar(Point, tol): /repo/skcurve/_base.py:756-787. *)
  Definition sg_coplanar_point_tol (tol : option T) (s : segment T) (p : list T) : res bool :=
    coplanar_points_tol tol [sg_p1 s; sg_p2 s; p].

  (** Segment.coplanar(Segment, tol): /repo/skcurve/_base.py:756-787. *)
  Definition sg_coplanar_tol (tol : option T) (s o : segment T) : res bool :=
    coplanar_points_tol tol [sg_p1 s; sg_p2 s; sg_p1 o; sg_p2 o].

  (** segment_t for one point: /repo/skcurve/_geomalg.py:85-109; None is NaN. *)
  Definition sg_t_tol (tol : option T) (s : segment T) (p : list T) : res (option T) :=
    do b <- sg_collinear_point_tol tol s p ;
    Ok (if b then Some (lstsq1 (sg_dir s) (vsub p (sg_p1 s))) else None).
End Svd.
