(** Model of /repo/skcurve/curves.py (over the reals, since the curves need sine
    and cosine): predefined parametric curves.  [n] is p_count. *)
From Coq Require Import ZArith List Reals.
From Verif Require Import Num Py Numeric Curve Vec Interp.
Import ListNotations.
Local Open Scope R_scope.

(** Curve([x, y, ...], tdata=theta): the array of the coordinate vectors, read
    along axis 1 (/repo/skcurve/curves.py:55, 86, 113, 135, 169, 197, 226). *)
Definition from_coords (cols : list (list R)) (theta : list R) : res (curve R) :=
  curve_init (SSeq (mkNd [length cols; length theta] (concat cols))) (Some (mkNd [length theta] theta)) None None None.

(** arc: /repo/skcurve/curves.py:14-55. *)
Definition arc (t_start t_stop : R) (n : Z) (r c : R) : res (curve R) :=
  do theta <- linspace t_start t_stop n ;
  let x := map (fun t => cos t * r + c) theta in
  let y := map (fun t => sin t * r + c) theta in
  from_coords [x; y] theta.

(** lemniscate_of_bernoulli: /repo/skcurve/curves.py:58-86. *)
Definition lemniscate_of_bernoulli (t_start t_stop : R) (n : Z) (c : R) : res (curve R) :=
  do theta <- linspace t_start t_stop n ;
  let c_sq2 := c * sqrt 2 in
  let denominator t := sin t * sin t + 1 in
  let x := map (fun t => c_sq2 * cos t / denominator t) theta in
  let y := map (fun t => c_sq2 * cos t * sin t / denominator t) theta in
  from_coords [x; y] theta.

(** archimedean_spiral: /repo/skcurve/curves.py:89-113. *)
Definition archimedean_spiral (t_start t_stop : R) (n : Z) (a b : R) : res (curve R) :=
  do theta <- linspace t_start t_stop n ;
  let x := map (fun t => (a + b * t) * cos t) theta in
  let y := map (fun t => (a + b * t) * sin t) theta in
  from_coords [x; y] theta.

(** euler_spiral: /repo/skcurve/curves.py:116-135; [fresnel] is
    scipy.special.fresnel, returning (S, C). *)
Definition euler_spiral (fresnel : R -> R * R) (t_start t_stop : R) (n : Z) : res (curve R) :=
  do t <- linspace t_start t_stop n ;
  let ssa := map (fun t => fst (fresnel t)) t in
  let csa := map (fun t => snd (fresnel t)) t in
  from_coords [csa; ssa] t.

(** lissajous: /repo/skcurve/curves.py:138-169. *)
Definition lissajous (t_start t_stop : R) (n : Z) (a_ampl b_ampl a b d : R) : res (curve R) :=
  do theta <- linspace t_start t_stop n ;
  let x := map (fun t => a_ampl * sin (a * t + d)) theta in
  let y := map (fun t => b_ampl * sin (b * t)) theta in
  from_coords [x; y] theta.

(** helix: /repo/skcurve/curves.py:172-197. *)
Definition helix (t_start t_stop : R) (n : Z) (a b : R) : res (curve R) :=
  do theta <- linspace t_start t_stop n ;
  let x := map (fun t => sin t * a) theta in
  let y := map (fun t => cos t * a) theta in
  let z := map (fun t => t * b) theta in
  from_coords [x; y; z] theta.

(** irregular_helix: /repo/skcurve/curves.py:200-226. *)
Definition irregular_helix (t_start t_stop z_start z_stop : R) (n : Z) : res (curve R) :=
  do theta <- linspace t_start t_stop n ;
  do z <- linspace z_start z_stop n ;
  let r := map (fun v => v * v + 1) z in
  let x := map2 (fun q t => q * sin t) r theta in
  let y := map2 (fun q t => q * cos t) r theta in
  from_coords [x; y; z] theta.
