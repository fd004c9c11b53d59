(** Model of segments_angle: /repo/skcurve/_geomalg.py:120-160 (over the reals,
    since it needs arccos). *)
From Coq Require Import Reals List.
From Verif Require Import Num Py Numeric Curve Vec Geom.
Local Open Scope R_scope.

(** segments_angle: /repo/skcurve/_geomalg.py:120-160.  [rnd] is the rounding to
    [ndigits] digits, if requested.  None is NaN (with a warning, see Warn.v). *)
Definition segments_angle (s1 s2 : segment R) (rnd : option (R -> R)) : option R :=
  let u1 := sg_dir s1 in
  let u2 := sg_dir s2 in
  let denominator := vnorm u1 * vnorm u2 in
  if isclose denominator 0 then None
  else
    let c := vdot u1 u2 / denominator in
    let c := match rnd with None => c | Some f => f c end in
    let c := if Rltb 1 c then 1 else c in
    let c := if Rltb c (-1) then -1 else c in
    Some (acos c).
