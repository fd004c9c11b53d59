(** Properties C31-C40: segment geometry. *)
From Coq Require Import ZArith List Bool Arith Lia QArith PrimFloat Reals Lra Psatz.
From Verif Require Import Num Py Numeric Curve Vec Geom Angle Spec GeomSpec.
From Verif Require Import ListFacts VecFacts RankProofs CurveProofs2 CurveProofs3 GeomProofs GeomProofs2 GeomProofs3 GeomProofs4.
Import ListNotations.
Local Open Scope R_scope.

(** Segments used in the examples. *)
Definition seg01 : segment R := mkSeg [0; 1] [1; 1].
Definition seg12 : segment R := mkSeg [1; 2] [3; 6].

Ltac wf2 := split; reflexivity.

(** ** C31 Segment parametrisation *)

Theorem C31_point_is_affine :
  forall n (s : segment R) t x, seg_wf n s ->
    (affine_at (sg_p1 s) (sg_p2 s) t x <-> segment_point s (TNum t) = Ok (inl x)).
Proof.
  intros n s t x H. rewrite (affine_sg_point n s t x H). cbn [segment_point].
  split; [intros ->; reflexivity|congruence].
Qed.
Print Assumptions C31_point_is_affine.
Example C31_point_is_affine_ex : affine_at (sg_p1 seg12) (sg_p2 seg12) (1/2) [2; 4].
Proof. split; [reflexivity|]. intros [|[|[|i]]]; cbn; lra. Qed.

Theorem C31_ends : forall n (s : segment R), seg_wf n s ->
  segment_point s (TNum 0) = Ok (inl (sg_p1 s)) /\ segment_point s (TNum 1) = Ok (inl (sg_p2 s)).
Proof.
  intros n s H. cbn [segment_point]. split; do 2 f_equal; [exact (sg_point_0 n s H)|exact (sg_point_1 n s H)].
Qed.
Print Assumptions C31_ends.

Theorem C31_sequence : forall (s : segment R) ts,
  segment_point s (TSeq ts) = Ok (inr (map (fun t => match segment_point s (TNum t) with
                                                     | Ok (inl x) => x | _ => [] end) ts)).
Proof. intros s ts. cbn [segment_point]. rewrite sg_points_map. reflexivity. Qed.
Print Assumptions C31_sequence.

Theorem C31_bad_shape : forall s : segment R, segment_point s TNd = Raise ValueError.
Proof. reflexivity. Qed.

Theorem C31_between : forall n (s : segment R) t x, seg_wf n s -> 0 <= t <= 1 ->
  segment_point s (TNum t) = Ok (inl x) ->
  length x = n /\ forall i, Rmin (nth i (sg_p1 s) 0) (nth i (sg_p2 s) 0) <= nth i x 0 <= Rmax (nth i (sg_p1 s) 0) (nth i (sg_p2 s) 0).
Proof.
  intros n s t x H Ht E. cbn [segment_point] in E. injection E as <-.
  split; [exact (sg_point_length n s t H)|]. intros i. rewrite (nth_sg_point n s t i H).
  apply param_interval. assumption.
Qed.
Print Assumptions C31_between.
Example C31_between_ex : exists x, segment_point seg12 (TNum (1/4)) = Ok (inl x).
Proof. eexists. reflexivity. Qed.

(** Distances along the segment are proportional to parameter differences. *)
Theorem C31_distance : forall n (s : segment R) t1 t2 x1 x2, seg_wf n s ->
  segment_point s (TNum t1) = Ok (inl x1) -> segment_point s (TNum t2) = Ok (inl x2) ->
  dist x1 x2 = Rabs (t1 - t2) * dist (sg_p1 s) (sg_p2 s).
Proof.
  intros n s t1 t2 x1 x2 H E1 E2. cbn [segment_point] in *. injection E1 as <-. injection E2 as <-.
  pose proof (sg_point_length n s t1 H). pose proof (sg_point_length n s t2 H).
  rewrite dist_vdist by congruence. rewrite (sg_point_move n s t1 t2 H). f_equal.
  unfold dist. rewrite norm_vnorm, minus_vsub. reflexivity.
Qed.
Print Assumptions C31_distance.

(** ** C32 Segment.t *)

(** Exactly when the parameter is recovered; otherwise the answer is NaN. *)
Theorem C32_t_inverts_iff :
  forall n (s : segment R) x, seg_wf n s -> sg_p1 s <> sg_p2 s ->
    (sg_t s (sg_point s x) = Some x <->
     near (sg_point s x) (sg_p1 s) \/ near (sg_point s x) (sg_p2 s) \/
     exists k, affine_at (sg_p1 s) (sg_p2 s) k (repeat 0 n)) /\
    (sg_t s (sg_point s x) = Some x \/ sg_t s (sg_point s x) = None).
Proof. exact sg_t_iff. Qed.
Print Assumptions C32_t_inverts_iff.
(** (1,2)-(3,6) lies on a line through the origin (parameter -1/2). *)
Example C32_t_inverts_ex : sg_t seg12 (sg_point seg12 (1/3)) = Some (1/3).
Proof.
  apply (C32_t_inverts_iff 2 seg12 (1/3)); [wf2|intros E; inversion E; lra|].
  right. right. exists (-1/2). split; [reflexivity|]. intros [|[|[|i]]]; cbn; lra.
Qed.

Theorem C32_ends : forall n (s : segment R), seg_wf n s -> sg_p1 s <> sg_p2 s ->
  sg_t s (sg_p1 s) = Some 0 /\ sg_t s (sg_p2 s) = Some 1.
Proof. exact sg_t_end. Qed.
Print Assumptions C32_ends.

(** The midpoint of (0,1)-(1,1) is answered NaN. *)
Theorem C32_t_inverts_refuted :
  exists (s : segment R) x, seg_wf 2 s /\ sg_p1 s <> sg_p2 s /\ 0 <= x <= 1 /\ sg_t s (sg_point s x) = None.
Proof.
  exists seg01, (1/2). split; [wf2|]. split; [intros E; inversion E; lra|]. split; [lra|].
  assert (N : sg_p1 seg01 <> sg_p2 seg01) by (intros E; inversion E; lra).
  destruct (C32_t_inverts_iff 2 seg01 (1/2) ltac:(wf2) N) as [I [E|E]]; [|assumption].
  exfalso. apply I in E. destruct E as [E|[E|(k & _ & E)]].
  - unfold near in E. revert E. unfold seg01. rvec. intros E. inversion E as [|? ? ? ? A]; subst.
    revert A. unfold Rabs. repeat destruct (Rcase_abs _); lra.
  - unfold near in E. revert E. unfold seg01. rvec. intros E. inversion E as [|? ? ? ? A]; subst.
    revert A. unfold Rabs. repeat destruct (Rcase_abs _); lra.
  - specialize (E 1%nat). cbn in E. lra.
Qed.
Print Assumptions C32_t_inverts_refuted.
(** The same in binary64. *)
Example C32_t_inverts_refuted_float :
  let s := mkSeg [fz 0; fz 1] [fz 1; fz 1] in
  sg_t s (sg_point s (fq 1 2)) = None /\ sg_t s (sg_p2 s) = Some (fz 1).
Proof. vm_compute. auto. Qed.

(** Sequences of points. *)
Theorem C32_sequences : forall (s : segment R) ps,
  sg_ts s ps =
    match ps with
    | [] => Raise ValueError
    | [p] => match sg_t s p with Some t => Ok [Some t] | None => Raise IndexError end
    | _ => Ok (map (sg_t s) ps)
    end.
Proof.
  intros s [|p [|p' ps]]; try reflexivity. cbn [sg_ts]. unfold sg_t.
  destruct (sg_collinear_point s p); reflexivity.
Qed.
Print Assumptions C32_sequences.

(** ** C33 collinear *)

Theorem C33_collinear_iff :
  forall n pts, dims n pts ->
    (collinear_points pts = true <->
     (exists a b, forall p, In p pts -> p = a \/ p = b) \/ on_line_through_origin n pts).
Proof. exact collinear_points_iff. Qed.
Print Assumptions C33_collinear_iff.
Example C33_collinear_ex : dims 2 [[1; 2]; [2; 4]; [3; 6]] /\ on_line_through_origin 2 [[1; 2]; [2; 4]; [3; 6]].
Proof.
  split.
  - intros p [<-|[<-|[<-|[]]]]; reflexivity.
  - exists [1; 2]. split; [reflexivity|]. intros p [<-|[<-|[<-|[]]]].
    + exists 1. intros [|[|[|i]]]; cbn; lra.
    + exists 2. intros [|[|[|i]]]; cbn; lra.
    + exists 3. intros [|[|[|i]]]; cbn; lra.
Qed.

Theorem C33_sound : forall n pts, dims n pts -> collinear_points pts = true -> on_common_line n pts.
Proof. exact collinear_points_sound. Qed.
Print Assumptions C33_sound.

(** (0,1), (1,1), (2,1) lie on a line but are not reported. *)
Theorem C33_complete_refuted :
  exists pts, dims 2 pts /\ on_common_line 2 pts /\ collinear_points pts = false.
Proof.
  exists [[0; 1]; [1; 1]; [2; 1]].
  assert (D : dims 2 [[0; 1]; [1; 1]; [2; 1]]) by (intros p [<-|[<-|[<-|[]]]]; reflexivity).
  split; [assumption|]. split.
  - exists [0; 1], [1; 0]. split; [reflexivity|]. split; [reflexivity|]. intros p [<-|[<-|[<-|[]]]].
    + exists 0. intros [|[|[|i]]]; cbn; lra.
    + exists 1. intros [|[|[|i]]]; cbn; lra.
    + exists 2. intros [|[|[|i]]]; cbn; lra.
  - destruct (collinear_points _) eqn:E; [|reflexivity]. exfalso.
    apply (C33_collinear_iff 2 _ D) in E. destruct E as [(a & b & E)|(u & _ & E)].
    + assert (X : forall x y : R, x <> y -> [x; 1] <> [y; 1]) by (intros x y N Q; injection Q; exact N).
      destruct (E [0; 1] ltac:(cbn; auto)) as [A|A], (E [1; 1] ltac:(cbn; auto)) as [B|B], (E [2; 1] ltac:(cbn; auto)) as [C|C];
        (rewrite <- A in B || rewrite <- A in C || rewrite <- B in C);
        repeat match goal with H : [_; _] = [_; _] |- _ => exfalso; revert H; apply X; lra end.
    + destruct (E [0; 1] ltac:(cbn; auto)) as [s Hs]. destruct (E [1; 1] ltac:(cbn; auto)) as [t Ht].
      pose proof (Hs 0%nat) as S0. pose proof (Hs 1%nat) as S1. pose proof (Ht 0%nat) as T0. pose proof (Ht 1%nat) as T1.
      cbn in *. assert (s <> 0) by nra. assert (nth 0 u 0 = 0) by nra. nra.
Qed.
Print Assumptions C33_complete_refuted.
Example C33_complete_refuted_float :
  collinear_points [[fz 0; fz 1]; [fz 1; fz 1]; [fz 2; fz 1]] = false /\
  collinear_points [[fz 1; fz 2]; [fz 2; fz 4]; [fz 3; fz 6]] = true.
Proof. vm_compute. auto. Qed.

(** The segment method: equal end points count as collinear with anything
    close to them. *)
Theorem C33_segment_point : forall n (s : segment R) p, seg_wf n s -> length p = n ->
  (sg_collinear_point s p = true <->
   near p (sg_p1 s) \/ near p (sg_p2 s) \/ sg_p1 s = sg_p2 s \/ on_line_through_origin n [sg_p1 s; sg_p2 s; p]).
Proof. exact sg_collinear_point_iff. Qed.
Print Assumptions C33_segment_point.

(** Two segments: the same segment, up to the tolerance and the direction, no
    more than two different end points, or all on a line through the origin. *)
Theorem C33_segment_segment : forall n (s o : segment R), seg_wf n s -> seg_wf n o ->
  (sg_collinear s o = true <->
   (near (sg_p1 o) (sg_p1 s) /\ near (sg_p2 o) (sg_p2 s)) \/
   (near (sg_p2 o) (sg_p1 s) /\ near (sg_p1 o) (sg_p2 s)) \/
   (exists a b, forall q, In q [sg_p1 s; sg_p2 s; sg_p1 o; sg_p2 o] -> q = a \/ q = b) \/
   on_line_through_origin n [sg_p1 s; sg_p2 s; sg_p1 o; sg_p2 o]).
Proof.
  intros n s o [S1 S2] [O1 O2]. rewrite <- !pt_eqb_near.
  unfold sg_collinear, sg_eqb, sg_reverse. cbn [sg_p1 sg_p2].
  destruct (pt_eqb (sg_p1 o) (sg_p1 s)), (pt_eqb (sg_p2 o) (sg_p2 s)); cbn [andb orb]; try tauto;
    destruct (pt_eqb (sg_p2 o) (sg_p1 s)), (pt_eqb (sg_p1 o) (sg_p2 s)); cbn [andb orb]; try tauto;
    rewrite (collinear_points_iff n) by (apply dims4; assumption);
    (split; [intros H; right; right; exact H|intros [[A B]|[[A B]|H]]; [discriminate|discriminate|exact H]]).
Qed.
Print Assumptions C33_segment_segment.
(** Equal, reversed, on a line through the origin; parallel on another line. *)
Example C33_segment_segment_ex :
  sg_collinear (mkSeg [fz 0; fz 1] [fz 1; fz 1]) (mkSeg [fz 0; fz 1] [fz 1; fz 1]) = true /\
  sg_collinear (mkSeg [fz 0; fz 1] [fz 1; fz 1]) (mkSeg [fz 1; fz 1] [fz 0; fz 1]) = true /\
  sg_collinear (mkSeg [fz 1; fz 2] [fz 2; fz 4]) (mkSeg [fz 3; fz 6] [fz 5; fz 10]) = true /\
  sg_collinear (mkSeg [fz 1; fz 2] [fz 2; fz 4]) (mkSeg [fz 3; fz 6] [fz 5; fz 11]) = false /\
  sg_collinear (mkSeg [fz 0; fz 1] [fz 1; fz 1]) (mkSeg [fz 2; fz 1] [fz 3; fz 1]) = false.
Proof. vm_compute. auto. Qed.

(** ** C34 coplanar *)

Theorem C34_coplanar_iff : forall n pts, (2 <= length pts)%nat -> dims n pts ->
  exists b, coplanar_points pts = Ok b /\ (b = true <-> in_common_plane n pts).
Proof. exact coplanar_points_iff. Qed.
Print Assumptions C34_coplanar_iff.
Example C34_coplanar_ex :
  coplanar_points [[0; 0; 5]; [1; 0; 5]; [0; 1; 5]; [3; 4; 5]]%Q = Ok true /\
  coplanar_points [[0; 0; 5]; [1; 0; 5]; [0; 1; 5]; [3; 4; 6]]%Q = Ok false.
Proof. vm_compute. auto. Qed.

Theorem C34_below_three : forall (T : Type) (NT : Num T) (p : list T) pts, (length p < 3)%nat ->
  coplanar_points (p :: pts) = Ok true.
Proof. intros T NT p pts H. cbn [coplanar_points]. apply Nat.ltb_lt in H. rewrite H. reflexivity. Qed.
Print Assumptions C34_below_three.

Theorem C34_empty : forall (T : Type) (NT : Num T),
  coplanar_points (T:=T) [] = Raise ValueError /\
  forall c : curve T, c_rows c = [] ->
    c_isplane c = if Nat.ltb (c_ndim c) 3 then Ok true else Raise IndexError.
Proof.
  intros T NT. split; [reflexivity|]. intros c H. unfold c_isplane, coplanar_array. rewrite H. reflexivity.
Qed.
Print Assumptions C34_empty.

(** A single point of dimension three or more is an error, not a plane. *)
Theorem C34_one_point : forall (T : Type) (NT : Num T) (p : list T), (3 <= length p)%nat ->
  coplanar_points [p] = Raise ValueError /\
  forall c : curve T, c_rows c = [p] -> (3 <= c_ndim c)%nat -> c_isplane c = Raise ValueError.
Proof.
  intros T NT p H. assert (E : coplanar_points [p] = Raise ValueError).
  { unfold coplanar_points. destruct (Nat.ltb_spec (length p) 3); [lia|reflexivity]. }
  split; [exact E|]. intros c Hc Hn. unfold c_isplane, coplanar_array. rewrite Hc.
  destruct (Nat.ltb_spec (c_ndim c) 3); [lia|exact E].
Qed.
Print Assumptions C34_one_point.
Example C34_one_point_ex : c_isplane (mkCurve [[1; 2; 3]]%Q 3 DFloat None) = Raise ValueError /\
  c_isplane (mkCurve [[1; 2]]%Q 2 DFloat None) = Ok true /\
  c_isplane (mkCurve [[1; 2; 3]; [1; 2; 3]]%Q 3 DFloat None) = Ok true.
Proof. vm_compute. auto. Qed.

(** Curve.isplane. *)
Theorem C34_isplane : forall c : curve R, wf c -> (2 <= length (c_rows c))%nat ->
  exists b, c_isplane c = Ok b /\ (b = true <-> in_common_plane (c_ndim c) (c_rows c)).
Proof.
  intros c W H. unfold c_isplane, coplanar_array.
  assert (D : dims (c_ndim c) (c_rows c)).
  { destruct W as (_ & W & _). exact W. }
  destruct (Nat.ltb (c_ndim c) 3) eqn:E.
  - exists true. split; [reflexivity|]. apply Nat.ltb_lt in E.
    split; [intros _; apply plane_of_small; assumption|reflexivity].
  - destruct (c_rows c) as [|r rs] eqn:R; [cbn in H; lia|].
    rewrite <- R in D, H |- *. apply coplanar_points_iff; assumption.
Qed.
Print Assumptions C34_isplane.

(** ** C35 parallel *)

Theorem C35_parallel_meaning : forall n (s1 s2 : segment R) tol, seg_wf n s1 -> seg_wf n s2 ->
  (parallel_segments s1 s2 tol = true <->
   area_sq (minus (sg_p2 s1) (sg_p1 s1)) (minus (sg_p2 s2) (sg_p1 s2)) < tol).
Proof. exact parallel_iff. Qed.
Print Assumptions C35_parallel_meaning.

Theorem C35_proportional : forall n (s1 s2 : segment R) tol, seg_wf n s1 -> seg_wf n s2 -> 0 < tol ->
  proportional (minus (sg_p2 s1) (sg_p1 s1)) (minus (sg_p2 s2) (sg_p1 s2)) ->
  parallel_segments s1 s2 tol = true.
Proof.
  intros n s1 s2 tol H1 H2 Ht HP. apply (parallel_iff n); [assumption|assumption|].
  rewrite proportional_area; [assumption| |assumption]. rewrite !minus_vsub.
  destruct H1, H2. rewrite !vsub_length; congruence.
Qed.
Print Assumptions C35_proportional.
Example C35_proportional_ex :
  proportional (minus (sg_p2 seg12) (sg_p1 seg12)) (minus [0; 0] [5; 10]).
Proof. exists 5, (-2). split; [lra|]. intros [|[|[|i]]]; cbn; lra. Qed.

Theorem C35_symmetric : forall (s1 s2 : segment R) tol,
  parallel_segments s1 s2 tol = parallel_segments s2 s1 tol.
Proof. exact parallel_sym. Qed.
Print Assumptions C35_symmetric.

Theorem C35_orientation : forall n (s1 s2 : segment R) tol, seg_wf n s1 ->
  parallel_segments (sg_reverse s1) s2 tol = parallel_segments s1 s2 tol.
Proof. exact parallel_reverse. Qed.
Print Assumptions C35_orientation.

Theorem C35_translation : forall n (s1 s2 : segment R) w tol, seg_wf n s1 -> length w = n ->
  parallel_segments (mkSeg (vadd (sg_p1 s1) w) (vadd (sg_p2 s1) w)) s2 tol = parallel_segments s1 s2 tol.
Proof.
  intros n s1 s2 w tol H L. unfold parallel_segments.
  change (mkSeg _ _) with (translate s1 w). rewrite (sg_dir_translate n s1 w H L). reflexivity.
Qed.
Print Assumptions C35_translation.

(** Two orthogonal segments of length 1e-4 are reported parallel with the
    default tolerance. *)
Theorem C35_orthogonal_refuted :
  exists s1 s2 : segment R, seg_wf 2 s1 /\ seg_wf 2 s2 /\
    inner (minus (sg_p2 s1) (sg_p1 s1)) (minus (sg_p2 s2) (sg_p1 s2)) = 0 /\
    0 < norm (minus (sg_p2 s1) (sg_p1 s1)) /\ 0 < norm (minus (sg_p2 s2) (sg_p1 s2)) /\
    parallel_segments s1 s2 f_eps = true.
Proof.
  exists (mkSeg [0; 0] [/10000; 0]), (mkSeg [0; 0] [0; /10000]).
  split; [wf2|]. split; [wf2|]. cbn [minus sg_p1 sg_p2 inner].
  split; [lra|]. split; [|split].
  - apply sqrt_lt_R0. cbn [inner]. lra.
  - apply sqrt_lt_R0. cbn [inner]. lra.
  - apply (C35_parallel_meaning 2); [wf2|wf2|]. rewrite f_eps_R. cbn [minus sg_p1 sg_p2 area_sq minors_with]. lra.
Qed.
Print Assumptions C35_orthogonal_refuted.

(** ** C36 angle *)

Theorem C36_angle : forall n (s1 s2 : segment R) phi, seg_wf n s1 -> seg_wf n s2 ->
  segments_angle s1 s2 None = Some phi ->
  0 <= phi <= PI /\
  cos phi * (norm (sg_dir s1) * norm (sg_dir s2)) = inner (sg_dir s1) (sg_dir s2) /\
  0 < norm (sg_dir s1) * norm (sg_dir s2).
Proof.
  intros n s1 s2 phi H1 H2 E. split; [exact (angle_range s1 s2 None phi E)|]. split.
  - exact (angle_cos n s1 s2 phi H1 H2 E).
  - rewrite !norm_vnorm. exact (proj1 (proj2 (angle_value n s1 s2 phi H1 H2 E))).
Qed.
Print Assumptions C36_angle.

Theorem C36_nan : forall (s1 s2 : segment R) rnd,
  segments_angle s1 s2 rnd = None <-> norm (sg_dir s1) * norm (sg_dir s2) <= / 100000000.
Proof. exact angle_none. Qed.
Print Assumptions C36_nan.
Example C36_angle_ex : exists phi, segments_angle seg01 seg12 None = Some phi.
Proof.
  destruct (segments_angle seg01 seg12 None) as [phi|] eqn:E; [exists phi; reflexivity|exfalso].
  apply C36_nan in E. revert E. unfold norm, seg01, seg12. rvec. cbn [inner].
  assert (1 <= sqrt ((1 - 0) * (1 - 0) + ((1 - 1) * (1 - 1) + 0))).
  { rewrite <- sqrt_1 at 1. apply sqrt_le_1; lra. }
  assert (1 <= sqrt ((3 - 1) * (3 - 1) + ((6 - 2) * (6 - 2) + 0))).
  { rewrite <- sqrt_1 at 1. apply sqrt_le_1; lra. }
  nra.
Qed.

Theorem C36_symmetric : forall (s1 s2 : segment R) rnd, segments_angle s1 s2 rnd = segments_angle s2 s1 rnd.
Proof. exact angle_sym. Qed.
Print Assumptions C36_symmetric.

Theorem C36_reverse : forall n (s1 s2 : segment R) phi, seg_wf n s1 -> seg_wf n s2 ->
  segments_angle s1 s2 None = Some phi -> segments_angle s1 (sg_reverse s2) None = Some (PI - phi).
Proof. exact angle_reverse. Qed.
Print Assumptions C36_reverse.

Theorem C36_multiples : forall n (s1 s2 : segment R) k, seg_wf n s1 -> seg_wf n s2 ->
  (forall i, nth i (sg_dir s2) 0 = k * nth i (sg_dir s1) 0) ->
  forall phi, segments_angle s1 s2 None = Some phi -> (0 < k -> phi = 0) /\ (k < 0 -> phi = PI).
Proof. exact angle_multiple. Qed.
Print Assumptions C36_multiples.

(** ** C37 overlap *)

Theorem C37_none : forall n (s1 s2 : segment R),
  seg_wf n s1 -> seg_wf n s2 -> on_common_line n [sg_p1 s1; sg_p2 s1; sg_p1 s2; sg_p2 s2] ->
  (overlap_segments s1 s2 false = None <->
   ~ exists x, on_segment (sg_p1 s1) (sg_p2 s1) x /\ on_segment (sg_p1 s2) (sg_p2 s2) x).
Proof. intros n s1 s2 H1 H2 HL. exact (proj1 (overlap_collinear n s1 s2 H1 H2 HL)). Qed.
Print Assumptions C37_none.

Theorem C37_overlap : forall n (s1 s2 : segment R),
  seg_wf n s1 -> seg_wf n s2 -> on_common_line n [sg_p1 s1; sg_p2 s1; sg_p1 s2; sg_p2 s2] ->
  forall q, overlap_segments s1 s2 false = Some q ->
  exists A B, length A = n /\ length B = n /\
    (forall x, on_segment A B x <->
        on_segment (sg_p1 s1) (sg_p2 s1) x /\ on_segment (sg_p1 s2) (sg_p2 s2) x) /\
    seg_wf n q /\
    (forall i, nth i (sg_p1 q) 0 + nth i (sg_p2 q) 0 = nth i A 0 + nth i B 0) /\
    dist (sg_p1 q) (sg_p2 q) = dist A B /\
    ((forall i, nth i (sg_p1 s1) 0 <= nth i (sg_p2 s1) 0) ->
     forall x, on_segment (sg_p1 q) (sg_p2 q) x <-> on_segment A B x).
Proof. exact overlap_mid_len. Qed.
Print Assumptions C37_overlap.
Example C37_overlap_ex :
  overlap_segments (mkSeg [1; 2] [3; 6])%Q (mkSeg [4; 8] [2; 4])%Q false = Some (mkSeg [2; 4] [3; 6])%Q /\
  on_common_line 2 [[1; 2]; [3; 6]; [4; 8]; [2; 4]].
Proof.
  split; [vm_compute; reflexivity|]. exists [0; 0], [1; 2]. split; [reflexivity|]. split; [reflexivity|].
  intros p [<-|[<-|[<-|[<-|[]]]]].
  - exists 1. intros [|[|[|i]]]; cbn; lra.
  - exists 3. intros [|[|[|i]]]; cbn; lra.
  - exists 4. intros [|[|[|i]]]; cbn; lra.
  - exists 2. intros [|[|[|i]]]; cbn; lra.
Qed.

(** For a falling line the returned end points are off the segments:
    (0,0)-(2,-2) and (1,-1)-(3,-3) give (1,-2)-(2,-1). *)
Theorem C37_endpoints_refuted :
  exists s1 s2 q : segment R, seg_wf 2 s1 /\ seg_wf 2 s2 /\
    on_common_line 2 [sg_p1 s1; sg_p2 s1; sg_p1 s2; sg_p2 s2] /\
    overlap_segments s1 s2 false = Some q /\
    ~ on_segment (sg_p1 s1) (sg_p2 s1) (sg_p1 q).
Proof.
  exists (mkSeg [0; 0] [2; -2]), (mkSeg [1; -1] [3; -3]), (mkSeg [1; -2] [2; -1]).
  split; [wf2|]. split; [wf2|]. split; [|split].
  - exists [0; 0], [1; -1]. split; [reflexivity|]. split; [reflexivity|]. intros p [<-|[<-|[<-|[<-|[]]]]].
    + exists 0. intros [|[|[|i]]]; cbn; lra.
    + exists 2. intros [|[|[|i]]]; cbn; lra.
    + exists 1. intros [|[|[|i]]]; cbn; lra.
    + exists 3. intros [|[|[|i]]]; cbn; lra.
  - unfold overlap_segments. cbn [andb sg_p1 sg_p2 map2]. rewrite !npmin_R, !npmax_R.
    unfold Rmin, Rmax. repeat (destruct (Rle_dec _ _); try lra). rnum. cbn [existsb].
    repeat dec_lt. reflexivity.
  - intros (t & _ & _ & E). pose proof (E 0%nat) as E0. pose proof (E 1%nat) as E1. cbn in E0, E1. lra.
Qed.
Print Assumptions C37_endpoints_refuted.

(** ** C38 closest point *)

Theorem C38_shape : forall n (s : segment R) p, seg_wf n s -> length p = n ->
  on_segment (sg_p1 s) (sg_p2 s) (sg_p1 (sg_shortest_point s p)) /\ sg_p2 (sg_shortest_point s p) = p.
Proof.
  intros n s p H L. split; [|reflexivity]. apply (on_segment_point n s _ H).
  exists (segment_to_point s p). split; [apply segment_to_point_range|reflexivity].
Qed.
Print Assumptions C38_shape.

(** The squared distance exceeds the minimum by at most 2e-8 + 2e-5 L^2, and by
    at most (1e-8 + 1e-5 L^2)^2 / L^2, where L is the length. *)
Theorem C38_minimal_bound : forall n (s : segment R) p x, seg_wf n s -> length p = n ->
  on_segment (sg_p1 s) (sg_p2 s) x ->
  let D := sg_distance_point s p in
  let d := dist x p in
  let L2 := dist (sg_p1 s) (sg_p2 s) * dist (sg_p1 s) (sg_p2 s) in
  D * D <= d * d + 2 / 100000000 + 2 / 100000 * L2 /\
  L2 * (D * D - d * d) <= (/ 100000000 + / 100000 * L2) * (/ 100000000 + / 100000 * L2).
Proof.
  intros n s p x H Lp Hx. cbv zeta. apply (on_segment_point n s x H) in Hx. destruct Hx as (t & Ht & ->).
  pose proof (sg_point_length n s t H).
  rewrite (dist_vdist (sg_point s t) p) by congruence.
  rewrite dist_sq, inner_vdot, minus_vsub. exact (segment_to_point_bound n s p t H Lp Ht).
Qed.
Print Assumptions C38_minimal_bound.

(** Exactly minimal unless one of the closeness tests fires. *)
Theorem C38_minimal_exact : forall n (s : segment R) p x, seg_wf n s -> length p = n ->
  on_segment (sg_p1 s) (sg_p2 s) x ->
  let c1 := inner (minus p (sg_p1 s)) (minus (sg_p2 s) (sg_p1 s)) in
  let c2 := inner (minus (sg_p2 s) (sg_p1 s)) (minus (sg_p2 s) (sg_p1 s)) in
  (c1 <= 0 \/ / 100000000 < c1) ->
  (c2 <= c1 \/ / 100000000 + / 100000 * c1 < c2 - c1) ->
  sg_distance_point s p <= dist x p.
Proof.
  intros n s p x H Lp Hx c1 c2 N1 N2. apply (on_segment_point n s x H) in Hx. destruct Hx as (t & Ht & ->).
  pose proof (sg_point_length n s t H).
  rewrite (dist_vdist (sg_point s t) p) by congruence.
  unfold c1, c2 in *. rewrite !inner_vdot, !minus_vsub in *.
  exact (segment_to_point_exact n s p t H Lp Ht N1 N2).
Qed.
Print Assumptions C38_minimal_exact.
Example C38_minimal_exact_ex :
  let s := mkSeg [0; 0] [2; 0] in let p := [1; 5] in
  let c1 := inner (minus p (sg_p1 s)) (minus (sg_p2 s) (sg_p1 s)) in
  let c2 := inner (minus (sg_p2 s) (sg_p1 s)) (minus (sg_p2 s) (sg_p1 s)) in
  c1 = 2 /\ c2 = 4 /\ / 100000000 < c1 /\ / 100000000 + / 100000 * c1 < c2 - c1.
Proof. cbn. lra. Qed.

(** Not exactly minimal in general: the point (1e-9, 0) of the segment
    (0,0)-(1,0) gets a positive distance to it. *)
Theorem C38_exact_refuted :
  exists (s : segment R) p x, seg_wf 2 s /\ length p = 2%nat /\
    on_segment (sg_p1 s) (sg_p2 s) x /\ dist x p < sg_distance_point s p.
Proof.
  exists (mkSeg [0; 0] [1; 0]), [/1000000000; 0], [/1000000000; 0].
  split; [wf2|]. split; [reflexivity|]. split.
  - exists (/1000000000). split; [lra|]. split; [reflexivity|]. intros [|[|[|i]]]; cbn; lra.
  - unfold dist, norm. cbn [minus inner].
    replace (_ + _) with 0 by ring. rewrite sqrt_0.
    unfold sg_distance_point, sg_len, sg_shortest_point. cbn [sg_p1 sg_p2].
    pose proof (segment_to_point_cases (mkSeg [0; 0] [1; 0]) [/1000000000; 0]) as C. cbv zeta in C.
    revert C. rvec. intros [[_ ->]|[[C _]|[C _]]]; try (exfalso; lra).
    unfold vdist, vnorm. rvec. cbn [nsqrt RSqrt]. apply sqrt_lt_R0. lra.
Qed.
Print Assumptions C38_exact_refuted.

(** ** C39 closest points of two segments *)

Theorem C39_on_segments : forall n (s1 s2 : segment R), seg_wf n s1 -> seg_wf n s2 ->
  on_segment (sg_p1 s1) (sg_p2 s1) (sg_p1 (sg_shortest s1 s2)) /\
  on_segment (sg_p1 s2) (sg_p2 s2) (sg_p2 (sg_shortest s1 s2)).
Proof.
  intros n s1 s2 H1 H2. unfold sg_shortest.
  assert (P : 0 < @f_eps R RNum) by (rewrite f_eps_R; lra).
  pose proof (segment_to_segment_range n s1 s2 f_eps H1 H2 P) as Rg.
  destruct (segment_to_segment s1 s2 f_eps) as [t1 t2]. destruct Rg as [R1 R2]. cbn [sg_p1 sg_p2].
  split; apply (on_segment_point n); try assumption; [exists t1|exists t2]; (split; [assumption|reflexivity]).
Qed.
Print Assumptions C39_on_segments.

(** Near optimality.  [area] is the squared area of the parallelogram of the
    two directions.  There is an exact pair of closest points; each end of the
    answer is at its place, or was moved to the start of its segment over a
    distance of at most sqrt tol or tol/area of the segment's length. *)
Theorem C39_near_optimal : forall n (s1 s2 : segment R) tol,
  seg_wf n s1 -> seg_wf n s2 -> 0 < tol <= 1 -> sg_p1 s2 <> sg_p2 s2 ->
  let area := area_sq (minus (sg_p2 s1) (sg_p1 s1)) (minus (sg_p2 s2) (sg_p1 s2)) in
  area = 0 \/ tol <= area ->
  let '(t1, t2) := segment_to_segment s1 s2 tol in
  exists x0 y0, 0 <= x0 <= 1 /\ 0 <= y0 <= 1 /\
    (forall x y, 0 <= x <= 1 -> 0 <= y <= 1 ->
       vdist (sg_point s1 x0) (sg_point s2 y0) <= vdist (sg_point s1 x) (sg_point s2 y)) /\
    (t1 = x0 \/ (t1 = 0 /\ ((x0 * vnorm (sg_dir s1)) * (x0 * vnorm (sg_dir s1)) <= tol \/ (tol <= area /\ x0 * area <= tol)))) /\
    (t2 = y0 \/ (t2 = 0 /\ ((y0 * vnorm (sg_dir s2)) * (y0 * vnorm (sg_dir s2)) <= tol \/ (tol <= area /\ y0 * area <= tol)))).
Proof.
  intros n s1 s2 tol H1 H2 Ht Hne. rewrite !minus_vsub.
  exact (segment_to_segment_near n s1 s2 tol H1 H2 Ht Hne).
Qed.
Print Assumptions C39_near_optimal.
Example C39_near_optimal_ex :
  let s1 := mkSeg [0; 0] [2; 0] in let s2 := mkSeg [1; 1] [1; 3] in
  area_sq (minus (sg_p2 s1) (sg_p1 s1)) (minus (sg_p2 s2) (sg_p1 s2)) = 16 /\ sg_p1 s2 <> sg_p2 s2.
Proof. split; [cbn; lra|]. intros E; inversion E; lra. Qed.

Theorem C39_distance_bound : forall n (s1 s2 : segment R) tol x y,
  seg_wf n s1 -> seg_wf n s2 -> 0 < tol <= 1 -> sg_p1 s2 <> sg_p2 s2 ->
  let area := area_sq (minus (sg_p2 s1) (sg_p1 s1)) (minus (sg_p2 s2) (sg_p1 s2)) in
  area = 0 \/ tol <= area ->
  on_segment (sg_p1 s1) (sg_p2 s1) x -> on_segment (sg_p1 s2) (sg_p2 s2) y ->
  let '(t1, t2) := segment_to_segment s1 s2 tol in
  dist (sg_point s1 t1) (sg_point s2 t2) <= dist x y + 2 * sqrt tol
    + (if Rlt_dec area tol then 0 else tol * (dist (sg_p1 s1) (sg_p2 s1) + dist (sg_p1 s2) (sg_p2 s2)) / area).
Proof.
  intros n s1 s2 tol x y H1 H2 Ht Hne area HA Hx Hy.
  apply (on_segment_point n s1 x H1) in Hx. destruct Hx as (a & Ha & ->).
  apply (on_segment_point n s2 y H2) in Hy. destruct Hy as (b & Hb & ->).
  unfold area in *. rewrite !minus_vsub in HA.
  pose proof (segment_to_segment_bound n s1 s2 tol H1 H2 Ht Hne HA) as B. cbv zeta in B.
  destruct (segment_to_segment s1 s2 tol) as [t1 t2]. specialize (B a b Ha Hb).
  rewrite !dist_vdist by (rewrite ?(sg_point_length n) by assumption; destruct H1, H2; congruence).
  rewrite !minus_vsub. unfold sg_dir in B.
  rewrite (vdist_sym (sg_p1 s1)), (vdist_sym (sg_p1 s2)) by (destruct H1, H2; congruence).
  unfold vdist at 3 4.
  destruct (Rlt_dec _ _) as [L|L].
  - apply Rltb_iff in L. rewrite L in B. exact B.
  - destruct (Rltb _ _) eqn:E in B; [apply Rltb_iff in E; contradiction|]. exact B.
Qed.
Print Assumptions C39_distance_bound.

(** Degenerate second segment: (0,0)-(2,0) against the point (1,1) is answered
    with the end (0,0) at distance sqrt 2 instead of 1. *)
Theorem C39_degenerate_refuted :
  exists s1 s2 : segment R, seg_wf 2 s1 /\ seg_wf 2 s2 /\
    exists x y, on_segment (sg_p1 s1) (sg_p2 s1) x /\ on_segment (sg_p1 s2) (sg_p2 s2) y /\
      dist x y = 1 /\ sg_distance s1 s2 = sqrt 2.
Proof.
  exists (mkSeg [0; 0] [2; 0]), (mkSeg [1; 1] [1; 1]). split; [wf2|]. split; [wf2|].
  exists [1; 0], [1; 1]. split; [|split; [|split]].
  - exists (1/2). split; [lra|]. split; [reflexivity|]. intros [|[|[|i]]]; cbn; lra.
  - exists 0. split; [lra|]. split; [reflexivity|]. intros [|[|[|i]]]; cbn; lra.
  - unfold dist, norm. cbn [minus inner]. transitivity (sqrt 1); [f_equal; lra|apply sqrt_1].
  - unfold sg_distance, sg_shortest, segment_to_segment. rvec.
    unfold closest_params. rnum. rewrite f_eps_R. repeat dec_lt; cbn [sg_len sg_p1 sg_p2];
      try (exfalso; repeat match goal with H : context [Rabs ?x] |- _ => revert H; unfold Rabs; destruct (Rcase_abs x); intros H end; lra).
    unfold sg_len, vdist, vnorm. rvec. cbn [nsqrt RSqrt]. f_equal. lra.
Qed.
Print Assumptions C39_degenerate_refuted.

(** Two crossing segments of length 1e-4 (area below the tolerance) are
    reported 5e-5 apart. *)
Theorem C39_short_crossing_refuted :
  exists s1 s2 : segment R, seg_wf 2 s1 /\ seg_wf 2 s2 /\ sg_p1 s2 <> sg_p2 s2 /\
    (exists x, on_segment (sg_p1 s1) (sg_p2 s1) x /\ on_segment (sg_p1 s2) (sg_p2 s2) x) /\
    sg_distance s1 s2 = / 20000.
Proof.
  exists (mkSeg [-/20000; 0] [/20000; 0]), (mkSeg [0; -/20000] [0; /20000]). split; [wf2|]. split; [wf2|].
  split; [intros E; inversion E; lra|]. split.
  - exists [0; 0]. split; (exists (1/2); split; [lra|]; split; [reflexivity|]; intros [|[|[|i]]]; cbn; lra).
  - unfold sg_distance, sg_shortest, segment_to_segment. rvec.
    unfold closest_params. rnum. rewrite f_eps_R.
    repeat dec_lt; cbn [sg_len sg_p1 sg_p2];
      try (exfalso; repeat match goal with H : context [Rabs ?x] |- _ => revert H; unfold Rabs; destruct (Rcase_abs x); intros H end; lra).
    unfold sg_len, vdist, vnorm. rvec. cbn [nsqrt RSqrt].
    replace (_ + _) with (/20000 * /20000) by field. apply sqrt_square. lra.
Qed.
Print Assumptions C39_short_crossing_refuted.

(** The tol/area term is needed: (-1/2,0)-(1/2,0) and the crossing segment
    (0,-8e-9)-(0,8e-9), whose area 2.56e-16 exceeds the tolerance, are reported
    1/2 apart. *)
Theorem C39_exact_refuted :
  exists s1 s2 : segment R, seg_wf 2 s1 /\ seg_wf 2 s2 /\ sg_p1 s2 <> sg_p2 s2 /\
    f_eps <= area_sq (minus (sg_p2 s1) (sg_p1 s1)) (minus (sg_p2 s2) (sg_p1 s2)) /\
    (exists x, on_segment (sg_p1 s1) (sg_p2 s1) x /\ on_segment (sg_p1 s2) (sg_p2 s2) x) /\
    1/2 <= sg_distance s1 s2.
Proof.
  exists (mkSeg [-1/2; 0] [1/2; 0]), (mkSeg [0; -8/1000000000] [0; 8/1000000000]). split; [wf2|]. split; [wf2|].
  split; [intros E; inversion E; lra|]. split; [|split].
  - rewrite f_eps_R. cbn [minus sg_p1 sg_p2 area_sq minors_with]. lra.
  - exists [0; 0]. split; (exists (1/2); split; [lra|]; split; [reflexivity|]; intros [|[|[|i]]]; cbn; lra).
  - unfold sg_distance, sg_shortest, segment_to_segment. rvec.
    unfold closest_params. rnum. rewrite f_eps_R.
    repeat dec_lt; cbn [sg_len sg_p1 sg_p2];
      try (exfalso; repeat match goal with H : context [Rabs ?x] |- _ => revert H; unfold Rabs; destruct (Rcase_abs x); intros H end; lra);
    unfold sg_len, vdist, vnorm; rvec; cbn [nsqrt RSqrt];
    (replace (1/2) with (sqrt (1/4)) by (replace (1/4) with (1/2 * (1/2)) by lra; apply sqrt_square; lra));
    apply sqrt_le_1_alt; match goal with |- _ <= ?a * ?b + (?c * ?d + 0) => assert (0 <= c * d) by (apply Rle_0_sqr) end; lra.
Qed.
Print Assumptions C39_exact_refuted.

(** ** C40 vectorised closest points *)

Theorem C40_params : forall (data1 data2 : list (list R)) tol i j n,
  0 < tol -> (forall r, In r data1 -> length r = n) -> (forall r, In r data2 -> length r = n) ->
  (S i < length data1)%nat -> (S j < length data2)%nat ->
  let '(t1, t2) := segments_params data1 data2 tol in
  (t1 i j, t2 i j) = segment_to_segment (mkSeg (nth i data1 []) (nth (S i) data1 []))
                                        (mkSeg (nth j data2 []) (nth (S j) data2 [])) tol.
Proof. exact segments_params_pointwise. Qed.
Print Assumptions C40_params.

Theorem C40_points : forall dt (data1 data2 : list (list R)) tol i j n,
  0 < tol -> (forall r, In r data1 -> length r = n) -> (forall r, In r data2 -> length r = n) ->
  (S i < length data1)%nat -> (S j < length data2)%nat ->
  let s1 := mkSeg (nth i data1 []) (nth (S i) data1 []) in
  let s2 := mkSeg (nth j data2 []) (nth (S j) data2 []) in
  let t := segment_to_segment s1 s2 tol in
  segments_points dt data1 data2 tol i j =
  match dt with
  | DFloat => (sg_point s1 (fst t), sg_point s2 (snd t))
  | DInt => (sg_point s1 (ntrunc (fst t)), sg_point s2 (ntrunc (snd t)))
  end.
Proof.
  intros dt data1 data2 tol i j n Ht D1 D2 Hi Hj. cbv zeta.
  rewrite (segments_points_pointwise dt data1 data2 tol i j n Ht D1 D2 Hi Hj). destruct dt; reflexivity.
Qed.
Print Assumptions C40_points.
Example C40_points_ex :
  segments_points DFloat [[0; 0]; [2; 0]; [2; 2]]%Q [[1; 1]; [1; 3]]%Q (1 # 1000000) 0 0 = ([1; 0], [1; 1])%Q /\
  segments_points DInt [[0; 0]; [2; 0]; [2; 2]]%Q [[1; 1]; [1; 3]]%Q (1 # 1000000) 0 0 = ([0; 0], [1; 1])%Q.
Proof. vm_compute. split; reflexivity. Qed.
