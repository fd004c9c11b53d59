(** Property C84: what NaN coordinates do.

    In IEEE binary64; [isnan x]: the number is NaN; [has_nan p]: some entry of
    the list is NaN; [seg_nan s]: an end point of the segment has a NaN
    coordinate.  All statements hold for arbitrary other coordinates
    (infinities included). *)
From Coq Require Import PrimFloat FloatOps FloatAxioms.
From Coq Require Import ZArith List Bool Arith Lia.
From Verif Require Import Num Py Numeric Curve Vec Geom DiffGeom Intersect Interp Plot Spec ListFacts VecFacts CurveProofs CurveProofs3.
From Verif Require Import DiffGeomProofs DiffGeomProofs4 IntersectProofs3 FloatProofs2 NanProofs.
Import ListNotations.
Local Open Scope list_scope.
Local Notation float := PrimFloat.float.

(** ** C84 NaN *)

(** Distances of points, of a point and a segment, of two segments: NaN as soon
    as any coordinate of either is NaN. *)
Theorem C84_distance : forall n (p q : list float) (s o : segment float),
  length p = n -> length q = n -> length (sg_p1 s) = n -> length (sg_p2 s) = n -> length (sg_p1 o) = n -> length (sg_p2 o) = n ->
  (has_nan p \/ has_nan q -> isnan (vdist p q)) /\
  (seg_nan s \/ has_nan p -> isnan (sg_distance_point s p)) /\
  (seg_nan s \/ seg_nan o -> isnan (sg_distance s o)).
Proof.
  intros n p q s o L1 L2 L3 L4 L5 L6. split; [|split].
  - apply nan_dist. congruence.
  - apply (nan_sg_distance_point n); assumption.
  - apply (nan_sg_distance n); assumption.
Qed.
Print Assumptions C84_distance.
Example C84_distance_ex : has_nan [fz 1; nan] /\ isnan (vdist [fz 1; nan] [fz 1; infinity]) /\
  isnan (sg_distance (mkSeg [fz 0; fz 0] [fz 4; nan]) (mkSeg [fz 0; fz 0] [fz 0; fz 0])) /\
  vdist [fz 0; fz 3] [fz 4; fz 0] = fz 5.
Proof. split; [exists nan; split; [right; left; reflexivity|reflexivity]|]. split; [vm_compute; reflexivity|]. split; vm_compute; reflexivity. Qed.

(** A point with a NaN coordinate at position k makes the chords on both sides
    NaN, the length of the whole curve, and the cumulative length from there
    on. *)
Theorem C84_lengths : forall junk (c : curve float) k,
  wf c -> (k < c_size c)%nat -> has_nan (nth k (c_rows c) []) ->
  (forall i, (S i < c_size c)%nat -> i = k \/ S i = k -> isnan (nth i (c_chordlen junk c) PrimFloat.zero)) /\
  ((2 <= c_size c)%nat -> isnan (c_arclen junk c)) /\
  (forall m, (1 <= m)%nat -> (k <= m)%nat -> (m < c_size c)%nat -> isnan (nth m (c_cumarclen junk c) PrimFloat.zero)).
Proof.
  intros junk c k W K N.
  assert (B : c_bool c = true) by (apply c_bool_wf; [assumption|]; intros E; unfold c_size in K; rewrite E in K; cbn in K; lia).
  assert (A : forall i, (S i < c_size c)%nat -> i = k \/ S i = k -> isnan (nth i (c_chordlen junk c) PrimFloat.zero)).
  { intros i Hi Hk. rewrite c_chordlen_rows by exact B.
    erewrite nth_error_nth; [|apply CurveProofs3.chordlen_rows_nth; apply nth_error_nth'; unfold c_size in Hi; lia].
    apply chord_nan; [rewrite !row_len by (assumption || lia); reflexivity|].
    destruct Hk as [->| <-]; [left|right]; exact N. }
  assert (L : length (c_chordlen junk c) = (c_size c - 1)%nat) by (rewrite c_chordlen_rows by exact B; apply gen_chordlen).
  split; [exact A|]. split.
  - intros H2. unfold c_arclen. apply nan_vsum.
    destruct k as [|k].
    + exists (nth 0 (c_chordlen junk c) PrimFloat.zero). split; [apply nth_In; lia|apply A; [lia|auto]].
    + exists (nth k (c_chordlen junk c) PrimFloat.zero). split; [apply nth_In; lia|apply A; [lia|auto]].
  - intros [|m] H1 Hk Hm; [lia|]. unfold c_cumarclen. cbn [nth].
    destruct k as [|k]; [apply (cumsum_nan _ 0); [lia|lia|apply A; [lia|auto]]|apply (cumsum_nan _ k); [lia|lia|apply A; [lia|auto]]].
Qed.
Print Assumptions C84_lengths.
Definition nanpath : curve float := mkCurve [[fz 0; fz 0]; [fz 3; fz 4]; [fz 1; nan]; [fz 1; fz 1]; [fz 2; fz 1]] 2 DFloat None.
Lemma nanpath_wf : wf nanpath.
Proof. split; [cbn; lia|]. split; [|discriminate]. intros p Hp. cbn in Hp. repeat (destruct Hp as [<-|Hp]; [reflexivity|]). destruct Hp. Qed.
Example C84_lengths_ex : has_nan (nth 2 (c_rows nanpath) []) /\
  map PrimFloat.is_nan (c_chordlen (fz 0) nanpath) = [false; true; true; false] /\
  map PrimFloat.is_nan (c_cumarclen (fz 0) nanpath) = [false; false; true; true; true].
Proof. split; [exists nan; split; [right; left; reflexivity|reflexivity]|]. split; vm_compute; reflexivity. Qed.

(** No intersection found by the exact method involves a segment with a NaN
    coordinate (the boxes of such segments meet nothing). *)
Theorem C84_exact : forall feps (c1 c2 : curve float) same l x,
  wf c1 -> wf c2 -> c_ndim c1 = c_ndim c2 -> (same = true -> c2 = c1) ->
  exact_curves feps c1 c2 same = Ok l -> In x l ->
  ~ seg_nan (sr_seg (in_seg1 x)) /\ ~ seg_nan (sr_seg (in_seg2 x)).
Proof.
  intros feps c1 c2 same l x W1 W2 Dn Hs E I. destruct (exact_curves_members feps c1 c2 same l x E I) as (i & j & J & -> & ->).
  unfold bbox_pairs in J. destruct (_ || _); [destruct J|]. apply indices_In in J. destruct J as (Hi & Hj & Hb & _).
  replace (if same then c_rows c1 else c_rows c2) with (c_rows c2) in Hb by (destruct same; [rewrite (Hs eq_refl); reflexivity|reflexivity]).
  assert (Q : ~ (seg_nan (seg_at (c_rows c1) i) \/ seg_nan (seg_at (c_rows c2) j))).
  { intros N. rewrite (bbox_nan (c_ndim c1)) in Hb; [discriminate| | | | |exact N]; rewrite row_len by (assumption || lia); congruence. }
  tauto.
Qed.
Print Assumptions C84_exact.

(** The same for the almost method, with any parameters; and for two segments it
    reports no intersection. *)
Theorem C84_almost : forall pr order (c1 c2 : curve float) same l x,
  wf c1 -> wf c2 -> c_ndim c1 = c_ndim c2 ->
  almost_curves pr order c1 c2 same = Ok l -> In x l ->
  ~ seg_nan (sr_seg (in_seg1 x)) /\ ~ seg_nan (sr_seg (in_seg2 x)).
Proof.
  intros pr order c1 c2 same l x W1 W2 Dn E I.
  destruct (almost_curves_members pr order c1 c2 same l x E I) as (i & j & Hi & Hj & Hd & -> & ->).
  unfold segments_points in Hd. destruct (segments_params _ _ _) as [t1 t2]. cbn [fst snd] in Hd.
  change (vadd (nth i (c_rows c1) []) (vscale (row_dir (c_rows c1) i) (cast (promote (c_dtype c1) (c_dtype c2)) (t1 i j)))) with (sg_point (seg_at (c_rows c1) i) (cast (promote (c_dtype c1) (c_dtype c2)) (t1 i j))) in Hd.
  change (vadd (nth j (c_rows c2) []) (vscale (row_dir (c_rows c2) j) (cast (promote (c_dtype c1) (c_dtype c2)) (t2 i j)))) with (sg_point (seg_at (c_rows c2) j) (cast (promote (c_dtype c1) (c_dtype c2)) (t2 i j))) in Hd.
  assert (La : length (sg_p1 (seg_at (c_rows c1) i)) = c_ndim c1 /\ length (sg_p2 (seg_at (c_rows c1) i)) = c_ndim c1)
    by (cbn [seg_at sg_p1 sg_p2]; rewrite !row_len by (assumption || lia); auto).
  assert (Lb : length (sg_p1 (seg_at (c_rows c2) j)) = c_ndim c2 /\ length (sg_p2 (seg_at (c_rows c2) j)) = c_ndim c2)
    by (cbn [seg_at sg_p1 sg_p2]; rewrite !row_len by (assumption || lia); auto).
  destruct La as [La La']. destruct Lb as [Lb Lb'].
  assert (Q : ~ (seg_nan (seg_at (c_rows c1) i) \/ seg_nan (seg_at (c_rows c2) j))).
  { intros N. rewrite nan_ltb in Hd; [discriminate|]. left. apply nan_dist; [rewrite !sg_point_len; congruence|].
    destruct N as [N|N]; [left|right]; apply nan_sg_point; try congruence; exact N. }
  tauto.
Qed.
Print Assumptions C84_almost.

Theorem C84_almost_segments : forall n pr (s o : segment float),
  length (sg_p1 s) = n -> length (sg_p2 s) = n -> length (sg_p1 o) = n -> length (sg_p2 o) = n ->
  seg_nan s \/ seg_nan o -> almost_segments pr s o = Ok not_intersected.
Proof.
  intros n pr s o L1 L2 L3 L4 H. unfold almost_segments. cbn [nltb FNum].
  change (sg_len (sg_shortest s o)) with (sg_distance s o). rewrite nan_ltb; [reflexivity|]. left. apply (nan_sg_distance n); assumption.
Qed.
Print Assumptions C84_almost_segments.
(** The path with a NaN point and a line through its first and its last side:
    both crossings are found, none with the sides at the NaN point. *)
Definition nanline : curve float := mkCurve [[fz 0; fz 2]; [fz 3; fz 0]] 2 DFloat None.
Lemma nanline_wf : wf nanline.
Proof. split; [cbn; lia|]. split; [|discriminate]. intros p Hp. cbn in Hp. repeat (destruct Hp as [<-|Hp]; [reflexivity|]). destruct Hp. Qed.
Example C84_exact_ex : exists l, exact_curves f_eps nanpath nanline false = Ok l /\
  map (fun x => sg_p1 (sr_seg (in_seg1 x))) l = [[fz 0; fz 0]; [fz 1; fz 1]].
Proof. eexists. split; [vm_compute; reflexivity|]. vm_compute. reflexivity. Qed.
Example C84_almost_ex : exists l, almost_curves (mkAlmost (fq 1 1000) false (fz 0) false (fz 0)) (fun x => x) nanpath nanline false = Ok l /\
  map (fun x => sg_p1 (sr_seg (in_seg1 x))) l = [[fz 0; fz 0]; [fz 1; fz 1]].
Proof. eexists. split; [vm_compute; reflexivity|]. vm_compute. reflexivity. Qed.

(** The smallest and the largest element of an array are NaN if any element is;
    so the colours of a plot have no range as soon as one value is NaN ... *)
Theorem C84_limits : forall junk (c : curve float) v mk cmds segs vals lo hi,
  multicolor junk c v mk = Ok cmds -> In (CSegments segs vals lo hi) cmds -> has_nan vals ->
  isnan lo /\ isnan hi /\ forall lo' hi', In (CColorbar lo' hi') cmds -> isnan lo' /\ isnan hi'.
Proof.
  intros junk c v mk cmds segs vals lo hi E I N. unfold multicolor in E. destruct (vprop v) as [q|]; [|discriminate].
  destruct (curve_prop junk c q) as [[u|u|u]|]; cbn [rbind] in E; try discriminate.
  destruct (np_min u) as [a|] eqn:Ea; cbn [rbind] in E; [|discriminate]. destruct (np_max u) as [b|] eqn:Eb; cbn [rbind] in E; [|discriminate].
  injection E as <-. cbn [app In] in I.
  assert (Q : u = vals /\ a = lo /\ b = hi).
  { destruct I as [I|[I|I]]; [injection I; auto|discriminate|]. apply in_app_or in I. destruct I as [I|[I|[]]]; [|discriminate].
    destruct mk; [destruct I as [I|[]]; discriminate|destruct I]. }
  destruct Q as (-> & -> & ->). pose proof (np_min_nan _ _ Ea N) as Na. pose proof (np_max_nan _ _ Eb N) as Nb.
  split; [exact Na|]. split; [exact Nb|]. intros lo' hi' J. cbn [app In] in J.
  destruct J as [J|[J|J]]; try discriminate. apply in_app_or in J. destruct J as [J|[J|[]]].
  - destruct mk; [destruct J as [J|[]]; discriminate|destruct J].
  - injection J as <- <-. auto.
Qed.
Print Assumptions C84_limits.
Example C84_limits_ex : exists cmds segs vals lo hi, multicolor (fz 0) nanpath VCumarclen false = Ok cmds /\
  In (CSegments segs vals lo hi) cmds /\ has_nan vals.
Proof.
  do 5 eexists. split; [reflexivity|]. split; [left; reflexivity|].
  exists (nth 2 (c_cumarclen (fz 0) nanpath) (fz 0)). split; [apply nth_In; vm_compute; lia|vm_compute; reflexivity].
Qed.

(** ... and rescaling an array with a NaN gives nothing but NaN. *)
Theorem C84_rescale : forall (l : list float) out l',
  linrescale_default l out = Ok l' -> has_nan l -> length l' = length l /\ forall x, In x l' -> isnan x.
Proof.
  intros l out l' E N. unfold linrescale_default in E.
  destruct (np_min l) as [a|] eqn:Ea; cbn [rbind] in E; [|discriminate]. destruct (np_max l) as [b|] eqn:Eb; cbn [rbind] in E; [|discriminate].
  injection E as <-. pose proof (np_min_nan _ _ Ea N) as Na. pose proof (np_max_nan _ _ Eb N) as Nb.
  unfold linrescale. rewrite !map_length. split; [reflexivity|]. intros x I. rewrite map_map in I. apply in_map_iff in I. destruct I as (y & <- & _).
  cbn [fst snd nadd nsub nmul ndiv FNum]. apply nan_add. left. apply nan_mul. left. apply nan_div. right. apply nan_sub. auto.
Qed.
Print Assumptions C84_rescale.
Example C84_rescale_ex : exists l', linrescale_default [fz 1; nan; fz 3] (fz 0, fz 1) = Ok l' /\ map PrimFloat.is_nan l' = [true; true; true].
Proof. eexists. split; [reflexivity|vm_compute; reflexivity]. Qed.
