(** What NaN coordinates do in IEEE binary64. *)
From Coq Require Import PrimFloat FloatOps FloatAxioms SpecFloat.
From Coq Require Import ZArith List Bool Arith Lia.
From Flocq Require Import Core BinarySingleNaN.
From Flocq Require Import IEEE754.PrimFloat.
From Verif Require Import Num Py Numeric Curve Vec Geom DiffGeom Intersect Interp Spec ListFacts ArrayProofs VecFacts CurveProofs CurveProofs3.
From Verif Require Import DiffGeomProofs DiffGeomProofs4 IntersectProofs3 FloatFacts FloatFacts2 FloatProofs FloatProofs2 FloatProofs3.
Import ListNotations.
Local Open Scope list_scope.
Local Notation float := PrimFloat.float.

(** A number that is NaN, a list with a NaN. *)
Definition isnan (x : float) : Prop := PrimFloat.is_nan x = true.
Definition has_nan (p : list float) : Prop := exists x, In x p /\ isnan x.

Lemma nan_sub x y : isnan x \/ isnan y -> isnan (PrimFloat.sub x y).
Proof.
  unfold isnan. rewrite !fnan_B, sub_equiv. intros [H|H]; destruct (Prim2B x) as [s|s| |s m e E], (Prim2B y) as [s'|s'| |s' m' e' E']; try discriminate; reflexivity.
Qed.
Lemma nan_ltb x y : isnan x \/ isnan y -> PrimFloat.ltb x y = false.
Proof.
  unfold isnan. rewrite !fnan_B, ltb_equiv. intros [H|H]; destruct (Prim2B x) as [s|s| |s m e E], (Prim2B y) as [s'|s'| |s' m' e' E']; try discriminate; try reflexivity;
  destruct s; try reflexivity; destruct s'; reflexivity.
Qed.
Lemma nan_vsum (l : list float) : has_nan l -> isnan (vsum l).
Proof.
  intros (x & I & N). induction l as [|y l IH]; [destruct I|]. cbn [vsum fold_right]. cbn [nadd FNum]. apply nan_add.
  destruct I as [->|I]; [left; exact N|right; apply IH; exact I].
Qed.

Lemma has_nan_nth (p : list float) : has_nan p <-> exists j, j < length p /\ isnan (nth j p PrimFloat.zero).
Proof.
  split.
  - intros (x & I & N). apply (In_nth _ _ PrimFloat.zero) in I. destruct I as (j & L & E). exists j. rewrite E. auto.
  - intros (j & L & N). exists (nth j p PrimFloat.zero). split; [apply nth_In; exact L|exact N].
Qed.

Lemma nan_norm (u : list float) : has_nan u -> isnan (vnorm u).
Proof.
  intros H. apply nan_sqrt. unfold vdot. apply nan_vsum. destruct H as (x & I & N).
  exists (PrimFloat.mul x x). split; [|apply nan_mul; auto].
  induction u as [|y u IH]; [destruct I|]. cbn [map2 nmul FNum]. destruct I as [->|I]; [left; reflexivity|right; apply IH; exact I].
Qed.

Lemma nan_map2 (f : float -> float -> float) (p q : list float) : (forall a b, isnan a \/ isnan b -> isnan (f a b)) ->
  length p = length q -> has_nan p \/ has_nan q -> has_nan (map2 f p q).
Proof.
  intros Hf. revert q. induction p as [|a p IH]; intros [|b q] L; try discriminate.
  - intros [(x & [] & _)|(x & [] & _)].
  - intros H. cbn [map2].
    assert (C : isnan a \/ isnan b \/ has_nan p \/ has_nan q).
    { destruct H as [(x & [->|I] & N)|(x & [->|I] & N)]; [auto|right; right; left; exists x; auto|auto|right; right; right; exists x; auto]. }
    destruct C as [C|[C|C]].
    + exists (f a b). split; [left; reflexivity|apply Hf; auto].
    + exists (f a b). split; [left; reflexivity|apply Hf; auto].
    + injection L as L. destruct (IH q L C) as (x & I & N). exists x. split; [right; exact I|exact N].
Qed.

Lemma nan_dist (p q : list float) : length p = length q -> has_nan p \/ has_nan q -> isnan (vdist p q).
Proof. intros L H. apply nan_norm. unfold vsub. apply nan_map2; [apply nan_sub|exact L|exact H]. Qed.

(** A point of a segment. *)
Lemma nan_sg_point (s : segment float) t : length (sg_p1 s) = length (sg_p2 s) -> has_nan (sg_p1 s) \/ has_nan (sg_p2 s) -> has_nan (sg_point s t).
Proof.
  intros L H. unfold sg_point, sg_dir.
  assert (D : has_nan (vsub (sg_p2 s) (sg_p1 s))) by (apply nan_map2; [apply nan_sub|congruence|tauto]).
  assert (V : has_nan (vscale (vsub (sg_p2 s) (sg_p1 s)) t)).
  { destruct D as (x & I & N). exists (PrimFloat.mul x t). split; [|apply nan_mul; auto]. unfold vscale. apply in_map_iff. exists x. split; [reflexivity|exact I]. }
  apply nan_map2; [apply nan_add| |right; exact V]. unfold vscale. rewrite map_length. unfold vsub. rewrite VecFacts.map2_length. lia.
Qed.

Definition seg_nan (s : segment float) : Prop := has_nan (sg_p1 s) \/ has_nan (sg_p2 s).

Lemma sg_point_len (s : segment float) t : length (sg_p1 s) = length (sg_p2 s) -> length (sg_point s t) = length (sg_p1 s).
Proof. intros L. unfold sg_point, sg_dir, vadd, vscale, vsub. rewrite VecFacts.map2_length, map_length, VecFacts.map2_length. lia. Qed.

Lemma nan_sg_distance n (s o : segment float) : length (sg_p1 s) = n -> length (sg_p2 s) = n -> length (sg_p1 o) = n -> length (sg_p2 o) = n ->
  seg_nan s \/ seg_nan o -> isnan (sg_distance s o).
Proof.
  intros L1 L2 L3 L4 H. unfold sg_distance, sg_shortest. destruct (segment_to_segment s o f_eps) as [t1 t2]. unfold sg_len. cbn [sg_p1 sg_p2].
  apply nan_dist; [rewrite !sg_point_len; congruence|].
  destruct H as [H|H]; [left|right]; apply nan_sg_point; try congruence; exact H.
Qed.

Lemma nan_sg_distance_point n (s : segment float) p : length (sg_p1 s) = n -> length (sg_p2 s) = n -> length p = n ->
  seg_nan s \/ has_nan p -> isnan (sg_distance_point s p).
Proof.
  intros L1 L2 L3 H. unfold sg_distance_point, sg_shortest_point, sg_len. cbn [sg_p1 sg_p2].
  apply nan_dist; [rewrite !sg_point_len; congruence|].
  destruct H as [H|H]; [left; apply nan_sg_point; [congruence|exact H]|right; exact H].
Qed.

(** ** Smallest and largest elements *)

Lemma npmin_nan a b : isnan a \/ isnan b -> isnan (npmin a b).
Proof. unfold npmin, isnan. cbn [nisnan FNum]. intros H. destruct (PrimFloat.is_nan a) eqn:A; [exact A|]. destruct (PrimFloat.is_nan b) eqn:B; [exact B|]. destruct H; discriminate. Qed.
Lemma npmax_nan a b : isnan a \/ isnan b -> isnan (npmax a b).
Proof. unfold npmax, isnan. cbn [nisnan FNum]. intros H. destruct (PrimFloat.is_nan a) eqn:A; [exact A|]. destruct (PrimFloat.is_nan b) eqn:B; [exact B|]. destruct H; discriminate. Qed.

Lemma fold_nan (f : float -> float -> float) : (forall a b, isnan a \/ isnan b -> isnan (f a b)) ->
  forall l a, isnan a \/ has_nan l -> isnan (fold_left f l a).
Proof.
  intros Hf. induction l as [|x l IH]; intros a H; cbn [fold_left].
  - destruct H as [H|(y & [] & _)]. exact H.
  - apply IH. destruct H as [H|(y & [->|I] & N)]; [left; apply Hf; auto|left; apply Hf; auto|right; exists y; auto].
Qed.

Lemma np_min_nan (l : list float) lo : np_min l = Ok lo -> has_nan l -> isnan lo.
Proof.
  destruct l as [|x l]; [discriminate|]. cbn [np_min]. intros H. injection H as <-. intros (y & [->|I] & N); apply fold_nan; try apply npmin_nan; [left; exact N|right; exists y; auto].
Qed.
Lemma np_max_nan (l : list float) hi : np_max l = Ok hi -> has_nan l -> isnan hi.
Proof.
  destruct l as [|x l]; [discriminate|]. cbn [np_max]. intros H. injection H as <-. intros (y & [->|I] & N); apply fold_nan; try apply npmax_nan; [left; exact N|right; exists y; auto].
Qed.

(** ** Boxes *)

Lemma bbox_nan n (rows1 rows2 : list (list float)) i j :
  length (nth i rows1 []) = n -> length (nth (S i) rows1 []) = n -> length (nth j rows2 []) = n -> length (nth (S j) rows2 []) = n ->
  seg_nan (seg_at rows1 i) \/ seg_nan (seg_at rows2 j) -> bbox_intersect rows1 rows2 i j = false.
Proof.
  intros L1 L2 L3 L4 H. unfold bbox_intersect.
  set (f := fun a b : float => ((nltb a b) || isclose a b)%bool). set (g := fun a b : float => ((nltb b a) || isclose a b)%bool).
  assert (F : forall a b, isnan a \/ isnan b -> f a b = false).
  { intros a b Hab. unfold f. cbn [nltb FNum]. rewrite nan_ltb by exact Hab. rewrite isclose_nan by exact Hab. reflexivity. }
  assert (Hm : has_nan (seg_pmin rows1 i) \/ has_nan (seg_pmax rows2 j)).
  { unfold seg_nan, seg_at in H. cbn [sg_p1 sg_p2] in H. unfold seg_pmin, seg_pmax.
    destruct H as [H|H]; [left; apply nan_map2; [apply npmin_nan|congruence|exact H]|right; apply nan_map2; [apply npmax_nan|congruence|exact H]]. }
  assert (M1 : length (seg_pmin rows1 i) = n) by (unfold seg_pmin; rewrite VecFacts.map2_length; lia).
  assert (M2 : length (seg_pmax rows2 j) = n) by (unfold seg_pmax; rewrite VecFacts.map2_length; lia).
  assert (M3 : length (seg_pmax rows1 i) = n) by (unfold seg_pmax; rewrite VecFacts.map2_length; lia).
  assert (M4 : length (seg_pmin rows2 j) = n) by (unfold seg_pmin; rewrite VecFacts.map2_length; lia).
  revert M1 M2 M3 M4 Hm. generalize (seg_pmin rows1 i) (seg_pmax rows2 j) (seg_pmax rows1 i) (seg_pmin rows2 j). clear - F.
  induction n as [|n IH]; intros [|a u] [|b v] [|c w] [|d z]; cbn [length]; intros; try discriminate.
  - destruct Hm as [(x & [] & _)|(x & [] & _)].
  - cbn [map2 forallb]. change (Datatypes.id (f a b && g c d)) with (f a b && g c d)%bool.
    assert (C : isnan a \/ isnan b \/ has_nan u \/ has_nan v).
    { destruct Hm as [(x & [->|I] & N)|(x & [->|I] & N)]; [auto|right; right; left; exists x; auto|auto|right; right; right; exists x; auto]. }
    destruct C as [C|[C|C]]; [rewrite F by auto; reflexivity|rewrite F by auto; reflexivity|].
    rewrite IH; [apply andb_false_r|lia|lia|lia|lia|exact C].
Qed.

(** ** Intersections of curves *)

Lemma rseq_In {A} (l : list (res A)) r x : rseq l = Ok r -> In x r -> In (Ok x) l.
Proof. intros H I. apply rseq_ok_iff in H. rewrite H. apply in_map. exact I. Qed.

Lemma row_len (c : curve float) k : wf c -> k < c_size c -> length (nth k (c_rows c) []) = c_ndim c.
Proof. intros (_ & D & _) H. apply D. apply nth_In. exact H. Qed.

Lemma exact_curves_members feps (c1 c2 : curve float) same l x : exact_curves feps c1 c2 same = Ok l -> In x l ->
  exists i j, In (i, j) (bbox_pairs c1 c2 same) /\ sr_seg (in_seg1 x) = seg_at (c_rows c1) i /\ sr_seg (in_seg2 x) = seg_at (c_rows c2) j.
Proof.
  rewrite exact_curves_eq. destruct (rseq _) as [rs|] eqn:E; cbn [rbind]; [|discriminate]. intros H. injection H as <-. intros I.
  apply filter_In in I. destruct I as [I _]. pose proof (rseq_In _ _ _ E I) as J. apply in_map_iff in J. destruct J as ((i & j) & Q & J).
  cbn [fst snd] in Q. destruct (exact_segments _ _ _) as [v|]; cbn [rbind] in Q; [|discriminate]. injection Q as <-.
  exists i, j. split; [exact J|]. split; reflexivity.
Qed.

Lemma np_take_In {A} (l r : list A) ix x : np_take l ix = Ok r -> In x r -> In x l.
Proof.
  intros H I. unfold np_take in H. pose proof (rseq_In _ _ _ H I) as J. apply in_map_iff in J. destruct J as (k & Q & _).
  unfold np_get in Q. destruct (norm_index _ _) as [m|]; [|discriminate]. destruct (nth_error l m) eqn:E; [|discriminate]. injection Q as ->.
  eapply nth_error_In. exact E.
Qed.

Lemma correct_overlap_segs (pr : almost_params float) x y : correct_overlap pr x = Ok y -> in_seg1 y = in_seg1 x /\ in_seg2 y = in_seg2 x.
Proof.
  unfold correct_overlap. destruct (parallel_segments _ _ _); [|intros H; injection H as <-; auto].
  destruct (overlap_segments _ _ _) as [q|]; [|intros H; injection H as <-; auto].
  destruct (make_info _ _) as [i|]; cbn [rbind]; [|discriminate]. intros H; injection H as <-; auto.
Qed.

Lemma almost_curves_members pr order (c1 c2 : curve float) same l x : almost_curves pr order c1 c2 same = Ok l -> In x l ->
  exists i j, i < c_size c1 - 1 /\ j < c_size c2 - 1 /\
    PrimFloat.ltb (vdist (fst (segments_points (promote (c_dtype c1) (c_dtype c2)) (c_rows c1) (c_rows c2) f_eps i j)) (snd (segments_points (promote (c_dtype c1) (c_dtype c2)) (c_rows c1) (c_rows c2) f_eps i j))) (al_dist_tol pr) = true /\
    sr_seg (in_seg1 x) = seg_at (c_rows c1) i /\ sr_seg (in_seg2 x) = seg_at (c_rows c2) j.
Proof.
  rewrite almost_curves_eq. cbv zeta. set (pts := segments_points _ _ _ _). set (prs := curves_intersect_indices _ _ _ _).
  intros H I. assert (H' : exists l0 l1,
    rseq (map (fun ij => do sh <- mk_segment (fst (pts (fst ij) (snd ij))) (snd (pts (fst ij) (snd ij))) ; Ok (pair_inter c1 c2 (mkInfo (IDSegment sh) IAlmost) ij)) prs) = Ok l0 /\
    (if al_remove_extra pr then remove_extra (al_extra_tol pr) order l0 else Ok l0) = Ok l1 /\
    (if al_correct_overlap pr then rseq (map (correct_overlap pr) l1) else Ok l1) = Ok l).
  { destruct prs as [|p0 prs'] eqn:Ep; [injection H as <-; destruct I|]. rewrite <- Ep in *.
    destruct (rseq (map _ prs)) as [l0|] eqn:E0; cbn [rbind] in H; [|discriminate].
    destruct (if al_remove_extra pr then _ else _) as [l1|] eqn:E1; cbn [rbind] in H; [|discriminate].
    exists l0, l1. split; [reflexivity|]. split; [exact E1|exact H]. }
  clear H. destruct H' as (l0 & l1 & E0 & E1 & E2).
  assert (X : exists y, In y l1 /\ in_seg1 x = in_seg1 y /\ in_seg2 x = in_seg2 y).
  { destruct (al_correct_overlap pr).
    - pose proof (rseq_In _ _ _ E2 I) as J. apply in_map_iff in J. destruct J as (y & Q & J). exists y. split; [exact J|]. apply correct_overlap_segs in Q. exact Q.
    - injection E2 as ->. exists x. auto. }
  destruct X as (y & Iy & S1 & S2). rewrite S1, S2.
  assert (Iy0 : In y l0).
  { destruct (al_remove_extra pr); [|injection E1 as ->; exact Iy]. unfold remove_extra in E1.
    destruct (rseq (map in_point_data l0)); cbn [rbind] in E1; [|discriminate]. destruct (rseq (map in_seglen l0)); cbn [rbind] in E1; [|discriminate].
    eapply np_take_In; [exact E1|exact Iy]. }
  pose proof (rseq_In _ _ _ E0 Iy0) as J. apply in_map_iff in J. destruct J as ((i & j) & Q & J). cbn [fst snd] in Q.
  destruct (mk_segment _ _) as [sh|]; cbn [rbind] in Q; [|discriminate]. injection Q as <-.
  apply indices_In in J. destruct J as (Hi & Hj & Hd & _). exists i, j. repeat split; assumption.
Qed.

(** ** Chord lengths *)

Lemma has_nan_app l1 l2 : has_nan l1 \/ has_nan l2 -> has_nan (l1 ++ l2).
Proof. intros [(x & I & N)|(x & I & N)]; exists x; (split; [apply in_or_app; auto|exact N]). Qed.

Lemma chord_nan (p q : list float) : length p = length q -> has_nan p \/ has_nan q -> isnan (chord p q).
Proof. intros L H. pose proof (nan_dist p q L H) as D. rewrite vdist_chord in D. unfold chord. rewrite <- sq_gap_diff. exact D. Qed.

Lemma cumsum_from_nan l a : isnan a -> forall k, k < length l -> isnan (nth k (cumsum_from a l) PrimFloat.zero).
Proof.
  revert a. induction l as [|x l IH]; intros a Ha k Hk; [cbn in Hk; lia|]. cbn [cumsum_from].
  assert (N : isnan (nadd a x)) by (cbn [nadd FNum]; apply nan_add; auto).
  destruct k as [|k]; [exact N|]. cbn [nth]. apply IH; [exact N|cbn in Hk; lia].
Qed.
Lemma cumsum_from_nan2 l : forall a j k, j <= k -> k < length l -> isnan (nth j l PrimFloat.zero) -> isnan (nth k (cumsum_from a l) PrimFloat.zero).
Proof.
  induction l as [|x l IH]; intros a j k H1 H2 H3; [cbn in H2; lia|]. cbn [cumsum_from]. destruct j as [|j].
  - cbn [nth] in H3. assert (N : isnan (nadd a x)) by (cbn [nadd FNum]; apply nan_add; auto).
    destruct k as [|k]; [exact N|]. cbn [nth]. apply cumsum_from_nan; [exact N|cbn in H2; lia].
  - destruct k as [|k]; [lia|]. cbn [nth]. apply (IH _ j); [lia|cbn in H2; lia|exact H3].
Qed.
Lemma cumsum_nan l j k : j <= k -> k < length l -> isnan (nth j l PrimFloat.zero) -> isnan (nth k (cumsum l) PrimFloat.zero).
Proof.
  destruct l as [|x l]; intros H1 H2 H3; [cbn in H2; lia|]. cbn [cumsum]. destruct j as [|j].
  - cbn [nth] in H3. destruct k as [|k]; [exact H3|]. cbn [nth]. apply cumsum_from_nan; [exact H3|cbn in H2; lia].
  - destruct k as [|k]; [lia|]. cbn [nth]. apply (cumsum_from_nan2 l x j); [lia|cbn in H2; lia|exact H3].
Qed.
