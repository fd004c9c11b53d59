(** Consistency of the lists of intersections; whole runs of the almost method. *)
From Coq Require Import ZArith List Bool Arith Lia Reals Lra Sorting.Sorted Permutation Relations.
From Verif Require Import Num Py Numeric Curve Vec Geom Intersect Registry Spec GeomSpec.
From Verif Require Import ListFacts CurveProofs CurveProofs2 CurveProofs3 ProgramProofs VecFacts GeomProofs GeomProofs2 GeomProofs3.
From Verif Require Import IntersectProofs IntersectProofs2 IntersectProofs3 IntersectProofs4 RegistryProofs.
Import ListNotations.
Local Open Scope nat_scope.

Section Lists.
  Context {T : Type} {NT : Num T} {ST : NumSqrt T}.

  Lemma rseq_In {A B} (f : A -> res B) l l' y : rseq (map f l) = Ok l' -> In y l' -> exists x, In x l /\ f x = Ok y.
  Proof.
    intros E H. apply rseq_ok_iff in E. assert (K : In (Ok y) (map f l)) by (rewrite E; apply in_map; assumption).
    apply in_map_iff in K. destruct K as (x & E' & Hx). exists x. auto.
  Qed.

  Lemma exact_curves_ok feps (c1 c2 : curve T) same l x :
    exact_curves feps c1 c2 same = Ok l -> In x l -> info_ok (in_info x) /\ in_bool x = true.
  Proof.
    rewrite exact_curves_eq. destruct (rseq _) as [rs|e] eqn:E; [|discriminate]. cbn [rbind]. intros [= <-] H.
    apply filter_In in H. destruct H as [H B]. split; [|assumption].
    destruct (rseq_In _ _ _ _ E H) as (ij & _ & Q).
    destruct (exact_segments _ _ _) as [i|e] eqn:X; [|discriminate]. cbn in Q. injection Q as <-. cbn.
    apply (exact_segments_ok _ _ _ _ X).
  Qed.

  Lemma almost_curves_ok pr order (c1 c2 : curve T) same l x :
    almost_curves pr order c1 c2 same = Ok l -> In x l -> info_ok (in_info x) /\ in_bool x = true.
  Proof.
    rewrite almost_curves_eq. cbv zeta. set (prs := curves_intersect_indices _ _ _ _).
    intros E H.
    assert (Q : forall (P : res (list (inter T))) l0, (match prs with [] => Ok [] | _ :: _ => P end = Ok l0) -> In x l0 -> P = Ok l0)
      by (intros P l0; destruct prs; [intros [= <-] []|auto]).
    apply Q in E; [|assumption]. clear Q.
    destruct (rseq (map _ prs)) as [l0|e] eqn:E0; [|discriminate]. cbn [rbind] in E.
    assert (G : forall y, In y l0 -> info_ok (in_info y) /\ in_bool y = true).
    { intros y Hy. destruct (rseq_In _ _ _ _ E0 Hy) as (ij & _ & Q).
      destruct (mk_segment _ _) as [sh|e]; [|discriminate]. cbn in Q. injection Q as <-. cbn.
      split; [exists sh; reflexivity|reflexivity]. }
    destruct (if al_remove_extra pr then _ else _) as [l1|e] eqn:E1; [|discriminate]. cbn [rbind] in E.
    assert (G1 : forall y, In y l1 -> info_ok (in_info y) /\ in_bool y = true).
    { destruct (al_remove_extra pr); [|injection E1 as <-; assumption].
      intros y Hy. apply G. unfold remove_extra in E1.
      destruct (rseq (map in_point_data l0)); [|discriminate]. destruct (rseq (map in_seglen l0)); [|discriminate].
      cbn [rbind] in E1. eapply np_take_in; eassumption. }
    destruct (al_correct_overlap pr); [|injection E as <-; auto].
    destruct (rseq_In _ _ _ _ E H) as (y & Hy & Q). destruct (G1 y Hy) as [K B].
    destruct (correct_overlap_ok pr y x K Q) as (K' & _ & _ & NB). split; [assumption|].
    unfold in_bool in *. destruct (i_type (in_info y)) eqn:Ty; try discriminate;
      destruct (i_type (in_info x)) eqn:Tx; try reflexivity; exfalso; apply NB; congruence.
  Qed.
  Lemma correct_overlap_segs (pr : almost_params T) x y : correct_overlap pr x = Ok y -> in_seg1 y = in_seg1 x /\ in_seg2 y = in_seg2 x.
  Proof.
    unfold correct_overlap. destruct (parallel_segments _ _ _); [|intros H; injection H as <-; auto].
    destruct (overlap_segments _ _ _) as [q|]; [|intros H; injection H as <-; auto].
    destruct (make_info _ _) as [i|]; cbn [rbind]; [|discriminate]. intros H; injection H as <-; auto.
  Qed.

  (** Every result of the almost method, with any parameters, comes from a pair of
      segments whose computed points are closer than dist_tol. *)
  Lemma almost_members pr order (c1 c2 : curve T) same l x : almost_curves pr order c1 c2 same = Ok l -> In x l ->
    let pts := segments_points (promote (c_dtype c1) (c_dtype c2)) (c_rows c1) (c_rows c2) f_eps in
    exists i j, S i < c_size c1 /\ S j < c_size c2 /\ (same = true -> i + 2 <= j) /\
      nltb (vdist (fst (pts i j)) (snd (pts i j))) (al_dist_tol pr) = true /\
      in_seg1 x = SegOf true (Z.of_nat i) (seg_at (c_rows c1) i) /\ in_seg2 x = SegOf false (Z.of_nat j) (seg_at (c_rows c2) j).
  Proof.
    rewrite almost_curves_eq. cbv zeta. set (pts := segments_points _ _ _ _). set (prs := curves_intersect_indices _ _ _ _).
    intros H I. assert (H' : exists l0 l1,
      rseq (map (fun ij => do sh <- mk_segment (fst (pts (fst ij) (snd ij))) (snd (pts (fst ij) (snd ij))) ; Ok (pair_inter c1 c2 (mkInfo (IDSegment sh) IAlmost) ij)) prs) = Ok l0 /\
      (if al_remove_extra pr then remove_extra (al_extra_tol pr) order l0 else Ok l0) = Ok l1 /\
      (if al_correct_overlap pr then rseq (map (correct_overlap pr) l1) else Ok l1) = Ok l).
    { destruct prs as [|p0 prs'] eqn:Ep; [injection H as <-; destruct I|]. rewrite <- Ep in *.
      destruct (rseq (map _ prs)) as [l0|] eqn:E0; cbn [rbind] in H; [|discriminate].
      destruct (if al_remove_extra pr then _ else _) as [l1|] eqn:E1; cbn [rbind] in H; [|discriminate].
      exists l0, l1. split; [reflexivity|]. split; [exact E1|exact H]. }
    clear H. destruct H' as (l0 & l1 & E0 & E1 & E2).
    assert (X : exists y, In y l1 /\ in_seg1 x = in_seg1 y /\ in_seg2 x = in_seg2 y).
    { destruct (al_correct_overlap pr).
      - destruct (rseq_In _ _ _ _ E2 I) as (y & J & Q). exists y. split; [exact J|]. apply correct_overlap_segs in Q. exact Q.
      - injection E2 as ->. exists x. auto. }
    destruct X as (y & Iy & S1 & S2). rewrite S1, S2.
    assert (Iy0 : In y l0).
    { destruct (al_remove_extra pr); [|injection E1 as ->; exact Iy]. unfold remove_extra in E1.
      destruct (rseq (map in_point_data l0)); cbn [rbind] in E1; [|discriminate]. destruct (rseq (map in_seglen l0)); cbn [rbind] in E1; [|discriminate].
      eapply np_take_in; eassumption. }
    destruct (rseq_In _ _ _ _ E0 Iy0) as ((i & j) & J & Q). cbn [fst snd] in Q.
    destruct (mk_segment _ _) as [sh|]; cbn [rbind] in Q; [|discriminate]. injection Q as <-.
    apply indices_In in J. destruct J as (Hi & Hj & Hd & Hs). exists i, j.
    split; [lia|]. split; [lia|]. split; [exact Hs|]. split; [exact Hd|]. split; reflexivity.
  Qed.
End Lists.

(** The ALMOST results have a middle point and their segment. *)
Lemma almost_point_segment (r1 r2 : segref R) s :
  in_point (mkInter r1 r2 (mkInfo (IDSegment s) IAlmost)) = Ok (IDPoint (sg_point s (nlit 1 2))) /\
  in_segment (mkInter r1 r2 (mkInfo (IDSegment s) IAlmost)) = Ok (IDSegment s).
Proof. split; reflexivity. Qed.

Lemma sg_shortest_wf n (s1 s2 : segment R) : seg_wf n s1 -> seg_wf n s2 -> seg_wf n (sg_shortest s1 s2).
Proof.
  intros H1 H2. unfold sg_shortest. destruct (segment_to_segment _ _ _). split; cbn; apply sg_point_length; assumption.
Qed.

Lemma shortest_dt_wf n dt (s1 s2 : segment R) : seg_wf n s1 -> seg_wf n s2 -> seg_wf n (shortest_dt dt s1 s2).
Proof. intros H1 H2. split; cbn; apply sg_point_length; assumption. Qed.

(** A whole run with remove_extra: the result is a cluster-wise selection of
    the close pairs. *)
Lemma almost_remove_run_dt n (pr : almost_params R) order (c1 c2 : curve R) same : 0 < n ->
  dims n (c_rows c1) -> dims n (c_rows c2) -> (forall c, Permutation (order c) c) ->
  al_remove_extra pr = true -> al_correct_overlap pr = false ->
  let dt := promote (c_dtype c1) (c_dtype c2) in
  exists ps K l,
    let seg ij := shortest_dt dt (seg_at (c_rows c1) (fst ij)) (seg_at (c_rows c2) (snd ij)) in
    let pts := map (fun ij => sg_point (seg ij) (/ 2)%R) ps in
    almost_curves pr order c1 c2 same = Ok l /\
    StronglySorted before ps /\
    (forall i j, In (i, j) ps <->
      S i < c_size c1 /\ S j < c_size c2 /\ (same = true -> i + 2 <= j) /\
      (sg_len (shortest_dt dt (seg_at (c_rows c1) i) (seg_at (c_rows c2) j)) < al_dist_tol pr)%R) /\
    StronglySorted lt K /\
    Forall2 (fun k x => exists ij, nth_error ps k = Some ij /\
       in_seg1 x = SegOf true (Z.of_nat (fst ij)) (seg_at (c_rows c1) (fst ij)) /\
       in_seg2 x = SegOf false (Z.of_nat (snd ij)) (seg_at (c_rows c2) (snd ij)) /\
       in_info x = mkInfo (IDSegment (seg ij)) IAlmost) K l /\
    (forall i, i < length ps -> exists k, In k K /\ connected (al_extra_tol pr) pts i k /\
       (forall j ij ij', connected (al_extra_tol pr) pts i j -> nth_error ps k = Some ij -> nth_error ps j = Some ij' ->
          (sg_len (seg ij) <= sg_len (seg ij'))%R) /\
       (forall k', In k' K -> connected (al_extra_tol pr) pts i k' -> k' = k)).
Proof.
  intros Hn D1 D2 HO ER EC dt.
  destruct (almost_list_dt n pr c1 c2 same Hn D1 D2) as (ps & S & E & I). fold dt in E, I.
  set (seg := fun ij : nat * nat => shortest_dt dt (seg_at (c_rows c1) (fst ij)) (seg_at (c_rows c2) (snd ij))).
  set (f := fun ij => pair_inter c1 c2 (mkInfo (IDSegment (seg ij)) IAlmost) ij).
  set (pts := map (fun ij => sg_point (seg ij) (/ 2)%R) ps).
  assert (HALF : (nlit 1 2 : R) = (/ 2)%R) by (cbn; lra).
  assert (HPT : Forall2 (fun x p => in_point x = Ok (IDPoint p)) (map f ps) pts).
  { unfold pts. clear S E I. induction ps as [|ij ps IH]; cbn [map]; constructor; [|assumption].
    rewrite <- HALF. reflexivity. }
  assert (HSG : Forall2 (fun x s => in_segment x = Ok (IDSegment s)) (map f ps) (map seg ps)).
  { clear S E I pts HPT. induction ps as [|ij ps IH]; cbn [map]; constructor; [reflexivity|assumption]. }
  assert (DP : dims n pts).
  { intros p Hp. unfold pts in Hp. apply in_map_iff in Hp. destruct Hp as ((i & j) & <- & Hij). apply I in Hij.
    destruct Hij as (Hi & Hj & _). apply sg_point_length. apply shortest_dt_wf; apply seg_at_wf; assumption. }
  destruct (remove_extra_spec n (al_extra_tol pr) order (map f ps) pts (map seg ps) HO DP HPT HSG) as (K & l & ER' & SK & FK & CK).
  exists ps, K, (match ps with [] => [] | _ => l end). cbv zeta. fold seg. fold pts.
  assert (NIL : ps = [] -> K = [] /\ l = []).
  { intros ->. cbn [map] in FK.
    assert (K = []) as ->.
    { destruct K as [|k K]; [reflexivity|]. inversion FK as [|? ? ? ? Q]. destruct k; discriminate. }
    inversion FK. auto. }
  split.
  { rewrite E. cbv zeta. rewrite ER, EC. destruct ps as [|p0 ps0]; [reflexivity|].
    change (rbind (remove_extra (al_extra_tol pr) order (map f (p0 :: ps0))) (fun l => Ok l) = Ok l). rewrite ER'. reflexivity. }
  split; [assumption|]. split; [assumption|]. split; [assumption|]. split.
  - assert (FK' : Forall2 (fun k x => exists ij, nth_error ps k = Some ij /\
       in_seg1 x = SegOf true (Z.of_nat (fst ij)) (seg_at (c_rows c1) (fst ij)) /\
       in_seg2 x = SegOf false (Z.of_nat (snd ij)) (seg_at (c_rows c2) (snd ij)) /\
       in_info x = mkInfo (IDSegment (seg ij)) IAlmost) K l).
    { clear - FK. induction FK as [|k x K l Q _ IH]; constructor; [|assumption].
      rewrite nth_error_map in Q. destruct (nth_error ps k) as [ij|]; [|discriminate]. cbn in Q. injection Q as <-.
      exists ij. repeat split. }
    destruct ps as [|p0 ps0]; [|assumption]. destruct (NIL eq_refl) as [-> ->]. constructor.
  - intros i Hi. destruct (CK i) as (k & Hk & Hc & Hm & Hu); [rewrite map_length; assumption|].
    exists k. split; [assumption|]. split; [assumption|]. split; [|assumption].
    intros j ij ij' Hj Ek Ej. apply (Hm j); [assumption| |]; rewrite nth_error_map; [rewrite Ek|rewrite Ej]; reflexivity.
Qed.

Lemma almost_remove_run n (pr : almost_params R) order (c1 c2 : curve R) same : 0 < n ->
  c_dtype c1 = DFloat \/ c_dtype c2 = DFloat ->
  dims n (c_rows c1) -> dims n (c_rows c2) -> (forall c, Permutation (order c) c) ->
  al_remove_extra pr = true -> al_correct_overlap pr = false ->
  exists ps K l,
    let seg ij := sg_shortest (seg_at (c_rows c1) (fst ij)) (seg_at (c_rows c2) (snd ij)) in
    let pts := map (fun ij => sg_point (seg ij) (/ 2)%R) ps in
    almost_curves pr order c1 c2 same = Ok l /\
    StronglySorted before ps /\
    (forall i j, In (i, j) ps <->
      S i < c_size c1 /\ S j < c_size c2 /\ (same = true -> i + 2 <= j) /\
      (sg_distance (seg_at (c_rows c1) i) (seg_at (c_rows c2) j) < al_dist_tol pr)%R) /\
    StronglySorted lt K /\
    Forall2 (fun k x => exists ij, nth_error ps k = Some ij /\
       in_seg1 x = SegOf true (Z.of_nat (fst ij)) (seg_at (c_rows c1) (fst ij)) /\
       in_seg2 x = SegOf false (Z.of_nat (snd ij)) (seg_at (c_rows c2) (snd ij)) /\
       in_info x = mkInfo (IDSegment (seg ij)) IAlmost) K l /\
    (forall i, i < length ps -> exists k, In k K /\ connected (al_extra_tol pr) pts i k /\
       (forall j ij ij', connected (al_extra_tol pr) pts i j -> nth_error ps k = Some ij -> nth_error ps j = Some ij' ->
          (sg_len (seg ij) <= sg_len (seg ij'))%R) /\
       (forall k', In k' K -> connected (al_extra_tol pr) pts i k' -> k' = k)).
Proof.
  intros Hn F D1 D2 HO ER EC. pose proof (almost_remove_run_dt n pr order c1 c2 same Hn D1 D2 HO ER EC) as H.
  rewrite (promote_float _ _ F) in H. cbv zeta in H |- *.
  destruct H as (ps & K & l & E & S & I & SK & FK & CK). exists ps, K, l.
  split; [exact E|]. split; [exact S|]. split; [intros i j; rewrite I, shortest_float; reflexivity|]. split; [exact SK|].
  rewrite (map_ext _ (fun ij => sg_point (sg_shortest (seg_at (c_rows c1) (fst ij)) (seg_at (c_rows c2) (snd ij))) (/ 2)%R)) in CK
    by (intros ij; rewrite shortest_float; reflexivity).
  split.
  - clear - FK. induction FK as [|k x K l (ij & A & B & C & D) _ IH]; constructor; [|exact IH].
    exists ij. rewrite shortest_float in D. auto.
  - intros i Hi. destruct (CK i Hi) as (k & A & B & C & D). exists k. split; [exact A|]. split; [exact B|]. split; [|exact D].
    intros j ij ij' Hc H1 H2. specialize (C j ij ij' Hc H1 H2). rewrite !shortest_float in C. exact C.
Qed.
