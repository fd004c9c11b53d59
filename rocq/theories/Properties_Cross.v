(** Property C103: intersections of curves through points of smooth curves. *)
From Coq Require Import ZArith String List Bool Arith Lia PrimFloat Reals Lra Psatz Sorting.Sorted Permutation.
From Verif Require Import Num Py Numeric Curve Vec Geom DiffGeom Intersect Registry Spec GeomSpec.
From Verif Require Import ListFacts CurveProofs CurveProofs2 CurveProofs3 VecFacts GeomProofs GeomProofs2 GeomProofs3 GeomProofs4 DiffGeomProofs2.
From Verif Require Import IntersectProofs IntersectProofs2 IntersectProofs3 IntersectProofs4 IntersectProofs5 InterpProofs.
From Verif Require Import SampleProofs SampleProofs2 SampleProofs3 CrossProofs Properties_DiffGeom Properties_Geom Properties_Intersect.
Import ListNotations.
Local Open Scope list_scope.
Local Open Scope R_scope.

(** The point of the curve with coordinate functions [f] at [x]. *)
Definition point_at (n : nat) (f : nat -> R -> R) (x : R) : list R := map (fun j => f j x) (seq 0 n).
(** The points of [c] are those of the curve [f] at the parameters [t]. *)
Definition taken (c : curve R) (t : list R) (f : nat -> R -> R) : Prop :=
  (2 <= c_size c)%nat /\ length t = c_size c /\ increasing t /\
  forall i j, (i < c_size c)%nat -> (j < c_ndim c)%nat -> nth j (nth i (c_rows c) []) 0 = f j (nth i t 0).
(** [v] is between the first and the last parameter. *)
Definition inside (t : list R) (v : R) : Prop := nth 0 t 0 <= v <= nth (length t - 1) t 0.
(** [f] has two derivatives, the second one is not longer than [W], and the gaps
    between the parameters are at most [tau]. *)
Definition smooth (n : nat) (t : list R) (f f1 f2 : nat -> R -> R) (W tau : R) : Prop :=
  (forall j v, (j < n)%nat -> inside t v -> derivable_pt_lim (f j) v (f1 j v) /\ derivable_pt_lim (f1 j) v (f2 j v)) /\
  (forall v, inside t v -> norm (point_at n f2 v) <= W) /\
  (forall i, (S i < length t)%nat -> nth (S i) t 0 - nth i t 0 <= tau).
(** No segment of [c] is longer than [d]. *)
Definition segments_le (c : curve R) (d : R) : Prop :=
  forall i, (S i < c_size c)%nat -> dist (nth i (c_rows c) []) (nth (S i) (c_rows c) []) <= d.

Lemma dist_tri (p q r : list R) : length p = length q -> length q = length r -> dist p r <= dist p q + dist q r.
Proof. intros L1 L2. rewrite !dist_vdist by congruence. apply vdist_triangle; congruence. Qed.
Lemma dist_swap (p q : list R) : length p = length q -> dist p q = dist q p.
Proof. intros L. rewrite !dist_vdist by congruence. apply vdist_sym. exact L. Qed.
Lemma point_at_length n f x : length (point_at n f x) = n.
Proof. unfold point_at. rewrite map_length, seq_length. reflexivity. Qed.
Lemma on_segment_length p q x : on_segment p q x -> length x = length p.
Proof. intros (t & _ & L & _). exact L. Qed.

(** One chord. *)
Lemma chord_point (c : curve R) t f f1 f2 W tau i l p : wf c -> taken c t f -> smooth (c_ndim c) t f f1 f2 W tau -> (S i < c_size c)%nat ->
  0 <= l <= 1 -> affine_at (nth i (c_rows c) []) (nth (S i) (c_rows c) []) l p ->
  let v := nth i t 0 + l * (nth (S i) t 0 - nth i t 0) in
  inside t v /\ nth i t 0 <= v <= nth (S i) t 0 /\ dist p (point_at (c_ndim c) f v) <= W * tau ^ 2 / 8.
Proof.
  intros Wf (S2 & Lt & It & Hr) (Dd & BW & Gap) Hi Hl (Lp & Ap) v. assert (D := wf_dims c Wf).
  set (x := nth i t 0) in *. set (y := nth (S i) t 0) in *. assert (Hxy : x < y) by (apply It; lia).
  assert (Hx : nth 0 t 0 <= x) by (apply increasing_le; [exact It|lia]).
  assert (Hy : y <= nth (length t - 1) t 0) by (apply increasing_le; [exact It|lia]).
  assert (Hv : x <= v <= y) by (unfold v; nra).
  assert (Iv : inside t v) by (unfold inside; lra). split; [exact Iv|]. split; [exact Hv|].
  assert (Lp' : length p = c_ndim c) by (rewrite Lp; apply D, nth_In; unfold c_size in *; lia).
  rewrite dist_swap by (rewrite point_at_length; exact Lp'). unfold dist. rewrite norm_vnorm, minus_vsub.
  eapply Rle_trans; [apply (vec_linear_error (c_ndim c) (nth 0 t 0) (nth (length t - 1) t 0) W f f1 f2 x y v)|].
  - intros j Hj u Hu. apply (Dd j u Hj Hu).
  - intros j Hj u Hu. apply (Dd j u Hj Hu).
  - intros u Hu. rewrite <- norm_vnorm. exact (BW u Hu).
  - exact Hx.
  - exact Hv.
  - exact Hy.
  - exact Hxy.
  - rewrite vsub_length; [exact Lp'|rewrite point_at_length; exact Lp'].
  - intros j Hj. rewrite nth_vsub by (rewrite point_at_length; exact Lp'). rewrite Ap, !Hr by lia. fold x y.
    replace ((v - x) / (y - x)) with l by (unfold v; field; lra). unfold point_at. rewrite (nth_indep _ 0 (f 0%nat v)) by (rewrite map_length, seq_length; exact Hj).
    rewrite (map_nth (fun j => f j v)), seq_nth by exact Hj. reflexivity.
  - assert (W0 : 0 <= W) by (pose proof (BW x ltac:(unfold inside; lra)) as B; rewrite norm_vnorm in B; pose proof (vnorm_nonneg (point_at (c_ndim c) f2 x)); lra).
    pose proof (Gap i ltac:(lia)) as G. fold x y in G. assert ((y - x) ^ 2 <= tau ^ 2) by (apply pow_incr; lra). nra.
Qed.

(** ** C103 Polygons and smooth curves *)

(** The polygon through points of a smooth curve and the curve are within
    W tau^2 / 8 of each other: every point of one has a point of the other that
    close, between the same two parameters. *)
Theorem C103_polygon : forall (c : curve R) t f f1 f2 W tau, wf c -> taken c t f -> smooth (c_ndim c) t f f1 f2 W tau ->
  (forall i p, (S i < c_size c)%nat -> on_segment (nth i (c_rows c) []) (nth (S i) (c_rows c) []) p ->
     exists v, nth i t 0 <= v <= nth (S i) t 0 /\ inside t v /\ dist p (point_at (c_ndim c) f v) <= W * tau ^ 2 / 8) /\
  (forall v, inside t v ->
     exists i p, (S i < c_size c)%nat /\ nth i t 0 <= v <= nth (S i) t 0 /\ on_segment (nth i (c_rows c) []) (nth (S i) (c_rows c) []) p /\
       dist p (point_at (c_ndim c) f v) <= W * tau ^ 2 / 8).
Proof.
  intros c t f f1 f2 W tau Wf Tk Sm. assert (D := wf_dims c Wf). split.
  - intros i p Hi (l & Hl & A). destruct (chord_point c t f f1 f2 W tau i l p Wf Tk Sm Hi Hl A) as (H1 & H2 & H3). eauto.
  - intros v Hv. pose proof Tk as (S2 & Lt & It & Hr).
    destruct (locate_nat (fun k => nth k t 0) (c_size c - 1) v ltac:(lia) ltac:(unfold inside in Hv; rewrite Lt in Hv; exact Hv)) as (i & Hi & Bi).
    assert (Hxy : nth i t 0 < nth (S i) t 0) by (apply It; lia).
    set (l := (v - nth i t 0) / (nth (S i) t 0 - nth i t 0)).
    assert (Ev : v = nth i t 0 + l * (nth (S i) t 0 - nth i t 0)) by (unfold l; field; lra).
    assert (Hl : 0 <= l <= 1) by (split; apply (Rmult_le_reg_r (nth (S i) t 0 - nth i t 0)); lra).
    set (s := mkSeg (nth i (c_rows c) []) (nth (S i) (c_rows c) [])).
    assert (Ws : seg_wf (c_ndim c) s) by (split; apply D, nth_In; unfold c_size in *; lia).
    exists i, (sg_point s l). split; [lia|]. split; [exact Bi|].
    assert (A : affine_at (nth i (c_rows c) []) (nth (S i) (c_rows c) []) l (sg_point s l)) by (apply (affine_sg_point (c_ndim c) s l); [exact Ws|reflexivity]).
    split; [exists l; auto|]. destruct (chord_point c t f f1 f2 W tau i l _ Wf Tk Sm ltac:(lia) Hl A) as (_ & _ & H3). rewrite <- Ev in H3. exact H3.
Qed.
Print Assumptions C103_polygon.

(** Every point the exact method reports is near both curves. *)
Theorem C103_exact : forall feps (c1 c2 : curve R) t1 f f1 f2 W1 tau1 t2 g g1 g2 W2 tau2 d1 d2 l x p,
  wf c1 -> wf c2 -> c_ndim c2 = c_ndim c1 -> taken c1 t1 f -> smooth (c_ndim c1) t1 f f1 f2 W1 tau1 ->
  taken c2 t2 g -> smooth (c_ndim c1) t2 g g1 g2 W2 tau2 -> segments_le c1 d1 -> segments_le c2 d2 ->
  exact_curves feps c1 c2 false = Ok l -> In x l -> in_info x = mkInfo (IDPoint p) IExact ->
  exists v1 v2, inside t1 v1 /\ inside t2 v2 /\
    dist p (point_at (c_ndim c1) f v1) <= W1 * tau1 ^ 2 / 8 + (/ 100000000 + / 100000) * d1 /\
    dist p (point_at (c_ndim c1) g v2) <= W2 * tau2 ^ 2 / 8 + (/ 100000000 + / 100000) * d2.
Proof.
  intros feps c1 c2 t1 f f1 f2 W1 tau1 t2 g g1 g2 W2 tau2 d1 d2 l x p Wf1 Wf2 En T1 S1 T2 S2 L1 L2 E Hx Ex. set (n := c_ndim c1) in *.
  assert (D1 := wf_dims c1 Wf1). assert (D2 := wf_dims c2 Wf2). rewrite En in D2. fold n in D1, D2.
  destruct (C45_curves n feps c1 c2 false D1 D2 ltac:(discriminate)) as (ps & l' & E' & _ & F & I). rewrite E in E'. injection E' as <-.
  destruct (In_nth_error _ _ Hx) as (k & Hk).
  assert (Q : exists i j, In (i, j) ps /\ exact_segments feps (mkSeg (nth i (c_rows c1) []) (nth (S i) (c_rows c1) [])) (mkSeg (nth j (c_rows c2) []) (nth (S j) (c_rows c2) [])) = Ok (in_info x)).
  { clear -F Hx. induction F as [|(i & j) y ps l (_ & _ & H) _ IH]; [destruct Hx|]. destruct Hx as [<-|Hx]; [exists i, j; split; [left; reflexivity|exact H]|].
    destruct (IH Hx) as (i' & j' & A & B). exists i', j'. split; [right; exact A|exact B]. }
  destruct Q as (i & j & Hij & Q). apply I in Hij. destruct Hij as (Hi & Hj & _). rewrite Ex in Q.
  assert (Ws1 : seg_wf n (mkSeg (nth i (c_rows c1) []) (nth (S i) (c_rows c1) []))) by (split; apply D1, nth_In; unfold c_size in *; lia).
  assert (Ws2 : seg_wf n (mkSeg (nth j (c_rows c2) []) (nth (S j) (c_rows c2) []))) by (split; apply D2, nth_In; unfold c_size in *; lia).
  destruct (C42_near_both_segments n feps _ _ p Ws1 Ws2 Q) as (q1 & q2 & O1 & O2 & N1 & N2). cbn [sg_p1 sg_p2] in O1, O2, N1, N2.
  assert (Lp : length p = n).
  { destruct (exact_point_params n feps _ _ p Ws1 Ws2 Q) as (u & w & _ & _ & (Lq & _) & _). rewrite Lq. exact (proj1 Ws1). }
  destruct (proj1 (C103_polygon c1 t1 f f1 f2 W1 tau1 Wf1 T1 S1) i q1 Hi O1) as (v1 & _ & I1 & V1). fold n in V1.
  assert (S2' : smooth (c_ndim c2) t2 g g1 g2 W2 tau2) by (rewrite En; exact S2).
  destruct (proj1 (C103_polygon c2 t2 g g1 g2 W2 tau2 Wf2 T2 S2') j q2 Hj O2) as (v2 & _ & I2 & V2). rewrite En in V2.
  assert (Lq1 : length q1 = n) by (rewrite (on_segment_length _ _ _ O1); exact (proj1 Ws1)).
  assert (Lq2 : length q2 = n) by (rewrite (on_segment_length _ _ _ O2); exact (proj1 Ws2)).
  exists v1, v2. split; [exact I1|]. split; [exact I2|].
  pose proof (dist_tri p q1 (point_at n f v1) ltac:(congruence) ltac:(rewrite point_at_length; exact Lq1)).
  pose proof (dist_tri p q2 (point_at n g v2) ltac:(congruence) ltac:(rewrite point_at_length; exact Lq2)).
  pose proof (L1 i Hi). pose proof (L2 j Hj). split; nra.
Qed.
Print Assumptions C103_exact.

(** So nothing is reported as EXACT if the curves are farther apart than that. *)
Theorem C103_exact_apart : forall feps (c1 c2 : curve R) t1 f f1 f2 W1 tau1 t2 g g1 g2 W2 tau2 d1 d2 l,
  wf c1 -> wf c2 -> c_ndim c2 = c_ndim c1 -> taken c1 t1 f -> smooth (c_ndim c1) t1 f f1 f2 W1 tau1 ->
  taken c2 t2 g -> smooth (c_ndim c1) t2 g g1 g2 W2 tau2 -> segments_le c1 d1 -> segments_le c2 d2 ->
  exact_curves feps c1 c2 false = Ok l ->
  (forall v1 v2, inside t1 v1 -> inside t2 v2 ->
     W1 * tau1 ^ 2 / 8 + W2 * tau2 ^ 2 / 8 + (/ 100000000 + / 100000) * (d1 + d2) < dist (point_at (c_ndim c1) f v1) (point_at (c_ndim c1) g v2)) ->
  forall x p, In x l -> in_info x <> mkInfo (IDPoint p) IExact.
Proof.
  intros feps c1 c2 t1 f f1 f2 W1 tau1 t2 g g1 g2 W2 tau2 d1 d2 l Wf1 Wf2 En T1 S1 T2 S2 L1 L2 E Far x p Hx Ex.
  assert (D1 := wf_dims c1 Wf1). assert (D2 := wf_dims c2 Wf2). rewrite En in D2.
  destruct (C103_exact feps c1 c2 t1 f f1 f2 W1 tau1 t2 g g1 g2 W2 tau2 d1 d2 l x p Wf1 Wf2 En T1 S1 T2 S2 L1 L2 E Hx Ex) as (v1 & v2 & I1 & I2 & A & B).
  assert (Lp : length p = c_ndim c1).
  { destruct (C45_curves (c_ndim c1) feps c1 c2 false D1 D2 ltac:(discriminate)) as (ps & l' & E' & _ & F & I). rewrite E in E'. injection E' as <-.
    assert (Q : exists i j, In (i, j) ps /\ exact_segments feps (mkSeg (nth i (c_rows c1) []) (nth (S i) (c_rows c1) [])) (mkSeg (nth j (c_rows c2) []) (nth (S j) (c_rows c2) [])) = Ok (in_info x)).
    { clear -F Hx. induction F as [|(i & j) y ps l (_ & _ & H) _ IH]; [destruct Hx|]. destruct Hx as [<-|Hx]; [exists i, j; split; [left; reflexivity|exact H]|].
      destruct (IH Hx) as (i' & j' & A & B). exists i', j'. split; [right; exact A|exact B]. }
    destruct Q as (i & j & Hij & Q). apply I in Hij. destruct Hij as (Hi & Hj & _). rewrite Ex in Q.
    destruct (exact_point_params (c_ndim c1) feps (mkSeg (nth i (c_rows c1) []) (nth (S i) (c_rows c1) [])) (mkSeg (nth j (c_rows c2) []) (nth (S j) (c_rows c2) [])) p) as (u & w & _ & _ & (Lq & _) & _);
      [split; apply D1, nth_In; unfold c_size in *; lia|split; apply D2, nth_In; unfold c_size in *; lia|exact Q|].
    rewrite Lq. apply D1, nth_In. unfold c_size in *. lia. }
  specialize (Far v1 v2 I1 I2).
  pose proof (dist_tri (point_at (c_ndim c1) f v1) p (point_at (c_ndim c1) g v2) ltac:(rewrite point_at_length; congruence) ltac:(rewrite point_at_length; congruence)) as Tr.
  rewrite (dist_swap (point_at (c_ndim c1) f v1) p) in Tr by (rewrite point_at_length; congruence). lra.
Qed.
Print Assumptions C103_exact_apart.

(** The almost method: whatever it reports comes from curves that close, and
    curves close enough give a report. *)
Theorem C103_almost : forall (pr : almost_params R) order (c1 c2 : curve R) t1 f f1 f2 W1 tau1 t2 g g1 g2 W2 tau2 d1 d2,
  wf c1 -> wf c2 -> c_ndim c2 = c_ndim c1 -> c_dtype c1 = DFloat \/ c_dtype c2 = DFloat ->
  taken c1 t1 f -> smooth (c_ndim c1) t1 f f1 f2 W1 tau1 ->
  taken c2 t2 g -> smooth (c_ndim c1) t2 g g1 g2 W2 tau2 -> segments_le c1 d1 -> segments_le c2 d2 ->
  al_correct_overlap pr = false -> (forall s, Permutation (order s) s) ->
  exists l, almost_curves pr order c1 c2 false = Ok l /\
    (forall x, In x l -> exists q v1 v2, in_info x = mkInfo (IDSegment q) IAlmost /\ inside t1 v1 /\ inside t2 v2 /\
       dist (sg_p1 q) (point_at (c_ndim c1) f v1) <= W1 * tau1 ^ 2 / 8 /\ dist (sg_p2 q) (point_at (c_ndim c1) g v2) <= W2 * tau2 ^ 2 / 8 /\
       dist (point_at (c_ndim c1) f v1) (point_at (c_ndim c1) g v2) < al_dist_tol pr + W1 * tau1 ^ 2 / 8 + W2 * tau2 ^ 2 / 8) /\
    (forall v1 v2, inside t1 v1 -> inside t2 v2 ->
       dist (point_at (c_ndim c1) f v1) (point_at (c_ndim c1) g v2) + W1 * tau1 ^ 2 / 8 + W2 * tau2 ^ 2 / 8 + d1 + d2 < al_dist_tol pr -> l <> []).
Proof.
  intros pr order c1 c2 t1 f f1 f2 W1 tau1 t2 g g1 g2 W2 tau2 d1 d2 Wf1 Wf2 En Dt T1 S1 T2 S2 L1 L2 Co Po. set (n := c_ndim c1) in *.
  assert (D1 := wf_dims c1 Wf1). assert (D2 := wf_dims c2 Wf2). rewrite En in D2. fold n in D1, D2.
  assert (Hn : (0 < n)%nat) by (destruct Wf1; unfold n; lia).
  set (sg (c : curve R) i := mkSeg (nth i (c_rows c) []) (nth (S i) (c_rows c) [])).
  assert (Ws1 : forall i, (S i < c_size c1)%nat -> seg_wf n (sg c1 i)) by (intros i Hi; split; apply D1, nth_In; unfold c_size in *; lia).
  assert (Ws2 : forall i, (S i < c_size c2)%nat -> seg_wf n (sg c2 i)) by (intros i Hi; split; apply D2, nth_In; unfold c_size in *; lia).
  assert (S2' : smooth (c_ndim c2) t2 g g1 g2 W2 tau2) by (rewrite En; exact S2).
  assert (G : exists l, almost_curves pr order c1 c2 false = Ok l /\
     (forall x, In x l -> exists i j, (S i < c_size c1)%nat /\ (S j < c_size c2)%nat /\ sg_distance (sg c1 i) (sg c2 j) < al_dist_tol pr /\
        in_info x = mkInfo (IDSegment (sg_shortest (sg c1 i) (sg c2 j))) IAlmost) /\
     (forall i j, (S i < c_size c1)%nat -> (S j < c_size c2)%nat -> sg_distance (sg c1 i) (sg c2 j) < al_dist_tol pr -> l <> [])).
  { destruct (al_remove_extra pr) eqn:Re.
    - destruct (C48_run n pr order c1 c2 false Hn Dt D1 D2 Po Re Co) as (ps & K & l & E & _ & I & _ & F & Cl). cbv zeta in *. exists l. split; [exact E|]. split.
      + clear -F I Hn. intros x Hx. induction F as [|k y K l (ij & Nk & _ & _ & H) _ IH]; [destruct Hx|]. destruct Hx as [<-|Hx]; [|exact (IH Hx)].
        destruct ij as [i j]. apply nth_error_In in Nk. apply I in Nk. destruct Nk as (A & B & _ & C). exists i, j. auto.
      + intros i j Hi Hj L Z. assert (P : In (i, j) ps) by (apply I; repeat split; auto; discriminate).
        apply In_nth_error in P. destruct P as (k & Hk). destruct (Cl k) as (k' & Hk' & _); [apply nth_error_Some; congruence|].
        subst l. inversion F. subst K. destruct Hk'.
    - destruct (C47_curves n pr order c1 c2 false Hn Dt D1 D2 Re Co) as (ps & l & E & _ & F & I). exists l. split; [exact E|]. split.
      + assert (I' : forall i j, In (i, j) ps -> (S i < c_size c1)%nat /\ (S j < c_size c2)%nat /\ sg_distance (sg c1 i) (sg c2 j) < al_dist_tol pr)
          by (intros i j H; apply I in H; destruct H as (A & B & _ & C); auto).
        clear -F I'. intros x Hx. induction F as [|(i & j) y ps l (_ & _ & _ & H) _ IH]; [destruct Hx|]. destruct Hx as [<-|Hx].
        * destruct (I' i j (or_introl eq_refl)) as (A & B & C). exists i, j. auto.
        * apply IH; [|exact Hx]. intros a b H'. apply I'. right. exact H'.
      + intros i j Hi Hj L Z. assert (P : In (i, j) ps) by (apply I; repeat split; auto; discriminate). subst l. inversion F. subst ps. destruct P. }
  destruct G as (l & E & Gs & Gc). exists l. split; [exact E|]. split.
  - intros x Hx. destruct (Gs x Hx) as (i & j & Hi & Hj & Ld & Ex). set (q := sg_shortest (sg c1 i) (sg c2 j)) in *.
    destruct (C39_on_segments n (sg c1 i) (sg c2 j) (Ws1 i Hi) (Ws2 j Hj)) as (O1 & O2). fold q in O1, O2. cbn [sg_p1 sg_p2 sg] in O1, O2.
    destruct (proj1 (C103_polygon c1 t1 f f1 f2 W1 tau1 Wf1 T1 S1) i _ Hi O1) as (v1 & _ & I1 & V1). fold n in V1.
    destruct (proj1 (C103_polygon c2 t2 g g1 g2 W2 tau2 Wf2 T2 S2') j _ Hj O2) as (v2 & _ & I2 & V2). rewrite En in V2.
    assert (Lq1 : length (sg_p1 q) = n) by (rewrite (on_segment_length _ _ _ O1); exact (proj1 (Ws1 i Hi))).
    assert (Lq2 : length (sg_p2 q) = n) by (rewrite (on_segment_length _ _ _ O2); exact (proj1 (Ws2 j Hj))).
    exists q, v1, v2. split; [exact Ex|]. split; [exact I1|]. split; [exact I2|]. split; [exact V1|]. split; [exact V2|].
    pose proof (dist_tri (point_at n f v1) (sg_p1 q) (point_at n g v2) ltac:(rewrite point_at_length; congruence) ltac:(rewrite point_at_length; congruence)) as Tr1.
    pose proof (dist_tri (sg_p1 q) (sg_p2 q) (point_at n g v2) ltac:(congruence) ltac:(rewrite point_at_length; congruence)) as Tr2.
    rewrite (dist_swap (point_at n f v1) (sg_p1 q)) in Tr1 by (rewrite point_at_length; congruence).
    unfold sg_distance in Ld. fold q in Ld. unfold sg_len in Ld. rewrite <- dist_vdist in Ld by congruence. lra.
  - intros v1 v2 I1 I2 Cl.
    destruct (proj2 (C103_polygon c1 t1 f f1 f2 W1 tau1 Wf1 T1 S1) v1 I1) as (i & p & Hi & _ & O1 & V1). fold n in V1.
    destruct (proj2 (C103_polygon c2 t2 g g1 g2 W2 tau2 Wf2 T2 S2') v2 I2) as (j & p' & Hj & _ & O2 & V2). rewrite En in V2.
    apply (Gc i j Hi Hj). set (q := sg_shortest (sg c1 i) (sg c2 j)).
    destruct (C39_on_segments n (sg c1 i) (sg c2 j) (Ws1 i Hi) (Ws2 j Hj)) as (Q1 & Q2). fold q in Q1, Q2. cbn [sg_p1 sg_p2 sg] in Q1, Q2.
    assert (Seg : forall a b x y, length a = length b -> on_segment a b x -> on_segment a b y -> dist x y <= dist a b).
    { intros a b x y Lab Ox Oy. pose proof (on_segment_length _ _ _ Ox) as Lx. pose proof (on_segment_length _ _ _ Oy) as Ly.
      destruct Ox as (u & Hu & _ & Ax). destruct Oy as (w & Hw & _ & Ay). rewrite !dist_vdist by congruence. unfold vdist.
      replace (vsub x y) with (vscale (vsub b a) (u - w)).
      - rewrite vnorm_scale. rewrite <- (vnorm_opp (vsub a b)). replace (vopp (vsub a b)) with (vsub b a).
        + pose proof (vnorm_nonneg (vsub b a)). assert (Rabs (u - w) <= 1) by (apply Rabs_le; lra). pose proof (Rabs_pos (u - w)). nra.
        + apply vec_ext; [unfold vopp; rewrite map_length, !vsub_length; congruence|]. intros k. rewrite nth_vopp, !nth_vsub by congruence. ring.
      - apply vec_ext; [rewrite vscale_length, !vsub_length; congruence|]. intros k. rewrite nth_vscale, !nth_vsub, Ax, Ay by congruence. ring. }
    assert (La1 : length (nth i (c_rows c1) []) = n) by exact (proj1 (Ws1 i Hi)). assert (Lb1 : length (nth (S i) (c_rows c1) []) = n) by exact (proj2 (Ws1 i Hi)).
    assert (La2 : length (nth j (c_rows c2) []) = n) by exact (proj1 (Ws2 j Hj)). assert (Lb2 : length (nth (S j) (c_rows c2) []) = n) by exact (proj2 (Ws2 j Hj)).
    pose proof (Seg _ _ _ _ (eq_trans La1 (eq_sym Lb1)) Q1 O1) as H1. pose proof (Seg _ _ _ _ (eq_trans La2 (eq_sym Lb2)) O2 Q2) as H2.
    assert (Lp : length p = n) by (rewrite (on_segment_length _ _ _ O1); exact La1). assert (Lp' : length p' = n) by (rewrite (on_segment_length _ _ _ O2); exact La2).
    assert (Lq1 : length (sg_p1 q) = n) by (rewrite (on_segment_length _ _ _ Q1); exact La1). assert (Lq2 : length (sg_p2 q) = n) by (rewrite (on_segment_length _ _ _ Q2); exact La2).
    pose proof (dist_tri (sg_p1 q) p (sg_p2 q) ltac:(congruence) ltac:(congruence)) as R1.
    pose proof (dist_tri p (point_at n f v1) (sg_p2 q) ltac:(rewrite point_at_length; congruence) ltac:(rewrite point_at_length; congruence)) as R2.
    pose proof (dist_tri (point_at n f v1) (point_at n g v2) (sg_p2 q) ltac:(rewrite !point_at_length; congruence) ltac:(rewrite point_at_length; congruence)) as R3.
    pose proof (dist_tri (point_at n g v2) p' (sg_p2 q) ltac:(rewrite point_at_length; congruence) ltac:(congruence)) as R4.
    rewrite (dist_swap (point_at n g v2) p') in R4 by (rewrite point_at_length; congruence).
    unfold sg_distance. fold q. unfold sg_len. rewrite <- dist_vdist by congruence. pose proof (L1 i Hi). pose proof (L2 j Hj). lra.
Qed.
Print Assumptions C103_almost.

(** *** Two graphs that cross *)

(** [c] is the polygon through the points (x, f x) for the abscissae [xs]. *)
Definition graph_of (c : curve R) (xs : list R) (f : R -> R) : Prop :=
  wf c /\ c_ndim c = 2%nat /\ (2 <= c_size c)%nat /\ length xs = c_size c /\
  forall i, (i < c_size c)%nat -> nth i (c_rows c) [] = [nth i xs 0; f (nth i xs 0)].

Section Graphs.
  Variables (lo hi s m : R) (f f1 g g1 : R -> R).
  Hypothesis Df : forall x, lo <= x <= hi -> derivable_pt_lim f x (f1 x) /\ f1 x <= s.
  Hypothesis Dg : forall x, lo <= x <= hi -> derivable_pt_lim g x (g1 x) /\ s + m <= g1 x.

  Lemma rise_le a b : lo <= a -> a <= b -> b <= hi -> f b - f a <= s * (b - a).
  Proof.
    intros Ha [Hab|<-] Hb; [|lra]. destruct (MVT_cor2 f f1 a b Hab ltac:(intros c Hc; apply Df; lra)) as (c & E & Hc). rewrite E.
    apply Rmult_le_compat_r; [lra|]. apply Df. lra.
  Qed.
  Lemma rise_ge a b : lo <= a -> a <= b -> b <= hi -> (s + m) * (b - a) <= g b - g a.
  Proof.
    intros Ha [Hab|<-] Hb; [|lra]. destruct (MVT_cor2 g g1 a b Hab ltac:(intros c Hc; apply Dg; lra)) as (c & E & Hc). rewrite E.
    apply Rmult_le_compat_r; [lra|]. apply Dg. lra.
  Qed.
  Lemma crossing_close u v z e E : 0 < m -> lo <= u <= hi -> lo <= v <= hi -> lo <= z <= hi -> f z = g z ->
    Rabs (u - v) <= 2 * e -> Rabs (f u - g v) <= 2 * e + E -> 0 <= E -> Rabs (v - z) <= 2 * e + (E + 2 * e * (1 + Rabs s)) / m.
  Proof.
    intros Pm Hu Hv Hz Ez D1 D2 PE. assert (P2 : 0 <= 2 * e) by (pose proof (Rabs_pos (u - v)); lra).
    assert (Ps := Rabs_pos s). assert (P3 : 0 <= 2 * e * (1 + Rabs s)) by (apply Rmult_le_pos; lra).
    assert (Q : 0 <= (E + 2 * e * (1 + Rabs s)) / m) by (apply Rmult_le_pos; [lra|left; apply Rinv_0_lt_compat, Pm]).
    assert (Sd : Rabs (s * (v - u)) <= Rabs s * (2 * e)) by (rewrite Rabs_mult, (Rabs_minus_sym v u); apply Rmult_le_compat_l; lra).
    apply Rabs_lt_le_inv in D1. apply Rabs_lt_le_inv in D2. apply Rabs_lt_le_inv in Sd.
    assert (K : forall d, m * d <= E + 2 * e * (1 + Rabs s) -> d <= (E + 2 * e * (1 + Rabs s)) / m).
    { intros d Hd. apply (Rmult_le_reg_l m); [exact Pm|]. unfold Rdiv. replace (m * ((E + 2 * e * (1 + Rabs s)) * / m)) with (E + 2 * e * (1 + Rabs s)) by (field; lra). exact Hd. }
    destruct (Rle_lt_dec z v) as [V|V]; destruct (Rle_lt_dec z u) as [U|U].
    - rewrite Rabs_right by lra. pose proof (rise_le z u ltac:(lra) U ltac:(lra)). pose proof (rise_ge z v ltac:(lra) V ltac:(lra)).
      specialize (K (v - z) ltac:(lra)). lra.
    - rewrite Rabs_right by lra. lra.
    - rewrite Rabs_left1 by lra. lra.
    - rewrite Rabs_left1 by lra. pose proof (rise_le u z ltac:(lra) ltac:(lra) ltac:(lra)). pose proof (rise_ge v z ltac:(lra) ltac:(lra) ltac:(lra)).
      specialize (K (z - v) ltac:(lra)). lra.
  Qed.
End Graphs.

Lemma near2 a b c d : near [a; b] [c; d] -> Rabs (a - c) <= / 100000000 + / 100000 * Rabs c /\ Rabs (b - d) <= / 100000000 + / 100000 * Rabs d.
Proof. intros H. inversion H as [|? ? ? ? H1 H2]. subst. inversion H2. subst. auto. Qed.

(** The graph of f has slopes at most s and the graph of g has slopes at least
    s + m; f starts above g and ends below.  The abscissae are at least h and at
    most tau apart, and h is not too small for numpy's tolerances.  Then the exact method reports
    the crossing, every report is EXACT, and it is where the curves cross up to
    (M + M') tau^2 / (8 m) and the tolerance (1e-5 of a segment). *)
Theorem C103_graphs : forall feps (c1 c2 : curve R) xs ys f f1 g g1 lo hi s m h B,
  graph_of c1 xs f -> graph_of c2 ys g ->
  nth 0 xs 0 = lo -> nth (c_size c1 - 1) xs 0 = hi -> nth 0 ys 0 = lo -> nth (c_size c2 - 1) ys 0 = hi -> 0 < h ->
  (forall i, (S i < c_size c1)%nat -> h <= nth (S i) xs 0 - nth i xs 0) ->
  (forall i, (S i < c_size c2)%nat -> h <= nth (S i) ys 0 - nth i ys 0) ->
  (forall x, lo <= x <= hi -> derivable_pt_lim f x (f1 x) /\ f1 x <= s) ->
  (forall x, lo <= x <= hi -> derivable_pt_lim g x (g1 x) /\ s + m <= g1 x) ->
  (forall x, lo <= x <= hi -> Rabs x <= B /\ Rabs (f x) <= B /\ Rabs (g x) <= B) ->
  let kappa := / 100000000 + / 100000 * B in
  kappa < h -> 2 * kappa * (1 + Rabs s) < m * h -> / 67108864 <= m * h ^ 2 ->
  exists l, exact_curves feps c1 c2 false = Ok l /\
    (forall x, In x l -> exists p, in_info x = mkInfo (IDPoint p) IExact) /\
    (g lo <= f lo -> f hi <= g hi -> exists x z w, In x l /\ lo <= z <= hi /\ in_info x = mkInfo (IDPoint [z; w]) IExact) /\
    (forall M M' tau d f2 g2, (forall i, (S i < c_size c1)%nat -> nth (S i) xs 0 - nth i xs 0 <= tau) ->
       (forall i, (S i < c_size c2)%nat -> nth (S i) ys 0 - nth i ys 0 <= tau) -> segments_le c1 d -> segments_le c2 d ->
       (forall x, lo <= x <= hi -> derivable_pt_lim f1 x (f2 x) /\ Rabs (f2 x) <= M) ->
       (forall x, lo <= x <= hi -> derivable_pt_lim g1 x (g2 x) /\ Rabs (g2 x) <= M') ->
       forall x p z, In x l -> in_info x = mkInfo (IDPoint p) IExact -> lo <= z <= hi -> f z = g z ->
         let e := (/ 100000000 + / 100000) * d in
         Rabs (nth 0 p 0 - z) <= 3 * e + ((M + M') * tau ^ 2 / 8 + 2 * e * (1 + Rabs s)) / m).
Proof.
  intros feps c1 c2 xs ys f f1 g g1 lo hi s m h B (Wf1 & N1 & Z1 & Lx & Rx) (Wf2 & N2 & Z2 & Ly & Ry) X0 X9 Y0 Y9 Ph Hx Hy Df Dg Bx kappa Kh Km Ka.
  assert (D1 := wf_dims c1 Wf1). assert (D2 := wf_dims c2 Wf2). rewrite N1 in D1. rewrite N2 in D2.
  assert (Ix : increasing xs) by (intros i Hi; rewrite Lx in Hi; pose proof (Hx i Hi); lra).
  assert (Iy : increasing ys) by (intros i Hi; rewrite Ly in Hi; pose proof (Hy i Hi); lra).
  assert (Inx : forall i, (i < c_size c1)%nat -> lo <= nth i xs 0 <= hi).
  { intros i Hi. rewrite <- X0, <- X9. split; apply increasing_le; try exact Ix; lia. }
  assert (Iny : forall i, (i < c_size c2)%nat -> lo <= nth i ys 0 <= hi).
  { intros i Hi. rewrite <- Y0, <- Y9. split; apply increasing_le; try exact Iy; lia. }
  assert (B0 : 0 <= B) by (destruct (Bx _ (Inx 0%nat ltac:(lia))) as [H _]; pose proof (Rabs_pos (nth 0 xs 0)); lra).
  assert (K0 : 0 < kappa) by (unfold kappa; lra). assert (Ps := Rabs_pos s).
  assert (Pm : 0 < m).
  { apply (Rmult_lt_reg_r h); [exact Ph|]. rewrite Rmult_0_l. apply Rle_lt_trans with (2 * kappa * (1 + Rabs s)); [|exact Km]. apply Rmult_le_pos; lra. }
  set (s1 i := mkSeg (nth i (c_rows c1) []) (nth (S i) (c_rows c1) [])). set (s2 j := mkSeg (nth j (c_rows c2) []) (nth (S j) (c_rows c2) [])).
  assert (Ws1 : forall i, (S i < c_size c1)%nat -> seg_wf 2 (s1 i)) by (intros i Hi; split; apply D1, nth_In; unfold c_size in *; lia).
  assert (Ws2 : forall i, (S i < c_size c2)%nat -> seg_wf 2 (s2 i)) by (intros i Hi; split; apply D2, nth_In; unfold c_size in *; lia).
  assert (Rf : forall i, (S i < c_size c1)%nat -> f (nth (S i) xs 0) - f (nth i xs 0) <= s * (nth (S i) xs 0 - nth i xs 0)).
  { intros i Hi. apply (rise_le lo hi s f f1 Df); [apply Inx; lia|pose proof (Hx i Hi); lra|apply Inx; lia]. }
  assert (Rg : forall j, (S j < c_size c2)%nat -> (s + m) * (nth (S j) ys 0 - nth j ys 0) <= g (nth (S j) ys 0) - g (nth j ys 0)).
  { intros i Hi. apply (rise_ge lo hi s m g g1 Dg); [apply Iny; lia|pose proof (Hy i Hi); lra|apply Iny; lia]. }
  assert (Ar : forall i j, (S i < c_size c1)%nat -> (S j < c_size c2)%nat ->
     / 4503599627370496 <= area_sq (minus (sg_p2 (s1 i)) (sg_p1 (s1 i))) (minus (sg_p2 (s2 j)) (sg_p1 (s2 j)))).
  { intros i j Hi Hj. unfold s1, s2. cbn [sg_p1 sg_p2]. rewrite !Rx, !Ry by lia. cbn [minus area_sq minors_with].
    pose proof (Hx i Hi) as A1. pose proof (Hy j Hj) as A2. pose proof (Rf i Hi) as A3. pose proof (Rg j Hj) as A4.
    set (a := nth (S i) xs 0 - nth i xs 0) in *. set (b := nth (S j) ys 0 - nth j ys 0) in *.
    set (df := f (nth (S i) xs 0) - f (nth i xs 0)) in *. set (dg := g (nth (S j) ys 0) - g (nth j ys 0)) in *.
    assert (Cr : / 67108864 <= a * dg - df * b).
    { assert (a * ((s + m) * b) <= a * dg) by (apply Rmult_le_compat_l; lra). assert (df * b <= s * a * b) by (apply Rmult_le_compat_r; lra).
      assert (h ^ 2 <= a * b) by (cbn [pow]; rewrite Rmult_1_r; apply Rmult_le_compat; lra).
      assert (m * h ^ 2 <= m * (a * b)) by (apply Rmult_le_compat_l; lra). lra. }
    assert (/ 67108864 * / 67108864 <= (a * dg - df * b) * (a * dg - df * b)) by (apply Rmult_le_compat; lra). lra. }
  assert (Nr1 : forall i, (S i < c_size c1)%nat -> ~ near (sg_p1 (s1 i)) (sg_p2 (s1 i))).
  { intros i Hi K. unfold s1 in K. cbn [sg_p1 sg_p2] in K. rewrite !Rx in K by lia. apply near2 in K. destruct K as [K _]. pose proof (Hx i Hi).
    rewrite Rabs_left in K by lra. destruct (Bx _ (Inx (S i) Hi)) as [Q _]. unfold kappa in Kh. lra. }
  assert (Nr2 : forall i, (S i < c_size c2)%nat -> ~ near (sg_p1 (s2 i)) (sg_p2 (s2 i))).
  { intros i Hi K. unfold s2 in K. cbn [sg_p1 sg_p2] in K. rewrite !Ry in K by lia. apply near2 in K. destruct K as [K _]. pose proof (Hy i Hi).
    rewrite Rabs_left in K by lra. destruct (Bx _ (Iny (S i) Hi)) as [Q _]. unfold kappa in Kh. lra. }
  assert (Kap : forall a c, Rabs c <= B -> Rabs (a - c) <= / 100000000 + / 100000 * Rabs c -> - kappa <= a - c <= kappa).
  { intros a c Hc H. apply Rabs_lt_le_inv in H. unfold kappa. lra. }
  assert (Nc : forall i j, (S i < c_size c1)%nat -> (S j < c_size c2)%nat -> sg_collinear (s1 i) (s2 j) = false).
  { intros i j Hi Hj. apply (not_collinear 2); [apply Ws1, Hi|apply Ws2, Hj|pose proof (Ar i j Hi Hj); lra| |]; intros (K & K'); unfold s1, s2 in K, K';
      cbn [sg_p1 sg_p2] in K, K'; rewrite Rx, Ry in K, K' by lia; apply near2 in K, K'; destruct K as [Ka1 Ka2], K' as [Kb1 Kb2].
    - apply Kap in Ka1; [|apply Bx, Inx; lia]. apply Kap in Ka2; [|apply Bx, Inx; lia]. apply Kap in Kb1; [|apply Bx, Inx; lia]. apply Kap in Kb2; [|apply Bx, Inx; lia].
      pose proof (Hx i Hi) as A1. pose proof (Hy j Hj) as A2. pose proof (Rf i Hi) as A3. pose proof (Rg j Hj) as A4.
      set (a := nth (S i) xs 0 - nth i xs 0) in *. set (b := nth (S j) ys 0 - nth j ys 0) in *.
      assert (Sd : Rabs (s * (b - a)) <= Rabs s * (2 * kappa)) by (rewrite Rabs_mult; apply Rmult_le_compat_l; [lra|]; apply Rabs_le; unfold a, b; lra).
      apply Rabs_lt_le_inv in Sd. assert (m * h <= m * b) by (apply Rmult_le_compat_l; lra). lra.
    - apply Kap in Ka1; [|apply Bx, Inx; lia]. apply Kap in Kb1; [|apply Bx, Inx; lia]. pose proof (Hx i Hi). pose proof (Hy j Hj). lra. }
  destruct (C45_curves 2 feps c1 c2 false D1 D2 ltac:(discriminate)) as (ps & l & E & _ & F & I). exists l. split; [exact E|].
  assert (Q : forall x, In x l -> exists i j, (S i < c_size c1)%nat /\ (S j < c_size c2)%nat /\ i_type (in_info x) <> INone /\ exact_segments feps (s1 i) (s2 j) = Ok (in_info x)).
  { assert (I' : forall i j, In (i, j) ps -> (S i < c_size c1)%nat /\ (S j < c_size c2)%nat /\ exists y, exact_segments feps (s1 i) (s2 j) = Ok y /\ i_type y <> INone).
    { intros i j H. apply I in H. destruct H as (A & A' & _ & _ & A''). auto. }
    clear -F I'. intros x Hx. induction F as [|(i & j) y ps l (_ & _ & H) _ IH]; [destruct Hx|]. destruct Hx as [<-|Hx].
    - destruct (I' i j (or_introl eq_refl)) as (A & A' & y' & A'' & T). exists i, j. fold (s1 i) (s2 j) in H. rewrite H in A''. injection A'' as <-. auto.
    - apply IH; [|exact Hx]. intros a b H'. apply I'. right. exact H'. }
  split; [|split].
  - intros x Hin. destruct (Q x Hin) as (i & j & Hi & Hj & T & Ex).
    destruct (exact_segments_main 2 feps (s1 i) (s2 j) (Ws1 i Hi) (Ws2 j Hj) (Nc i j Hi Hj)) as [(E0 & _)|(_ & _ & _ & u & w & _ & E0)].
    + rewrite E0 in Ex. injection Ex as Ex. rewrite <- Ex in T. exfalso. apply T. reflexivity.
    + rewrite E0 in Ex. destruct (in_unit u && in_unit w)%bool; injection Ex as Ex; [eauto|]. rewrite <- Ex in T. exfalso. apply T. reflexivity.
  - intros A0 A1.
    destruct (polygons_meet (fun k => nth k xs 0) (fun k => f (nth k xs 0)) (fun k => nth k ys 0) (fun k => g (nth k ys 0)) (c_size c1 - 1) (c_size c2 - 1)) as (i & j & v & Hi & Hj & Vi & Vj & Ev);
      [lia|lia|intros k Hk; apply Ix; lia|intros k Hk; apply Iy; lia|rewrite X0, Y0; reflexivity|rewrite X9, Y9; reflexivity|rewrite X0, Y0; exact A0|rewrite X9, Y9; exact A1|].
    assert (Hi' : (S i < c_size c1)%nat) by lia. assert (Hj' : (S j < c_size c2)%nat) by lia. pose proof (Hx i Hi') as P1. pose proof (Hy j Hj') as P2.
    set (w := f (nth i xs 0) + (f (nth (S i) xs 0) - f (nth i xs 0)) / (nth (S i) xs 0 - nth i xs 0) * (v - nth i xs 0)) in *.
    assert (O1 : on_segment (sg_p1 (s1 i)) (sg_p2 (s1 i)) [v; w]).
    { unfold s1. cbn [sg_p1 sg_p2]. rewrite !Rx by lia. exists ((v - nth i xs 0) / (nth (S i) xs 0 - nth i xs 0)).
      split; [split; apply (Rmult_le_reg_r (nth (S i) xs 0 - nth i xs 0)); try lra; unfold Rdiv; rewrite Rmult_assoc, Rinv_l by lra; lra|].
      split; [reflexivity|]. intros [|[|[|k]]]; cbn [nth]; [field; lra|unfold w; field; lra|ring|ring]. }
    assert (O2 : on_segment (sg_p1 (s2 j)) (sg_p2 (s2 j)) [v; w]).
    { unfold s2. cbn [sg_p1 sg_p2]. rewrite !Ry by lia. exists ((v - nth j ys 0) / (nth (S j) ys 0 - nth j ys 0)).
      split; [split; apply (Rmult_le_reg_r (nth (S j) ys 0 - nth j ys 0)); try lra; unfold Rdiv; rewrite Rmult_assoc, Rinv_l by lra; lra|].
      split; [reflexivity|]. intros [|[|[|k]]]; cbn [nth]; [field; lra|rewrite Ev; field; lra|ring|ring]. }
    destruct (C45_complete 2 feps c1 c2 false i j [v; w] l D1 D2 ltac:(discriminate) Hi' Hj' ltac:(discriminate) (Ar i j Hi' Hj') (Nr1 i Hi') (Nr2 j Hj') O1 O2 E) as (x & Hin & Sa & Sb & Cs).
    exists x, v, w. split; [exact Hin|]. split; [pose proof (Inx i ltac:(lia)); pose proof (Inx (S i) Hi'); lra|].
    destruct Cs as [Cs|(q & Cs & _)]; [exact Cs|]. exfalso. destruct (Q x Hin) as (i' & j' & Hi2 & Hj2 & T & Ex).
    destruct (exact_segments_main 2 feps (s1 i') (s2 j') (Ws1 i' Hi2) (Ws2 j' Hj2) (Nc i' j' Hi2 Hj2)) as [(E0 & _)|(_ & _ & _ & u & w' & _ & E0)].
    + rewrite E0, Cs in Ex. discriminate.
    + rewrite E0, Cs in Ex. destruct (in_unit u && in_unit w')%bool; discriminate.
  - intros M M' tau d f2 g2 Tx Ty Sg1 Sg2 Df2 Dg2 x p z Hin Ex Hz Ez e. destruct (Q x Hin) as (i & j & Hi & Hj & _ & Es). rewrite Ex in Es.
    destruct (C42_near_both_segments 2 feps (s1 i) (s2 j) p (Ws1 i Hi) (Ws2 j Hj) Es) as (q1 & q2 & O1 & O2 & d1 & d2).
    assert (Lp : length p = 2%nat).
    { destruct (exact_point_params 2 feps _ _ p (Ws1 i Hi) (Ws2 j Hj) Es) as (u & w & _ & _ & (Lq & _) & _). rewrite Lq. exact (proj1 (Ws1 i Hi)). }
    pose proof (on_segment_length _ _ _ O1) as Lq1. rewrite (proj1 (Ws1 i Hi)) in Lq1. pose proof (on_segment_length _ _ _ O2) as Lq2. rewrite (proj1 (Ws2 j Hj)) in Lq2.
    assert (Sl1 : dist (sg_p1 (s1 i)) (sg_p2 (s1 i)) <= d) by exact (Sg1 i Hi). assert (Sl2 : dist (sg_p1 (s2 j)) (sg_p2 (s2 j)) <= d) by exact (Sg2 j Hj).
    assert (Co : forall (q : list R) k, length q = 2%nat -> dist p q <= e -> - e <= nth k p 0 - nth k q 0 <= e).
    { intros q k Lq Hq. rewrite dist_vdist in Hq by congruence. unfold vdist in Hq. pose proof (coord_norm (vsub p q) k) as C. rewrite nth_vsub in C by congruence.
      apply Rabs_lt_le_inv. lra. }
    assert (E1 : dist p q1 <= e) by (unfold e; eapply Rle_trans; [exact d1|]; apply Rmult_le_compat_l; lra).
    assert (E2 : dist p q2 <= e) by (unfold e; eapply Rle_trans; [exact d2|]; apply Rmult_le_compat_l; lra).
    pose proof (Co q1 0%nat Lq1 E1) as C10. pose proof (Co q1 1%nat Lq1 E1) as C11. pose proof (Co q2 0%nat Lq2 E2) as C20. pose proof (Co q2 1%nat Lq2 E2) as C21.
    assert (Lin1 : exists u, nth 0 q1 0 = u /\ lo <= u <= hi /\ Rabs (nth 1 q1 0 - f u) <= M * tau ^ 2 / 8).
    { destruct O1 as (k & Hk & _ & Ak). unfold s1 in Ak. cbn [sg_p1 sg_p2] in Ak. rewrite !Rx in Ak by lia. pose proof (Ak 0%nat) as K0'. pose proof (Ak 1%nat) as K1. cbn [nth] in K0', K1.
      pose proof (Hx i Hi) as P. pose proof (Inx i ltac:(lia)) as P0. pose proof (Inx (S i) Hi) as P1. pose proof (Tx i Hi) as P2.
      set (a := nth i xs 0) in *. set (b := nth (S i) xs 0) in *. exists (nth 0 q1 0). split; [reflexivity|].
      assert (Hu : a <= nth 0 q1 0 <= b) by (rewrite K0'; nra). split; [lra|]. rewrite K1.
      replace k with ((nth 0 q1 0 - a) / (b - a)) by (rewrite K0'; field; lra).
      eapply Rle_trans; [apply (linear_error lo hi f f1 f2 M a b (nth 0 q1 0)); try lra|].
      - intros y Hy'. apply Df, Hy'. - intros y Hy'. apply Df2, Hy'. - intros y Hy'. apply Df2, Hy'.
      - assert (0 <= M) by (pose proof (proj2 (Df2 a P0)); pose proof (Rabs_pos (f2 a)); lra). assert ((b - a) ^ 2 <= tau ^ 2) by (apply pow_incr; lra). nra. }
    assert (Lin2 : exists u, nth 0 q2 0 = u /\ lo <= u <= hi /\ Rabs (nth 1 q2 0 - g u) <= M' * tau ^ 2 / 8).
    { destruct O2 as (k & Hk & _ & Ak). unfold s2 in Ak. cbn [sg_p1 sg_p2] in Ak. rewrite !Ry in Ak by lia. pose proof (Ak 0%nat) as K0'. pose proof (Ak 1%nat) as K1. cbn [nth] in K0', K1.
      pose proof (Hy j Hj) as P. pose proof (Iny j ltac:(lia)) as P0. pose proof (Iny (S j) Hj) as P1. pose proof (Ty j Hj) as P2.
      set (a := nth j ys 0) in *. set (b := nth (S j) ys 0) in *. exists (nth 0 q2 0). split; [reflexivity|].
      assert (Hu : a <= nth 0 q2 0 <= b) by (rewrite K0'; nra). split; [lra|]. rewrite K1.
      replace k with ((nth 0 q2 0 - a) / (b - a)) by (rewrite K0'; field; lra).
      eapply Rle_trans; [apply (linear_error lo hi g g1 g2 M' a b (nth 0 q2 0)); try lra|].
      - intros y Hy'. apply Dg, Hy'. - intros y Hy'. apply Dg2, Hy'. - intros y Hy'. apply Dg2, Hy'.
      - assert (0 <= M') by (pose proof (proj2 (Dg2 a P0)); pose proof (Rabs_pos (g2 a)); lra). assert ((b - a) ^ 2 <= tau ^ 2) by (apply pow_incr; lra). nra. }
    destruct Lin1 as (u & Eu & Hu & Lu). destruct Lin2 as (v & Evv & Hv & Lv). pose proof (Rabs_pos (nth 1 q1 0 - f u)). pose proof (Rabs_pos (nth 1 q2 0 - g v)).
    apply Rabs_lt_le_inv in Lu. apply Rabs_lt_le_inv in Lv.
    pose proof (crossing_close lo hi s m f f1 g g1 Df Dg u v z e ((M + M') * tau ^ 2 / 8) Pm Hu Hv Hz Ez ltac:(apply Rabs_le; lra) ltac:(apply Rabs_le; lra) ltac:(lra)) as Fin.
    replace (nth 0 p 0 - z) with ((nth 0 p 0 - nth 0 q2 0) + (v - z)) by (rewrite Evv; ring).
    eapply Rle_trans; [apply Rabs_triang|]. assert (Rabs (nth 0 p 0 - nth 0 q2 0) <= e) by (apply Rabs_le; lra). lra.
Qed.
Print Assumptions C103_graphs.

(** ** Examples: three points of the parabola 1 - x^2 and of the line x + k *)

Definition knots3 : list R := [0; / 2; 1].
Definition cap : curve R := mkCurve [[0; 1]; [/ 2; 3 / 4]; [1; 0]] 2 DFloat None.
Definition ramp (k : R) : curve R := mkCurve [[0; k]; [/ 2; / 2 + k]; [1; 1 + k]] 2 DFloat None.
Definition cap_at (j : nat) (x : R) : R := match j with O => x | _ => 1 - x * x end.
Definition cap_at1 (j : nat) (x : R) : R := match j with O => 1 | _ => - (2 * x) end.
Definition cap_at2 (j : nat) (_ : R) : R := match j with O => 0 | _ => - 2 end.
Definition ramp_at (k : R) (j : nat) (x : R) : R := match j with O => x | _ => x + k end.

Lemma cap_d x : derivable_pt_lim (fun x => 1 - x * x) x (- (2 * x)).
Proof.
  replace (- (2 * x)) with (0 - (1 * x + x * 1)) by ring.
  exact (derivable_pt_lim_minus (fun _ => 1) (fun x => x * x) x _ _ (derivable_pt_lim_const 1 x) (derivable_pt_lim_mult id id x _ _ (derivable_pt_lim_id x) (derivable_pt_lim_id x))).
Qed.
Lemma cap_d2 x : derivable_pt_lim (fun x => - (2 * x)) x (- 2).
Proof. replace (- 2) with (- (2 * 1)) by ring. exact (derivable_pt_lim_opp (fun x => 2 * x) x _ (derivable_pt_lim_scal id 2 x _ (derivable_pt_lim_id x))). Qed.
Lemma ramp_d k x : derivable_pt_lim (fun x => x + k) x 1.
Proof. replace 1 with (1 + 0) by ring. exact (derivable_pt_lim_plus id (fun _ => k) x _ _ (derivable_pt_lim_id x) (derivable_pt_lim_const k x)). Qed.
Lemma norm2_le a b d : 0 <= d -> a * a + b * b <= d * d -> norm [a; b] <= d.
Proof. intros Hd H. unfold norm. rewrite <- (sqrt_square d Hd). apply sqrt_le_1_alt. cbn [inner]. lra. Qed.
Lemma knots3_inc : increasing knots3.
Proof. intros [|[|i]] H; cbn [knots3 nth length] in *; try lra; lia. Qed.
Lemma cap_wf : wf cap.
Proof. split; [apply le_n|]. split; [intros p [<-|[<-|[<-|[]]]]; reflexivity|discriminate]. Qed.
Lemma ramp_wf k : wf (ramp k).
Proof. split; [apply le_n|]. split; [intros p [<-|[<-|[<-|[]]]]; reflexivity|discriminate]. Qed.
Lemma cap_taken : taken cap knots3 cap_at.
Proof.
  split; [cbn; lia|]. split; [reflexivity|]. split; [exact knots3_inc|].
  intros [|[|[|i]]] [|[|j]] Hi Hj; cbn in Hi, Hj; try lia; cbn [cap c_rows nth cap_at knots3]; lra.
Qed.
Lemma ramp_taken k : taken (ramp k) knots3 (ramp_at k).
Proof.
  split; [cbn; lia|]. split; [reflexivity|]. split; [exact knots3_inc|].
  intros [|[|[|i]]] [|[|j]] Hi Hj; cbn in Hi, Hj; try lia; cbn [ramp c_rows nth ramp_at knots3]; lra.
Qed.
Lemma knots3_gap i : (S i < 3)%nat -> nth (S i) knots3 0 - nth i knots3 0 = / 2.
Proof. intros H. destruct i as [|[|i]]; [| |lia]; cbn [knots3 nth]; lra. Qed.
Lemma cap_smooth : smooth 2 knots3 cap_at cap_at1 cap_at2 2 (/ 2).
Proof.
  split; [|split].
  - intros [|[|j]] v Hj _; [| |lia]; cbn [cap_at cap_at1 cap_at2]; split; [apply derivable_pt_lim_id|apply derivable_pt_lim_const|apply cap_d|apply cap_d2].
  - intros v _. apply norm2_le; cbn [cap_at2]; lra.
  - intros i Hi. rewrite knots3_gap by exact Hi. lra.
Qed.
Lemma ramp_smooth k : smooth 2 knots3 (ramp_at k) (fun _ _ => 1) (fun _ _ => 0) 0 (/ 2).
Proof.
  split; [|split].
  - intros [|[|j]] v Hj _; [| |lia]; cbn [ramp_at]; split; [apply derivable_pt_lim_id|apply derivable_pt_lim_const|apply ramp_d|apply derivable_pt_lim_const].
  - intros v _. apply norm2_le; lra.
  - intros i Hi. rewrite knots3_gap by exact Hi. lra.
Qed.
Lemma cap_segments : segments_le cap 1.
Proof. intros [|[|i]] Hi; cbn in Hi; [| |lia]; apply norm2_le; lra. Qed.
Lemma ramp_segments k : segments_le (ramp k) 1.
Proof. intros [|[|i]] Hi; cbn in Hi; [| |lia]; apply norm2_le; lra. Qed.

Example C103_polygon_ex : forall v, 0 <= v <= 1 -> exists i p, (S i < 3)%nat /\
  on_segment (nth i (c_rows cap) []) (nth (S i) (c_rows cap) []) p /\ dist p [v; 1 - v * v] <= / 16.
Proof.
  intros v Hv. destruct (C103_polygon cap knots3 cap_at cap_at1 cap_at2 2 (/ 2) cap_wf cap_taken cap_smooth) as (_ & H).
  destruct (H v Hv) as (i & p & Hi & _ & O & D). exists i, p. split; [exact Hi|]. split; [exact O|].
  change (dist p [v; 1 - v * v] <= 2 * (/ 2) ^ 2 / 8) in D. lra.
Qed.

(** The chords meet at 3/5, the curves at (sqrt 5 - 1) / 2 = 0.618... *)
Example C103_graphs_ex : exists l x z w, exact_curves (/ 4503599627370496) cap (ramp 0) false = Ok l /\ In x l /\ in_info x = mkInfo (IDPoint [z; w]) IExact /\
  Rabs (z - (sqrt 5 - 1) / 2) <= / 15.
Proof.
  assert (G1 : graph_of cap knots3 (fun x => 1 - x * x)).
  { split; [exact cap_wf|]. split; [reflexivity|]. split; [cbn; lia|]. split; [reflexivity|].
    intros [|[|[|i]]] Hi; cbn in Hi; [| | |lia]; cbn [cap c_rows nth knots3]; apply (f_equal2 (fun a b : R => [a; b])); lra. }
  assert (G2 : graph_of (ramp 0) knots3 (fun x => x + 0)).
  { split; [apply ramp_wf|]. split; [reflexivity|]. split; [cbn; lia|]. split; [reflexivity|].
    intros [|[|[|i]]] Hi; cbn in Hi; [| | |lia]; cbn [ramp c_rows nth knots3]; apply (f_equal2 (fun a b : R => [a; b])); lra. }
  assert (R0 : Rabs 0 = 0) by apply Rabs_R0.
  destruct (C103_graphs (/ 4503599627370496) cap (ramp 0) knots3 knots3 (fun x => 1 - x * x) (fun x => - (2 * x)) (fun x => x + 0) (fun _ => 1) 0 1 0 1 (/ 2) 1 G1 G2) as (l & E & _ & H1 & H2);
    try reflexivity; try (rewrite ?R0; lra).
  - intros i Hi. rewrite knots3_gap by exact Hi. lra.
  - intros i Hi. rewrite knots3_gap by exact Hi. lra.
  - intros x Hx. split; [apply cap_d|lra].
  - intros x Hx. split; [apply ramp_d|lra].
  - intros x Hx. repeat split; apply Rabs_le; nra.
  - destruct H1 as (x & z & w & Hin & _ & Ex); [lra|lra|]. exists l, x, z, w. split; [exact E|]. split; [exact Hin|]. split; [exact Ex|].
    assert (S5 : sqrt 5 * sqrt 5 = 5) by (apply sqrt_sqrt; lra). assert (S0 := sqrt_pos 5).
    assert (B2 : 2 <= sqrt 5 <= 3) by nra.
    assert (Hz : 0 <= (sqrt 5 - 1) / 2 <= 1) by lra.
    assert (Fz : 1 - (sqrt 5 - 1) / 2 * ((sqrt 5 - 1) / 2) = (sqrt 5 - 1) / 2 + 0) by nra.
    pose proof (H2 2 0 (/ 2) 1 (fun _ => - 2) (fun _ => 0) ltac:(intros i Hi; rewrite knots3_gap by exact Hi; lra) ltac:(intros i Hi; rewrite knots3_gap by exact Hi; lra)
      cap_segments (ramp_segments 0) ltac:(intros y _; split; [apply cap_d2|apply Rabs_le; lra]) ltac:(intros y _; split; [apply derivable_pt_lim_const|apply Rabs_le; lra])
      x [z; w] ((sqrt 5 - 1) / 2) Hin Ex Hz Fz) as K. cbv zeta in K. cbn [nth] in K. rewrite R0 in K. lra.
Qed.

Example C103_exact_ex : exists p v1 v2, 0 <= v1 <= 1 /\ 0 <= v2 <= 1 /\
  (exists l x, exact_curves (/ 4503599627370496) cap (ramp 0) false = Ok l /\ In x l /\ in_info x = mkInfo (IDPoint p) IExact) /\
  dist p [v1; 1 - v1 * v1] <= / 15 /\ dist p [v2; v2 + 0] <= / 10000.
Proof.
  destruct C103_graphs_ex as (l & x & z & w & E & Hin & Ex & _). exists [z; w].
  destruct (C103_exact (/ 4503599627370496) cap (ramp 0) knots3 cap_at cap_at1 cap_at2 2 (/ 2) knots3 (ramp_at 0) (fun _ _ => 1) (fun _ _ => 0) 0 (/ 2) 1 1 l x [z; w]
    cap_wf (ramp_wf 0) eq_refl cap_taken cap_smooth (ramp_taken 0) (ramp_smooth 0) cap_segments (ramp_segments 0) E Hin Ex) as (v1 & v2 & I1 & I2 & A & B).
  exists v1, v2. split; [exact I1|]. split; [exact I2|]. split; [exists l, x; auto|].
  change (dist [z; w] [v1; 1 - v1 * v1] <= 2 * (/ 2) ^ 2 / 8 + (/ 100000000 + / 100000) * 1) in A. change (dist [z; w] [v2; v2 + 0] <= 0 * (/ 2) ^ 2 / 8 + (/ 100000000 + / 100000) * 1) in B. lra.
Qed.

Example C103_exact_apart_ex : forall l x p, exact_curves (/ 4503599627370496) cap (ramp 5) false = Ok l -> In x l -> in_info x <> mkInfo (IDPoint p) IExact.
Proof.
  intros l x p E. revert x p.
  apply (C103_exact_apart (/ 4503599627370496) cap (ramp 5) knots3 cap_at cap_at1 cap_at2 2 (/ 2) knots3 (ramp_at 5) (fun _ _ => 1) (fun _ _ => 0) 0 (/ 2) 1 1 l
    cap_wf (ramp_wf 5) eq_refl cap_taken cap_smooth (ramp_taken 5) (ramp_smooth 5) cap_segments (ramp_segments 5) E).
  intros v1 v2 H1 H2. unfold inside in H1, H2. cbn [knots3 nth length Nat.sub] in H1, H2.
  change (2 * (/ 2) ^ 2 / 8 + 0 * (/ 2) ^ 2 / 8 + (/ 100000000 + / 100000) * (1 + 1) < dist [v1; 1 - v1 * v1] [v2; v2 + 5]).
  apply Rlt_le_trans with 2; [lra|]. unfold dist, norm. cbn [minus inner]. rewrite <- (sqrt_square 2) by lra. apply sqrt_le_1_alt. nra.
Qed.

Example C103_almost_ex : exists l, almost_curves (mkAlmost 3 true 1 false 1) (fun s => s) cap (ramp 0) false = Ok l /\ l <> [].
Proof.
  destruct (C103_almost (mkAlmost 3 true 1 false 1) (fun s => s) cap (ramp 0) knots3 cap_at cap_at1 cap_at2 2 (/ 2) knots3 (ramp_at 0) (fun _ _ => 1) (fun _ _ => 0) 0 (/ 2) 1 1
    cap_wf (ramp_wf 0) eq_refl (or_introl eq_refl) cap_taken cap_smooth (ramp_taken 0) (ramp_smooth 0) cap_segments (ramp_segments 0) eq_refl ltac:(intros; apply Permutation_refl)) as (l & E & _ & H).
  exists l. split; [exact E|]. apply (H (/ 2) (/ 2)); try (unfold inside; cbn [knots3 nth length Nat.sub]; lra).
  change (dist [/ 2; 1 - / 2 * / 2] [/ 2; / 2 + 0] + 2 * (/ 2) ^ 2 / 8 + 0 * (/ 2) ^ 2 / 8 + 1 + 1 < 3).
  assert (dist [/ 2; 1 - / 2 * / 2] [/ 2; / 2 + 0] <= / 2) by (apply norm2_le; lra). lra.
Qed.
