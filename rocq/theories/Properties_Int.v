(** C91: curves with integer data. *)
From Coq Require Import ZArith QArith List Bool Arith Reals Lra Lia Sorted.
From Verif Require Import Num Py Numeric Curve Vec VecFacts Geom GeomSpec GeomProofs GeomProofs3 GeomProofs4 Intersect
  CurveProofs3 IntersectProofs3 IntersectProofs4 IntersectProofs5 IntProofs.
Import ListNotations.
Local Open Scope R_scope.

(** ** C91 Intersections of curves with integer data *)

(** A curve of dimension [n] whose array has an integer type. *)
Definition int_curve (n : nat) (c : curve R) : Prop :=
  c_dtype c = DInt /\ forall r, In r (c_rows c) -> length r = n /\ forall x, In x r -> exists z, x = IZR z.
(** Side [i] of a curve. *)
Definition side (c : curve R) (i : nat) : segment R := mkSeg (nth i (c_rows c) []) (nth (S i) (c_rows c) []).
(** The two segments have a common end point. *)
Definition share_end (s1 s2 : segment R) : Prop :=
  sg_p1 s1 = sg_p1 s2 \/ sg_p1 s1 = sg_p2 s2 \/ sg_p2 s1 = sg_p1 s2 \/ sg_p2 s1 = sg_p2 s2.

Lemma side_wf n c i : int_curve n c -> (S i < c_size c)%nat -> seg_wf n (side c i) /\ whole_seg (side c i).
Proof.
  intros [_ H] Hi. unfold c_size in Hi.
  destruct (H (nth i (c_rows c) [])) as [A1 A2]; [apply nth_In; lia|].
  destruct (H (nth (S i) (c_rows c) [])) as [B1 B2]; [apply nth_In; lia|].
  split; (split; [|]); assumption.
Qed.
Lemma int_dims n c : int_curve n c -> dims n (c_rows c).
Proof. intros [_ H] r Hr. apply H, Hr. Qed.
Lemma int_promote n c1 c2 : int_curve n c1 -> int_curve n c2 -> promote (c_dtype c1) (c_dtype c2) = DInt.
Proof. intros [-> _] [-> _]. reflexivity. Qed.
Lemma snapped_end t s : snapped t s = sg_p1 s \/ snapped t s = sg_p2 s.
Proof. unfold snapped. destruct (Req_EM_T t 1); auto. Qed.
Lemma eps_pos : 0 < @f_eps R RNum <= 1.
Proof. rewrite f_eps_R. lra. Qed.

(** Integer end points: the distance of two segments is exact (compare
    C39_distance_bound), if the second has two different ends. *)
Theorem C91_distance : forall n (s1 s2 : segment R), seg_wf n s1 -> seg_wf n s2 ->
  (forall x, In x (sg_p1 s1 ++ sg_p2 s1 ++ sg_p1 s2 ++ sg_p2 s2) -> exists z, x = IZR z) ->
  sg_p1 s2 <> sg_p2 s2 ->
  (exists x y, on_segment (sg_p1 s1) (sg_p2 s1) x /\ on_segment (sg_p1 s2) (sg_p2 s2) y /\ sg_distance s1 s2 = dist x y) /\
  (forall x y, on_segment (sg_p1 s1) (sg_p2 s1) x -> on_segment (sg_p1 s2) (sg_p2 s2) y -> sg_distance s1 s2 <= dist x y).
Proof.
  intros n s1 s2 H1 H2 W Hne.
  assert (W1 : whole_seg s1) by (split; intros x Hx; apply W, in_or_app; [left; exact Hx|right; apply in_or_app; left; exact Hx]).
  assert (W2 : whole_seg s2) by (split; intros x Hx; apply W; apply in_or_app; right; apply in_or_app; right; apply in_or_app; [left|right]; exact Hx).
  pose proof (whole_optimal n s1 s2 H1 H2 W1 W2 Hne) as O.
  pose proof (segment_to_segment_range n s1 s2 f_eps H1 H2 (proj1 eps_pos)) as Rg.
  unfold sg_distance, sg_shortest. destruct (segment_to_segment s1 s2 f_eps) as [t1 t2]. destruct Rg as [R1 R2].
  unfold sg_len. cbn [sg_p1 sg_p2].
  assert (D : forall x y, vdist (sg_point s1 x) (sg_point s2 y) = dist (sg_point s1 x) (sg_point s2 y))
    by (intros x y; symmetry; apply dist_vdist; rewrite !(sg_point_length n) by assumption; reflexivity).
  split.
  - exists (sg_point s1 t1), (sg_point s2 t2). split; [apply (on_segment_point n); [exact H1|exists t1; auto]|].
    split; [apply (on_segment_point n); [exact H2|exists t2; auto]|]. rewrite <- D. unfold vdist.
    first [reflexivity | apply vdist_sym; rewrite !(sg_point_length n) by assumption; reflexivity].
  - intros x y Hx Hy. apply (on_segment_point n) in Hx; [|exact H1]. apply (on_segment_point n) in Hy; [|exact H2].
    destruct Hx as (a & Ha & ->), Hy as (b & Hb & ->). rewrite <- D. specialize (O a b Ha Hb).
    first [exact O | rewrite (vdist_sym (sg_point s2 t2)) by (rewrite !(sg_point_length n) by assumption; reflexivity); exact O].
Qed.
Print Assumptions C91_distance.

(** ... and the tolerance is irrelevant. *)
Theorem C91_tolerance : forall (s1 s2 : segment R) tol tol',
  (forall x, In x (sg_p1 s1 ++ sg_p2 s1 ++ sg_p1 s2 ++ sg_p2 s2) -> exists z, x = IZR z) ->
  0 < tol <= 1 -> 0 < tol' <= 1 -> segment_to_segment s1 s2 tol = segment_to_segment s1 s2 tol'.
Proof.
  intros s1 s2 tol tol' W Ht Ht'.
  assert (W1 : whole_seg s1) by (split; intros x Hx; apply W, in_or_app; [left; exact Hx|right; apply in_or_app; left; exact Hx]).
  assert (W2 : whole_seg s2) by (split; intros x Hx; apply W; apply in_or_app; right; apply in_or_app; right; apply in_or_app; [left|right]; exact Hx).
  rewrite (segment_to_segment_tol s1 s2 tol W1 W2 Ht). symmetry. apply segment_to_segment_tol; assumption.
Qed.
Print Assumptions C91_tolerance.

(** Two curves with integer data: the almost method compares end points only.
    [corner t s] is the end of [s] if the parameter of the closest point is
    exactly 1, the start otherwise. *)
Theorem C91_curves : forall n (pr : almost_params R) order (c1 c2 : curve R) same, (0 < n)%nat ->
  int_curve n c1 -> int_curve n c2 -> al_remove_extra pr = false -> al_correct_overlap pr = false ->
  let corner t s := if Req_EM_T t 1 then sg_p2 s else sg_p1 s in
  let from i j := corner (fst (segment_to_segment (side c1 i) (side c2 j) f_eps)) (side c1 i) in
  let to i j := corner (snd (segment_to_segment (side c1 i) (side c2 j) f_eps)) (side c2 j) in
  exists ps l, almost_curves pr order c1 c2 same = Ok l /\
    StronglySorted (fun p q : nat * nat => (fst p < fst q \/ fst p = fst q /\ snd p < snd q)%nat) ps /\
    Forall2 (fun '(i, j) x =>
      in_seg1 x = SegOf true (Z.of_nat i) (side c1 i) /\ in_seg2 x = SegOf false (Z.of_nat j) (side c2 j) /\
      in_info x = mkInfo (IDSegment (mkSeg (from i j) (to i j))) IAlmost) ps l /\
    forall i j, In (i, j) ps <->
      (S i < c_size c1)%nat /\ (S j < c_size c2)%nat /\ (same = true -> (i + 2 <= j)%nat) /\
      dist (from i j) (to i j) < al_dist_tol pr.
Proof.
  intros n pr order c1 c2 same Hn I1 I2 ER EC corner from to.
  destruct (almost_list_dt n pr c1 c2 same Hn (int_dims n c1 I1) (int_dims n c2 I2)) as (ps & St & E & IP).
  rewrite (int_promote n c1 c2 I1 I2) in E, IP. exists ps. eexists.
  split; [rewrite E; cbv zeta; rewrite ER, EC; reflexivity|]. split; [exact St|].
  assert (SH : forall i j, (S i < c_size c1)%nat -> (S j < c_size c2)%nat ->
    shortest_dt DInt (seg_at (c_rows c1) i) (seg_at (c_rows c2) j) = mkSeg (from i j) (to i j)).
  { intros i j Hi Hj. apply (shortest_int n); apply side_wf; assumption. }
  assert (LN : forall i j, (S i < c_size c1)%nat -> (S j < c_size c2)%nat ->
    sg_len (mkSeg (from i j) (to i j)) = dist (from i j) (to i j)).
  { intros i j Hi Hj. destruct (side_wf n c1 i I1 Hi) as [[A1 A2] _]. destruct (side_wf n c2 j I2 Hj) as [[B1 B2] _].
    unfold sg_len. cbn [sg_p1 sg_p2].
    assert (L : length (from i j) = length (to i j)) by (unfold from, to, corner; do 2 destruct (Req_EM_T _ 1); congruence).
    rewrite (dist_vdist _ _ L). first [reflexivity | apply vdist_sym; congruence]. }
  split.
  - assert (Q : forall i j, In (i, j) ps -> (S i < c_size c1)%nat /\ (S j < c_size c2)%nat) by (intros i j H; apply IP in H; tauto).
    clear E IP St. induction ps as [|(i & j) ps IH]; cbn [map]; constructor.
    + cbn [fst snd pair_inter in_seg1 in_seg2 in_info]. destruct (Q i j (or_introl eq_refl)) as [Hi Hj]. rewrite SH by assumption. auto.
    + apply IH. intros a b H. apply Q. right. exact H.
  - intros i j. rewrite IP. split.
    + intros (Hi & Hj & Hs & Hd). rewrite SH, LN in Hd by assumption. auto.
    + intros (Hi & Hj & Hs & Hd). rewrite SH, LN by assumption. auto.
Qed.
Print Assumptions C91_curves.

(** So with dist_tol <= 1, whatever the other parameters, all segments reported
    have a common end point ... *)
Theorem C91_shared : forall n (pr : almost_params R) order (c1 c2 : curve R) same l x, (0 < n)%nat ->
  int_curve n c1 -> int_curve n c2 -> al_dist_tol pr <= 1 ->
  almost_curves pr order c1 c2 same = Ok l -> In x l ->
  exists i j, (S i < c_size c1)%nat /\ (S j < c_size c2)%nat /\
    in_seg1 x = SegOf true (Z.of_nat i) (side c1 i) /\ in_seg2 x = SegOf false (Z.of_nat j) (side c2 j) /\
    share_end (side c1 i) (side c2 j).
Proof.
  intros n pr order c1 c2 same l x Hn I1 I2 Ht E I.
  destruct (almost_members pr order c1 c2 same l x E I) as (i & j & Hi & Hj & _ & Hd & S1 & S2).
  rewrite (int_promote n c1 c2 I1 I2) in Hd. exists i, j. split; [exact Hi|]. split; [exact Hj|]. split; [exact S1|]. split; [exact S2|].
  pose proof (shortest_dt_at n DInt c1 c2 i j (int_dims n c1 I1) (int_dims n c2 I2) Hi Hj) as SA. cbv zeta in SA.
  destruct (side_wf n c1 i I1 Hi) as [F1 G1]. destruct (side_wf n c2 j I2 Hj) as [F2 G2].
  pose proof (shortest_int n _ _ F1 F2) as SI. unfold side in SI at 1 2. unfold seg_at in SA. rewrite SI in SA.
  assert (E1 := f_equal (@sg_p1 R) SA). assert (E2 := f_equal (@sg_p2 R) SA). cbn [sg_p1 sg_p2] in E1, E2.
  fold (side c1 i) in *. fold (side c2 j) in *. rewrite <- E1, <- E2 in Hd. apply Rltb_iff in Hd.
  set (P := snapped _ (side c1 i)) in *. set (Q := snapped _ (side c2 j)) in *.
  assert (PE : P = sg_p1 (side c1 i) \/ P = sg_p2 (side c1 i)) by apply snapped_end.
  assert (QE : Q = sg_p1 (side c2 j) \/ Q = sg_p2 (side c2 j)) by apply snapped_end.
  clearbody P Q. assert (EQ : P = Q).
  { destruct F1 as [A1 A2], F2 as [B1 B2], G1 as [U1 U2], G2 as [V1 V2].
    apply whole_dist; [destruct PE as [-> | ->], QE as [-> | ->]; congruence|destruct PE as [-> | ->]; assumption|destruct QE as [-> | ->]; assumption|lra]. }
  unfold share_end. destruct PE as [<-|<-], QE as [<-|<-]; auto.
Qed.
Print Assumptions C91_shared.

(** ... and nothing is reported if no side of one curve has an end in common with a
    side of the other, however often they cross. *)
Theorem C91_missed : forall n (pr : almost_params R) order (c1 c2 : curve R) same l, (0 < n)%nat ->
  int_curve n c1 -> int_curve n c2 -> al_dist_tol pr <= 1 ->
  (forall p, In p (c_rows c1) -> ~ In p (c_rows c2)) ->
  almost_curves pr order c1 c2 same = Ok l -> l = [].
Proof.
  intros n pr order c1 c2 same l Hn I1 I2 Ht D E. destruct l as [|x l]; [reflexivity|exfalso].
  destruct (C91_shared n pr order c1 c2 same (x :: l) x Hn I1 I2 Ht E (or_introl eq_refl)) as (i & j & Hi & Hj & _ & _ & SE).
  unfold c_size in Hi, Hj.
  assert (A1 : In (nth i (c_rows c1) []) (c_rows c1)) by (apply nth_In; lia).
  assert (A2 : In (nth (S i) (c_rows c1) []) (c_rows c1)) by (apply nth_In; lia).
  assert (B1 : In (nth j (c_rows c2) []) (c_rows c2)) by (apply nth_In; lia).
  assert (B2 : In (nth (S j) (c_rows c2) []) (c_rows c2)) by (apply nth_In; lia).
  unfold share_end, side in SE. cbn [sg_p1 sg_p2] in SE.
  destruct SE as [SE|[SE|[SE|SE]]]; [apply (D _ A1)|apply (D _ A1)|apply (D _ A2)|apply (D _ A2)]; rewrite SE; assumption.
Qed.
Print Assumptions C91_missed.

(** Sides that are not parallel are reported exactly if they have a common end. *)
Theorem C91_nonparallel : forall n (pr : almost_params R) order (c1 c2 : curve R) same i j, (0 < n)%nat ->
  int_curve n c1 -> int_curve n c2 -> al_remove_extra pr = false -> al_correct_overlap pr = false ->
  0 < al_dist_tol pr <= 1 ->
  (S i < c_size c1)%nat -> (S j < c_size c2)%nat -> (same = true -> (i + 2 <= j)%nat) ->
  area_sq (minus (sg_p2 (side c1 i)) (sg_p1 (side c1 i))) (minus (sg_p2 (side c2 j)) (sg_p1 (side c2 j))) <> 0 ->
  exists l, almost_curves pr order c1 c2 same = Ok l /\
    ((exists x, In x l /\ in_seg1 x = SegOf true (Z.of_nat i) (side c1 i) /\ in_seg2 x = SegOf false (Z.of_nat j) (side c2 j))
     <-> share_end (side c1 i) (side c2 j)).
Proof.
  intros n pr order c1 c2 same i j Hn I1 I2 ER EC Ht Hi Hj Hs A. rewrite !minus_vsub in A.
  change (area_sq (sg_dir (side c1 i)) (sg_dir (side c2 j)) <> 0) in A.
  destruct (C91_curves n pr order c1 c2 same Hn I1 I2 ER EC) as (ps & l & E & _ & F & IP). exists l. split; [exact E|].
  destruct (side_wf n c1 i I1 Hi) as [F1 G1]. destruct (side_wf n c2 j I2 Hj) as [F2 G2]. split.
  - intros (x & Hx & X1 & X2).
    destruct (C91_shared n pr order c1 c2 same l x Hn I1 I2 (proj2 Ht) E Hx) as (i' & j' & _ & _ & Y1 & Y2 & SE).
    rewrite X1 in Y1. rewrite X2 in Y2. injection Y1 as EI _ _. injection Y2 as EJ _ _.
    apply Nat2Z.inj in EI, EJ. subst i' j'. exact SE.
  - intros SE.
    (* the common end, as a point of both segments *)
    assert (C : exists x y, (x = 0 \/ x = 1) /\ (y = 0 \/ y = 1) /\ sg_point (side c1 i) x = sg_point (side c2 j) y).
    { destruct SE as [SE|[SE|[SE|SE]]]; [exists 0, 0|exists 0, 1|exists 1, 0|exists 1, 1];
        rewrite ?(sg_point_0 n), ?(sg_point_1 n) by assumption; auto. }
    destruct C as (x & y & Hx & Hy & EQ).
    assert (Hne : sg_p1 (side c2 j) <> sg_p2 (side c2 j)).
    { intros Q. apply A. assert (L : length (sg_dir (side c1 i)) = length (sg_dir (side c2 j))) by (rewrite !(sg_dir_length n) by assumption; reflexivity).
      rewrite area_sq_wedge, <- lagrange by exact L.
      assert (Z : sg_dir (side c2 j) = repeat 0 n).
      { apply vec_ext; [rewrite (sg_dir_length n), repeat_length by assumption; reflexivity|].
        intros k. rewrite (nth_sg_dir n), nth_zeros by assumption. rewrite Q. lra. }
      rewrite Z, !vdot_zero_r. lra. }
    pose proof (whole_optimal n _ _ F1 F2 G1 G2 Hne) as O.
    destruct (segment_to_segment (side c1 i) (side c2 j) f_eps) as [t1 t2] eqn:ET.
    assert (M : sg_point (side c1 i) t1 = sg_point (side c2 j) t2).
    { apply vdist_zero; [rewrite !(sg_point_length n) by assumption; reflexivity|].
      specialize (O x y ltac:(destruct Hx; lra) ltac:(destruct Hy; lra)). rewrite EQ, vdist_refl in O.
      pose proof (vdist_nonneg (sg_point (side c1 i) t1) (sg_point (side c2 j) t2)). lra. }
    destruct (meet_unique n _ _ t1 t2 x y F1 F2 A M EQ) as [-> ->].
    assert (IN : In (i, j) ps).
    { apply IP. split; [exact Hi|]. split; [exact Hj|]. split; [exact Hs|]. rewrite ET. cbn [fst snd].
      assert (K : (if Req_EM_T x 1 then sg_p2 (side c1 i) else sg_p1 (side c1 i)) = (if Req_EM_T y 1 then sg_p2 (side c2 j) else sg_p1 (side c2 j))).
      { transitivity (sg_point (side c1 i) x); [|rewrite EQ]; [destruct Hx as [-> | ->]|destruct Hy as [-> | ->]];
          destruct (Req_EM_T _ 1); try lra; rewrite ?(sg_point_0 n), ?(sg_point_1 n) by assumption; reflexivity. }
      rewrite K. rewrite dist_vdist, vdist_refl by reflexivity. lra. }
    clear - F IN. induction F as [|(a & b) x ps l (A & B & _) F IH]; [destruct IN|].
    destruct IN as [IN|IN]; [injection IN as -> ->; exists x; split; [left; reflexivity|auto]|].
    destruct (IH IN) as (y & Hy & Q). exists y. split; [right; exact Hy|exact Q].
Qed.
Print Assumptions C91_nonparallel.

(** Nothing is reported that the same curves with floating data would not report
    (if the sides of the second curve have two different ends). *)
Theorem C91_subset : forall n (pr : almost_params R) order (c1 c2 : curve R) same, (0 < n)%nat ->
  int_curve n c1 -> int_curve n c2 -> al_remove_extra pr = false -> al_correct_overlap pr = false ->
  (forall j, (S j < c_size c2)%nat -> nth j (c_rows c2) [] <> nth (S j) (c_rows c2) []) ->
  let as_float (c : curve R) := mkCurve (c_rows c) (c_ndim c) DFloat (c_t c) in
  exists l l', almost_curves pr order c1 c2 same = Ok l /\ almost_curves pr order (as_float c1) (as_float c2) same = Ok l' /\
    forall x, In x l -> exists y, In y l' /\ in_seg1 y = in_seg1 x /\ in_seg2 y = in_seg2 x.
Proof.
  intros n pr order c1 c2 same Hn I1 I2 ER EC ND as_float.
  destruct (C91_curves n pr order c1 c2 same Hn I1 I2 ER EC) as (ps & l & E & _ & F & IP).
  destruct (almost_list n pr (as_float c1) (as_float c2) same Hn (or_introl eq_refl) (int_dims n c1 I1) (int_dims n c2 I2)) as (ps' & _ & E' & IP').
  specialize (E' order). cbv zeta in E'. rewrite ER, EC in E'. cbn [rbind] in E'.
  exists l. eexists. split; [exact E|]. split; [exact E'|]. intros x Hx.
  assert (X : exists i j, In (i, j) ps /\ in_seg1 x = SegOf true (Z.of_nat i) (side c1 i) /\ in_seg2 x = SegOf false (Z.of_nat j) (side c2 j)).
  { clear - F Hx. induction F as [|(a & b) y ps l (A & B & _) F IH]; [destruct Hx|]. destruct Hx as [->|Hx]; [exists a, b; split; [left; reflexivity|auto]|].
    destruct (IH Hx) as (i & j & Q & R). exists i, j. split; [right; exact Q|exact R]. }
  destruct X as (i & j & Hij & X1 & X2). apply IP in Hij. destruct Hij as (Hi & Hj & Hs & Hd).
  destruct (side_wf n c1 i I1 Hi) as [F1 G1]. destruct (side_wf n c2 j I2 Hj) as [F2 G2].
  eexists. split; [apply in_map_iff; exists (i, j); split; [reflexivity|]|].
  - apply IP'. split; [exact Hi|]. split; [exact Hj|]. split; [exact Hs|].
    change (sg_distance (side c1 i) (side c2 j) < al_dist_tol pr). eapply Rle_lt_trans; [|exact Hd].
    apply (C91_distance n (side c1 i) (side c2 j) F1 F2).
    + destruct G1 as [U1 U2], G2 as [V1 V2]. intros z Hz. apply in_app_or in Hz as [Hz|Hz]; [exact (U1 z Hz)|].
      apply in_app_or in Hz as [Hz|Hz]; [exact (U2 z Hz)|]. apply in_app_or in Hz as [Hz|Hz]; [exact (V1 z Hz)|exact (V2 z Hz)].
    + apply ND, Hj.
    + apply (on_segment_point n); [exact F1|]. destruct (Req_EM_T (fst _) 1); [exists 1|exists 0]; (split; [lra|]); symmetry; [apply (sg_point_1 n)|apply (sg_point_0 n)]; exact F1.
    + apply (on_segment_point n); [exact F2|]. destruct (Req_EM_T (snd _) 1); [exists 1|exists 0]; (split; [lra|]); symmetry; [apply (sg_point_1 n)|apply (sg_point_0 n)]; exact F2.
  - cbn [pair_inter in_seg1 in_seg2 fst snd]. rewrite X1, X2. split; reflexivity.
Qed.
Print Assumptions C91_subset.

(** Crossing diagonals with integer data are not found; with floating data they
    are, for every tolerance. *)
Definition rising (d : dtype) : curve R := mkCurve [[0; 0]; [2; 2]] 2 d None.
Definition falling (d : dtype) : curve R := mkCurve [[0; 2]; [2; 0]] 2 d None.
Lemma rising_int : int_curve 2 (rising DInt).
Proof.
  split; [reflexivity|]. intros r Hr. cbn in Hr. destruct Hr as [<-|[<-|[]]]; (split; [reflexivity|]);
    intros x Hx; cbn in Hx; destruct Hx as [<-|[<-|[]]]; ((exists 0%Z; reflexivity) || (exists 2%Z; reflexivity)).
Qed.
Lemma falling_int : int_curve 2 (falling DInt).
Proof.
  split; [reflexivity|]. intros r Hr. cbn in Hr. destruct Hr as [<-|[<-|[]]]; (split; [reflexivity|]);
    intros x Hx; cbn in Hx; destruct Hx as [<-|[<-|[]]]; ((exists 0%Z; reflexivity) || (exists 2%Z; reflexivity)).
Qed.
Lemma diagonals_apart p : In p (c_rows (rising DInt)) -> ~ In p (c_rows (falling DInt)).
Proof. intros [<-|[<-|[]]] [E|[E|[]]]; injection E; intros; lra. Qed.
Lemma diagonals_meet : on_segment [0; 0] [2; 2] [1; 1] /\ on_segment [0; 2] [2; 0] [1; 1].
Proof. split; (exists (1/2); split; [lra|]; split; [reflexivity|]; intros [|[|[|i]]]; cbn; lra). Qed.
Theorem C91_crossing_refuted : exists c1 c2 c1' c2' : curve R, int_curve 2 c1 /\ int_curve 2 c2 /\
  c_rows c1' = c_rows c1 /\ c_rows c2' = c_rows c2 /\ c_dtype c1' = DFloat /\ c_dtype c2' = DFloat /\
  (exists p, on_segment (sg_p1 (side c1 0)) (sg_p2 (side c1 0)) p /\ on_segment (sg_p1 (side c2 0)) (sg_p2 (side c2 0)) p) /\
  forall pr order, 0 < al_dist_tol pr <= 1 -> al_remove_extra pr = false -> al_correct_overlap pr = false ->
    almost_curves pr order c1 c2 false = Ok [] /\ exists x, almost_curves pr order c1' c2' false = Ok [x].
Proof.
  exists (rising DInt), (falling DInt), (rising DFloat), (falling DFloat).
  split; [exact rising_int|]. split; [exact falling_int|]. do 4 (split; [reflexivity|]). split; [exists [1; 1]; exact diagonals_meet|].
  intros pr order Ht ER EC. split.
  - destruct (C91_curves 2 pr order (rising DInt) (falling DInt) false ltac:(lia) rising_int falling_int ER EC) as (ps & l & E & _).
    rewrite E. f_equal. apply (C91_missed 2 pr order (rising DInt) (falling DInt) false l ltac:(lia) rising_int falling_int (proj2 Ht) diagonals_apart E).
  - destruct (almost_list 2 pr (rising DFloat) (falling DFloat) false ltac:(lia) (or_introl eq_refl) (int_dims 2 _ rising_int) (int_dims 2 _ falling_int))
      as (ps & St & E & IP). specialize (E order). cbv zeta in E. rewrite ER, EC in E. cbn [rbind] in E.
    assert (M : In (0, 0)%nat ps).
    { apply IP. split; [cbn; lia|]. split; [cbn; lia|]. split; [discriminate|].
      assert (D : sg_distance (mkSeg [0; 0] [2; 2]) (mkSeg [0; 2] [2; 0]) <= dist [1; 1] [1; 1]).
      { apply (C91_distance 2); try apply diagonals_meet; try (split; reflexivity).
        - cbn [sg_p1 sg_p2 app]. intros x Hx. cbn in Hx. repeat destruct Hx as [<-|Hx]; try ((exists 0%Z; reflexivity) || (exists 2%Z; reflexivity)). destruct Hx.
        - cbn. intros Q. injection Q. intros. lra. }
      rewrite dist_vdist, vdist_refl in D by reflexivity. eapply Rle_lt_trans; [exact D|]. lra. }
    assert (ONE : forall q, In q ps -> q = (0, 0)%nat).
    { intros (i & j) Hq. apply IP in Hq. destruct Hq as (Hi & Hj & _). cbn in Hi, Hj. f_equal; lia. }
    rewrite E. destruct ps as [|q [|q' ps]]; [destruct M|eexists; reflexivity|exfalso].
    assert (q = (0, 0)%nat) by (apply ONE; left; reflexivity). assert (q' = (0, 0)%nat) by (apply ONE; right; left; reflexivity). subst q q'.
    apply StronglySorted_inv in St. destruct St as [_ St]. apply Forall_inv in St. unfold before in St. cbn in St. lia.
Qed.
Print Assumptions C91_crossing_refuted.

(** The hypotheses are met. *)
Example C91_curves_ex : int_curve 2 (rising DInt) /\ int_curve 2 (falling DInt).
Proof. split; [exact rising_int|exact falling_int]. Qed.
Example C91_missed_ex : forall pr order, 0 < al_dist_tol pr <= 1 -> forall l, almost_curves pr order (rising DInt) (falling DInt) false = Ok l -> l = [].
Proof.
  intros pr order H l. apply (C91_missed 2); [lia|exact rising_int|exact falling_int|apply H|exact diagonals_apart].
Qed.
Example C91_distance_ex : sg_p1 (side (falling DInt) 0) <> sg_p2 (side (falling DInt) 0).
Proof. cbn. intros E. injection E. intros. lra. Qed.
(** The rising diagonal and the side from its end to (4, 0) are not parallel and
    have a common end. *)
Example C91_nonparallel_ex : area_sq (minus [2; 2] [0; 0]) (minus [4; 0] [2; 2]) <> 0 /\
  share_end (side (rising DInt) 0) (mkSeg [2; 2] [4; 0]).
Proof. split; [cbn; lra|right; right; left; reflexivity]. Qed.
(** Runs on binary64 with integer values: the diagonals, and a corner that the
    second curve passes through. *)
Definition frising (d : dtype) : curve PrimFloat.float := mkCurve [[fz 0; fz 0]; [fz 2; fz 2]] 2 d None.
Definition ffalling (d : dtype) : curve PrimFloat.float := mkCurve [[fz 0; fz 2]; [fz 2; fz 0]] 2 d None.
Definition fcorner (d : dtype) : curve PrimFloat.float := mkCurve [[fz 4; fz 0]; [fz 2; fz 2]; [fz 4; fz 4]] 2 d None.
Definition near_by : almost_params PrimFloat.float := mkAlmost (fq 1 1000) false (fz 0) false (fz 0).
Example C91_run_ex :
  almost_curves near_by (fun l => l) (frising DInt) (ffalling DInt) false = Ok [] /\
  (exists x, almost_curves near_by (fun l => l) (frising DInt) (ffalling DFloat) false = Ok [x] /\ in_point x = Ok (IDPoint [fz 1; fz 1])) /\
  (exists x y, almost_curves near_by (fun l => l) (frising DInt) (fcorner DInt) false = Ok [x; y] /\ in_point x = Ok (IDPoint [fz 2; fz 2])).
Proof. split; [vm_compute; reflexivity|]. split; [eexists|do 2 eexists]; (split; [vm_compute; reflexivity|]); vm_compute; reflexivity. Qed.
