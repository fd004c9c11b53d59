(** Candidate pairs and intersection of curves. *)
From Coq Require Import ZArith List Bool Arith Lia Reals Lra Sorting.Sorted.
From Verif Require Import Num Py Numeric Curve Vec Geom Intersect Spec GeomSpec.
From Verif Require Import ListFacts CurveProofs CurveProofs2 CurveProofs3 VecFacts RankProofs GeomProofs GeomProofs2 GeomProofs3 GeomProofs4 IntersectProofs IntersectProofs2.
Import ListNotations.
Local Open Scope R_scope.
Local Open Scope nat_scope.

(** ** Candidate pairs *)

(** Row-major order of index pairs. *)
Definition before (p q : nat * nat) : Prop := fst p < fst q \/ (fst p = fst q /\ snd p < snd q).

Lemma sorted_app {A} (R : A -> A -> Prop) l1 l2 : StronglySorted R l1 -> StronglySorted R l2 ->
  (forall x y, In x l1 -> In y l2 -> R x y) -> StronglySorted R (l1 ++ l2).
Proof.
  intros H1 H2 H. induction H1 as [|a l1 H1 IH F]; [assumption|]. cbn. constructor.
  - apply IH. intros x y Hx Hy. apply H; [right; assumption|assumption].
  - apply Forall_app. split; [assumption|]. apply Forall_forall. intros y Hy. apply H; [left; reflexivity|assumption].
Qed.

Lemma sorted_filter {A} (R : A -> A -> Prop) f l : StronglySorted R l -> StronglySorted R (filter f l).
Proof.
  induction 1 as [|a l H IH F]; cbn; [constructor|]. destruct (f a); [|assumption].
  constructor; [assumption|]. apply Forall_forall. intros y Hy. apply filter_In in Hy.
  rewrite Forall_forall in F. apply F. tauto.
Qed.

Lemma sorted_seq a m : StronglySorted lt (seq a m).
Proof.
  revert a. induction m as [|m IH]; intros a; cbn; constructor; [apply IH|].
  apply Forall_forall. intros y Hy. apply in_seq in Hy. lia.
Qed.

Lemma sorted_map {A B} (R : A -> A -> Prop) (Q : B -> B -> Prop) (g : A -> B) l :
  (forall x y, R x y -> Q (g x) (g y)) -> StronglySorted R l -> StronglySorted Q (map g l).
Proof.
  intros H. induction 1 as [|a l S IH F]; cbn; constructor; [assumption|].
  apply Forall_forall. intros y Hy. apply in_map_iff in Hy. destruct Hy as (z & <- & Hz).
  rewrite Forall_forall in F. auto.
Qed.

Lemma nonzero_sorted m2 (f : nat -> nat -> bool) l : StronglySorted lt l ->
  StronglySorted before (flat_map (fun i => map (fun j => (i, j)) (filter (f i) (seq 0 m2))) l).
Proof.
  induction 1 as [|i l S IH F]; cbn [flat_map]; [constructor|].
  apply sorted_app; [|assumption|].
  - apply (sorted_map lt); [intros x y L; right; cbn; auto|]. apply sorted_filter, sorted_seq.
  - intros x y Hx Hy. apply in_map_iff in Hx. destruct Hx as (j & <- & _).
    apply in_flat_map in Hy. destruct Hy as (k & Hk & Hy). apply in_map_iff in Hy. destruct Hy as (z & <- & _).
    left. cbn. rewrite Forall_forall in F. auto.
Qed.

Lemma indices_sorted m1 m2 m self : StronglySorted before (curves_intersect_indices m1 m2 m self).
Proof.
  unfold curves_intersect_indices. destruct self.
  - apply sorted_filter. apply (nonzero_sorted m2 (fun i j => if Nat.leb j i then false else m i j)). apply sorted_seq.
  - apply (nonzero_sorted m2 m). apply sorted_seq.
Qed.

Lemma nonzero_In m1 m2 (f : nat -> nat -> bool) i j :
  In (i, j) (flat_map (fun i => map (fun j => (i, j)) (filter (f i) (seq 0 m2))) (seq 0 m1)) <->
  i < m1 /\ j < m2 /\ f i j = true.
Proof.
  rewrite in_flat_map. split.
  - intros (k & Hk & H). apply in_map_iff in H. destruct H as (z & E & Hz). injection E as -> ->.
    apply filter_In in Hz. destruct Hz as [Hz Hf]. apply in_seq in Hk, Hz. repeat split; [lia|lia|assumption].
  - intros (Hi & Hj & Hf). exists i. split; [apply in_seq; lia|]. apply in_map_iff. exists j. split; [reflexivity|].
    apply filter_In. split; [apply in_seq; lia|assumption].
Qed.

Lemma indices_In m1 m2 (m : nat -> nat -> bool) self i j :
  In (i, j) (curves_intersect_indices m1 m2 m self) <->
  i < m1 /\ j < m2 /\ m i j = true /\ (self = true -> i + 2 <= j).
Proof.
  unfold curves_intersect_indices. destruct self.
  - rewrite filter_In. rewrite (nonzero_In m1 m2 (fun i j => if Nat.leb j i then false else m i j)).
    destruct (Nat.leb_spec j i) as [L|L]; rewrite Bool.negb_true_iff, Z.ltb_ge.
    + split; [intros (( _ & _ & D) & _); discriminate|]. intros (_ & _ & _ & Q). specialize (Q eq_refl). lia.
    + split; [intros ((? & ? & ?) & ?); repeat split; try assumption; intros; lia|].
      intros (? & ? & ? & Q). specialize (Q eq_refl). repeat split; try assumption; lia.
  - rewrite (nonzero_In m1 m2 m). split; [intros (? & ? & ?); repeat split; try assumption; discriminate|].
    intros (? & ? & ? & _). auto.
Qed.

(** ** Segments of a curve *)
Section Curves.
  Context {T : Type} {NT : Num T} {ST : NumSqrt T}.

  (** The i-th segment of a list of points. *)
  Definition seg_at (rows : list (list T)) (i : nat) : segment T := mkSeg (nth i rows []) (nth (S i) rows []).

  Lemma np_get_nat {A} (l : list A) k a : nth_error l k = Some a -> np_get l (Z.of_nat k) = Ok a.
  Proof.
    intros E. apply np_get_ok. exists k. split; [|assumption]. split.
    - apply nth_error_Some. congruence.
    - left. reflexivity.
  Qed.

  Lemma take_segments_ok first (c : curve T) ix : Forall (fun k => k < c_size c - 1) ix ->
    take_segments first c ix = Ok (map (fun k => SegOf first (Z.of_nat k) (seg_at (c_rows c) k)) ix).
  Proof.
    intros H. unfold take_segments. destruct (c_segments_ok c) as (l & E & _ & N). rewrite E. cbn [rbind].
    assert (K : np_take l (map Z.of_nat ix) = Ok (map (fun k => (Z.of_nat k, nth k (c_rows c) [], nth (S k) (c_rows c) [])) ix)).
    { unfold np_take. apply rseq_ok_iff. rewrite !map_map. apply map_ext_in. intros k Hk.
      rewrite Forall_forall in H. specialize (H k Hk). unfold c_size in H.
      apply np_get_nat. apply N; apply nth_error_nth'; lia. }
    rewrite K. cbn [rbind]. rewrite map_map. reflexivity.
  Qed.

  Lemma map2_map {A B C D} (f : A -> B -> C) (g : D -> A) (h : D -> B) l :
    map2 f (map g l) (map h l) = map (fun x => f (g x) (h x)) l.
  Proof. induction l as [|x l IH]; cbn; [reflexivity|]. f_equal. assumption. Qed.

  (** The intersection object of one index pair. *)
  Definition pair_inter (c1 c2 : curve T) (i : info T) (ij : nat * nat) : inter T :=
    mkInter (SegOf true (Z.of_nat (fst ij)) (seg_at (c_rows c1) (fst ij)))
            (SegOf false (Z.of_nat (snd ij)) (seg_at (c_rows c2) (snd ij))) i.

  Lemma exact_curves_eq feps (c1 c2 : curve T) same :
    exact_curves feps c1 c2 same =
    do rs <- rseq (map (fun ij => do i <- exact_segments feps (seg_at (c_rows c1) (fst ij)) (seg_at (c_rows c2) (snd ij)) ;
                                  Ok (pair_inter c1 c2 i ij)) (bbox_pairs c1 c2 same)) ;
    Ok (filter in_bool rs).
  Proof.
    unfold exact_curves. set (prs := bbox_pairs c1 c2 same).
    assert (B : forall i j, In (i, j) prs -> i < c_size c1 - 1 /\ j < c_size c2 - 1).
    { intros i j H. unfold prs, bbox_pairs in H. destruct (_ || _); [destruct H|].
      apply indices_In in H. tauto. }
    destruct prs as [|p0 prs'] eqn:E; [reflexivity|]. rewrite <- E in *. clear E.
    rewrite !take_segments_ok.
    2,3: apply Forall_forall; intros k Hk; apply in_map_iff in Hk; destruct Hk as ((i & j) & <- & Hk); apply B in Hk; cbn; tauto.
    cbn [rbind]. rewrite !map_map, map2_map. reflexivity.
  Qed.

  Lemma almost_curves_eq pr order (c1 c2 : curve T) same :
    almost_curves pr order c1 c2 same =
    let pts := segments_points (promote (c_dtype c1) (c_dtype c2)) (c_rows c1) (c_rows c2) f_eps in
    let prs := curves_intersect_indices (c_size c1 - 1) (c_size c2 - 1)
                 (fun i j => nltb (vdist (fst (pts i j)) (snd (pts i j))) (al_dist_tol pr)) same in
    match prs with [] => Ok [] | _ =>
    do l <- rseq (map (fun ij =>
              do sh <- mk_segment (fst (pts (fst ij) (snd ij))) (snd (pts (fst ij) (snd ij))) ;
              Ok (pair_inter c1 c2 (mkInfo (IDSegment sh) IAlmost) ij)) prs) ;
    do l <- (if al_remove_extra pr then remove_extra (al_extra_tol pr) order l else Ok l) ;
    if al_correct_overlap pr then rseq (map (correct_overlap pr) l) else Ok l
    end.
  Proof.
    unfold almost_curves. cbv zeta. set (pts := segments_points _ _ _ _). set (prs := curves_intersect_indices _ _ _ _).
    assert (B : forall i j, In (i, j) prs -> i < c_size c1 - 1 /\ j < c_size c2 - 1).
    { intros i j H. unfold prs in H. apply indices_In in H. tauto. }
    destruct prs as [|p0 prs'] eqn:E; [reflexivity|]. rewrite <- E in *. clear E.
    rewrite !take_segments_ok.
    2,3: apply Forall_forall; intros k Hk; apply in_map_iff in Hk; destruct Hk as ((i & j) & <- & Hk); apply B in Hk; cbn; tauto.
    cbn [rbind]. rewrite !map_map.
    match goal with |- rbind (rseq (map2 ?f (combine (map ?g1 _) (map ?g2 _)) _)) _ = _ =>
      replace (map2 f (combine (map g1 prs) (map g2 prs)) prs) with (map (fun ij => f (g1 ij, g2 ij) ij) prs) end.
    2:{ clear. induction prs as [|x l IH]; cbn; [reflexivity|]. f_equal. assumption. }
    erewrite (map_ext (fun ij => _) (fun ij => _)); [reflexivity|].
    intros (i & j). cbn [fst snd]. reflexivity.
  Qed.
End Curves.

Lemma rseq_map_ok {A B} (f : A -> res B) (g : A -> B) l : (forall x, In x l -> f x = Ok (g x)) ->
  rseq (map f l) = Ok (map g l).
Proof. intros H. apply rseq_ok_iff. rewrite map_map. apply map_ext_in. assumption. Qed.

(** Over the reals the exact method never fails on well-formed segments. *)
Lemma exact_segments_total n feps (s1 s2 : segment R) : seg_wf n s1 -> seg_wf n s2 ->
  exists i, exact_segments feps s1 s2 = Ok i.
Proof.
  intros H1 H2. destruct (sg_collinear s1 s2) eqn:C.
  - rewrite exact_segments_collinear by assumption. destruct (overlap_segments _ _ _); eauto.
  - destruct (exact_segments_main n feps s1 s2 H1 H2 C) as [(N & _)|(_ & _ & _ & x & y & EQ & E)]; [eauto|].
    rewrite E. destruct (_ && _); eauto.
Qed.

Lemma seg_at_wf n (rows : list (list R)) i : dims n rows -> S i < length rows -> seg_wf n (seg_at rows i).
Proof. intros D H. split; cbn; apply D, nth_In; lia. Qed.

(** Generic: the list of the truthy results of a total function over sorted
    pairs. *)
Lemma filtered_pairs (f : nat * nat -> inter R) (prs : list (nat * nat)) :
  StronglySorted before prs ->
  exists ps, StronglySorted before ps /\ filter in_bool (map f prs) = map f ps /\
    forall ij, In ij ps <-> In ij prs /\ in_bool (f ij) = true.
Proof.
  intros S. exists (filter (fun ij => in_bool (f ij)) prs). split; [apply sorted_filter; assumption|]. split.
  - clear S. induction prs as [|x l IH]; cbn; [reflexivity|]. destruct (in_bool (f x)); cbn; [f_equal|]; assumption.
  - intros ij. apply filter_In.
Qed.

(** The box test: all coordinate ranges overlap up to closeness. *)
Definition boxes_meet (p1 p2 q1 q2 : list R) : Prop :=
  forall i, i < length p1 ->
    (let lo := Rmin (nth i p1 0) (nth i p2 0) in let hi := Rmax (nth i q1 0) (nth i q2 0) in
     lo < hi \/ Rabs (lo - hi) <= / 100000000 + / 100000 * Rabs hi)%R /\
    (let hi := Rmax (nth i p1 0) (nth i p2 0) in let lo := Rmin (nth i q1 0) (nth i q2 0) in
     lo < hi \/ Rabs (hi - lo) <= / 100000000 + / 100000 * Rabs lo)%R.

Lemma forallb_nth (l : list bool) : forallb Datatypes.id l = true <-> forall i, i < length l -> nth i l false = true.
Proof.
  rewrite forallb_forall. split.
  - intros H i Hi. apply H. apply nth_In. assumption.
  - intros H x Hx. destruct (In_nth l x false Hx) as (i & Hi & <-). apply H. assumption.
Qed.

Lemma bbox_intersect_iff n (rows1 rows2 : list (list R)) i j : dims n rows1 -> dims n rows2 ->
  S i < length rows1 -> S j < length rows2 ->
  (bbox_intersect rows1 rows2 i j = true <->
   boxes_meet (nth i rows1 []) (nth (S i) rows1 []) (nth j rows2 []) (nth (S j) rows2 [])).
Proof.
  intros D1 D2 Hi Hj. unfold bbox_intersect, boxes_meet, seg_pmin, seg_pmax.
  assert (L1 : length (nth i rows1 []) = n) by (apply D1, nth_In; lia).
  assert (L2 : length (nth (S i) rows1 []) = n) by (apply D1, nth_In; lia).
  assert (L3 : length (nth j rows2 []) = n) by (apply D2, nth_In; lia).
  assert (L4 : length (nth (S j) rows2 []) = n) by (apply D2, nth_In; lia).
  set (a := nth i rows1 []) in *. set (b := nth (S i) rows1 []) in *.
  set (c := nth j rows2 []) in *. set (d := nth (S j) rows2 []) in *.
  rewrite forallb_nth, !map2_length. rewrite L1, L2, L3, L4, !Nat.min_id.
  split; intros H k Hk; specialize (H k Hk);
    rewrite !(nth_map2 _ _ _ k false false false) in * by (rewrite ?map2_length; lia);
    rewrite !(nth_map2 _ _ _ k 0%R 0%R false) in * by (rewrite ?map2_length; lia);
    rewrite ?(nth_map2 npmin _ _ k 0%R 0%R 0%R) in * by lia; rewrite ?(nth_map2 npmax _ _ k 0%R 0%R 0%R) in * by lia;
    rewrite !npmin_R, !npmax_R in *;
    cbn [nltb RNum] in *; rewrite Bool.andb_true_iff, !Bool.orb_true_iff, !Rltb_iff, !isclose_R in *; exact H.
Qed.

Lemma common_point_boxes (p1 p2 q1 q2 x : list R) : length q1 = length p1 ->
  on_segment p1 p2 x -> on_segment q1 q2 x -> boxes_meet p1 p2 q1 q2.
Proof.
  intros L (t & Ht & _ & Ex) (s & Hs & _ & Ey) i Hi. specialize (Ex i). specialize (Ey i).
  pose proof (param_interval (nth i p1 0%R) (nth i p2 0%R) t Ht) as A.
  pose proof (param_interval (nth i q1 0%R) (nth i q2 0%R) s Hs) as B.
  rewrite <- Ex in A. rewrite <- Ey in B. cbv zeta.
  set (l1 := Rmin (nth i p1 0%R) (nth i p2 0%R)) in *. set (h1 := Rmax (nth i p1 0%R) (nth i p2 0%R)) in *.
  set (l2 := Rmin (nth i q1 0%R) (nth i q2 0%R)) in *. set (h2 := Rmax (nth i q1 0%R) (nth i q2 0%R)) in *.
  assert (Q : forall u v : R, (u <= v)%R -> (u < v \/ Rabs (u - v) <= / 100000000 + / 100000 * Rabs v)%R).
  { intros u v [H|H]; [left; assumption|]. right. subst v. rewrite Rminus_diag_eq by reflexivity.
    rewrite Rabs_R0. pose proof (Rabs_pos u). lra. }
  split; [apply Q; lra|]. destruct (Q l2 h1) as [K|K]; [lra|left; assumption|].
  destruct (Req_dec l2 h1) as [E|E]; [right|left; lra].
  rewrite E, Rminus_diag_eq by reflexivity. rewrite Rabs_R0. pose proof (Rabs_pos h1). lra.
Qed.

(** ** Exact intersection of two curves *)
Lemma exact_curves_spec n feps (c1 c2 : curve R) same :
  dims n (c_rows c1) -> dims n (c_rows c2) -> (same = true -> c2 = c1) ->
  exists ps l, exact_curves feps c1 c2 same = Ok l /\ StronglySorted before ps /\
    Forall2 (fun '(i, j) x =>
      in_seg1 x = SegOf true (Z.of_nat i) (seg_at (c_rows c1) i) /\
      in_seg2 x = SegOf false (Z.of_nat j) (seg_at (c_rows c2) j) /\
      exact_segments feps (seg_at (c_rows c1) i) (seg_at (c_rows c2) j) = Ok (in_info x)) ps l /\
    forall i j, In (i, j) ps <->
      S i < c_size c1 /\ S j < c_size c2 /\ (same = true -> i + 2 <= j) /\
      boxes_meet (nth i (c_rows c1) []) (nth (S i) (c_rows c1) []) (nth j (c_rows c2) []) (nth (S j) (c_rows c2) []) /\
      exists y, exact_segments feps (seg_at (c_rows c1) i) (seg_at (c_rows c2) j) = Ok y /\ i_type y <> INone.
Proof.
  intros D1 D2 Hs.
  set (fi := fun ij : nat * nat =>
    match exact_segments feps (seg_at (c_rows c1) (fst ij)) (seg_at (c_rows c2) (snd ij)) with
    | Ok y => y | Raise _ => not_intersected end).
  set (f := fun ij => pair_inter c1 c2 (fi ij) ij).
  assert (HB : forall i j, In (i, j) (bbox_pairs c1 c2 same) <->
     S i < c_size c1 /\ S j < c_size c2 /\ (same = true -> i + 2 <= j) /\
     boxes_meet (nth i (c_rows c1) []) (nth (S i) (c_rows c1) []) (nth j (c_rows c2) []) (nth (S j) (c_rows c2) [])).
  { intros i j. unfold bbox_pairs.
    replace (if same then c_rows c1 else c_rows c2) with (c_rows c2) by (destruct same; [rewrite Hs by reflexivity|]; reflexivity).
    destruct (Nat.eqb_spec (c_size c1) 0) as [Z1|Z1]; cbn [orb].
    { cbn [In]. split; [tauto|lia]. }
    destruct (Nat.eqb_spec (c_size c2) 0) as [Z2|Z2]; cbn [orb].
    { cbn [In]. split; [tauto|lia]. }
    rewrite indices_In. split.
    - intros (H1 & H2 & H3 & H4). apply (bbox_intersect_iff n) in H3; unfold c_size in *; try assumption; try lia.
      split; [lia|]. split; [lia|]. split; assumption.
    - intros (H1 & H2 & H3 & H4). repeat split; try lia; try assumption.
      apply (bbox_intersect_iff n); unfold c_size in *; try assumption; lia. }
  assert (TOT : forall i j, S i < c_size c1 -> S j < c_size c2 ->
     exact_segments feps (seg_at (c_rows c1) i) (seg_at (c_rows c2) j) = Ok (fi (i, j))).
  { intros i j Hi Hj. unfold fi. cbn [fst snd].
    destruct (exact_segments_total n feps (seg_at (c_rows c1) i) (seg_at (c_rows c2) j)) as (y & E).
    1,2: apply seg_at_wf; assumption. rewrite E. reflexivity. }
  rewrite exact_curves_eq. rewrite (rseq_map_ok _ f).
  2:{ intros (i & j) H. apply HB in H. destruct H as (Hi & Hj & _). cbn [fst snd]. rewrite (TOT i j Hi Hj). reflexivity. }
  cbn [rbind].
  assert (S0 : StronglySorted before (bbox_pairs c1 c2 same)).
  { unfold bbox_pairs. destruct (_ || _); [constructor|]. apply indices_sorted. }
  destruct (filtered_pairs f _ S0) as (ps & Sp & Ef & Ip). exists ps, (map f ps). rewrite Ef.
  split; [reflexivity|]. split; [assumption|]. split.
  - assert (G : forall ij, In ij ps -> In ij (bbox_pairs c1 c2 same)) by (intros ij H; apply Ip in H; tauto).
    clear Ip Ef Sp S0. induction ps as [|(i & j) ps IH]; cbn [map]; constructor.
    + cbn. repeat split. assert (K : In (i, j) (bbox_pairs c1 c2 same)) by (apply G; left; reflexivity).
      apply HB in K. destruct K as (Hi & Hj & _). apply TOT; assumption.
    + apply IH. intros ij H. apply G. right. assumption.
  - intros i j. rewrite Ip, HB.
    assert (IB : in_bool (f (i, j)) = true <-> i_type (fi (i, j)) <> INone).
    { unfold in_bool, f, pair_inter. cbn. destruct (i_type (fi (i, j))); cbn; split; congruence. }
    rewrite IB. split.
    + intros ((Hi & Hj & Hq & Hb) & Ht). repeat (split; [assumption|]). exists (fi (i, j)). split; [apply TOT; assumption|assumption].
    + intros (Hi & Hj & Hq & Hb & y & E & Ht). split; [tauto|]. rewrite TOT in E by assumption. injection E as <-. assumption.
Qed.

(** ** Almost intersection *)
Lemma almost_segments_simple (pr : almost_params R) (s1 s2 : segment R) : al_correct_overlap pr = false ->
  almost_segments pr s1 s2 =
    if Rltb (sg_distance s1 s2) (al_dist_tol pr) then Ok (mkInfo (IDSegment (sg_shortest s1 s2)) IAlmost)
    else Ok not_intersected.
Proof.
  intros E. unfold almost_segments, sg_distance. cbv zeta. rewrite E. cbn [nltb RNum].
  destruct (Rltb _ _); reflexivity.
Qed.

(** The segment between the points the array version computes: the parameters
    are truncated for two integer curves. *)
Definition shortest_dt (dt : dtype) (s1 s2 : segment R) : segment R :=
  mkSeg (sg_point s1 (cast dt (fst (segment_to_segment s1 s2 f_eps))))
        (sg_point s2 (cast dt (snd (segment_to_segment s1 s2 f_eps)))).

Lemma shortest_float s1 s2 : shortest_dt DFloat s1 s2 = sg_shortest s1 s2.
Proof. unfold shortest_dt, sg_shortest. destruct (segment_to_segment _ _ _). reflexivity. Qed.

Lemma promote_float a b : a = DFloat \/ b = DFloat -> promote a b = DFloat.
Proof. intros [-> | ->]; [reflexivity|]. destruct a; reflexivity. Qed.

Lemma shortest_dt_at n dt (c1 c2 : curve R) i j : dims n (c_rows c1) -> dims n (c_rows c2) ->
  S i < c_size c1 -> S j < c_size c2 ->
  let pts := segments_points dt (c_rows c1) (c_rows c2) f_eps in
  shortest_dt dt (seg_at (c_rows c1) i) (seg_at (c_rows c2) j) = mkSeg (fst (pts i j)) (snd (pts i j)).
Proof.
  intros D1 D2 Hi Hj. cbv zeta. unfold shortest_dt.
  rewrite (segments_points_pointwise _ _ _ f_eps i j n); try assumption; try (rewrite f_eps_R; lra).
  reflexivity.
Qed.

(** The list the almost method builds before the optional passes. *)
Lemma almost_list_dt n (pr : almost_params R) (c1 c2 : curve R) same : 0 < n ->
  dims n (c_rows c1) -> dims n (c_rows c2) ->
  let dt := promote (c_dtype c1) (c_dtype c2) in
  exists ps, StronglySorted before ps /\
    (forall order, almost_curves pr order c1 c2 same =
       do l <- (let l := map (fun ij => pair_inter c1 c2 (mkInfo (IDSegment
                  (shortest_dt dt (seg_at (c_rows c1) (fst ij)) (seg_at (c_rows c2) (snd ij)))) IAlmost) ij) ps in
                if al_remove_extra pr then (match ps with [] => Ok [] | _ => remove_extra (al_extra_tol pr) order l end) else Ok l) ;
       if al_correct_overlap pr then rseq (map (correct_overlap pr) l) else Ok l) /\
    forall i j, In (i, j) ps <->
      S i < c_size c1 /\ S j < c_size c2 /\ (same = true -> i + 2 <= j) /\
      (sg_len (shortest_dt dt (seg_at (c_rows c1) i) (seg_at (c_rows c2) j)) < al_dist_tol pr)%R.
Proof.
  intros Hn D1 D2 dt.
  exists (curves_intersect_indices (c_size c1 - 1) (c_size c2 - 1)
    (fun i j => let pts := segments_points dt (c_rows c1) (c_rows c2) f_eps in
                nltb (vdist (fst (pts i j)) (snd (pts i j))) (al_dist_tol pr)) same).
  split; [apply indices_sorted|].
  assert (IP : forall i j, In (i, j) (curves_intersect_indices (c_size c1 - 1) (c_size c2 - 1)
    (fun i j => let pts := segments_points dt (c_rows c1) (c_rows c2) f_eps in
                nltb (vdist (fst (pts i j)) (snd (pts i j))) (al_dist_tol pr)) same) <->
      S i < c_size c1 /\ S j < c_size c2 /\ (same = true -> i + 2 <= j) /\
      (sg_len (shortest_dt dt (seg_at (c_rows c1) i) (seg_at (c_rows c2) j)) < al_dist_tol pr)%R).
  { intros i j. rewrite indices_In. cbv zeta. split.
    - intros (H1 & H2 & H3 & H4). repeat split; try lia; try assumption.
      rewrite (shortest_dt_at n dt) by (try assumption; lia). apply Rltb_iff. exact H3.
    - intros (H1 & H2 & H3 & H4). repeat split; try lia; try assumption.
      rewrite (shortest_dt_at n dt) in H4 by (try assumption; lia). apply Rltb_iff. exact H4. }
  split; [|exact IP].
  intros order. rewrite almost_curves_eq. cbv zeta. fold dt. cbv zeta in IP.
  set (prs := curves_intersect_indices _ _ _ _) in *.
  match goal with |- context [rbind (rseq (map ?f prs)) _] =>
    replace (rseq (map f prs)) with (Ok (map (fun ij => pair_inter c1 c2 (mkInfo (IDSegment
                  (shortest_dt dt (seg_at (c_rows c1) (fst ij)) (seg_at (c_rows c2) (snd ij)))) IAlmost) ij) prs)) end.
  2:{ symmetry. apply rseq_map_ok. intros (i & j) H. cbn [fst snd]. apply IP in H. destruct H as (Hi & Hj & _).
      rewrite (shortest_dt_at n dt) by assumption. unfold mk_segment.
      rewrite (segments_points_pointwise _ _ _ f_eps i j n); try assumption; try (rewrite f_eps_R; lra).
      cbn [fst snd]. pose proof (seg_at_wf n _ _ D1 Hi) as W1. pose proof (seg_at_wf n _ _ D2 Hj) as W2.
      unfold seg_at in *. rewrite !(sg_point_length n) by assumption.
      rewrite Nat.eqb_refl. destruct (Nat.eqb_spec n 0); [lia|]. reflexivity. }
  cbn [rbind]. destruct prs as [|p prs'] eqn:E; [|reflexivity].
  destruct (al_remove_extra pr), (al_correct_overlap pr); reflexivity.
Qed.

Lemma almost_list n (pr : almost_params R) (c1 c2 : curve R) same : 0 < n ->
  c_dtype c1 = DFloat \/ c_dtype c2 = DFloat ->
  dims n (c_rows c1) -> dims n (c_rows c2) ->
  exists ps, StronglySorted before ps /\
    (forall order, almost_curves pr order c1 c2 same =
       do l <- (let l := map (fun ij => pair_inter c1 c2 (mkInfo (IDSegment
                  (sg_shortest (seg_at (c_rows c1) (fst ij)) (seg_at (c_rows c2) (snd ij)))) IAlmost) ij) ps in
                if al_remove_extra pr then (match ps with [] => Ok [] | _ => remove_extra (al_extra_tol pr) order l end) else Ok l) ;
       if al_correct_overlap pr then rseq (map (correct_overlap pr) l) else Ok l) /\
    forall i j, In (i, j) ps <->
      S i < c_size c1 /\ S j < c_size c2 /\ (same = true -> i + 2 <= j) /\
      (sg_distance (seg_at (c_rows c1) i) (seg_at (c_rows c2) j) < al_dist_tol pr)%R.
Proof.
  intros Hn F D1 D2. destruct (almost_list_dt n pr c1 c2 same Hn D1 D2) as (ps & S & E & I).
  rewrite (promote_float _ _ F) in *. exists ps. split; [exact S|]. split.
  - intros order. rewrite E. cbv zeta. rewrite (map_ext _ (fun ij => pair_inter c1 c2 (mkInfo (IDSegment
      (sg_shortest (seg_at (c_rows c1) (fst ij)) (seg_at (c_rows c2) (snd ij)))) IAlmost) ij)); [reflexivity|].
    intros ij. rewrite shortest_float. reflexivity.
  - intros i j. rewrite I, shortest_float. reflexivity.
Qed.
