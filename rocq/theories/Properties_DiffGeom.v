(** Properties C24-C30: arc length, derivatives, Frenet vectors, curvature and
    torsion. *)
From Coq Require Import ZArith List Bool Arith Lia QArith PrimFloat Reals Lra Psatz.
From Verif Require Import Num Py Numeric Curve Vec DiffGeom Spec GeomSpec Fixtures.
From Verif Require Import ListFacts VecFacts CurveProofs CurveProofs2 CurveProofs3 GeomProofs Properties_Container.
From Verif Require Import DiffGeomProofs DiffGeomProofs2 DiffGeomProofs3 DiffGeomProofs4 DiffGeomProofs5.
Import ListNotations.
Local Open Scope R_scope.

(** Curves used in the examples: a plane path with chords 5 and 12, a parabola
    and a segment of the x axis in space. *)
Definition rpath : curve R := mkCurve [[0; 0]; [3; 4]; [3; 16]] 2 DFloat None.
Definition rparabola : curve R := mkCurve [[0; 0]; [1; 1]; [2; 4]; [3; 9]] 2 DFloat None.
Definition rline : curve R := mkCurve [[0; 0; 0]; [1; 0; 0]; [2; 0; 0]] 3 DFloat None.
Definition rtwisted : curve R := mkCurve [[0; 0; 0]; [1; 1; 1]; [2; 4; 8]; [3; 9; 27]] 3 DFloat None.

Ltac wfr := split; [|split]; cbn; [lia| |discriminate]; intros p Hp; repeat (destruct Hp as [<-|Hp]; [reflexivity|]); destruct Hp.
Lemma rpath_wf : wf rpath. Proof. wfr. Qed.
Lemma rparabola_wf : wf rparabola. Proof. wfr. Qed.
Lemma rline_wf : wf rline. Proof. wfr. Qed.
Lemma rtwisted_wf : wf rtwisted. Proof. wfr. Qed.

Lemma wf_dims (c : curve R) : wf c -> dims (c_ndim c) (c_rows c).
Proof. intros (_ & H & _). exact H. Qed.
Lemma sqrt_of x y : 0 <= y -> x = y * y -> sqrt x = y.
Proof. intros H ->. apply sqrt_square. assumption. Qed.

(** ** C24 Chord, arc and cumulative arc length *)

Theorem C24_chordlen : forall junk (c : curve R), wf c -> c_rows c <> [] ->
  S (length (c_chordlen junk c)) = c_size c /\
  forall i, (S i < c_size c)%nat -> nth i (c_chordlen junk c) 0 = dist (nth i (c_rows c) []) (nth (S i) (c_rows c) []).
Proof.
  intros junk c W N. rewrite c_chordlen_rows by (apply c_bool_wf; assumption). unfold c_size. split.
  - rewrite chordlen_rows_length. destruct (c_rows c); [contradiction|]. cbn. lia.
  - apply (chordlen_rows_nth (c_ndim c)), wf_dims, W.
Qed.
Print Assumptions C24_chordlen.

Theorem C24_arclen : forall junk (c : curve R), wf c -> c_rows c <> [] ->
  c_arclen junk c =
    fold_right Rplus 0 (map (fun i => dist (nth i (c_rows c) []) (nth (S i) (c_rows c) [])) (seq 0 (c_size c - 1))).
Proof.
  intros junk c W N. destruct (C24_chordlen junk c W N) as (L & H).
  unfold c_arclen. change (vsum (c_chordlen junk c)) with (fold_right Rplus 0 (c_chordlen junk c)). f_equal.
  apply (nth_ext _ _ 0 0).
  - rewrite map_length, seq_length. lia.
  - intros i Hi. rewrite H by lia.
    set (f := fun i => dist (nth i (c_rows c) []) (nth (S i) (c_rows c) [])).
    rewrite (nth_indep _ 0 (f 0%nat)) by (rewrite map_length, seq_length; lia).
    rewrite map_nth, seq_nth by lia. reflexivity.
Qed.
Print Assumptions C24_arclen.

Theorem C24_cumarclen : forall junk (c : curve R), wf c -> c_rows c <> [] ->
  length (c_cumarclen junk c) = c_size c /\
  nth 0 (c_cumarclen junk c) 1 = 0 /\
  (forall i, (S i < c_size c)%nat ->
     nth (S i) (c_cumarclen junk c) 0 = nth i (c_cumarclen junk c) 0 + dist (nth i (c_rows c) []) (nth (S i) (c_rows c) [])) /\
  (forall i j, (i <= j < c_size c)%nat -> nth i (c_cumarclen junk c) 0 <= nth j (c_cumarclen junk c) 0) /\
  nth (c_size c - 1) (c_cumarclen junk c) 0 = c_arclen junk c.
Proof.
  intros junk c W N. assert (B := c_bool_wf c W N). assert (D := wf_dims c W).
  assert (S1 : forall i, (S i < c_size c)%nat ->
     nth (S i) (c_cumarclen junk c) 0 = nth i (c_cumarclen junk c) 0 + dist (nth i (c_rows c) []) (nth (S i) (c_rows c) []))
   by (intros i Hi; apply (cumarclen_step (c_ndim c)); assumption).
  split; [apply cumarclen_length; assumption|]. split; [reflexivity|]. split; [assumption|]. split.
  - intros i j [Hij Hj]. induction Hij as [|j Hij IH]; [lra|]. rewrite S1 by assumption.
    pose proof (dist_nonneg (nth j (c_rows c) []) (nth (S j) (c_rows c) [])). specialize (IH ltac:(lia)). lra.
  - unfold c_size. rewrite (cumarclen_polyline (c_ndim c)); [|assumption|assumption|destruct (c_rows c); [contradiction|cbn; lia]].
    rewrite (arclen_polyline (c_ndim c)) by assumption. f_equal.
    replace (S (length (c_rows c) - 1)) with (length (c_rows c)) by (destruct (c_rows c); [contradiction|cbn; lia]).
    apply firstn_all.
Qed.
Print Assumptions C24_cumarclen.
Example C24_ex : c_chordlen 99 rpath = [5; 12] /\ c_arclen 99 rpath = 17 /\ c_cumarclen 99 rpath = [0; 5; 17].
Proof.
  assert (E : c_chordlen 99 rpath = [5; 12]).
  { cbn. f_equal; [apply sqrt_of; lra|]. f_equal. apply sqrt_of; lra. }
  unfold c_arclen, c_cumarclen. rewrite E. cbn. repeat split; [lra|repeat f_equal; lra].
Qed.

(** An empty curve: the arc length is whatever the uninitialised array holds. *)
Theorem C24_empty : forall T (NT : Num T) (ST : NumSqrt T) (junk : T) (c : curve T), c_rows c = [] ->
  c_chordlen junk c = [junk] /\ c_cumarclen junk c = [n0; junk] /\ c_arclen junk c = nadd junk n0.
Proof.
  intros T NT ST junk c E. unfold c_cumarclen, c_arclen, c_chordlen, c_bool, c_size. rewrite E. repeat split.
Qed.
Print Assumptions C24_empty.
Theorem C24_empty_arclen_refuted : forall c : curve R, c_rows c = [] -> exists junk junk', c_arclen junk c <> c_arclen junk' c.
Proof. intros c E. exists 0, 1. rewrite !(proj2 (proj2 (C24_empty R _ _ _ c E))). cbn. lra. Qed.
Print Assumptions C24_empty_arclen_refuted.

(** ** C25 Arc length laws *)

Theorem C25_reverse : forall junk (c : curve R), wf c -> c_rows c <> [] ->
  exists c', c_reverse c = Ok c' /\ c_arclen junk c' = c_arclen junk c.
Proof.
  intros junk c W N. destruct (C07_reverse R c W) as (c' & E & Er & _ & _ & _ & W'). exists c'. split; [assumption|].
  assert (N' : c_rows c' <> []) by (rewrite Er; intros K; apply (f_equal (@rev _)) in K; rewrite rev_involutive in K; contradiction).
  assert (D := wf_dims c W). assert (B := c_bool_wf c W N). assert (B' := c_bool_wf c' W' N').
  rewrite (arclen_polyline (c_ndim c) junk c D B).
  rewrite (arclen_polyline (c_ndim c) junk c'); [|rewrite Er; intros p Hp; apply D, in_rev, Hp|assumption].
  rewrite Er. apply (polyline_rev (c_ndim c)). assumption.
Qed.
Print Assumptions C25_reverse.

(** Every map of the points that multiplies all distances by k: translations,
    rotations and reflections (k = 1), scalings. *)
Theorem C25_similarity : forall junk (c c' : curve R) f k, wf c -> wf c' -> c_rows c <> [] -> c_rows c' = map f (c_rows c) ->
  (forall p q, length p = c_ndim c -> length q = c_ndim c -> dist (f p) (f q) = k * dist p q) ->
  c_arclen junk c' = k * c_arclen junk c.
Proof.
  intros junk c c' f k W W' N E H.
  assert (N' : c_rows c' <> []) by (rewrite E; destruct (c_rows c); [contradiction|discriminate]).
  rewrite (arclen_polyline (c_ndim c) junk c); [|apply wf_dims, W|apply c_bool_wf; assumption].
  rewrite (arclen_polyline (c_ndim c') junk c'); [|apply wf_dims, W'|apply c_bool_wf; assumption].
  rewrite E. apply (polyline_map (c_ndim c)); [apply wf_dims, W|assumption].
Qed.
Print Assumptions C25_similarity.

Theorem C25_translate_scale : forall junk (c c' : curve R) w k, wf c -> wf c' -> c_rows c <> [] -> 0 <= k ->
  c_size c' = c_size c -> c_ndim c' = c_ndim c ->
  (forall i j, nth j (nth i (c_rows c') []) 0 = k * nth j (nth i (c_rows c) []) 0 + (if (i <? c_size c)%nat then if (j <? c_ndim c)%nat then nth j w 0 else 0 else 0)) ->
  c_arclen junk c' = k * c_arclen junk c.
Proof.
  intros junk c c' w k W W' N Hk Es En H. set (n := c_ndim c) in *.
  assert (N' : c_rows c' <> []) by (unfold c_size in Es; destruct (c_rows c'), (c_rows c); try contradiction; try discriminate).
  rewrite !C24_arclen by assumption. rewrite Es.
  assert (D := wf_dims c W). assert (D' := wf_dims c' W'). rewrite En in D'. fold n in D.
  assert (Q : forall i, (S i < c_size c)%nat ->
    dist (nth i (c_rows c') []) (nth (S i) (c_rows c') []) = k * dist (nth i (c_rows c) []) (nth (S i) (c_rows c) [])).
  { intros i Hi. unfold c_size in *.
    assert (L1 : length (nth i (c_rows c) []) = n) by (apply D, nth_In; lia).
    assert (L2 : length (nth (S i) (c_rows c) []) = n) by (apply D, nth_In; lia).
    assert (L3 : length (nth i (c_rows c') []) = n) by (apply D', nth_In; lia).
    assert (L4 : length (nth (S i) (c_rows c') []) = n) by (apply D', nth_In; lia).
    assert (V : minus (nth (S i) (c_rows c') []) (nth i (c_rows c') []) = vscale (minus (nth (S i) (c_rows c) []) (nth i (c_rows c) [])) k).
    { rewrite !minus_vsub by congruence. apply vec_ext.
      - rewrite vscale_length, !vsub_length by congruence. congruence.
      - intros j. rewrite nth_vscale, !nth_vsub by congruence. rewrite !H.
        replace (i <? length (c_rows c))%nat with true by (symmetry; apply Nat.ltb_lt; lia).
        replace (S i <? length (c_rows c))%nat with true by (symmetry; apply Nat.ltb_lt; lia). ring. }
    unfold dist. rewrite V, !norm_vnorm, vnorm_scale, Rabs_right by lra. reflexivity. }
  assert (G : forall l : list nat, (forall i, In i l -> (S i < c_size c)%nat) ->
    fold_right Rplus 0 (map (fun i => dist (nth i (c_rows c') []) (nth (S i) (c_rows c') [])) l)
    = k * fold_right Rplus 0 (map (fun i => dist (nth i (c_rows c) []) (nth (S i) (c_rows c) [])) l)).
  { induction l as [|i l IH]; intros Hl; cbn [map fold_right]; [lra|].
    rewrite IH by (intros; apply Hl; right; assumption). rewrite Q by (apply Hl; left; reflexivity). lra. }
  apply G. intros i Hi. apply in_seq in Hi. lia.
Qed.
Print Assumptions C25_translate_scale.

Theorem C25_ends : forall junk (c : curve R), wf c -> c_rows c <> [] ->
  dist (hd [] (c_rows c)) (last (c_rows c) []) <= c_arclen junk c.
Proof.
  intros junk c W N. rewrite (arclen_polyline (c_ndim c) junk c); [|apply wf_dims, W|apply c_bool_wf; assumption].
  apply (polyline_ends (c_ndim c)); [apply wf_dims, W|assumption].
Qed.
Print Assumptions C25_ends.

Theorem C25_join : forall junk (c1 c2 c : curve R), wf c1 -> wf c2 -> c_rows c1 <> [] -> c_rows c2 <> [] ->
  c_add c1 c2 = Ok c ->
  c_arclen junk c = c_arclen junk c1 + dist (last (c_rows c1) []) (hd [] (c_rows c2)) + c_arclen junk c2.
Proof.
  intros junk c1 c2 c W1 W2 N1 N2 E.
  assert (En : c_ndim c1 = c_ndim c2).
  { destruct (Nat.eq_dec (c_ndim c1) (c_ndim c2)) as [K|K]; [assumption|]. rewrite C05_add_ndim_error in E by assumption. discriminate. }
  destruct (C05_add R c1 c2 W1 W2 En) as (c' & E' & Er & _ & _ & _ & W). rewrite E in E'. injection E' as <-.
  assert (N : c_rows c <> []) by (rewrite Er; destruct (c_rows c1); [contradiction|discriminate]).
  rewrite (arclen_polyline (c_ndim c) junk c); [|apply wf_dims, W|apply c_bool_wf; assumption].
  rewrite (arclen_polyline (c_ndim c1) junk c1); [|apply wf_dims, W1|apply c_bool_wf; assumption].
  rewrite (arclen_polyline (c_ndim c2) junk c2); [|apply wf_dims, W2|apply c_bool_wf; assumption].
  rewrite Er. apply polyline_join; assumption.
Qed.
Print Assumptions C25_join.

(** Deleting points never lengthens a curve, inserting them never shortens it. *)
Theorem C25_delete : forall junk (c c' : curve R) ix, wf c -> in_range ix (c_size c) -> c_delete c ix = Ok c' -> c_rows c' <> [] ->
  c_arclen junk c' <= c_arclen junk c.
Proof.
  intros junk c c' ix W I E N. destruct (C09_delete R c ix W I) as (c'' & ks & E' & S & A & _ & W'). rewrite E in E'. injection E' as <-.
  exact (selects_arclen c c' ks junk junk W W' N S A).
Qed.
Print Assumptions C25_delete.

Theorem C25_insert : forall junk (c c' : curve R) i k x, wf c -> (forall c2, x = ICurve c2 -> wf c2) -> c_ndim c = item_ndim x ->
  (k <= c_size c)%nat -> (i = Z.of_nat k \/ (i < 0 /\ i = Z.of_nat k - Z.of_nat (c_size c)))%Z -> c_rows c <> [] ->
  c_insert c (IxInt i) x = Ok c' ->
  c_arclen junk c <= c_arclen junk c'.
Proof.
  intros junk c c' i k x W Wx En Hk Hi N E.
  destruct (C08_insert R _ c i k x W Wx En Hk Hi) as (c'' & E' & Er & _ & _ & _ & W'). rewrite E in E'. injection E' as <-.
  assert (SL : sublist (c_rows c) (c_rows c')).
  { rewrite Er. rewrite <- (firstn_skipn k (c_rows c)) at 1. apply sublist_mid. }
  assert (N' : c_rows c' <> []) by (intros K; rewrite K in SL; inversion SL; congruence).
  rewrite (arclen_polyline (c_ndim c) junk c); [|apply wf_dims, W|apply c_bool_wf; assumption].
  rewrite (arclen_polyline (c_ndim c') junk c'); [|apply wf_dims, W'|apply c_bool_wf; assumption].
  apply (polyline_sublist (c_ndim c')); [apply wf_dims, W'|assumption].
Qed.
Print Assumptions C25_insert.

Example C25_ex : c_arclen 99 rpath = 17 /\ dist (hd [] (c_rows rpath)) (last (c_rows rpath) []) <= 17
  /\ c_add rpath rpath = Ok (mkCurve [[0; 0]; [3; 4]; [3; 16]; [0; 0]; [3; 4]; [3; 16]] 2 DFloat None)
  /\ c_delete rpath (IxInt 1) = Ok (mkCurve [[0; 0]; [3; 16]] 2 DFloat None).
Proof.
  split; [apply C24_ex|]. split.
  - rewrite <- (proj1 (proj2 C24_ex)). apply C25_ends; [apply rpath_wf|discriminate].
  - split; reflexivity.
Qed.

(** ** C26 First derivative *)

(** Exact on quadratics, at every point and including the second derivative. *)
Theorem C26_quadratic : forall junk (c : curve R) (a b q : nat -> R), wf c -> (3 <= c_size c)%nat ->
  (forall i j, (i < c_size c)%nat -> (j < c_ndim c)%nat ->
     nth j (nth i (c_rows c) []) 0 = a j + b j * INR i + q j * (INR i * INR i)) ->
  exists d1 d2, curve_prop junk c PFirst = Ok (AMat d1) /\ curve_prop junk c PSecond = Ok (AMat d2) /\
    length d1 = c_size c /\ length d2 = c_size c /\
    forall i j, (i < c_size c)%nat -> (j < c_ndim c)%nat ->
      nth j (nth i d1 []) 0 = b j + 2 * q j * INR i /\ nth j (nth i d2 []) 0 = 2 * q j.
Proof.
  intros junk c a b q W Hm H. assert (D := wf_dims c W). unfold c_size in *.
  assert (B : c_bool c = true) by (apply c_bool_wf; [assumption|intros E; rewrite E in Hm; cbn in Hm; lia]).
  exists (deriv1 (c_rows c)), (deriv2 (c_rows c)). rewrite !prop_nonempty by assumption.
  split; [reflexivity|]. split; [reflexivity|]. split; [apply deriv1_length|]. split; [apply deriv2_length|].
  assert (D1 : dims (c_ndim c) (deriv1 (c_rows c))) by (apply gradient_dims; [assumption|lia]).
  assert (K : forall i j, (i < length (c_rows c))%nat -> (j < c_ndim c)%nat -> nth j (nth i (deriv1 (c_rows c)) []) 0 = b j + 2 * q j * INR i).
  { intros i j Hi Hj. unfold deriv1. rewrite (proj2 (gradient_nth (c_ndim c) (c_rows c) i D ltac:(lia) Hi)).
    rewrite <- (slope_quadratic (length (c_rows c)) (a j) (b j) (q j) i Hm Hi).
    apply slope_ext; [lia|assumption|]. intros k Hk. apply H; assumption. }
  intros i j Hi Hj. split; [apply K; assumption|].
  unfold deriv2. rewrite (proj2 (gradient_nth (c_ndim c) (deriv1 (c_rows c)) i D1 ltac:(rewrite deriv1_length; lia) ltac:(rewrite deriv1_length; assumption))).
  rewrite deriv1_length.
  transitivity (slope (length (c_rows c)) (fun k => b j + (2 * q j) * INR k + 0 * (INR k * INR k)) i).
  - apply slope_ext; [lia|assumption|]. intros k Hk. unfold coord. rewrite K by assumption. ring.
  - rewrite slope_quadratic by assumption. ring.
Qed.
Print Assumptions C26_quadratic.
Example C26_quadratic_ex : exists d1 d2, curve_prop 99 rparabola PFirst = Ok (AMat d1) /\ curve_prop 99 rparabola PSecond = Ok (AMat d2)
  /\ d1 = [[1; 0]; [1; 2]; [1; 4]; [1; 6]] /\ d2 = [[0; 2]; [0; 2]; [0; 2]; [0; 2]].
Proof. do 2 eexists. split; [reflexivity|]. split; [reflexivity|]. cbn. split; repeat f_equal; field. Qed.

Theorem C26_two_points : forall junk (c : curve R) p q, wf c -> c_rows c = [p; q] ->
  exists d, curve_prop junk c PFirst = Ok (AMat [d; d]) /\ length d = c_ndim c /\
    forall j, nth j d 0 = nth j q 0 - nth j p 0.
Proof.
  intros junk c p q W E. assert (D := wf_dims c W).
  assert (B : c_bool c = true) by (apply c_bool_wf; [assumption|rewrite E; discriminate]).
  rewrite prop_nonempty, E by assumption. exists (vsub q p). split; [reflexivity|].
  assert (Lp : length p = c_ndim c) by (apply D; rewrite E; cbn; auto).
  assert (Lq : length q = c_ndim c) by (apply D; rewrite E; cbn; auto).
  split; [rewrite vsub_length; congruence|]. intros j. apply nth_vsub. congruence.
Qed.
Print Assumptions C26_two_points.
Theorem C26_one_point : forall junk (c : curve R) p, wf c -> c_rows c = [p] -> curve_prop junk c PFirst = Ok (AMat [[0]]).
Proof.
  intros junk c p W E. assert (B : c_bool c = true) by (apply c_bool_wf; [assumption|rewrite E; discriminate]).
  rewrite prop_nonempty, E by assumption. reflexivity.
Qed.
Print Assumptions C26_one_point.

(** Linear in the points (in particular translations do not matter: constants
    have derivative 0). *)
Theorem C26_linear : forall junk (c c1 c2 : curve R) x y, wf c -> wf c1 -> wf c2 -> (2 <= c_size c)%nat ->
  c_size c1 = c_size c -> c_size c2 = c_size c -> c_ndim c1 = c_ndim c -> c_ndim c2 = c_ndim c ->
  (forall i j, (i < c_size c)%nat -> (j < c_ndim c)%nat ->
    nth j (nth i (c_rows c) []) 0 = x * nth j (nth i (c_rows c1) []) 0 + y * nth j (nth i (c_rows c2) []) 0) ->
  exists d d1 d2, curve_prop junk c PFirst = Ok (AMat d) /\ curve_prop junk c1 PFirst = Ok (AMat d1) /\ curve_prop junk c2 PFirst = Ok (AMat d2) /\
    forall i j, (i < c_size c)%nat -> (j < c_ndim c)%nat ->
      nth j (nth i d []) 0 = x * nth j (nth i d1 []) 0 + y * nth j (nth i d2 []) 0.
Proof.
  intros junk c c1 c2 x y W W1 W2 Hm L1 L2 E1 E2 H.
  assert (D := wf_dims c W). assert (D1 := wf_dims c1 W1). assert (D2 := wf_dims c2 W2). unfold c_size in *.
  assert (B : forall c : curve R, wf c -> (2 <= length (c_rows c))%nat -> c_bool c = true)
    by (intros c0 W0 K; apply c_bool_wf; [assumption|intros E; rewrite E in K; cbn in K; lia]).
  exists (deriv1 (c_rows c)), (deriv1 (c_rows c1)), (deriv1 (c_rows c2)).
  rewrite !prop_nonempty by (apply B; [assumption|lia]).
  repeat (split; [reflexivity|]). intros i j Hi Hj. unfold deriv1.
  rewrite (proj2 (gradient_nth _ (c_rows c) i D Hm Hi)).
  rewrite (proj2 (gradient_nth _ (c_rows c1) i D1 ltac:(lia) ltac:(lia))).
  rewrite (proj2 (gradient_nth _ (c_rows c2) i D2 ltac:(lia) ltac:(lia))).
  rewrite L1, L2, <- slope_linear. apply slope_ext; [assumption|assumption|]. intros k Hk. apply H; assumption.
Qed.
Print Assumptions C26_linear.

Theorem C26_translate : forall junk (c c' : curve R) w, wf c -> wf c' -> c_rows c <> [] -> length w = c_ndim c ->
  c_rows c' = map (fun r => vadd r w) (c_rows c) ->
  curve_prop junk c' PFirst = curve_prop junk c PFirst /\ curve_prop junk c' PSecond = curve_prop junk c PSecond
  /\ curve_prop junk c' PSpeed = curve_prop junk c PSpeed
  /\ curve_prop junk c' PFrenet1 = curve_prop junk c PFrenet1 /\ curve_prop junk c' PFrenet2 = curve_prop junk c PFrenet2
  /\ curve_prop junk c' PFrenet3 = curve_prop junk c PFrenet3 /\ curve_prop junk c' PTorsion = curve_prop junk c PTorsion
  /\ (c_ndim c' = c_ndim c -> curve_prop junk c' PCurvature = curve_prop junk c PCurvature).
Proof.
  intros junk c c' w W W' N Lw E.
  assert (N' : c_rows c' <> []) by (rewrite E; destruct (c_rows c); [contradiction|discriminate]).
  rewrite !prop_nonempty by (apply c_bool_wf; assumption).
  assert (G : deriv1 (c_rows c') = deriv1 (c_rows c)) by (rewrite E; apply (gradient_translate (c_ndim c)); [apply wf_dims, W|assumption]).
  assert (G2 : deriv2 (c_rows c') = deriv2 (c_rows c)) by (unfold deriv2; rewrite G; reflexivity).
  assert (G3 : deriv3 (c_rows c') = deriv3 (c_rows c)) by (unfold deriv3; rewrite G2; reflexivity).
  assert (F1 : frenet1_rows (c_rows c') = frenet1_rows (c_rows c)) by (unfold frenet1_rows; rewrite G; reflexivity).
  assert (F2 : frenet2_rows (c_rows c') = frenet2_rows (c_rows c)) by (unfold frenet2_rows, normal_rows; rewrite G2, F1; reflexivity).
  assert (F3 : frenet3_rows (c_rows c') = frenet3_rows (c_rows c)) by (unfold frenet3_rows, binormal_rows; rewrite G3, F1, F2; reflexivity).
  rewrite G, G2, F1, F2, F3. unfold speed_rows, torsion_rows. rewrite G, F2, F3.
  repeat (split; [reflexivity|]). intros ->. unfold curvature_plane, curvature_space. rewrite G, G2, F1.
  rewrite E, map_length. reflexivity.
Qed.
Print Assumptions C26_translate.

Theorem C26_reverse : forall junk (c c' : curve R), wf c -> c_rows c <> [] -> c_reverse c = Ok c' ->
  exists d d', curve_prop junk c PFirst = Ok (AMat d) /\ curve_prop junk c' PFirst = Ok (AMat d') /\
    length d' = length d /\
    forall i j, (i < c_size c)%nat -> nth j (nth i d' []) 0 = - nth j (nth (c_size c - 1 - i) d []) 0.
Proof.
  intros junk c c' W N E. destruct (C07_reverse R c W) as (c'' & E' & Er & _ & _ & _ & W'). rewrite E in E'. injection E' as <-.
  assert (N' : c_rows c' <> []) by (rewrite Er; intros K; apply (f_equal (@rev _)) in K; rewrite rev_involutive in K; contradiction).
  rewrite !prop_nonempty by (apply c_bool_wf; assumption). do 2 eexists. split; [reflexivity|]. split; [reflexivity|].
  rewrite Er. split; [unfold deriv1; rewrite !gradient_length, rev_length; reflexivity|].
  intros i j Hi. unfold c_size, deriv1 in *. rewrite (gradient_rev (c_ndim c)) by (apply wf_dims, W).
  rewrite (nth_indep _ [] (vopp [])) by (rewrite map_length, rev_length, gradient_length; assumption).
  rewrite map_nth, rev_nth by (rewrite gradient_length; assumption). rewrite gradient_length.
  rewrite nth_vopp. replace (length (c_rows c) - 1 - i)%nat with (length (c_rows c) - S i)%nat by lia. reflexivity.
Qed.
Print Assumptions C26_reverse.
Example C26_reverse_ex : curve_prop 99 (mkCurve [[0; 0]; [1; 3]] 2 DFloat None) PFirst = Ok (AMat [[1 - 0; 3 - 0]; [1 - 0; 3 - 0]])
  /\ curve_prop 99 (mkCurve [[1; 3]; [0; 0]] 2 DFloat None) PFirst = Ok (AMat [[0 - 1; 0 - 3]; [0 - 1; 0 - 3]]).
Proof. split; reflexivity. Qed.

(** ** C27 Frenet vectors *)

(** isclose(x, 0) is |x| <= 1e-8.  At every point i: *)
Theorem C27_frenet : forall junk (c : curve R) i, wf c -> (i < c_size c)%nat ->
  exists T E1 N E2 B E3,
    curve_prop junk c PTangent = Ok (AMat T) /\ curve_prop junk c PFrenet1 = Ok (AMat E1) /\
    curve_prop junk c PNormal = Ok (AMat N) /\ curve_prop junk c PFrenet2 = Ok (AMat E2) /\
    curve_prop junk c PBinormal = Ok (AMat B) /\ curve_prop junk c PFrenet3 = Ok (AMat E3) /\
    let t := nth i T [] in let e1 := nth i E1 [] in let n := nth i N [] in
    let e2 := nth i E2 [] in let b := nth i B [] in let e3 := nth i E3 [] in
    (/ 100000000 < norm t ->
       norm e1 = 1 /\ (forall j, nth j t 0 = norm t * nth j e1 0) /\
       inner n e1 = 0 /\ inner e2 e1 = 0 /\ inner b e1 = 0 /\ inner e3 e1 = 0) /\
    (norm t <= / 100000000 -> e1 = t) /\
    (/ 100000000 < norm n -> norm e2 = 1 /\ (forall j, nth j n 0 = norm n * nth j e2 0)) /\
    (norm n <= / 100000000 -> e2 = n) /\
    (/ 100000000 < norm t -> / 100000000 < norm n -> inner b e2 = 0 /\ inner e3 e2 = 0) /\
    (/ 100000000 < norm b -> norm e3 = 1 /\ (forall j, nth j b 0 = norm b * nth j e3 0)) /\
    (norm b <= / 100000000 -> e3 = b).
Proof.
  intros junk c i W Hi.
  assert (B : c_bool c = true) by (apply c_bool_wf; [assumption|intros E; unfold c_size in Hi; rewrite E in Hi; cbn in Hi; lia]).
  rewrite !prop_nonempty by assumption. do 6 eexists. repeat (split; [reflexivity|]). cbv zeta.
  destruct (frenet_at (c_ndim c) (c_rows c) i (wf_dims c W) Hi) as (H1 & H2 & H3 & H4 & H5 & H6 & H7).
  rewrite !norm_vnorm. rewrite !inner_vdot.
  split; [|split; [|split; [|split; [|split; [|split]]]]]; try assumption.
  - intros K. destruct (H1 K) as (A1 & A2 & A3). split; [assumption|]. split; [|assumption].
    intros j. rewrite A2 at 1. rewrite nth_vscale. apply Rmult_comm.
  - intros K. destruct (H3 K) as (A1 & A2). split; [assumption|]. intros j. rewrite A2 at 1. rewrite nth_vscale. apply Rmult_comm.
  - intros K. destruct (H6 K) as (A1 & A2). split; [assumption|]. intros j. rewrite A2 at 1. rewrite nth_vscale. apply Rmult_comm.
Qed.
Print Assumptions C27_frenet.
(** At the vertex of the parabola: tangent (1, 0), normal (0, 2), frenet2 (0, 1). *)
Example C27_ex : nth 0 (deriv1 (c_rows rparabola)) [] = [1; 0]
  /\ nth 0 (frenet1_rows (c_rows rparabola)) [] = [1; 0] /\ nth 0 (normal_rows (c_rows rparabola)) [] = [0; 2]
  /\ nth 0 (frenet2_rows (c_rows rparabola)) [] = [0; 1].
Proof.
  assert (E1 : nth 0 (deriv1 (c_rows rparabola)) [] = [1; 0]) by (cbn; repeat f_equal; field).
  assert (E2 : nth 0 (deriv2 (c_rows rparabola)) [] = [0; 2]) by (cbn; repeat f_equal; field).
  assert (N1 : vnorm [1; 0] = 1) by (cbn; apply sqrt_of; lra).
  assert (N2 : vnorm [0; 2] = 2) by (cbn; apply sqrt_of; lra).
  assert (U1 : unit_row [1; 0] = [1; 0]) by (rewrite unit_row_scale, frenet_norm_far by lra; rewrite N1; cbn; repeat f_equal; field).
  assert (R1 : reject [0; 2] [1; 0] = [0; 2]) by (cbn; repeat f_equal; lra).
  assert (U2 : unit_row [0; 2] = [0; 1]) by (rewrite unit_row_scale, frenet_norm_far by lra; rewrite N2; cbn; repeat f_equal; field).
  split; [assumption|]. rewrite frenet1_nth, normal_nth, frenet2_nth by (cbn; lia). rewrite E1, E2, U1, R1, U2. repeat split.
Qed.

(** ** C28 Curvature *)

(** Plane curves: translation by (e, f), rotation and scaling by (a, b). *)
Theorem C28_plane_similarity : forall junk (c c' : curve R) a b e f, wf c -> wf c' -> c_ndim c = 2%nat -> c_ndim c' = 2%nat ->
  (2 <= c_size c)%nat -> c_size c' = c_size c -> 0 < a * a + b * b ->
  (forall i, (i < c_size c)%nat ->
     let x := nth 0 (nth i (c_rows c) []) 0 in let y := nth 1 (nth i (c_rows c) []) 0 in
     nth i (c_rows c') [] = [a * x - b * y + e; b * x + a * y + f]) ->
  exists k k' t, curve_prop junk c PCurvature = Ok (AVec k) /\ curve_prop junk c' PCurvature = Ok (AVec k') /\
    curve_prop junk c PTangent = Ok (AMat t) /\ length k = c_size c /\ length k' = c_size c /\
    forall i, (i < c_size c)%nat -> 0 < norm (nth i t []) -> nth i k' 0 = nth i k 0 / sqrt (a * a + b * b).
Proof.
  intros junk c c' a b e f W W' N2 N2' Hm Es Hab H. assert (D := wf_dims c W). rewrite N2 in D. unfold c_size in *.
  assert (ER : c_rows c' = map (simil a b e f) (c_rows c)).
  { apply (nth_ext _ _ [] []); [rewrite map_length; assumption|]. intros i Hi. rewrite Es in Hi. rewrite H by assumption.
    rewrite (nth_indep (map _ _) [] (simil a b e f [])) by (rewrite map_length; assumption). rewrite map_nth. reflexivity. }
  assert (NE : c_rows c <> []) by (intros E; rewrite E in Hm; cbn in Hm; lia).
  assert (NE' : c_rows c' <> []) by (intros E; rewrite E in Es; cbn in Es; lia).
  rewrite !prop_nonempty by (apply c_bool_wf; assumption). rewrite N2, N2'. cbn [Nat.eqb]. unfold curvature_plane.
  rewrite Es. destruct (Nat.eqb_spec (length (c_rows c)) 1); [lia|]. cbn [rmap].
  do 3 eexists. split; [reflexivity|]. split; [reflexivity|]. split; [reflexivity|].
  split; [rewrite map2_length, deriv1_length, deriv2_length; apply Nat.min_id|].
  split; [rewrite map2_length, deriv1_length, deriv2_length, Es; apply Nat.min_id|].
  intros i Hi Hs. rewrite !curvature2_nth by congruence.
  assert (G1 : deriv1 (c_rows c') = map (simil a b 0 0) (deriv1 (c_rows c))) by (rewrite ER; apply gradient_simil; assumption).
  assert (D1 : dims 2 (deriv1 (c_rows c))) by (apply gradient_dims; assumption).
  assert (G2 : deriv2 (c_rows c') = map (simil a b 0 0) (deriv2 (c_rows c))).
  { unfold deriv2. rewrite G1. apply gradient_simil; [assumption|rewrite deriv1_length; assumption]. }
  rewrite G1, G2. rewrite (nth_indep (map _ (deriv1 _)) [] (simil a b 0 0 [])) by (rewrite map_length, deriv1_length; assumption).
  rewrite (nth_indep (map _ (deriv2 _)) [] (simil a b 0 0 [])) by (rewrite map_length, deriv2_length; assumption).
  rewrite !map_nth. apply curvature2_simil; [assumption|].
  rewrite <- plane_speed by (apply (dims_nth 2); [assumption|rewrite deriv1_length; assumption]).
  rewrite norm_vnorm in Hs. rewrite <- vnorm_sq. apply Rmult_lt_0_compat; assumption.
Qed.
Print Assumptions C28_plane_similarity.

Lemma plane2_of (c : curve R) : wf c -> c_ndim c = 2%nat ->
  plane2 (fun i => nth 0 (nth i (c_rows c) []) 0) (fun i => nth 1 (nth i (c_rows c) []) 0) (c_rows c).
Proof. intros W N. split; [rewrite <- N; apply wf_dims, W|]. intros k Hk. split; reflexivity. Qed.

(** Mirror images have the opposite curvature. *)
Theorem C28_plane_mirror : forall junk (c c' : curve R), wf c -> wf c' -> c_ndim c = 2%nat -> c_ndim c' = 2%nat ->
  (2 <= c_size c)%nat -> c_size c' = c_size c ->
  (forall i, (i < c_size c)%nat ->
     nth i (c_rows c') [] = [nth 0 (nth i (c_rows c) []) 0; - nth 1 (nth i (c_rows c) []) 0]) ->
  exists k k' t, curve_prop junk c PCurvature = Ok (AVec k) /\ curve_prop junk c' PCurvature = Ok (AVec k') /\
    curve_prop junk c PTangent = Ok (AMat t) /\ length k = c_size c /\ length k' = c_size c /\
    forall i, (i < c_size c)%nat -> 0 < norm (nth i t []) -> nth i k' 0 = - nth i k 0.
Proof.
  intros junk c c' W W' N2 N2' Hm Es H. assert (P := plane2_of c W N2). unfold c_size in *.
  assert (P' : plane2 (fun i => nth 0 (nth i (c_rows c) []) 0) (fun i => - nth 1 (nth i (c_rows c) []) 0) (c_rows c')).
  { split; [rewrite <- N2'; apply wf_dims, W'|]. intros k Hk. rewrite Es in Hk. unfold coord. rewrite H by assumption. split; reflexivity. }
  assert (NE : c_rows c <> []) by (intros E; rewrite E in Hm; cbn in Hm; lia).
  assert (NE' : c_rows c' <> []) by (intros E; rewrite E in Es; cbn in Es; lia).
  rewrite !prop_nonempty by (apply c_bool_wf; assumption). rewrite N2, N2'. cbn [Nat.eqb]. unfold curvature_plane.
  rewrite Es. destruct (Nat.eqb_spec (length (c_rows c)) 1); [lia|]. cbn [rmap].
  do 3 eexists. split; [reflexivity|]. split; [reflexivity|]. split; [reflexivity|].
  split; [rewrite map2_length, deriv1_length, deriv2_length; apply Nat.min_id|].
  split; [rewrite map2_length, deriv1_length, deriv2_length, Es; apply Nat.min_id|].
  intros i Hi Hs. destruct (curvature2_plane2 _ _ (c_rows c) i Hm P Hi) as (K & S).
  destruct (curvature2_plane2 _ _ (c_rows c') i ltac:(lia) P' ltac:(lia)) as (K' & _). rewrite K, K', Es. rewrite S in Hs. clear K K' S.
  set (X := fun i => nth 0 (nth i (c_rows c) []) 0) in *. set (Y := fun i => nth 1 (nth i (c_rows c) []) 0) in *.
  change (fun i => - nth 1 (nth i (c_rows c) []) 0) with (fun i => - Y i).
  set (m := length (c_rows c)) in *.
  rewrite (slope_ext m (slope m (fun k => - Y k)) (fun k => - slope m Y k) i Hm Hi) by (intros; apply slope_neg).
  rewrite !slope_neg. set (fx := slope m X i) in *. set (fy := slope m Y i) in *.
  replace (fx * fx + - fy * - fy) with (fx * fx + fy * fy) by ring. assert (0 < fx * fx + fy * fy).
  { destruct (Rlt_le_dec 0 (fx * fx + fy * fy)) as [|G]; [assumption|]. rewrite sqrt_neg_0 in Hs by assumption. lra. }
  field. split; lra.
Qed.
Print Assumptions C28_plane_mirror.

(** Reversing a plane curve changes the sign. *)
Theorem C28_plane_reverse : forall junk (c c' : curve R), wf c -> c_ndim c = 2%nat -> (2 <= c_size c)%nat -> c_reverse c = Ok c' ->
  exists k k' t, curve_prop junk c PCurvature = Ok (AVec k) /\ curve_prop junk c' PCurvature = Ok (AVec k') /\
    curve_prop junk c PTangent = Ok (AMat t) /\ length k = c_size c /\ length k' = c_size c /\
    forall i, (i < c_size c)%nat -> 0 < norm (nth (c_size c - 1 - i) t []) -> nth i k' 0 = - nth (c_size c - 1 - i) k 0.
Proof.
  intros junk c c' W N2 Hm E. destruct (C07_reverse R c W) as (c'' & E' & Er & _ & _ & En & W'). rewrite E in E'. injection E' as <-.
  unfold c_size in *.
  assert (NE : c_rows c <> []) by (intros G; rewrite G in Hm; cbn in Hm; lia). specialize (En NE). rewrite N2 in En.
  assert (NE' : c_rows c' <> []) by (rewrite Er; intros K; apply (f_equal (@rev _)) in K; rewrite rev_involutive in K; contradiction).
  rewrite !prop_nonempty by (apply c_bool_wf; assumption). rewrite N2, En. cbn [Nat.eqb]. unfold curvature_plane.
  rewrite Er, rev_length. destruct (Nat.eqb_spec (length (c_rows c)) 1); [lia|]. cbn [rmap].
  do 3 eexists. split; [reflexivity|]. split; [reflexivity|]. split; [reflexivity|].
  split; [rewrite map2_length, deriv1_length, deriv2_length; apply Nat.min_id|].
  split; [rewrite map2_length, deriv1_length, deriv2_length, rev_length; apply Nat.min_id|].
  assert (D := wf_dims c W). rewrite N2 in D. set (rows := c_rows c) in *.
  intros i Hi Hs. rewrite !curvature2_nth by (rewrite ?rev_length; lia).
  rewrite (deriv2_rev 2) by assumption. unfold deriv1. rewrite (gradient_rev 2) by assumption.
  rewrite (nth_indep (map vopp _) [] (vopp [])) by (rewrite map_length, rev_length, gradient_length; assumption).
  rewrite map_nth, !rev_nth by (rewrite ?gradient_length, ?deriv2_length; assumption). rewrite gradient_length, deriv2_length.
  replace (length rows - S i)%nat with (length rows - 1 - i)%nat by lia.
  fold (deriv1 rows). set (q := (length rows - 1 - i)%nat) in *. rewrite !curvature2_R. rewrite !nth_vopp.
  rewrite norm_vnorm in Hs.
  assert (Hq : 0 < nth 0 (nth q (deriv1 rows) []) 0 * nth 0 (nth q (deriv1 rows) []) 0 + nth 1 (nth q (deriv1 rows) []) 0 * nth 1 (nth q (deriv1 rows) []) 0).
  { rewrite <- plane_speed by (apply (dims_nth 2); [apply gradient_dims; assumption|unfold deriv1; rewrite gradient_length; unfold q; lia]).
    rewrite <- vnorm_sq. apply Rmult_lt_0_compat; assumption. }
  set (fx := nth 0 (nth q (deriv1 rows) []) 0) in *. set (fy := nth 1 (nth q (deriv1 rows) []) 0) in *.
  replace (- fx * - fx + - fy * - fy) with (fx * fx + fy * fy) by ring. field.
  split; [|lra]. apply Rgt_not_eq. apply sqrt_lt_R0. assumption.
Qed.
Print Assumptions C28_plane_reverse.

(** Straight lines, sampled in any way. *)
Theorem C28_plane_straight : forall junk (c : curve R) p u s, wf c -> c_ndim c = 2%nat -> (2 <= c_size c)%nat -> length u = 2%nat ->
  (forall i, (i < c_size c)%nat -> along p u (s i) (nth i (c_rows c) [])) ->
  exists k t, curve_prop junk c PCurvature = Ok (AVec k) /\ curve_prop junk c PTangent = Ok (AMat t) /\ length k = c_size c /\
    forall i, (i < c_size c)%nat -> 0 < norm (nth i t []) -> nth i k 0 = 0.
Proof.
  intros junk c p u s W N2 Hm Lu H. assert (D := wf_dims c W). rewrite N2 in D. unfold c_size in *.
  assert (NE : c_rows c <> []) by (intros E; rewrite E in Hm; cbn in Hm; lia).
  rewrite !prop_nonempty by (apply c_bool_wf; assumption). rewrite N2. cbn [Nat.eqb]. unfold curvature_plane.
  destruct (Nat.eqb_spec (length (c_rows c)) 1); [lia|]. cbn [rmap].
  do 2 eexists. split; [reflexivity|]. split; [reflexivity|].
  split; [rewrite map2_length, deriv1_length, deriv2_length; apply Nat.min_id|].
  intros i Hi Hs. assert (P := along_rows 2 p u s (c_rows c) D Lu H).
  assert (P1 := gradient_plane 2 _ _ _ _ _ _ Hm P).
  assert (P2 := gradient_plane 2 _ _ _ _ _ _ ltac:(rewrite gradient_length; exact Hm) P1).
  destruct P1 as (_ & _ & _ & P1). destruct P2 as (_ & _ & _ & P2). rewrite !gradient_length in *.
  rewrite curvature2_nth by assumption. rewrite curvature2_R.
  unfold deriv2, deriv1 in *. pose proof (P1 i 0%nat Hi) as A0. pose proof (P1 i 1%nat Hi) as A1.
  pose proof (P2 i 0%nat Hi) as B0. pose proof (P2 i 1%nat Hi) as B1. unfold coord in *.
  rewrite B0, B1. cbn [nth repeat] in *. rewrite A0, A1. unfold Rdiv. ring.
Qed.
Print Assumptions C28_plane_straight.

(** The exact curvature of a parabola (or any quadratic curve) at every point. *)
Theorem C28_plane_quadratic : forall junk (c : curve R) ax bx qx ay by_ qy, wf c -> c_ndim c = 2%nat -> (3 <= c_size c)%nat ->
  (forall i, (i < c_size c)%nat ->
     nth i (c_rows c) [] = [ax + bx * INR i + qx * (INR i * INR i); ay + by_ * INR i + qy * (INR i * INR i)]) ->
  exists k, curve_prop junk c PCurvature = Ok (AVec k) /\ length k = c_size c /\
    forall i, (i < c_size c)%nat ->
      let vx := bx + 2 * qx * INR i in let vy := by_ + 2 * qy * INR i in
      0 < vx * vx + vy * vy ->
      nth i k 0 = 2 * (bx * qy - by_ * qx) / (sqrt (vx * vx + vy * vy) * sqrt (vx * vx + vy * vy) * sqrt (vx * vx + vy * vy)).
Proof.
  intros junk c ax bx qx ay by_ qy W N2 Hm H. assert (D := wf_dims c W). rewrite N2 in D. unfold c_size in *.
  assert (NE : c_rows c <> []) by (intros E; rewrite E in Hm; cbn in Hm; lia).
  rewrite !prop_nonempty by (apply c_bool_wf; assumption). rewrite N2. cbn [Nat.eqb]. unfold curvature_plane.
  destruct (Nat.eqb_spec (length (c_rows c)) 1); [lia|]. cbn [rmap].
  eexists. split; [reflexivity|]. split; [rewrite map2_length, deriv1_length, deriv2_length; apply Nat.min_id|].
  intros i Hi Hv. set (vx := bx + 2 * qx * INR i) in *. set (vy := by_ + 2 * qy * INR i) in *.
  assert (P : plane2 (fun i => ax + bx * INR i + qx * (INR i * INR i)) (fun i => ay + by_ * INR i + qy * (INR i * INR i)) (c_rows c)).
  { split; [assumption|]. intros k Hk. unfold coord. rewrite H by assumption. split; reflexivity. }
  destruct (curvature2_plane2 _ _ (c_rows c) i ltac:(lia) P Hi) as (K & _). rewrite K. clear K.
  set (m := length (c_rows c)) in *.
  assert (S2 : forall a b q, slope m (slope m (fun k => a + b * INR k + q * (INR k * INR k))) i = 2 * q).
  { intros a b q. rewrite (slope_ext m _ (fun k => b + (2 * q) * INR k + 0 * (INR k * INR k)) i ltac:(lia) Hi).
    - rewrite slope_quadratic by assumption. ring.
    - intros k Hk. rewrite slope_quadratic by assumption. ring. }
  rewrite !S2, !slope_quadratic by assumption. fold vx vy. rewrite sqrt_sqrt by lra.
  f_equal. unfold vx, vy. ring.
Qed.
Print Assumptions C28_plane_quadratic.

(** A uniformly sampled circle of radius r: exactly 1/r away from the two end
    points on either side, whatever the step (sin h <> 0). *)
Theorem C28_circle : forall junk (c : curve R) cx cy r o h, wf c -> c_ndim c = 2%nat -> 0 < r -> sin h <> 0 ->
  (forall i, (i < c_size c)%nat -> nth i (c_rows c) [] = [cx + r * cos (o + h * INR i); cy + r * sin (o + h * INR i)]) ->
  (2 <= c_size c)%nat ->
  exists k, curve_prop junk c PCurvature = Ok (AVec k) /\ length k = c_size c /\
    forall i, (1 < i)%nat -> (i < c_size c - 2)%nat -> nth i k 0 = (if Rlt_dec 0 (sin h) then / r else - / r).
Proof.
  intros junk c cx cy r o h W N2 Hr Hh H Hm. assert (D := wf_dims c W). rewrite N2 in D. unfold c_size in *.
  assert (NE : c_rows c <> []) by (intros E; rewrite E in Hm; cbn in Hm; lia).
  rewrite !prop_nonempty by (apply c_bool_wf; assumption). rewrite N2. cbn [Nat.eqb]. unfold curvature_plane.
  destruct (Nat.eqb_spec (length (c_rows c)) 1); [lia|]. cbn [rmap].
  eexists. split; [reflexivity|]. split; [rewrite map2_length, deriv1_length, deriv2_length; apply Nat.min_id|].
  intros i H1 H2.
  assert (P : plane2 (fun k => cx + r * cos (o + h * INR k)) (fun k => cy + r * sin (o + h * INR k)) (c_rows c)).
  { split; [assumption|]. intros k Hk. unfold coord. rewrite H by assumption. split; reflexivity. }
  destruct (curvature2_plane2 _ _ (c_rows c) i Hm P ltac:(lia)) as (K & _). rewrite K.
  apply circle_curvature; assumption.
Qed.
Print Assumptions C28_circle.
(** Four points of the unit circle one quarter apart and one more. *)
Example C28_circle_ex : sin (PI / 2) <> 0 /\
  forall i, (i < 5)%nat -> nth i [[1; 0]; [0; 1]; [-1; 0]; [0; -1]; [1; 0]] [] = [0 + 1 * cos (0 + PI / 2 * INR i); 0 + 1 * sin (0 + PI / 2 * INR i)].
Proof.
  split; [rewrite sin_PI2; lra|]. intros i Hi.
  assert (A2 : 0 + PI / 2 * 2 = PI) by field. assert (A3 : 0 + PI / 2 * (2 + 1) = 3 * (PI / 2)) by field.
  assert (A4 : 0 + PI / 2 * (2 + 1 + 1) = 2 * PI) by field.
  destruct i as [|[|[|[|[|]]]]]; try lia; cbn [nth INR].
  - rewrite Rmult_0_r, Rplus_0_r, cos_0, sin_0. repeat f_equal; lra.
  - rewrite Rmult_1_r, !Rplus_0_l, cos_PI2, sin_PI2. repeat f_equal; lra.
  - replace (1 + 1) with 2 by lra. rewrite A2, cos_PI, sin_PI. repeat f_equal; lra.
  - replace (1 + 1) with 2 by lra. rewrite A3, cos_3PI2, sin_3PI2. repeat f_equal; lra.
  - replace (1 + 1) with 2 by lra. rewrite A4, cos_2PI, sin_2PI. repeat f_equal; lra.
Qed.

(** A plane curve with one point has no curvature: the code raises. *)
Theorem C28_plane_one_point : forall T (NT : Num T) (ST : NumSqrt T) (junk : T) (c : curve T) p, wf c -> c_ndim c = 2%nat -> c_rows c = [p] ->
  curve_prop junk c PCurvature = Raise IndexError.
Proof.
  intros T NT ST junk c p W N E. rewrite prop_nonempty by (apply c_bool_wf; [assumption|rewrite E; discriminate]).
  rewrite N, E. reflexivity.
Qed.
Print Assumptions C28_plane_one_point.

(** Three and more dimensions. *)
Theorem C28_space_nonneg : forall junk (c : curve R), wf c -> c_ndim c <> 2%nat -> c_rows c <> [] ->
  exists k t, curve_prop junk c PCurvature = Ok (AVec k) /\ curve_prop junk c PTangent = Ok (AMat t) /\ length k = c_size c /\
    forall i, (i < c_size c)%nat -> 0 < norm (nth i t []) -> 0 <= nth i k 0.
Proof.
  intros junk c W N2 N. rewrite !prop_nonempty by (apply c_bool_wf; assumption).
  destruct (Nat.eqb_spec (c_ndim c) 2); [contradiction|]. do 2 eexists. split; [reflexivity|]. split; [reflexivity|].
  split; [apply curvature_space_length|]. intros i Hi Hs. rewrite curvature_space_nth by assumption.
  rewrite norm_vnorm in Hs. apply Rmult_le_pos; [apply vnorm_nonneg|]. left. apply Rinv_0_lt_compat. assumption.
Qed.
Print Assumptions C28_space_nonneg.

(** A straight line whose numerical tangents all point along the direction of
    travel (as in a uniform sampling) has curvature 0. *)
Theorem C28_space_straight : forall junk (c : curve R) p u s, wf c -> c_ndim c <> 2%nat -> (2 <= c_size c)%nat ->
  length u = c_ndim c -> norm u = 1 ->
  (forall i, (i < c_size c)%nat -> along p u (s i) (nth i (c_rows c) [])) ->
  (forall t, curve_prop junk c PTangent = Ok (AMat t) -> forall i, (i < c_size c)%nat -> / 100000000 < inner (nth i t []) u) ->
  exists k, curve_prop junk c PCurvature = Ok (AVec k) /\ length k = c_size c /\
    forall i, (i < c_size c)%nat -> nth i k 0 = 0.
Proof.
  intros junk c p u s W N2 Hm Lu Nu H HT. assert (D := wf_dims c W). unfold c_size in *.
  assert (NE : c_rows c <> []) by (intros E; rewrite E in Hm; cbn in Hm; lia).
  rewrite prop_nonempty in HT |- * by (apply c_bool_wf; assumption). specialize (HT _ eq_refl).
  destruct (Nat.eqb_spec (c_ndim c) 2); [contradiction|]. eexists. split; [reflexivity|]. split; [apply curvature_space_length|].
  assert (P := along_rows _ p u s (c_rows c) D Lu H). rewrite norm_vnorm in Nu.
  apply (curvature_line (c_ndim c) p u s (c_rows c) Hm P Nu).
  intros i Hi. specialize (HT i Hi). assert (P1 := gradient_plane _ _ _ _ _ _ _ Hm P).
  assert (G : nth i (deriv1 (c_rows c)) [] = vscale u (slope (length (c_rows c)) s i)).
  { destruct P1 as (D1 & _ & _ & P1). apply vec_ext.
    - rewrite vscale_length. rewrite (dims_nth (c_ndim c)); [congruence|assumption|unfold deriv1; rewrite gradient_length; assumption].
    - intros j. rewrite nth_vscale. pose proof (P1 i j ltac:(rewrite gradient_length; assumption)) as A. unfold coord in A.
      unfold deriv1. rewrite A. rewrite nth_zeros. destruct j; cbn; ring. }
  rewrite G, inner_vdot, vdot_scale_l, vdot_unit in HT by assumption. lra.
Qed.
Print Assumptions C28_space_straight.
Example C28_space_straight_ex : forall i, (i < 3)%nat ->
  along [0; 0; 0] [1; 0; 0] (INR i) (nth i (c_rows rline) []) /\ / 100000000 < inner (nth i (deriv1 (c_rows rline)) []) [1; 0; 0].
Proof.
  intros i Hi. destruct i as [|[|[|]]]; try lia; (split; [intros [|[|[|[|j]]]]; cbn; try lra; destruct j; lra|cbn; lra]).
Qed.

(** Uniform sampling p, p + h u, p + 2 h u, ... *)
Theorem C28_space_straight_uniform : forall junk (c : curve R) p u h, wf c -> c_ndim c <> 2%nat -> (2 <= c_size c)%nat ->
  length u = c_ndim c -> norm u = 1 -> / 100000000 < h ->
  (forall i, (i < c_size c)%nat -> along p u (h * INR i) (nth i (c_rows c) [])) ->
  exists k, curve_prop junk c PCurvature = Ok (AVec k) /\ length k = c_size c /\
    forall i, (i < c_size c)%nat -> nth i k 0 = 0.
Proof.
  intros junk c p u h W N2 Hm Lu Nu Hh H. assert (D := wf_dims c W).
  assert (NE : c_rows c <> []) by (intros E; unfold c_size in Hm; rewrite E in Hm; cbn in Hm; lia).
  rewrite prop_nonempty by (apply c_bool_wf; assumption). unfold c_size in *.
  destruct (Nat.eqb_spec (c_ndim c) 2); [contradiction|]. eexists. split; [reflexivity|]. split; [apply curvature_space_length|].
  assert (P := along_rows _ p u _ (c_rows c) D Lu H). rewrite norm_vnorm in Nu.
  apply (curvature_line (c_ndim c) p u (fun k => h * INR k) (c_rows c) Hm P Nu).
  intros i Hi. replace (slope (length (c_rows c)) (fun k => h * INR k) i) with h; [assumption|].
  destruct (Nat.eq_dec (length (c_rows c)) 2) as [E|E].
  - rewrite E. unfold slope. cbn. ring.
  - rewrite (slope_ext _ _ (fun k => 0 + h * INR k + 0 * (INR k * INR k))) by (try assumption; intros; ring).
    rewrite slope_quadratic by lia. ring.
Qed.
Print Assumptions C28_space_straight_uniform.

(** Scaling by a > 0 divides the curvature by a while no tangent is taken for zero. *)
Theorem C28_space_scale : forall junk (c c' : curve R) a, wf c -> wf c' -> c_ndim c <> 2%nat -> c_ndim c' = c_ndim c -> c_rows c <> [] -> 0 < a ->
  c_rows c' = map (map (fun x => a * x)) (c_rows c) ->
  (forall t, curve_prop junk c PTangent = Ok (AMat t) -> forall i, (i < c_size c)%nat ->
     / 100000000 < norm (nth i t []) /\ / 100000000 < a * norm (nth i t [])) ->
  exists k k', curve_prop junk c PCurvature = Ok (AVec k) /\ curve_prop junk c' PCurvature = Ok (AVec k') /\
    length k = c_size c /\ length k' = c_size c /\
    forall i, (i < c_size c)%nat -> nth i k' 0 = nth i k 0 / a.
Proof.
  intros junk c c' a W W' N2 En NE Ha E HT.
  assert (NE' : c_rows c' <> []) by (rewrite E; destruct (c_rows c); [contradiction|discriminate]).
  rewrite prop_nonempty in HT by (apply c_bool_wf; assumption). specialize (HT _ eq_refl).
  rewrite !prop_nonempty by (apply c_bool_wf; assumption). rewrite En.
  destruct (Nat.eqb_spec (c_ndim c) 2); [contradiction|]. do 2 eexists. split; [reflexivity|]. split; [reflexivity|]. unfold c_size in *.
  split; [apply curvature_space_length|]. split; [rewrite curvature_space_length, E, map_length; reflexivity|].
  assert (ES : c_rows c' = map (fun r => vscale r a) (c_rows c)).
  { rewrite E. apply map_ext. intros r. unfold vscale. apply map_ext. intros x. cbn. ring. }
  assert (G1 : deriv1 (c_rows c') = map (fun r => vscale r a) (deriv1 (c_rows c))) by (rewrite ES; apply (gradient_scale (c_ndim c)), wf_dims, W).
  assert (F1 : frenet1_rows (c_rows c') = frenet1_rows (c_rows c)).
  { unfold frenet1_rows. rewrite G1, map_map. apply map_ext_in. intros v Hv. destruct (In_nth _ _ [] Hv) as (i & Hi & <-).
    rewrite deriv1_length in Hi. destruct (HT i Hi) as (A & B). rewrite norm_vnorm in A, B. apply unit_row_vscale; assumption. }
  intros i Hi. rewrite !curvature_space_nth by (rewrite ?E, ?map_length; assumption). rewrite F1, G1.
  rewrite (nth_indep (map _ _) [] (vscale [] a)) by (rewrite map_length, deriv1_length; assumption).
  rewrite (map_nth (fun r => vscale r a)), vnorm_scale, Rabs_right by lra. destruct (HT i Hi) as (A & _). rewrite norm_vnorm in A.
  field. split; lra.
Qed.
Print Assumptions C28_space_scale.

(** Not every straight line has curvature 0: with unequal steps the one-sided
    difference at an end may point backwards.  Here the binary64 curvature of
    the points 0, 1/8, 1 of the x axis. *)
Definition fline : curve float := mkCurve [[fz 0; fz 0; fz 0]; [fq 1 8; fz 0; fz 0]; [fz 1; fz 0; fz 0]] 3 DFloat None.
Theorem C28_space_straight_refuted :
  frenet1_rows (c_rows fline) = [[fz (-1); fz 0; fz 0]; [fz 1; fz 0; fz 0]; [fz 1; fz 0; fz 0]]
  /\ exists k, curve_prop (fz 0) fline PCurvature = Ok (AVec k) /\ map (nltb n0) k = [true; true; true].
Proof. split; [vm_compute; reflexivity|]. eexists. split; [reflexivity|]. vm_compute. reflexivity. Qed.
Print Assumptions C28_space_straight_refuted.

(** ** C29 Torsion of a plane curve *)

(** Curves in any plane of a space of any dimension; the torsion is 0 at every
    point where tangent and normal are well defined. *)
Theorem C29_plane_torsion : forall junk (c : curve R), wf c -> c_rows c <> [] -> in_common_plane (c_ndim c) (c_rows c) ->
  exists k t n, curve_prop junk c PTorsion = Ok (AVec k) /\ curve_prop junk c PTangent = Ok (AMat t) /\
    curve_prop junk c PNormal = Ok (AMat n) /\ length k = c_size c /\
    forall i, (i < c_size c)%nat -> / 100000000 < norm (nth i t []) -> / 100000000 < norm (nth i n []) -> nth i k 0 = 0.
Proof.
  intros junk c W N P. rewrite !prop_nonempty by (apply c_bool_wf; assumption).
  do 3 eexists. split; [reflexivity|]. split; [reflexivity|]. split; [reflexivity|]. split.
  - unfold torsion_rows. apply gen_map2_length; [|apply gen_d1]. apply gen_combine_length; [|apply gen_e3].
    rewrite gen_gradient_length. apply gen_e2.
  - intros i Hi Ht Hn. rewrite norm_vnorm in Ht, Hn.
    destruct (common_plane_rows _ _ (wf_dims c W) P) as (p & u & v & a & b & Q).
    exact (torsion_plane _ p u v a b _ i Q Hi Ht Hn).
Qed.
Print Assumptions C29_plane_torsion.
(** A parabola in the plane z = 1. *)
Example C29_ex : in_common_plane 3 [[0; 0; 1]; [1; 1; 1]; [2; 4; 1]; [3; 9; 1]].
Proof.
  exists [0; 0; 1], [1; 0; 0], [0; 1; 0]. repeat (split; [reflexivity|]).
  intros x H. cbn in H. destruct H as [<-|[<-|[<-|[<-|[]]]]];
    [exists 0, 0|exists 1, 1|exists 2, 4|exists 3, 9]; intros [|[|[|[|j]]]]; cbn; try lra; destruct j; lra.
Qed.

(** At an inflection point the normal is not well defined and the torsion of a
    plane curve need not be 0: the points (k, k^3, 0), k = -3 ... 3. *)
Definition fcubic : curve float :=
  mkCurve [[fz (-3); fz (-27); fz 0]; [fz (-2); fz (-8); fz 0]; [fz (-1); fz (-1); fz 0]; [fz 0; fz 0; fz 0];
           [fz 1; fz 1; fz 0]; [fz 2; fz 8; fz 0]; [fz 3; fz 27; fz 0]] 3 DFloat None.
Theorem C29_inflection_refuted :
  exists k, curve_prop (fz 0) fcubic PTorsion = Ok (AVec k) /\
    nth 3 (normal_rows (c_rows fcubic)) [] = [fz 0; fz 0; fz 0] /\ nltb n0 (nabs (nth 3 k n0)) = true.
Proof. eexists. split; [reflexivity|]. vm_compute. split; reflexivity. Qed.
Print Assumptions C29_inflection_refuted.

(** ** C30 Curve points *)

(** The property of the point c[i] is the entry of the property of the curve at
    the position k of the point; errors are the same. *)
Theorem C30_point_is_row : forall T (NT : Num T) (ST : NumSqrt T) (junk : T) (c : curve T) i idx r q,
  wf c -> getitem_int c i = Ok (idx, r) ->
  exists k, (k < c_size c)%nat /\ nth_error (c_rows c) k = Some r /\
    match curve_prop junk c q with
    | Ok (AVec v) => exists x, nth_error v k = Some x /\ point_prop junk c idx q = Ok (VNum x)
    | Ok (AMat m) => exists x, nth_error m k = Some x /\ point_prop junk c idx q = Ok (VRow x)
    | Ok (ANil _) => False
    | Raise e => point_prop junk c idx q = Raise e
    end.
Proof. exact @point_prop_row. Qed.
Print Assumptions C30_point_is_row.

(** The position: i itself, or counted from the end (up to twice around). *)
Theorem C30_position : forall T (c : curve T) i idx r, getitem_int c i = Ok (idx, r) ->
  (- 2 * Z.of_nat (c_size c) <= i < Z.of_nat (c_size c))%Z /\
  nth_error (c_rows c) (Z.to_nat (i mod Z.of_nat (c_size c))) = Some r.
Proof.
  intros T c i idx r. unfold getitem_int. cbv zeta. unfold np_get, norm_index. fold (c_size c).
  set (n := Z.of_nat (c_size c)). set (j := if (i <? 0)%Z then (n + i)%Z else i).
  destruct (_ || _) eqn:E; [discriminate|]. apply orb_false_iff in E. destruct E as (E1 & E2).
  apply Z.ltb_ge in E1. apply Z.leb_gt in E2. cbn [rbind].
  destruct (nth_error (c_rows c) _) as [x|] eqn:F; cbn [rbind]; [|discriminate]. intros H. injection H as _ <-.
  assert (R : (- 2 * n <= i < n)%Z) by (unfold j in *; destruct (Z.ltb_spec i 0); lia).
  split; [assumption|]. rewrite <- F. f_equal. f_equal. unfold j in *.
  destruct (Z.ltb_spec i 0) as [G|G].
  - destruct (Z.ltb_spec (n + i) 0) as [K|K].
    + symmetry. apply (Z.mod_unique i n (-2)); lia.
    + symmetry. apply (Z.mod_unique i n (-1)); lia.
  - destruct (Z.ltb_spec i 0); [lia|]. apply Z.mod_small. lia.
Qed.
Print Assumptions C30_position.
Example C30_ex :
  getitem_int rpath (-1) = Ok (2%Z, [3; 16]) /\ point_prop 99 rpath 2%Z PFirst = Ok (VRow (nth 2 (deriv1 (c_rows rpath)) []))
  /\ getitem_int rpath (-4) = Ok ((-1)%Z, [3; 16]) /\ point_prop 99 rpath (-1)%Z PFirst = Ok (VRow (nth 2 (deriv1 (c_rows rpath)) [])).
Proof. repeat split. Qed.
