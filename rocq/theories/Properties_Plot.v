(** Properties of plotting (/repo/skcurve/plot.py): which commands go to which
    axes, and which calls fail before or after drawing. *)
From Coq Require Import ZArith QArith List Bool Arith Lia Reals Lra.
From Verif Require Import Num Py Numeric Curve Vec DiffGeom Interp Plot Spec GeomSpec ListFacts CurveProofs CurveProofs2 CurveProofs3 VecFacts GeomProofs.
From Verif Require Import DiffGeomProofs DiffGeomProofs2 DiffGeomProofs3 DiffGeomProofs4 InterpProofs PlotProofs Fixtures Properties_Interp.
Import ListNotations.
Local Open Scope list_scope.

(** Plane and spatial curves of the examples. *)
Definition pl2 : curve R := mkCurve [[0; 0]; [1; 2]; [3; 3]]%R 2 DFloat None.
Definition pl3 : curve R := mkCurve [[0; 0; 1]; [1; 2; 0]; [3; 3; 5]]%R 3 DFloat None.
Definition pl1 : curve R := mkCurve [[4; 5]]%R 2 DFloat None.
Definition pl4 : curve R := mkCurve [[0; 0; 1; 1]]%R 4 DFloat None.
(** Two axes, the first of them spatial, with one line drawn. *)
Definition pw : world R := mkWorld [Ax3; Ax2] [(1%nat, CLine [[7]; [7]])]%R.
Lemma pl2_wf : wf pl2. Proof. split; [cbn; lia|]. split; [cbn; intros p [<-|[<-|[<-|[]]]]; reflexivity|discriminate]. Qed.
Lemma pl3_wf : wf pl3. Proof. split; [cbn; lia|]. split; [cbn; intros p [<-|[<-|[<-|[]]]]; reflexivity|discriminate]. Qed.
Lemma pl1_wf : wf pl1. Proof. split; [cbn; lia|]. split; [cbn; intros p [<-|[]]; reflexivity|discriminate]. Qed.

(** The predicates of the dimension: exactly one of is2d and isspatial holds, and
    is3d says more than isspatial. *)
Theorem C79_dimensions : forall T (c : curve T), wf c ->
  (is2d c = true <-> c_ndim c = 2%nat) /\ (is3d c = true <-> c_ndim c = 3%nat) /\
  is2d c = negb (isspatial c) /\ (is3d c = true -> isspatial c = true).
Proof.
  intros T c (W & _). unfold is2d, is3d, isspatial.
  split; [apply Nat.eqb_eq|]. split; [apply Nat.eqb_eq|].
  split.
  - destruct (Nat.eqb_spec (c_ndim c) 2), (Nat.leb_spec 3 (c_ndim c)); cbn; try reflexivity; lia.
  - intros H. apply Nat.eqb_eq in H. rewrite H. reflexivity.
Qed.
Print Assumptions C79_dimensions.
Example C79_dimensions_ex : wf pl3 /\ is3d pl3 = true /\ is2d pl3 = false /\ isspatial pl4 = true /\ is3d pl4 = false.
Proof. split; [apply pl3_wf|]. repeat split. Qed.

(** A curve of four or more dimensions is rejected, nothing is drawn and no
    axes are made. *)
Theorem C79_too_many_dimensions : forall T (NT : Num T) (ST : NumSqrt T) (junk : T) w (c : curve T) param nrm mk axes,
  (3 < c_ndim c)%nat -> plot junk w c param nrm mk axes = (w, Raise ValueError).
Proof. intros T NT ST junk w c param nrm mk axes H. unfold plot. destruct (Nat.ltb_spec 3 (c_ndim c)); [reflexivity|lia]. Qed.
Print Assumptions C79_too_many_dimensions.
Example C79_too_many_dimensions_ex : (3 < c_ndim pl4)%nat /\ plot 0%R pw pl4 None false false (Some 1%nat) = (pw, Raise ValueError).
Proof. split; [cbn; lia|reflexivity]. Qed.

(** Whatever happens, what was drawn before stays, everything new goes to one
    axes, axes that exist stay as they are, and at most one is added: a new one
    exactly when none was given, of the kind of the curve. *)
Theorem C79_history : forall T (NT : Num T) (ST : NumSqrt T) (junk : T) w (c : curve T) param nrm mk axes,
  c_ndim c = 2%nat \/ c_ndim c = 3%nat ->
  let a := match axes with Some k => k | None => length (w_axes w) end in
  let '(w', r) := plot junk w c param nrm mk axes in
  w_axes w' = w_axes w ++ match axes with Some _ => [] | None => [if Nat.eqb (c_ndim c) 2 then Ax2 else Ax3] end /\
  (exists cs, w_log w' = w_log w ++ map (fun x => (a, x)) cs) /\
  (forall a', r = Ok a' -> a' = a).
Proof.
  intros T NT ST junk w c param nrm mk axes D a. rewrite plot_split by lia. subst a. destruct axes as [k|].
  - destruct (choose_given w c k D) as [F N].
    assert (Dec : fits c w k \/ ~ fits c w k).
    { unfold fits. destruct (nth_error (w_axes w) k) as [[|]|]; [|tauto|].
      1-2: destruct D as [D|D]; [tauto|right; intros [H|[_ H]]; [rewrite D in H|]; discriminate]. }
    destruct Dec as [H|H]; [rewrite (F H)|rewrite (N H)].
    + cbn [draw w_axes w_log]. rewrite app_nil_r. split; [reflexivity|]. split; [eexists; reflexivity|].
      intros a'. destruct (snd _); congruence.
    + rewrite app_nil_r. split; [reflexivity|]. split; [exists []; symmetry; apply app_nil_r|]. discriminate.
  - rewrite choose_fresh by assumption. cbn [draw w_axes w_log].
    split; [f_equal; unfold is3d; destruct D as [D|D]; rewrite D; reflexivity|]. split; [eexists; reflexivity|].
    intros a'. destruct (snd _); congruence.
Qed.
Print Assumptions C79_history.
Example C79_history_ex : plot 0%R pw pl3 None false false None =
  (mkWorld [Ax3; Ax2; Ax3] [(1%nat, CLine [[7]; [7]]); (2%nat, CLine [[0; 1; 3]; [0; 2; 3]; [1; 0; 5]])], Ok 2%nat)%R.
Proof. reflexivity. Qed.

(** A spatial curve needs spatial axes: otherwise TypeError and nothing is
    drawn.  A plane curve may go to any axes. *)
Theorem C79_kind : forall T (NT : Num T) (ST : NumSqrt T) (junk : T) w (c : curve T) param nrm mk k,
  c_ndim c = 3%nat -> nth_error (w_axes w) k <> Some Ax3 ->
  plot junk w c param nrm mk (Some k) = (w, Raise TypeError).
Proof.
  intros T NT ST junk w c param nrm mk k D H. rewrite plot_split by lia.
  rewrite (proj2 (choose_given w c k (or_intror D))); [reflexivity|]. intros [F|[_ F]]; [lia|contradiction].
Qed.
Print Assumptions C79_kind.
Example C79_kind_ex : c_ndim pl3 = 3%nat /\ nth_error (w_axes pw) 1 <> Some Ax3 /\
  plot 0%R pw pl3 (Some VMissing) true true (Some 1%nat) = (pw, Raise TypeError).
Proof. split; [reflexivity|]. split; [discriminate|reflexivity]. Qed.

Theorem C79_kind_only : forall T (NT : Num T) (ST : NumSqrt T) (junk : T) w (c : curve T) param nrm mk axes,
  wf c -> (forall k, axes = Some k -> c_ndim c = 3%nat -> nth_error (w_axes w) k = Some Ax3) ->
  snd (plot junk w c param nrm mk axes) <> Raise TypeError.
Proof.
  intros T NT ST junk w c param nrm mk axes W H.
  destruct (Nat.ltb_spec 3 (c_ndim c)) as [L|L].
  { rewrite C79_too_many_dimensions by assumption. discriminate. }
  assert (D : c_ndim c = 2%nat \/ c_ndim c = 3%nat) by (destruct W; lia).
  assert (P : forall q, curve_prop junk c q <> Raise TypeError).
  { intros q. unfold curve_prop, curvature_plane. destruct (c_bool c), q; cbn; try discriminate.
    destruct (Nat.eqb (c_ndim c) 2); [destruct (Nat.eqb _ 1)|]; discriminate. }
  assert (R : forall l : list (res T), ~ In (Raise TypeError) l -> rseq l <> Raise TypeError).
  { intros l. induction l as [|x l IH]; [discriminate|]. intros Hx. cbn [rseq]. destruct x as [x|e].
    - destruct (rseq l) as [|e] eqn:E; [discriminate|]. intros K. apply IH; [intros I; apply Hx; right; assumption|exact K].
    - intros K. apply Hx. left. congruence. }
  assert (R2 : forall l : list (res (list T)), ~ In (Raise TypeError) l -> rseq l <> Raise TypeError).
  { intros l. induction l as [|x l IH]; [discriminate|]. intros Hx. cbn [rseq]. destruct x as [x|e].
    - destruct (rseq l) as [|e] eqn:E; [discriminate|]. intros K. apply IH; [intros I; apply Hx; right; assumption|exact K].
    - intros K. apply Hx. left. congruence. }
  assert (M : forall v, multicolor junk c v mk <> Raise TypeError).
  { intros v. unfold multicolor. destruct (vprop v) as [q|]; [|discriminate]. specialize (P q).
    destruct (curve_prop junk c q) as [[vals|rows|k]|e]; cbn [rbind]; [|discriminate|discriminate|congruence].
    destruct vals; discriminate. }
  assert (N : plot_normals junk c <> Raise TypeError).
  { unfold plot_normals. specialize (P PFrenet2). destruct (curve_prop junk c PFrenet2) as [[vals|rows|k]|e]; cbn [rbind];
      [discriminate| |discriminate|congruence].
    apply R2. intros I. apply in_map_iff in I. destruct I as (i & E & _). revert E. apply R. intros I.
    apply in_map_iff in I. destruct I as (r & E & _). apply np_get_exn in E. discriminate. }
  assert (X : snd (drawn junk c param nrm mk) <> Some TypeError).
  { unfold drawn. destruct param as [v|].
    - specialize (M v). destruct (multicolor junk c v mk) as [cs|e]; [|intros K; injection K as ->; contradiction].
      destruct nrm; [|discriminate]. destruct (plot_normals junk c); [destruct (is2d c); discriminate|intros K; injection K as ->; contradiction].
    - destruct nrm; [|discriminate]. destruct (plot_normals junk c); [destruct (is2d c); discriminate|intros K; injection K as ->; contradiction]. }
  rewrite plot_split by lia. destruct axes as [k|].
  - rewrite (proj1 (choose_given w c k D)).
    + cbn [snd]. destruct (snd (drawn junk c param nrm mk)); congruence.
    + unfold fits. destruct D as [D|D]; [auto|]. right. split; [assumption|]. apply H; auto.
  - rewrite choose_fresh by assumption. cbn [snd]. destruct (snd (drawn junk c param nrm mk)); congruence.
Qed.
Print Assumptions C79_kind_only.
Example C79_kind_only_ex : wf pl2 /\ plot 0%R pw pl2 None false false (Some 0%nat) =
  (mkWorld [Ax3; Ax2] [(1%nat, CLine [[7]; [7]]); (0%nat, CLine [[0; 1; 3]; [0; 2; 3]])], Ok 0%nat)%R.
Proof. split; [apply pl2_wf|reflexivity]. Qed.

(** Without a parameter and normals: one line, with one list of coordinates per
    dimension. *)
Theorem C79_line : forall T (NT : Num T) (ST : NumSqrt T) (junk : T) w (c : curve T) mk k,
  c_ndim c = 2%nat \/ c_ndim c = 3%nat /\ nth_error (w_axes w) k = Some Ax3 ->
  exists vs, plot junk w c None false mk (Some k) = (mkWorld (w_axes w) (w_log w ++ [(k, CLine vs)]), Ok k) /\
    length vs = c_ndim c /\
    forall i j d, (i < c_ndim c)%nat -> (j < c_size c)%nat -> nth j (nth i vs []) d = nth i (nth j (c_rows c) []) n0.
Proof.
  intros T NT ST junk w c mk k F. exists (c_values_all c). split; [|apply values_all_spec].
  rewrite plot_fits by exact F. reflexivity.
Qed.
Print Assumptions C79_line.
Example C79_line_ex : c_ndim pl2 = 2%nat /\ nth 1 (nth 0 (c_values_all pl2) []) 9%R = 1%R.
Proof. split; reflexivity. Qed.

(** With a parameter: one segment for each pair of consecutive points, one colour
    value per point (so one more value than segments), the range of colours is the
    smallest and the largest value, and the markers, if wanted, are at the points. *)
Theorem C79_multicolor : forall junk w (c : curve R) v q mk k,
  wf c -> (1 <= c_size c)%nat -> vprop v = Some q ->
  (v = VCurvature -> c_ndim c = 2%nat -> (2 <= c_size c)%nat) ->
  c_ndim c = 2%nat \/ c_ndim c = 3%nat /\ nth_error (w_axes w) k = Some Ax3 ->
  exists segs vals lo hi vs,
    plot junk w c (Some v) false mk (Some k) =
      (mkWorld (w_axes w) (w_log w ++ [(k, CSegments segs vals lo hi); (k, CScale)]
                           ++ (if mk then [(k, CScatter vs vals)] else []) ++ [(k, CColorbar lo hi)]), Ok k) /\
    curve_prop junk c q = Ok (AVec vals) /\ length vals = c_size c /\
    length segs = (c_size c - 1)%nat /\
    (forall i, (S i < c_size c)%nat -> nth i segs ([], []) = (nth i (c_rows c) [], nth (S i) (c_rows c) [])) /\
    In lo vals /\ In hi vals /\ (forall x, In x vals -> lo <= x <= hi)%R /\
    (forall i j d, (i < c_ndim c)%nat -> (j < c_size c)%nat -> nth j (nth i vs []) d = nth i (nth j (c_rows c) []) 0%R).
Proof.
  intros junk w c v q mk k W L Hq Hc F.
  assert (B : c_bool c = true) by (apply c_bool_wf; [assumption|]; unfold c_size in L; intros E; rewrite E in L; cbn in L; lia).
  pose proof (multicolor_nonempty junk c v mk W B) as M. rewrite Hq in M.
  destruct (match v with VCurvature => true | _ => false end && Nat.eqb (c_ndim c) 2 && Nat.eqb (c_size c) 1)%bool eqn:X.
  { exfalso. apply andb_true_iff in X. destruct X as [X X3]. apply andb_true_iff in X. destruct X as [X1 X2].
    apply Nat.eqb_eq in X2, X3. assert (v = VCurvature) by (destruct v; try discriminate; reflexivity). specialize (Hc H X2). lia. }
  destruct M as (vals & lo & hi & E & Lv & Elo & Ehi & M).
  exists (plot_segments c), vals, lo, hi, (c_values_all c).
  rewrite plot_fits by exact F. unfold drawn. rewrite M. cbn [fst snd].
  split. { unfold draw. cbn [app map]. rewrite map_app. destruct mk; reflexivity. }
  split; [assumption|]. split; [assumption|]. split; [apply plot_segments_spec|]. split; [apply plot_segments_spec|].
  destruct vals as [|x vals]; [discriminate|]. cbn [np_min np_max] in Elo, Ehi. injection Elo as <-. injection Ehi as <-.
  destruct (fold_min_spec vals x) as [I1 I2]. destruct (fold_max_spec vals x) as [J1 J2]. cbv zeta in *.
  split; [assumption|]. split; [assumption|]. split; [intros y Hy; split; [apply I2|apply J2]; assumption|].
  exact (proj2 (values_all_spec c)).
Qed.
Print Assumptions C79_multicolor.
Example C79_multicolor_ex : wf pl2 /\ (1 <= c_size pl2)%nat /\ vprop VSpeed = Some PSpeed /\ c_ndim pl2 = 2%nat /\
  plot_segments pl2 = [([0; 0], [1; 2]); ([1; 2], [3; 3])]%R.
Proof. split; [apply pl2_wf|]. split; [cbn; lia|]. repeat split. Qed.

(** More values than segments: some value never colours a segment. *)
Theorem C79_last_value_unused : forall junk w w' (c : curve R) v mk k segs vals lo hi rest,
  wf c -> (2 <= c_size c)%nat ->
  c_ndim c = 2%nat \/ c_ndim c = 3%nat /\ nth_error (w_axes w) k = Some Ax3 ->
  plot junk w c (Some v) false mk (Some k) = (w', Ok k) -> w_log w' = w_log w ++ (k, CSegments segs vals lo hi) :: rest ->
  length vals = S (length segs).
Proof.
  intros junk w w' c v mk k segs vals lo hi rest W L F P E.
  destruct (vprop v) as [q|] eqn:Hq.
  - destruct (C79_multicolor junk w c v q mk k W) as (segs' & vals' & lo' & hi' & vs & P' & _ & Lv & Ls & _); [lia|assumption|intros; lia|assumption|].
    rewrite P in P'. injection P' as ->. cbn [w_log] in E. apply app_inv_head in E. injection E as -> -> -> -> _.
    rewrite Lv, Ls. lia.
  - rewrite plot_fits in P by exact F. unfold drawn, multicolor in P. rewrite Hq in P. discriminate.
Qed.
Print Assumptions C79_last_value_unused.
Example C79_last_value_unused_ex : forall junk : R, exists w' segs vals lo hi rest,
  plot junk pw pl2 (Some VCumarclen) false true (Some 1%nat) = (w', Ok 1%nat) /\
  w_log w' = w_log pw ++ (1%nat, CSegments segs vals lo hi) :: rest /\ length vals = 3%nat /\ length segs = 2%nat.
Proof.
  intros junk. destruct (C79_multicolor junk pw pl2 VCumarclen PCumarclen true 1%nat pl2_wf) as (segs & vals & lo & hi & vs & P & _ & Lv & Ls & _);
    [cbn; lia|reflexivity|discriminate|left; reflexivity|].
  exists (fst (plot junk pw pl2 (Some VCumarclen) false true (Some 1%nat))), segs, vals, lo, hi.
  rewrite P. eexists. split; [reflexivity|]. split; [reflexivity|]. split; [exact Lv|exact Ls].
Qed.

(** A plot with a parameter that fails draws nothing: the attribute is missing;
    the plane curvature of one point (IndexError); no values at all. *)
Theorem C79_multicolor_fails : forall T (NT : Num T) (ST : NumSqrt T) (junk : T) w (c : curve T) v nrm mk k,
  c_ndim c = 2%nat \/ c_ndim c = 3%nat /\ nth_error (w_axes w) k = Some Ax3 -> wf c ->
  (v = VMissing -> plot junk w c (Some v) nrm mk (Some k) = (w, Raise OtherError)) /\
  (v = VCurvature -> c_ndim c = 2%nat -> c_size c = 1%nat -> plot junk w c (Some v) nrm mk (Some k) = (w, Raise IndexError)) /\
  (c_rows c = [] -> v = VSpeed \/ v = VCurvature \/ v = VTorsion \/ v = VT /\ c_t c = Some [] ->
     plot junk w c (Some v) nrm mk (Some k) = (w, Raise ValueError)).
Proof.
  intros T NT ST junk w c v nrm mk k F W. rewrite plot_fits by exact F. unfold drawn.
  split; [|split].
  - intros ->. cbn [multicolor vprop fst snd]. rewrite draw_nil. reflexivity.
  - intros -> D L. assert (B : c_bool c = true) by (apply c_bool_wf; [assumption|]; unfold c_size in L; intros E; rewrite E in L; discriminate).
    pose proof (multicolor_nonempty junk c VCurvature mk W B) as M. cbn [vprop] in M. rewrite D, L in M. cbn [Nat.eqb andb] in M.
    rewrite M. cbn [fst snd]. rewrite draw_nil. reflexivity.
  - intros E H. assert (B : c_bool c = false) by (unfold c_bool, c_size; rewrite E; reflexivity).
    assert (M : multicolor junk c v mk = Raise ValueError).
    { unfold multicolor, curve_prop. rewrite B. cbn [negb].
      destruct H as [ -> | [ -> | [ -> | [-> Et] ] ] ]; cbn [vprop rbind]; try reflexivity.
      unfold c_tval. rewrite Et. reflexivity. }
    rewrite M. cbn [fst snd]. rewrite draw_nil. reflexivity.
Qed.
Print Assumptions C79_multicolor_fails.
Example C79_multicolor_fails_ex : wf pl1 /\ c_ndim pl1 = 2%nat /\ c_size pl1 = 1%nat /\
  plot 0%R pw pl1 (Some VCurvature) true true (Some 1%nat) = (pw, Raise IndexError).
Proof. split; [apply pl1_wf|]. repeat split. Qed.

(** These are the only failures of a plot with a parameter and without normals. *)
Theorem C79_multicolor_works : forall T (NT : Num T) (ST : NumSqrt T) (junk : T) w (c : curve T) v mk k,
  wf c -> c_rows c <> [] -> v <> VMissing -> (v = VCurvature -> c_ndim c = 2%nat -> c_size c <> 1%nat) ->
  c_ndim c = 2%nat \/ c_ndim c = 3%nat /\ nth_error (w_axes w) k = Some Ax3 ->
  snd (plot junk w c (Some v) false mk (Some k)) = Ok k.
Proof.
  intros T NT ST junk w c v mk k W N V Hc F. rewrite plot_fits by exact F.
  pose proof (multicolor_nonempty junk c v mk W (c_bool_wf c W N)) as M. unfold drawn.
  destruct (vprop v) as [q|] eqn:Hq; [|destruct v; discriminate || contradiction].
  destruct (match v with VCurvature => true | _ => false end && Nat.eqb (c_ndim c) 2 && Nat.eqb (c_size c) 1)%bool eqn:X.
  { exfalso. apply andb_true_iff in X. destruct X as [X X3]. apply andb_true_iff in X. destruct X as [X1 X2].
    apply Nat.eqb_eq in X2, X3. assert (v = VCurvature) by (destruct v; try discriminate; reflexivity). exact (Hc H X2 X3). }
  destruct M as (vals & lo & hi & _ & _ & _ & _ & M). rewrite M. reflexivity.
Qed.
Print Assumptions C79_multicolor_works.
Example C79_multicolor_works_ex : wf pl3 /\ c_rows pl3 <> [] /\ VTorsion <> VMissing /\ nth_error (w_axes pw) 0 = Some Ax3.
Proof. split; [apply pl3_wf|]. repeat split; discriminate. Qed.

(** Normals of a plane curve of two or more points: one arrow per point, placed at
    the point and with the direction of the second Frenet vector there; where the
    curve bends, a unit vector orthogonal to the tangent. *)
Theorem C79_normals : forall junk w (c : curve R) param mk k w1,
  wf c -> c_ndim c = 2%nat -> (2 <= c_size c)%nat ->
  plot junk w c param false mk (Some k) = (w1, Ok k) ->
  exists xs ys us vs, plot junk w c param true mk (Some k) = (mkWorld (w_axes w1) (w_log w1 ++ [(k, CQuiver [xs; ys] [us; vs])]), Ok k) /\
    length us = c_size c /\ length vs = c_size c /\
    forall i, (i < c_size c)%nat ->
      [nth i xs 0; nth i ys 0]%R = nth i (c_rows c) [] /\
      let u := [nth i us 0; nth i vs 0]%R in
      curve_prop junk c PFrenet2 = Ok (AMat (frenet2_rows (c_rows c))) /\ u = nth i (frenet2_rows (c_rows c)) [] /\
      (/ 100000000 < vnorm (nth i (normal_rows (c_rows c)) []) -> vnorm u = 1)%R /\
      (/ 100000000 < vnorm (nth i (deriv1 (c_rows c)) []) -> vdot u (nth i (deriv1 (c_rows c)) []) = 0)%R.
Proof.
  intros junk w c param mk k w1 W D L P.
  assert (F : fits c w k) by (left; assumption). rewrite plot_fits in * by exact F.
  assert (Dm : dims 2 (c_rows c)) by (intros p Hp; rewrite <- D; apply W; assumption).
  assert (D2 : dims 2 (frenet2_rows (c_rows c))) by (apply frenet2_dims; assumption).
  set (col := fun (i : nat) (rows : list (list R)) => map (fun r => nth i r 0%R) rows).
  exists (col 0%nat (c_rows c)), (col 1%nat (c_rows c)), (col 0%nat (frenet2_rows (c_rows c))), (col 1%nat (frenet2_rows (c_rows c))).
  assert (C : forall i j rows, (j < length rows)%nat -> nth j (col i rows) 0%R = nth i (nth j rows []) 0%R).
  { intros i j rows H. unfold col. rewrite nth_indep with (d' := (fun r => nth i r 0%R) []) by (rewrite map_length; assumption).
    apply map_nth with (f := fun r => nth i r 0%R). }
  assert (Pair : forall l : list R, length l = 2%nat -> [nth 0 l 0; nth 1 l 0]%R = l).
  { intros [|a [|b [|x l]]] H; try discriminate H. reflexivity. }
  split; [|split; [|split]].
  - unfold drawn in *.
    destruct (match param with Some v => multicolor junk c v mk | None => Ok [CLine (c_values_all c)] end) as [cs|e]; [|discriminate].
    cbn [fst snd] in P. injection P as <-. rewrite normals_many by assumption. unfold is2d. rewrite D. cbn [Nat.eqb fst snd].
    rewrite <- draw_app. unfold draw at 1. cbn [w_axes w_log map]. unfold c_values_all. rewrite D. reflexivity.
  - unfold col. rewrite map_length, frenet2_length. reflexivity.
  - unfold col. rewrite map_length, frenet2_length. reflexivity.
  - intros i Hi. unfold c_size in Hi. rewrite !C by (rewrite ?frenet2_length; assumption).
    rewrite !Pair by (apply dims_nth; rewrite ?frenet2_length; assumption).
    split; [reflexivity|]. cbv zeta. split.
    { rewrite prop_nonempty; [reflexivity|]. apply c_bool_wf; [assumption|]. intros E. rewrite E in Hi. cbn in Hi. lia. }
    split; [reflexivity|].
    destruct (frenet_at 2 (c_rows c) i Dm Hi) as (A1 & _ & A3 & _). cbv zeta in A1, A3. split.
    + intros H. apply A3. assumption.
    + intros H. destruct (A1 H) as (_ & Et & _ & O & _). rewrite Et, vdot_comm, vdot_scale_l, vdot_comm, O. ring.
Qed.
Print Assumptions C79_normals.
Example C79_normals_ex : wf pl2 /\ c_ndim pl2 = 2%nat /\ (2 <= c_size pl2)%nat /\
  exists w1, plot 0%R pw pl2 None false false (Some 1%nat) = (w1, Ok 1%nat).
Proof. split; [apply pl2_wf|]. split; [reflexivity|]. split; [cbn; lia|]. eexists. reflexivity. Qed.

(** Normals of a spatial curve: the curve is drawn, then NotImplementedError. *)
Theorem C79_normals_3d : forall junk w (c : curve R) param mk k w1,
  wf c -> c_ndim c = 3%nat -> (2 <= c_size c)%nat ->
  plot junk w c param false mk (Some k) = (w1, Ok k) ->
  plot junk w c param true mk (Some k) = (w1, Raise NotImplementedError).
Proof.
  intros junk w c param mk k w1 W D L P.
  assert (F : fits c w k).
  { right. split; [assumption|]. rewrite plot_split in P by lia.
    destruct (nth_error (w_axes w) k) as [[|]|] eqn:E; [|reflexivity|];
      (rewrite (proj2 (choose_given w c k (or_intror D))) in P; [discriminate|intros [H|[_ H]]; [lia|congruence]]). }
  rewrite plot_fits in * by exact F. unfold drawn in *.
  destruct (match param with Some v => multicolor junk c v mk | None => Ok [CLine (c_values_all c)] end) as [cs|e]; [|discriminate].
  cbn [fst snd] in P. injection P as <-. rewrite normals_many by assumption. unfold is2d. rewrite D. reflexivity.
Qed.
Print Assumptions C79_normals_3d.
Example C79_normals_3d_ex : wf pl3 /\ c_ndim pl3 = 3%nat /\ (2 <= c_size pl3)%nat /\
  exists w1, plot 0%R pw pl3 None false false (Some 0%nat) = (w1, Ok 0%nat).
Proof. split; [apply pl3_wf|]. split; [reflexivity|]. split; [cbn; lia|]. eexists. reflexivity. Qed.

(** Normals of a curve without points or with one: the curve is drawn, then
    IndexError, for plane and spatial curves. *)
Theorem C79_normals_few : forall T (NT : Num T) (ST : NumSqrt T) (junk : T) w (c : curve T) param mk k w1,
  wf c -> (c_size c <= 1)%nat ->
  plot junk w c param false mk (Some k) = (w1, Ok k) ->
  plot junk w c param true mk (Some k) = (w1, Raise IndexError).
Proof.
  intros T NT ST junk w c param mk k w1 W L P.
  assert (N : plot_normals junk c = Raise IndexError).
  { unfold c_size in L. destruct (c_rows c) as [|p [|p' l]] eqn:E; [apply normals_none; assumption|apply (normals_one junk c p); assumption|cbn in L; lia]. }
  unfold plot in *. destruct (Nat.ltb 3 (c_ndim c)); [discriminate|]. destruct (choose_axes w c (Some k)) as [w0 [a|e]]; [|discriminate].
  destruct (match param with Some v => multicolor junk c v mk | None => Ok [CLine (c_values_all c)] end) as [cs|e]; [|discriminate].
  rewrite N. congruence.
Qed.
Print Assumptions C79_normals_few.
Example C79_normals_few_ex : wf pl1 /\ (c_size pl1 <= 1)%nat /\ exists w1, plot 0%R pw pl1 None false false (Some 1%nat) = (w1, Ok 1%nat) /\
  plot 0%R pw pl1 None true false (Some 1%nat) = (w1, Raise IndexError).
Proof. split; [apply pl1_wf|]. split; [cbn; lia|]. eexists. split; [reflexivity|]. reflexivity. Qed.

(** Chained calls: all of them draw on the axes of the first one, in the order of
    the calls; each draws what it would draw alone; nothing else is made. *)
Theorem C79_chain : forall T (NT : Num T) (ST : NumSqrt T) (junk : T) w k (l : list (call T)) w' a,
  Forall (fun x => wf (k_curve x)) (k :: l) ->
  chain junk w None (k :: l) = (w', Ok (Some a)) ->
  a = length (w_axes w) /\
  w_axes w' = w_axes w ++ [if Nat.eqb (c_ndim (k_curve k)) 2 then Ax2 else Ax3] /\
  exists css, w_log w' = w_log w ++ map (fun x => (a, x)) (concat css) /\
    Forall2 (fun x cs => forall w0 b, nth_error (w_axes w0) b = Some Ax3 ->
      plot junk w0 (k_curve x) (k_param x) (k_normals x) (k_marker x) (Some b) =
      (mkWorld (w_axes w0) (w_log w0 ++ map (fun y => (b, y)) cs), Ok b)) (k :: l) css.
Proof.
  intros T NT ST junk.
  assert (One : forall w (x : call T) axes w' a, wf (k_curve x) ->
    plot junk w (k_curve x) (k_param x) (k_normals x) (k_marker x) axes = (w', Ok a) ->
    (forall k, axes = Some k -> a = k /\ w_axes w' = w_axes w) /\
    (axes = None -> a = length (w_axes w) /\ w_axes w' = w_axes w ++ [if Nat.eqb (c_ndim (k_curve x)) 2 then Ax2 else Ax3]) /\
    exists cs, w_log w' = w_log w ++ map (fun x => (a, x)) cs /\
      forall w0 b, nth_error (w_axes w0) b = Some Ax3 ->
      plot junk w0 (k_curve x) (k_param x) (k_normals x) (k_marker x) (Some b) =
      (mkWorld (w_axes w0) (w_log w0 ++ map (fun y => (b, y)) cs), Ok b)).
  { intros w x axes w' a W P.
    destruct (Nat.ltb_spec 3 (c_ndim (k_curve x))) as [L|L]; [rewrite C79_too_many_dimensions in P by assumption; discriminate|].
    assert (D : c_ndim (k_curve x) = 2%nat \/ c_ndim (k_curve x) = 3%nat) by (destruct W; lia).
    rewrite plot_split in P by assumption.
    destruct (choose_axes w (k_curve x) axes) as [w1 [a'|e]] eqn:E; [|discriminate].
    destruct (drawn junk (k_curve x) (k_param x) (k_normals x) (k_marker x)) as [cs [e|]] eqn:Ed; [discriminate|].
    cbn [fst snd] in P. injection P as <- ->. split; [|split].
    - intros k ->. unfold choose_axes in E. destruct (_ && _)%bool; [discriminate|]. injection E as <- <-. split; reflexivity.
    - intros ->. rewrite choose_fresh in E by assumption. injection E as <- <-. split; [reflexivity|]. cbn [draw w_axes].
      f_equal. unfold is3d. destruct D as [D|D]; rewrite D; reflexivity.
    - exists cs. split.
      + cbn [draw w_log]. f_equal. unfold choose_axes in E. destruct axes as [k|].
        * destruct (_ && _)%bool; [discriminate|]. injection E as <- _. reflexivity.
        * destruct (is2d (k_curve x)); [|destruct (is3d (k_curve x))]; [| |discriminate]; injection E as <- _; reflexivity.
      + intros w0 b Hb. rewrite plot_fits, Ed by (destruct D as [D|D]; [left|right]; auto). reflexivity. }
  assert (Many : forall l w k w' o, Forall (fun x => wf (k_curve x)) l -> chain junk w (Some k) l = (w', Ok o) ->
    o = Some k /\ w_axes w' = w_axes w /\
    exists css, w_log w' = w_log w ++ map (fun x => (k, x)) (concat css) /\
    Forall2 (fun x cs => forall w0 b, nth_error (w_axes w0) b = Some Ax3 ->
      plot junk w0 (k_curve x) (k_param x) (k_normals x) (k_marker x) (Some b) =
      (mkWorld (w_axes w0) (w_log w0 ++ map (fun y => (b, y)) cs), Ok b)) l css).
  { intros l. induction l as [|x l IH]; intros w k w' o HW H; cbn [chain] in H.
    - injection H as <- <-. split; [reflexivity|]. split; [reflexivity|]. exists []. split; [cbn; symmetry; apply app_nil_r|constructor].
    - destruct (plot junk w (k_curve x) (k_param x) (k_normals x) (k_marker x) (Some k)) as [w1 [a|e]] eqn:E; [|discriminate].
      inversion HW as [|? ? Wx Wl]; subst. destruct (One _ _ _ _ _ Wx E) as (A1 & _ & cs & Lg & Al).
      destruct (A1 k eq_refl) as [-> Ax]. destruct (IH _ _ _ _ Wl H) as (-> & Ax' & css & Lg' & Al').
      split; [reflexivity|]. split; [congruence|]. exists (cs :: css). split; [|constructor; assumption].
      cbn [concat]. rewrite Lg', Lg, map_app, app_assoc. reflexivity. }
  intros w k l w' a HW H. cbn [chain] in H.
  destruct (plot junk w (k_curve k) (k_param k) (k_normals k) (k_marker k) None) as [w1 [a1|e]] eqn:E; [|discriminate].
  inversion HW as [|? ? Wx Wl]; subst. destruct (One _ _ _ _ _ Wx E) as (_ & A2 & cs & Lg & Al).
  destruct (A2 eq_refl) as [-> Ax]. destruct (Many _ _ _ _ _ Wl H) as (Eo & Ax' & css & Lg' & Al').
  injection Eo as ->. split; [reflexivity|]. split; [congruence|]. exists (cs :: css). split; [|constructor; assumption].
  cbn [concat]. rewrite Lg', Lg, map_app, app_assoc. reflexivity.
Qed.
Print Assumptions C79_chain.
Example C79_chain_ex : let l := [mkCall pl2 None false false] in
  Forall (fun x => wf (k_curve x)) (mkCall pl3 None false true :: l) /\
  chain 0%R pw None (mkCall pl3 None false true :: l) =
  (mkWorld [Ax3; Ax2; Ax3] [(1%nat, CLine [[7]; [7]]); (2%nat, CLine [[0; 1; 3]; [0; 2; 3]; [1; 0; 5]]);
                            (2%nat, CLine [[0; 1; 3]; [0; 2; 3]])], Ok (Some 2%nat))%R.
Proof. cbv zeta. split; [|reflexivity]. constructor; [apply pl3_wf|]. constructor; [apply pl2_wf|constructor]. Qed.

(** The first curve decides: after a plane curve a spatial one is refused, with
    what was drawn before left in place. *)
Theorem C79_chain_mixed : forall T (NT : Num T) (ST : NumSqrt T) (junk : T) w k (l : list (call T)) x l2 w' a,
  Forall (fun y => wf (k_curve y)) (k :: l) -> c_ndim (k_curve k) = 2%nat -> c_ndim (k_curve x) = 3%nat ->
  chain junk w None (k :: l) = (w', Ok (Some a)) ->
  chain junk w None (k :: l ++ x :: l2) = (w', Raise TypeError).
Proof.
  intros T NT ST junk w k l x l2 w' a HW D2 D3 H.
  destruct (C79_chain T NT ST junk w k l w' a HW H) as (-> & Ax & _). rewrite D2 in Ax. cbn [Nat.eqb] in Ax.
  assert (App : forall l axes w o, chain junk w axes l = (w', Ok o) ->
    chain junk w axes (l ++ x :: l2) = chain junk w' o (x :: l2)).
  { clear. intros l. induction l as [|y l IH]; intros axes w o H; cbn [chain app] in *.
    - injection H as -> ->. reflexivity.
    - destruct (plot junk w _ _ _ _ axes) as [w1 [a|e]]; [|discriminate]. apply IH. assumption. }
  change (k :: l ++ x :: l2) with ((k :: l) ++ x :: l2). rewrite (App _ _ _ _ H). cbn [chain].
  rewrite C79_kind; [reflexivity|assumption|]. rewrite Ax, nth_error_app2, Nat.sub_diag by lia. discriminate.
Qed.
Print Assumptions C79_chain_mixed.
Example C79_chain_mixed_ex : c_ndim (k_curve (mkCall pl2 None false false)) = 2%nat /\
  (exists w', chain 0%R pw None [mkCall pl2 None false false] = (w', Ok (Some 2%nat))) /\
  snd (chain 0%R pw None [mkCall pl2 None false false; mkCall pl3 None false false]) = Raise TypeError.
Proof. split; [reflexivity|]. split; [eexists; reflexivity|reflexivity]. Qed.
