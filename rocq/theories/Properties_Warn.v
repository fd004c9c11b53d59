(** Property C78: warnings. *)
From Coq Require Import ZArith String List Bool Arith Lia PrimFloat Reals Lra Psatz Permutation.
From Verif Require Import Num Py Numeric Curve Vec Geom DiffGeom Intersect Registry Interp Angle Warn Spec GeomSpec.
From Verif Require Import ListFacts ArrayProofs VecFacts CurveProofs CurveProofs2 CurveProofs3 GeomProofs GeomProofs3 DiffGeomProofs DiffGeomProofs2 DiffGeomProofs3 DiffGeomProofs4 DiffGeomProofs5.
From Verif Require Import InterpProofs InterpProofs2 IntersectProofs IntersectProofs3 RegistryProofs WarnProofs WarnProofs2.
From Verif Require Import Properties_Container Properties_DiffGeom Properties_Interp.
Import ListNotations.
Local Open Scope string_scope.
Local Open Scope list_scope.
Local Open Scope R_scope.

(** ** Reading properties *)

(** The warnings of any history of reads, failing ones included: every property
    that was needed warns once, when it is computed, as often as its own body
    does ([count]); exactly the needed properties are computed. *)
Theorem C78_reads : forall T (NT : Num T) (ST : NumSqrt T) (c : curve T) l,
  let '(ws, s) := w_reads c l [] in
  ws = repeat WDiffGeom (total c s) /\ NoDup s /\
  forall p, In p s <-> fails c p = None /\ exists q, In q l /\ needs c q p.
Proof.
  intros T NT ST c l. destruct (reads_spec c l [] (good_nil c)) as (news & E & G & N & D). rewrite E, app_nil_r in *.
  split; [reflexivity|]. split; [exact (g_nodup _ _ G)|]. intros p. split; [apply N|]. intros (F & q & Hq & Hn). eauto.
Qed.
Print Assumptions C78_reads.

(** The outcome is that of the model without warnings, whatever was read before. *)
Theorem C78_read_result : forall T (NT : Num T) (ST : NumSqrt T) junk (c : curve T) l q,
  let s := snd (w_reads c l []) in
  snd (fst (w_read c q s)) = match curve_prop junk c q with Ok _ => Ok tt | Raise e => Raise e end.
Proof.
  intros T NT ST junk c l q. destruct (reads_spec c l [] (good_nil c)) as (news & E & G & _). rewrite E. cbn [snd].
  destruct (s_read c q _ G) as (n' & E' & _). rewrite E'. cbn [fst snd]. rewrite <- (fails_prop c junk q).
  destruct (curve_prop junk c q); reflexivity.
Qed.
Print Assumptions C78_read_result.

(** A property read before is silent. *)
Theorem C78_once : forall T (NT : Num T) (ST : NumSqrt T) (c : curve T) l q, In q l -> fails c q = None ->
  let s := snd (w_reads c l []) in w_read c q s = (([], Ok tt), s).
Proof.
  intros T NT ST c l q Hq F. destruct (reads_spec c l [] (good_nil c)) as (news & E & G & _ & D). rewrite E. cbn [snd].
  set (s := news ++ []) in *. destruct (s_read c q _ G) as (n' & E' & G' & N' & _). rewrite E', F in *. cbn [app].
  assert (Cl : forall a b, needs c a b -> In a s -> In b s).
  { intros a b N. induction N as [a|a d b X N IH]; [auto|]. intros Ha. apply IH. exact (g_closed _ _ G _ _ Ha X). }
  assert (n' = []) as ->; [|reflexivity]. destruct n' as [|p n']; [reflexivity|exfalso].
  destruct (N' p (or_introl eq_refl)) as (d & [<-|[]] & Nd). pose proof (g_nodup _ _ G') as ND. cbn [app] in ND. inversion ND as [|? ? X Y]; subst.
  apply X, in_or_app. right. apply (Cl _ _ Nd). apply (D _ q Hq); [constructor|assumption].
Qed.
Print Assumptions C78_once.

(** The number of warnings does not depend on the order of the reads, nor on
    reading something twice. *)
Theorem C78_order : forall T (NT : Num T) (ST : NumSqrt T) (c : curve T) l l', (forall q, In q l <-> In q l') ->
  fst (w_reads c l []) = fst (w_reads c l' []).
Proof.
  intros T NT ST c l l' H. pose proof (C78_reads T NT ST c l) as A. pose proof (C78_reads T NT ST c l') as B.
  destruct (w_reads c l []) as [ws s]. destruct (w_reads c l' []) as [ws' s']. destruct A as (-> & A1 & A2). destruct B as (-> & B1 & B2).
  cbn [fst]. f_equal. apply total_perm. apply NoDup_Permutation; [assumption..|]. intros p. rewrite A2, B2.
  split; intros (F & q & Hq & N); (split; [assumption|]); exists q; (split; [apply H; assumption|assumption]).
Qed.
Print Assumptions C78_order.

(** Nothing is issued exactly if nothing needed warns. *)
Theorem C78_quiet_iff : forall T (NT : Num T) (ST : NumSqrt T) (c : curve T) l,
  fst (w_reads c l []) = [] <-> forall q p, In q l -> needs c q p -> fails c p = None -> count c p = 0%nat.
Proof.
  intros T NT ST c l. pose proof (C78_reads T NT ST c l) as A. destruct (w_reads c l []) as [ws s]. destruct A as (-> & A1 & A2). cbn [fst].
  transitivity (total c s = 0%nat); [destruct (total c s); split; discriminate || reflexivity|]. rewrite total_zero. split.
  - intros H q p Hq N F. apply H, A2. eauto.
  - intros H p Hp. apply A2 in Hp as (F & q & Hq & N). eauto.
Qed.
Print Assumptions C78_quiet_iff.

(** What the counts mean: derivatives of fewer than three points ... *)
Theorem C78_few_points : forall T (NT : Num T) (ST : NumSqrt T) (c : curve T),
  fst (w_reads c [PFirst] []) = match c_size c with 1 => [WDiffGeom; WDiffGeom; WDiffGeom] | 2 => [WDiffGeom] | _ => [] end.
Proof. intros T NT ST c. unfold w_reads, w_read, w_first, rcached, rdone. cbn. rewrite app_nil_r. destruct (c_size c) as [|[|[|k]]]; reflexivity. Qed.
Print Assumptions C78_few_points.

Lemma needs_In {T} {NT : Num T} {ST : NumSqrt T} (c : curve T) (P : prop -> Prop) :
  (forall q d, P q -> In d (direct c q) -> P d) -> forall q p, needs c q p -> P q -> P p.
Proof. intros H q p N. induction N as [q|q d p D N IH]; [auto|]. intros Q. apply IH. eapply H; eassumption. Qed.

(** ... and vectors too short to be normalised. *)
Theorem C78_frenet1_iff : forall (c : curve R) t, wf c -> (3 <= c_size c)%nat -> curve_prop 0 c PTangent = Ok (AMat t) ->
  let ws := fst (w_reads c [PFrenet1] []) in
  (ws = [WDiffGeom] /\ exists v, In v t /\ norm v <= / 100000000) \/
  (ws = [] /\ forall v, In v t -> / 100000000 < norm v).
Proof.
  intros c t W H Et. assert (B : c_bool c = true) by (apply c_bool_wf; [assumption|]; apply size_nonempty; lia).
  rewrite prop_nonempty in Et by assumption. injection Et as <-.
  assert (E : fst (w_reads c [PFrenet1] []) = repeat WDiffGeom (vanishing (deriv1 (c_rows c)))).
  { unfold w_reads, w_read, w_frenet1, w_tangent, w_first, rcached, runless, rthen, rdone. rewrite B.
    cbn [has existsb negb pname Nat.eqb wret fst snd]. rewrite gradient_warns_repeat, frenet_warns_repeat, app_nil_r.
    destruct (c_size c) as [|[|[|k]]] eqn:S; try lia. reflexivity. }
  cbv zeta. rewrite E. destruct (vanishing_cases (deriv1 (c_rows c))) as [V|V]; rewrite V; [right|left]; (split; [reflexivity|]).
  - intros v Hv. destruct (Rlt_le_dec (/ 100000000) (norm v)) as [K|K]; [assumption|exfalso]. rewrite norm_vnorm in K.
    assert (X : vanishing (deriv1 (c_rows c)) = 1%nat) by (apply vanishing_iff; eauto). congruence.
  - apply vanishing_iff in V as (v & Hv & K). exists v. rewrite norm_vnorm. auto.
Qed.
Print Assumptions C78_frenet1_iff.

(** Derivatives, speed, tangents, unit tangents, normals and the curvature of a
    regular curve of at least three points are silent. *)
Theorem C78_regular_quiet : forall (c : curve R) t l, wf c -> (3 <= c_size c)%nat -> curve_prop 0 c PTangent = Ok (AMat t) ->
  (forall v, In v t -> / 100000000 < norm v) ->
  (forall q, In q l -> In q [PT; PCumarclen; PFirst; PSecond; PThird; PTangent; PSpeed; PFrenet1; PNormal; PCurvature]) ->
  fst (w_reads c l []) = [].
Proof.
  intros c t l W H Et Hv Hl. apply C78_quiet_iff. intros q p Hq N _.
  assert (B : c_bool c = true) by (apply c_bool_wf; [assumption|]; apply size_nonempty; lia).
  rewrite prop_nonempty in Et by assumption. injection Et as <-.
  assert (P : In p [PT; PCumarclen; PFirst; PSecond; PThird; PTangent; PSpeed; PFrenet1; PNormal; PCurvature]).
  { eapply (needs_In c (fun p => In p _)); [|exact N|apply Hl; assumption].
    intros a d Ha Hd. unfold direct in Hd. cbv zeta in Hd. cbn [In] in Ha |- *.
    repeat (destruct Ha as [<-|Ha]); try destruct Ha; try (destruct (isparametric c)); try rewrite B in Hd; try (destruct (Nat.eqb (c_ndim c) 2)); try (destruct (Nat.eqb (c_size c) 1)); cbn [In] in Hd; tauto. }
  assert (V : vanishing (deriv1 (c_rows c)) = 0%nat).
  { destruct (vanishing_cases (deriv1 (c_rows c))) as [V|V]; [assumption|exfalso]. apply vanishing_iff in V as (v & Hi & K).
    specialize (Hv v Hi). rewrite norm_vnorm in Hv. lra. }
  assert (Fz : few_points (c_size c) = 0%nat) by (destruct (c_size c) as [|[|[|k]]]; lia || reflexivity).
  cbn [In] in P. repeat (destruct P as [<-|P]); try destruct P; cbn [count]; rewrite ?B, ?Fz, ?V; try reflexivity.
  destruct (Nat.eqb (c_ndim c) 2); reflexivity.
Qed.
Print Assumptions C78_regular_quiet.

(** A needed property that warns makes the history warn. *)
Lemma needed_warns (c : curve R) l q p k : In q l -> needs c q p -> fails c p = None -> count c p = S k -> In WDiffGeom (fst (w_reads c l [])).
Proof.
  intros Hq N F Cp. pose proof (C78_reads R _ _ c l) as A. destruct (w_reads c l []) as [ws s]. destruct A as (-> & A1 & A2). cbn [fst].
  destruct (total c s) eqn:E; [|left; reflexivity]. apply total_zero with (p := p) in E; [congruence|]. apply A2. eauto.
Qed.

(** On a straight line the second Frenet vector always warns, and so does
    everything that needs it. *)
Theorem C78_line_warns : forall (c : curve R) t l q, wf c -> (2 <= c_size c)%nat -> on_common_line (c_ndim c) (c_rows c) ->
  curve_prop 0 c PTangent = Ok (AMat t) -> (exists v, In v t /\ / 100000000 < norm v) ->
  In q l -> In q [PFrenet2; PBinormal; PFrenet3; PTorsion] -> In WDiffGeom (fst (w_reads c l [])).
Proof.
  intros c t l q W H (p & u & Lp & Lu & HL) Et (v & Hv & Kv) Hq Hin.
  assert (B : c_bool c = true) by (apply c_bool_wf; [assumption|]; apply size_nonempty; lia).
  rewrite prop_nonempty in Et by assumption. injection Et as <-. rewrite norm_vnorm in Kv.
  apply (In_nth _ _ []) in Hv as (i & Hi & <-). rewrite deriv1_length in Hi.
  destruct (finite_choice (fun k s _ => along p u s (nth k (c_rows c) [])) (length (c_rows c))) as (a & b & K).
  { intros k Hk. destruct (HL (nth k (c_rows c) []) (nth_In _ _ Hk)) as (s & E). exists s, 0. exact E. }
  assert (PR := along_rows _ p u a (c_rows c) (wf_dims c W) Lu K).
  assert (Z := normal_line _ p u a (c_rows c) i H PR Hi Kv).
  apply (needed_warns c l q PFrenet2 0 Hq); [| reflexivity |].
  - cbn [In] in Hin. repeat (destruct Hin as [<-|Hin]); try destruct Hin; [constructor| | |].
    + apply needs_step with (d := PFrenet2); [|constructor]. cbn [direct]. rewrite B. cbn. auto.
    + apply needs_step with (d := PBinormal); [cbn [direct]; rewrite B; cbn; auto|].
      apply needs_step with (d := PFrenet2); [|constructor]. cbn [direct]. rewrite B. cbn. auto.
    + apply needs_step with (d := PFrenet2); [|constructor]. cbn [direct]. rewrite B. cbn. auto.
  - cbn [count]. rewrite B. apply vanishing_iff. exists (nth i (normal_rows (c_rows c)) []). split; [apply nth_In; rewrite gen_n; assumption|].
    rewrite Z. assert (vnorm (repeat 0 (c_ndim c)) = 0) as -> by (apply vnorm_eq0; rewrite repeat_length; reflexivity). lra.
Qed.
Print Assumptions C78_line_warns.

(** The third Frenet vector and the torsion of every plane curve with a regular
    point warn: all curves of dimension two, and plane ones in space. *)
Theorem C78_plane_warns : forall (c : curve R) t n l q i, wf c -> (i < c_size c)%nat -> in_common_plane (c_ndim c) (c_rows c) ->
  curve_prop 0 c PTangent = Ok (AMat t) -> curve_prop 0 c PNormal = Ok (AMat n) ->
  / 100000000 < norm (nth i t []) -> / 100000000 < norm (nth i n []) ->
  In q l -> In q [PFrenet3; PTorsion] -> In WDiffGeom (fst (w_reads c l [])).
Proof.
  intros c t n l q i W Hi HP Et En Kt Kn Hq Hin.
  assert (B : c_bool c = true) by (apply c_bool_wf; [assumption|]; apply size_nonempty; lia).
  rewrite prop_nonempty in Et, En by assumption. injection Et as <-. injection En as <-. rewrite norm_vnorm in Kt, Kn.
  destruct (common_plane_rows _ _ (wf_dims c W) HP) as (p & u & v & a & b & Q).
  assert (Z := binormal_plane _ p u v a b _ i Q Hi Kt Kn).
  apply (needed_warns c l q PFrenet3 0 Hq); [| reflexivity |].
  - cbn [In] in Hin. repeat (destruct Hin as [<-|Hin]); try destruct Hin; [constructor|].
    apply needs_step with (d := PFrenet3); [|constructor]. cbn [direct]. rewrite B. cbn. auto.
  - cbn [count]. rewrite B. apply vanishing_iff. exists (nth i (binormal_rows (c_rows c)) []). split.
    + apply nth_In. unfold c_size in Hi. rewrite binormal_length. assumption.
    + rewrite Z. assert (vnorm (repeat 0 (c_ndim c)) = 0) as -> by (apply vnorm_eq0; rewrite repeat_length; reflexivity). lra.
Qed.
Print Assumptions C78_plane_warns.

(** A parabola: silent up to the normals; frenet3 and torsion warn once. *)
Definition fparabola : curve float := mkCurve [[fz 0; fz 0]; [fz 1; fz 1]; [fz 2; fz 4]; [fz 3; fz 9]] 2 DFloat None.
Example C78_ex : w_reads fparabola [PCurvature; PNormal; PFrenet2] [] = ([], [PFrenet2; PNormal; PFrenet1; PTangent; PCurvature; PSecond; PFirst])
  /\ fst (w_reads fparabola [PTorsion; PFrenet3; PTorsion] []) = [WDiffGeom]
  /\ fst (w_reads (mkCurve [[fz 0; fz 0]; [fz 1; fz 1]] 2 DFloat None) [PCurvature; PFrenet2] []) = [WDiffGeom; WDiffGeom; WDiffGeom]
  /\ fst (w_reads (mkCurve [[fz 0; fz 0]] 2 DFloat None) [PCurvature; PCurvature] []) = [WDiffGeom; WDiffGeom; WDiffGeom].
Proof. repeat split. Qed.
(** The hypotheses of the two theorems. *)
Example C78_ex_line : on_common_line 2 [[0; 0]; [1; 2]; [3; 6]].
Proof.
  exists [0; 0], [1; 2]. repeat split. intros x H. cbn in H. destruct H as [<-|[<-|[<-|[]]]]; [exists 0|exists 1|exists 3];
    intros [|[|[|j]]]; cbn; try lra; destruct j; lra.
Qed.

Example C78_ex_regular : let c := mkCurve [[0; 0]; [1; 1]; [2; 4]] 2 DFloat None in
  wf c /\ (3 <= c_size c)%nat /\ in_common_plane 2 (c_rows c) /\
  exists t, curve_prop 0 c PTangent = Ok (AMat t) /\ forall v, In v t -> / 100000000 < norm v.
Proof.
  cbv zeta. split; [wfr|]. split; [cbn; lia|]. split.
  - exists [0; 0], [1; 0], [0; 1]. repeat split. cbn [c_rows]. intros x H. cbn in H. destruct H as [<-|[<-|[<-|[]]]];
      [exists 0, 0|exists 1, 1|exists 2, 4]; intros [|[|[|j]]]; cbn; try lra; destruct j; lra.
  - eexists. split; [reflexivity|]. intros v H. unfold norm.
    rewrite <- (sqrt_square (/ 100000000)) by lra. apply sqrt_lt_1_alt. split; [lra|].
    cbn in H. destruct H as [<-|[<-|[<-|[]]]]; cbn; nra.
Qed.

(** ** Construction *)

Theorem C78_construct : forall T (NT : Num T) (src : source T) tdata axis ndmin dt,
  snd (curve_init_w src tdata axis ndmin dt) = curve_init src tdata axis ndmin dt /\
  let ws := fst (curve_init_w src tdata axis ndmin dt) in
  (In WUser ws <-> (exists c, src = SCurve c) /\ tdata <> None /\ forall k, ndmin = Some k -> (2 <= k)%Z) /\
  (In WRuntime ws <-> (exists c, src = SCurve c) /\ axis <> None /\ forall k, ndmin = Some k -> (2 <= k)%Z) /\
  (length ws <= 2)%nat.
Proof.
  intros T NT src tdata axis ndmin dt. split; [reflexivity|]. unfold curve_init_w. cbn [fst]. destruct src as [x d|x|c];
    try (split; [|split]; [split; [intros []|intros ((c' & E) & _); discriminate]|split; [intros []|intros ((c' & E) & _); discriminate]|cbn; lia]).
  assert (K : (match ndmin with None => 2 | Some k => k end <? 2)%Z = false <-> forall k, ndmin = Some k -> (2 <= k)%Z).
  { destruct ndmin as [k|]; [|split; [discriminate|reflexivity]]. rewrite Z.ltb_ge. split; [intros H k' E; injection E as <-; assumption|auto]. }
  destruct (match ndmin with None => 2 | Some k => k end <? 2)%Z.
  - split; [|split]; [| |cbn; lia]; (split; [intros []|]; intros (_ & _ & X); apply K in X; discriminate).
  - pose proof (proj1 K eq_refl) as X. destruct tdata as [td|], axis as [ax|]; cbn; (split; [|split; [|lia]]);
      (split; [intros Y; split; [eexists; reflexivity|split; [|assumption]]|intros (_ & Y & _)]);
      try discriminate; try contradiction; auto; intuition discriminate.
Qed.
Print Assumptions C78_construct.
Example C78_construct_ex : fst (curve_init_w (SCurve fparabola) (Some (mkNd [4%nat] [fz 0; fz 1; fz 2; fz 3])) (Some 0%Z) None None) = [WUser; WRuntime]
  /\ fst (curve_init_w (SCurve fparabola) None None None None) = [].
Proof. split; reflexivity. Qed.

(** ** Segments *)

(** The parameter of a point: the result is that of [sg_t]; a point that is not
    collinear warns, and one that is collinear by tolerance only warns if its
    squared distance from the whole line exceeds eps. *)
Theorem C78_segment_t : forall n (s : segment R) p, seg_wf n s -> length p = n ->
  snd (sg_t_w s p) = Ok (sg_t s p) /\
  (fst (sg_t_w s p) = [] \/ fst (sg_t_w s p) = [WGeomAlg]) /\
  (fst (sg_t_w s p) = [WGeomAlg] <->
     sg_t s p = None \/ (sg_p1 s <> sg_p2 s /\ forall t, f_eps < sq_gap (sg_point s t) p)).
Proof.
  intros n s p H L. split; [apply sg_t_w_snd|]. unfold sg_t_w, sg_t. destruct (sg_collinear_point s p); cbn [negb].
  - unfold wwarn, wret, when. cbn [fst]. rewrite app_nil_r. destruct (residual1 _ _) eqn:E.
    + split; [auto|]. split; [intros _|reflexivity]. right.
      assert (Ne : sg_p1 s <> sg_p2 s).
      { intros X. rewrite (residual1_collinear n) in E by tauto. discriminate. }
      split; [assumption|]. apply (residual1_iff n); assumption.
    + split; [auto|]. split; [discriminate|]. intros [X|[Ne X]]; [discriminate|]. apply (residual1_iff n) in X; [congruence|assumption..].
  - split; [right; reflexivity|]. split; [auto|reflexivity].
Qed.
Print Assumptions C78_segment_t.

(** Exactly collinear points are silent. *)
Theorem C78_segment_t_quiet : forall n (s : segment R) p, seg_wf n s -> length p = n ->
  p = sg_p1 s \/ p = sg_p2 s \/ sg_p1 s = sg_p2 s \/ on_line_through_origin n [sg_p1 s; sg_p2 s; p] ->
  fst (sg_t_w s p) = [] /\ sg_t s p <> None.
Proof.
  intros n s p H L C. assert (K : sg_collinear_point s p = true).
  { apply (sg_collinear_point_iff n); [assumption..|]. destruct C as [-> | [-> | [C|C]]]; auto using near_refl. }
  unfold sg_t_w, sg_t. rewrite K. cbn [negb]. unfold wwarn, wret. cbn [fst]. rewrite (residual1_collinear n) by assumption. split; [reflexivity|discriminate].
Qed.
Print Assumptions C78_segment_t_quiet.

(** But a point that counts as collinear can warn: the tolerance grows with the
    coordinates, the bound on the residual does not. *)
Theorem C78_collinear_warns_refuted : exists (s : segment float) p, sg_collinear_point s p = true /\
  sg_t_w s p = ([WGeomAlg], Ok (Some n0)).
Proof. exists (mkSeg [fz 100000; fz 0] [fz 100000; fz 1]), [fq 200001 2; fz 0]. split; reflexivity. Qed.
Print Assumptions C78_collinear_warns_refuted.

(** A sequence of points: at most two warnings; a point that is not collinear
    always warns, the residual of the first point only. *)
Theorem C78_segment_ts : forall T (NT : Num T) (s : segment T) ps,
  snd (sg_ts_w s ps) = sg_ts s ps /\ (length (fst (sg_ts_w s ps)) <= 2)%nat /\
  (existsb (fun p => negb (sg_collinear_point s p)) ps = true -> fst (sg_ts_w s ps) <> []) /\
  forall p, (residual1 (sg_dir s) (vsub p (sg_p1 s)) = false -> Forall (fun q => sg_collinear_point s q = true) (p :: ps) -> fst (sg_ts_w s (p :: ps)) = []).
Proof.
  intros T NT s ps. split; [apply sg_ts_w_snd|]. split; [|split].
  - destruct ps as [|p ps]; cbn [sg_ts_w]; [cbn; lia|]. unfold wwarn, wlift, when. cbn [fst].
    destruct (residual1 _ _), (negb _); cbn; lia.
  - intros E. destruct ps as [|p ps]; [discriminate|]. unfold sg_ts_w, wwarn, wlift. cbn [fst].
    assert (forallb (sg_collinear_point s) (p :: ps) = false) as ->.
    { apply not_true_is_false. intros F. rewrite forallb_forall in F. apply existsb_exists in E as (q & Hq & E). rewrite (F q Hq) in E. discriminate. }
    cbn [negb when]. destruct (residual1 _ _); discriminate.
  - intros p R F. unfold sg_ts_w, wwarn, wlift. cbn [fst]. rewrite R.
    assert (forallb (sg_collinear_point s) (p :: ps) = true) as -> by (apply forallb_forall; rewrite Forall_forall in F; exact F). reflexivity.
Qed.
Print Assumptions C78_segment_ts.
(** One point off the line: the warning is followed by an IndexError. *)
Example C78_segment_ex : sg_ts_w (mkSeg [fz 1; fz 1] [fz 2; fz 2]) [[fz 0; fz 1]] = ([WGeomAlg; WGeomAlg], Raise IndexError)
  /\ sg_ts_w (mkSeg [fz 1; fz 1] [fz 2; fz 2]) [[fz 3; fz 3]; [fz 0; fz 1]] = ([WGeomAlg], Ok [Some (fz 2); None])
  /\ sg_t_w (mkSeg [fz 1; fz 1] [fz 2; fz 2]) [fz 3; fz 3] = ([], Ok (Some (fz 2))).
Proof. repeat split. Qed.

(** The angle: a warning exactly with NaN. *)
Theorem C78_angle : forall (s1 s2 : segment R) rnd,
  let '(ws, r) := segments_angle_w s1 s2 rnd in
  r = Ok (segments_angle s1 s2 rnd) /\
  ((ws = [WGeomAlg] /\ segments_angle s1 s2 rnd = None) \/ (ws = [] /\ segments_angle s1 s2 rnd <> None)).
Proof.
  intros s1 s2 rnd. unfold segments_angle_w, wwarn, wret. cbn [fst snd]. split; [reflexivity|]. unfold segments_angle.
  change (isclose (vnorm (sg_dir s1) * vnorm (sg_dir s2))%num n0) with (isclose (vnorm (sg_dir s1) * vnorm (sg_dir s2)) 0).
  destruct (isclose _ 0); [left|right]; (split; [reflexivity|]); [reflexivity|discriminate].
Qed.
Print Assumptions C78_angle.

(** ** Interpolation *)

Theorem C78_grid_iff : forall junk few (c : curve R) s g, wf c -> c_rows c <> [] -> get_grid junk few c s = Ok g ->
  exists ws, get_grid_w junk few c s = (ws, Ok g) /\ (ws = [] \/ ws = [WInterp]) /\
    (ws = [] <-> nth 0 g 0 <= nth 0 (c_tval junk c) 0 /\ nth (c_size c - 1) (c_tval junk c) 0 <= nth (length g - 1) g 0).
Proof.
  intros junk few c s g W N G. rewrite (get_grid_w_ok junk few c s g W N G). eexists. split; [reflexivity|].
  destruct (Rltb (nth 0 (c_tval junk c) 0) (nth 0 g 0)) eqn:A; [|destruct (Rltb (nth (length g - 1) g 0) (nth (c_size c - 1) (c_tval junk c) 0)) eqn:B];
    cbn [orb when]; (split; [auto|]).
  - apply Rltb_iff in A. split; [discriminate|]. intros [X _]. lra.
  - apply Rltb_iff in B. split; [discriminate|]. intros [_ X]. lra.
  - apply Rltb_false in A, B. split; [auto|reflexivity].
Qed.
Print Assumptions C78_grid_iff.

Theorem C78_grid_error : forall T (NT : Num T) (ST : NumSqrt T) (RT : NumRound T) junk few (c : curve T) s e,
  get_grid junk few c s = Raise e -> get_grid_w junk few c s = ([], Raise e).
Proof. intros. apply get_grid_w_raise. assumption. Qed.
Print Assumptions C78_grid_error.

Lemma linspace_ends a b n : (2 <= n)%nat -> nth 0 (linspace_nat a b n) 0 = a /\ nth (length (linspace_nat a b n) - 1) (linspace_nat a b n) 0 = b.
Proof. intros H. destruct (linspace_evenly a b n) as (L & _ & K). rewrite L. destruct (K H) as (A & B & _). auto. Qed.

(** A number of points never warns. *)
Theorem C78_count_quiet : forall junk few (c : curve R) n g, wf c -> (2 <= c_size c)%nat ->
  get_grid junk few c (SInt n) = Ok g -> get_grid_w junk few c (SInt n) = ([], Ok g).
Proof.
  intros junk few c n g W H G. assert (N := size_nonempty c ltac:(lia)).
  destruct (C78_grid_iff junk few c (SInt n) g W N G) as (ws & E & _ & I). rewrite E. f_equal. apply I.
  unfold get_grid in G. rewrite C51_init in G. cbn [String.eqb Ascii.eqb Bool.eqb] in G. change ("point" =? "point")%string with true in G. cbv iota in G.
  destruct (Z.ltb_spec n 2) as [?|Hn]; [discriminate|]. cbn [rbind] in G.
  destruct (C51_points junk c (Z.to_nat n) W H ltac:(lia)) as (l & El & Ll & _ & K). rewrite Z2Nat.id in El by lia. rewrite El in G.
  cbn [rmap rbind] in G. apply check_grid_inv in G as (-> & _). rewrite Ll. destruct (K ltac:(lia)) as (A & B & _). lra.
Qed.
Print Assumptions C78_count_quiet.

(** Extending a grid keeps it silent. *)
Theorem C78_extrapolated_quiet : forall junk few (c : curve R) g e l l', wf c -> c_rows c <> [] ->
  get_grid_w junk few c (SGrid g) = ([], Ok l) -> get_grid junk few c (SGrid (GExtrap g e)) = Ok l' ->
  get_grid_w junk few c (SGrid (GExtrap g e)) = ([], Ok l').
Proof.
  intros junk few c g e l l' W N Q G'.
  assert (G : get_grid junk few c (SGrid g) = Ok l).
  { destruct (get_grid junk few c (SGrid g)) as [l0|e0] eqn:E; [|rewrite (get_grid_w_raise _ _ _ _ _ E) in Q; discriminate].
    rewrite (get_grid_w_ok _ _ _ _ _ W N E) in Q. congruence. }
  destruct (C78_grid_iff junk few c _ l W N G) as (ws & E & _ & I). rewrite Q in E. injection E as <-. destruct (proj1 I eq_refl) as [A B].
  destruct (C78_grid_iff junk few c _ l' W N G') as (ws & E & _ & I'). rewrite E. f_equal. apply I'.
  destruct (get_grid_inv _ _ _ _ _ G) as [Nl Wl]. destruct (get_grid_inv _ _ _ _ _ G') as [Nl' Wl'].
  assert (S : exists lb la, l' = lb ++ l ++ la).
  { unfold get_grid in G, G'. cbn [grid_call] in G'. destruct (grid_call junk few g c) as [d|]; [|discriminate]. cbn [rbind] in G, G'.
    destruct d as [l0| |]; try discriminate. apply check_grid_inv in G as (-> & _).
    destruct (extrap_call e l0) as [l1|] eqn:X; [|discriminate]. cbn [rmap rbind] in G'. apply check_grid_inv in G' as (-> & _).
    unfold extrap_call in X. destruct (match e with EPoint _ _ => _ | ELength _ _ => _ end) as [[nb na]|]; [|discriminate]. cbn [rbind] in X.
    destruct (np_get l0 0); [|discriminate]. cbn [rbind] in X. destruct (linspace _ _ nb) as [gb|]; [|discriminate]. cbn [rbind] in X.
    destruct (np_get l0 (-1)); [|discriminate]. cbn [rbind] in X. destruct (linspace _ _ na) as [ga|]; [|discriminate]. cbn [rbind] in X.
    injection X as <-. eauto. }
  destruct S as (lb & la & ->).
  assert (Mono : forall i j, (i <= j < length (lb ++ l ++ la))%nat -> nth i (lb ++ l ++ la) 0 <= nth j (lb ++ l ++ la) 0).
  { apply nondecreasing_le. intros i Hi. specialize (Wl' i Hi). lra. }
  assert (Ll : (1 <= length l)%nat) by (destruct l; [contradiction|cbn; lia]).
  assert (F : nth (length lb) (lb ++ l ++ la) 0 = nth 0 l 0).
  { rewrite app_nth2, Nat.sub_diag, app_nth1 by lia. reflexivity. }
  assert (La : nth (length lb + (length l - 1)) (lb ++ l ++ la) 0 = nth (length l - 1) l 0).
  { rewrite app_nth2 by lia. replace (length lb + (length l - 1) - length lb)%nat with (length l - 1)%nat by lia. rewrite app_nth1 by lia. reflexivity. }
  assert (LL : length (lb ++ l ++ la) = (length lb + length l + length la)%nat) by (rewrite !app_length; lia).
  pose proof (Mono 0%nat (length lb) ltac:(lia)). pose proof (Mono (length lb + (length l - 1))%nat (length (lb ++ l ++ la) - 1)%nat ltac:(lia)). lra.
Qed.
Print Assumptions C78_extrapolated_quiet.

(** The whole call: an empty curve warns, one point is an error without a
    warning, otherwise the warnings of the grid and then those of the method. *)
Theorem C78_interpolation : forall junk few (c : curve R) f s, wf c ->
  snd (interp_call_w junk few c f s) = interp_call junk few c (fun g => snd (f g)) s /\
  fst (interp_call_w junk few c f s) =
    match c_size c with
    | 0%nat => [WInterp]
    | 1%nat => []
    | _ => fst (get_grid_w junk few c s) ++ match get_grid junk few c s with Ok g => fst (f g) | Raise _ => [] end
    end.
Proof.
  intros junk few c f s W. unfold interp_call_w, interp_call. destruct (c_bool c) eqn:B; cbn [negb].
  2:{ split; [reflexivity|]. assert (c_size c = 0%nat) as ->; [|reflexivity].
      destruct (c_rows c) as [|r rs] eqn:E; [unfold c_size; rewrite E; reflexivity|exfalso].
      assert (c_bool c = true) by (apply c_bool_wf; [assumption|congruence]). congruence. }
  assert (Nr : c_rows c <> []) by (apply c_bool_rows; assumption).
  destruct (Nat.eqb_spec (c_size c) 1) as [->|N1]; [split; reflexivity|].
  assert (exists k, c_size c = S (S k)) as (k & ->).
  { unfold c_size in *. destruct (c_rows c) as [|a [|b r]]; [contradiction|cbn in N1; lia|exists (length r); reflexivity]. }
  destruct (get_grid junk few c s) as [g|e] eqn:G.
  - rewrite (get_grid_w_ok _ _ _ _ _ W Nr G). unfold wbind. cbn [fst snd rbind]. destruct (f g) as [ws [d|e]]; cbn [fst snd].
    + unfold wwarn, wlift. cbn [fst snd]. rewrite app_nil_r. split; reflexivity.
    + split; reflexivity.
  - rewrite (get_grid_w_raise _ _ _ _ _ G). cbn [wbind fst snd rbind app]. split; reflexivity.
Qed.
Print Assumptions C78_interpolation.

Example C78_interp_ex : get_grid_w 0%float (fun _ => false) fpath3 (SInt 4) = ([], Ok [fz 0; fq 17 3; fq 34 3; fz 17])
  /\ get_grid_w 0%float (fun _ => false) fpath3 (SArr [fz 1; fz 17]) = ([WInterp], Ok [fz 1; fz 17])
  /\ get_grid_w 0%float (fun _ => false) fpath3 (SGrid (GUniform (ULength (fz 1000)))) = ([WInterp], Ok [fz 0])
  /\ get_grid_w 0%float (fun _ => false) fpath3 (SArr [fz 1; fz 1]) = ([], Raise ValueError).
Proof. repeat split. Qed.
Example C78_interp_ex_hyp : exists g, get_grid 0 (fun _ => false) rt3 (SInt 3) = Ok g.
Proof.
  eexists. unfold get_grid. rewrite C51_init. change ("point" =? "point")%string with true. cbv iota. change (3 <? 2)%Z with false. cbn [rbind].
  rewrite uniform_call_eq by (apply rt3_wf || (cbn; lia)). cbn [rmap rbind]. unfold linspace. change (3 <? 0)%Z with false. cbv iota. cbn [rmap rbind].
  apply check_grid_ok; [discriminate|]. apply linspace_well_spaced; [cbn; lia|].
  cbn. change (Pos.to_nat 3 - 1)%nat with 2%nat. cbn. lra.
Qed.

(** ** Intersection *)

Theorem C78_exact_agrees : forall T (NT : Num T) (ST : NumSqrt T) feps,
  (forall s1 s2 : segment T, snd (exact_segments_w feps s1 s2) = exact_segments feps s1 s2) /\
  (forall (c1 c2 : curve T) same, snd (exact_curves_w feps c1 c2 same) = exact_curves feps c1 c2 same).
Proof. intros T NT ST feps. split; intros; [apply exact_segments_w_snd|apply exact_curves_w_snd]. Qed.
Print Assumptions C78_exact_agrees.

(** Without rounding the exact method never warns: the three warnings are about
    rounding errors only. *)
Theorem C78_exact_quiet : forall feps, 0 <= feps ->
  (forall n (s1 s2 : segment R), seg_wf n s1 -> seg_wf n s2 -> fst (exact_segments_w feps s1 s2) = []) /\
  (forall (c1 c2 : curve R) same, wf c1 -> wf c2 -> c_ndim c1 = c_ndim c2 -> fst (exact_curves_w feps c1 c2 same) = []).
Proof. intros feps H. split; intros; [eapply exact_segments_w_silent|eapply exact_curves_w_silent]; eassumption. Qed.
Print Assumptions C78_exact_quiet.
(** With rounding it does, although the point is found: the segments in space
    from (1e9, 0, 0) to (2e9, 6e9, 0) and from (0, 1e9, 0) to (3e9, 1, 0). *)
Theorem C78_exact_float_refuted : exists (s1 s2 : segment float) i,
  exact_segments_w f_eps s1 s2 = ([WInter], Ok i) /\ i_type i = IExact.
Proof.
  exists (mkSeg [fz 1000000000; fz 0; fz 0] [fz 2000000000; fz 6000000000; fz 0]), (mkSeg [fz 0; fz 1000000000; fz 0] [fz 3000000000; fz 1; fz 0]).
  eexists. vm_compute. split; reflexivity.
Qed.
Print Assumptions C78_exact_float_refuted.

Lemma call_warns_exact n feps o1 o2 same : 0 <= feps -> (2 <= n)%nat ->
  let ok o := match o with OSeg s => seg_wf n s | OCurve c => wf c /\ c_ndim c = n | OOther _ => True end in
  ok o1 -> ok o2 -> call_warns (exact_method_w (T:=R) feps) o1 o2 same = [].
Proof.
  intros P Hn ok H1 H2. unfold call_warns. cbn [exact_method_w mw_segments mw_curves].
  assert (CV : forall (s : segment R), seg_wf n s -> exists c, sg_to_curve s = Ok c /\ wf c /\ c_ndim c = n).
  { intros s [A B]. rewrite sg_to_curve_ok by (unfold sg_ndim; congruence || lia). eexists. split; [reflexivity|]. unfold sg_ndim.
    split; [|exact A]. split; [cbn; lia|]. split; [|cbn; discriminate]. cbn. intros p [<-|[<-|[]]]; congruence. }
  destruct o1 as [s1|c1|x1], o2 as [s2|c2|x2]; try reflexivity; cbn in H1, H2.
  - destruct (negb _); [reflexivity|]. apply (exact_segments_w_silent n); assumption.
  - destruct (negb _); [reflexivity|]. destruct (CV s1 H1) as (c & -> & Wc & Ec). destruct (_ || _); [reflexivity|].
    apply exact_curves_w_silent; [assumption|assumption|tauto|]. destruct H2. congruence.
  - destruct (negb _); [reflexivity|]. destruct (CV s2 H2) as (c & -> & Wc & Ec). destruct (_ || _); [reflexivity|].
    apply exact_curves_w_silent; [assumption|tauto|assumption|]. destruct H1. congruence.
  - destruct (negb _); [reflexivity|]. destruct (_ || _); [reflexivity|].
    apply exact_curves_w_silent; [assumption|tauto|tauto|]. destruct H1, H2. congruence.
Qed.

(** intersect: an IntersectionWarning comes first exactly if parameters are
    given together with a method object; the other warnings are the method's. *)
Theorem C78_intersect : forall T (NT : Num T) P default get (given : P -> bool) (o1 o2 : iobj T) same method params n,
  obj_ndim o1 = Some n -> obj_ndim o2 = Some n ->
  fst (intersect_w default get given o1 o2 same method params) =
    match method with
    | MWInst m => (if given params then [WInter] else []) ++ call_warns m o1 o2 same
    | MWStr name => match get name params with Ok m => call_warns m o1 o2 same | Raise _ => [] end
    | MWNone => match default with
                | Some name => match get name params with Ok m => call_warns m o1 o2 same | Raise _ => [] end
                | None => []
                end
    | MWOther => []
    end.
Proof.
  intros T NT P default get given o1 o2 same method params n E1 E2. unfold intersect_w. rewrite E1, E2, Nat.eqb_refl. cbn [negb].
  assert (K : forall r : res (imethod_w T), fst (wbind (wlift r) (fun m => (call_warns m o1 o2 same,
      match method_call (forget m) o1 o2 same with Ok r => Ok r | Raise _ => Raise IntersectionError end))) =
    match r with Ok m => call_warns m o1 o2 same | Raise _ => [] end) by (intros [m|e]; reflexivity).
  destruct method as [|name|m|].
  - destruct default as [name|]; [apply K|reflexivity].
  - apply K.
  - unfold wbind, wwarn, wret, when. cbn [fst snd]. rewrite app_nil_r. destruct (given params); reflexivity.
  - reflexivity.
Qed.
Print Assumptions C78_intersect.

(** These are the warnings of the function of the method that is called, with a
    segment next to a curve replaced by the curve of its two end points; nothing
    is called for an empty curve. *)
Theorem C78_call : forall T (NT : Num T) (m : imethod_w T) (s1 s2 : segment T) (c1 c2 : curve T) same n, (2 <= n)%nat ->
  length (sg_p1 s1) = n -> length (sg_p2 s1) = n -> length (sg_p1 s2) = n -> length (sg_p2 s2) = n ->
  c_ndim c1 = n -> c_ndim c2 = n ->
  let of s := mkCurve [sg_p1 s; sg_p2 s] n DFloat None in
  let curves a b same := if Nat.ltb 0 (c_size a) && Nat.ltb 0 (c_size b) then fst (mw_curves m a b same) else [] in
  call_warns m (OSeg s1) (OSeg s2) same = fst (mw_segments m s1 s2) /\
  call_warns m (OCurve c1) (OCurve c2) same = curves c1 c2 same /\
  call_warns m (OSeg s1) (OCurve c2) same = curves (of s1) c2 false /\
  call_warns m (OCurve c1) (OSeg s2) same = curves c1 (of s2) false.
Proof.
  intros T NT m s1 s2 c1 c2 same n Hn A1 A2 B1 B2 D1 D2 of curves.
  assert (K : forall a b sm, (if Nat.eqb (c_size a) 0 || Nat.eqb (c_size b) 0 then [] else fst (mw_curves m a b sm)) = curves a b sm).
  { intros a b sm. unfold curves. destruct (c_size a), (c_size b); reflexivity. }
  unfold call_warns. rewrite !sg_to_curve_ok by (unfold sg_ndim; congruence || lia).
  unfold sg_ndim. rewrite A1, B1, D1, D2, !Nat.eqb_refl. cbn [negb]. rewrite !K. repeat split; reflexivity.
Qed.
Print Assumptions C78_call.
(** A method that reports the sizes of the curves it is given. *)
Example C78_call_ex :
  let m := mkMethodW (fun _ _ => wret not_intersected) (fun a b (_ : bool) => (repeat WInter (c_size a) ++ repeat WInterp (c_size b), Ok [])) in
  let c := mkCurve [[fz 0; fz 0]; [fz 2; fz 2]; [fz 2; fz 3]] 2 DFloat None in
  call_warns m (OSeg (mkSeg [fz 0; fz 0] [fz 2; fz 2])) (OCurve c) false = [WInter; WInter; WInterp; WInterp; WInterp] /\
  call_warns m (OCurve c) (OSeg (mkSeg [fz 0; fz 0] [fz 2; fz 2])) false = [WInter; WInter; WInter; WInterp; WInterp].
Proof. split; reflexivity. Qed.

Theorem C78_intersect_agrees : forall T (NT : Num T) P (s : istate T P) (get : string -> P -> res (imethod_w T)) given o1 o2 same method params,
  (forall name p, rmap forget (get name p) = get_intersect s name p) ->
  snd (intersect_w (is_default s) get given o1 o2 same method params) =
  intersect s o1 o2 same (match method with MWNone => MNone | MWStr n => MStr n | MWInst m => MInst (forget m) | MWOther => MOther end) params.
Proof. intros. apply intersect_w_snd. assumption. Qed.
Print Assumptions C78_intersect_agrees.

(** The exact method through intersect, for all well-formed objects. *)
Theorem C78_intersect_exact_quiet : forall P default get (given : P -> bool) n feps (o1 o2 : iobj R) same params, 0 <= feps -> (2 <= n)%nat ->
  let ok o := match o with OSeg s => seg_wf n s | OCurve c => wf c /\ c_ndim c = n | OOther _ => False end in
  ok o1 -> ok o2 -> fst (intersect_w default get given o1 o2 same (MWInst (exact_method_w feps)) params) = if given params then [WInter] else [].
Proof.
  intros P default get given n feps o1 o2 same params Pf Hn ok H1 H2.
  assert (D : forall o : iobj R, ok o -> obj_ndim o = Some n).
  { intros [s|c|x]; cbn; [intros [A _]; unfold sg_ndim; congruence|intros [_ A]; congruence|intros []]. }
  rewrite (C78_intersect _ _ P default get given o1 o2 same (MWInst (exact_method_w feps)) params n (D _ H1) (D _ H2)).
  rewrite (call_warns_exact n) by (try assumption; destruct o1, o2; cbn in H1, H2 |- *; tauto). rewrite app_nil_r. reflexivity.
Qed.
Print Assumptions C78_intersect_exact_quiet.
Example C78_intersect_ex :
  let a := OSeg (mkSeg [fz 0; fz 0] [fz 2; fz 2]) in let b := OSeg (mkSeg [fz 0; fz 2] [fz 2; fz 0]) in
  fst (intersect_w None (fun _ _ => Raise ValueError) (fun l : list nat => negb (Nat.eqb (length l) 0)) a b false (MWInst (exact_method_w f_eps)) [1%nat]) = [WInter]
  /\ fst (intersect_w None (fun _ _ => Raise ValueError) (fun l : list nat => negb (Nat.eqb (length l) 0)) a b false (MWInst (exact_method_w f_eps)) []) = [].
Proof. split; reflexivity. Qed.
