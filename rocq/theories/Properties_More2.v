(** Further theorems for C15, C22, C31, C36, C37, C46 and C62: branches the main
    theorems leave open. *)
From Coq Require Import ZArith QArith String List Bool Arith Lia Reals Lra Sorting.Sorted Permutation.
From Verif Require Import Num Py Numeric Curve Vec Geom Angle Intersect Point Spec GeomSpec ListFacts VecFacts CurveProofs CurveProofs2 CurveProofs3 GeomProofs GeomProofs2.
From Verif Require Import Fixtures Properties_Geom.
Import ListNotations.
Local Open Scope list_scope.
Local Open Scope R_scope.

(** ** C15 The order of numpy.unique *)

(** The first differing coordinate decides. *)
Definition lex_lt (u v : list R) : Prop :=
  exists k, (k < length u)%nat /\ (forall i, (i < k)%nat -> nth i u 0 = nth i v 0) /\ nth k u 0 < nth k v 0.

Lemma row_ltb_iff u v : length u = length v -> (row_ltb u v = true <-> lex_lt u v).
Proof.
  revert v. induction u as [|a u IH]; intros [|b v] L; try discriminate L.
  - split; [discriminate|intros (k & H & _); cbn in H; lia].
  - cbn [row_ltb nltb neqb RNum]. injection L as L. specialize (IH v L). rewrite orb_true_iff, andb_true_iff, Rltb_iff, Reqb_iff. split.
    + intros [H|[-> H]].
      * exists 0%nat. split; [cbn; lia|]. split; [intros i Hi; lia|exact H].
      * apply IH in H. destruct H as (k & Hk & E & Lt). exists (S k). split; [cbn; lia|]. split; [|exact Lt].
        intros [|i] Hi; [reflexivity|]. cbn [nth]. apply E. lia.
    + intros ([|k] & Hk & E & Lt); [left; exact Lt|right].
      split; [exact (E 0%nat ltac:(lia))|]. apply IH. exists k. cbn in Hk. split; [lia|]. split; [|exact Lt].
      intros i Hi. exact (E (S i) ltac:(lia)).
Qed.

Lemma lex_total u v : length u = length v -> u <> v -> lex_lt u v \/ lex_lt v u.
Proof.
  revert v. induction u as [|a u IH]; intros [|b v] L N; try discriminate L; [contradiction|]. injection L as L.
  destruct (Rtotal_order a b) as [H|[H|H]].
  - left. exists 0%nat. cbn. split; [lia|]. split; [intros i Hi; lia|assumption].
  - subst b. destruct (IH v L) as [(k & Hk & E & Lt)|(k & Hk & E & Lt)]; [congruence|left|right];
      (exists (S k); split; [cbn; lia|]; split; [intros [|i] Hi; [reflexivity|]; cbn [nth]; apply E; lia|exact Lt]).
  - right. exists 0%nat. cbn. split; [lia|]. split; [intros i Hi; lia|assumption].
Qed.

Lemma lex_trans u v w : length u = length v -> lex_lt u v -> lex_lt v w -> lex_lt u w.
Proof.
  intros L (k & Hk & E & Lt) (k' & Hk' & E' & Lt').
  destruct (Nat.lt_trichotomy k k') as [H|[H|H]].
  - exists k. split; [assumption|]. split; [|rewrite <- (E' k) by assumption; assumption].
    intros i Hi. rewrite E, E' by lia. reflexivity.
  - subst k'. exists k. split; [assumption|]. split; [intros i Hi; rewrite E, E' by lia; reflexivity|lra].
  - exists k'. split; [lia|]. split; [|rewrite E by assumption; assumption].
    intros i Hi. rewrite E, E' by lia. reflexivity.
Qed.

(** numpy.unique lists one index for each distinct row, the first one with that
    row, in increasing lexicographic order of the rows. *)
Theorem C15_lexicographic : forall n (rows : list (list R)), dims n rows ->
  let ix := np_unique_index rows in
  StronglySorted (fun i j => lex_lt (nth i rows []) (nth j rows [])) ix /\
  forall k, In k ix <-> (k < length rows)%nat /\ forall j, (j < k)%nat -> nth j rows [] <> nth k rows [].
Proof.
  intros n rows D ix.
  assert (Eq : forall u v, row_eqb u v = true <-> u = v :> list R).
  { intros u. induction u as [|a u IH]; intros [|b v]; cbn [row_eqb]; try (split; congruence).
    rewrite andb_true_iff, IH. cbn [neqb RNum]. rewrite Reqb_iff. split; [intros [-> ->]; reflexivity|intros H; injection H as -> ->; auto]. }
  assert (FO : forall k, In k (first_occurrences rows) <-> (k < length rows)%nat /\ forall j, (j < k)%nat -> nth j rows [] <> nth k rows []).
  { intros k. unfold first_occurrences. rewrite filter_In, in_seq, negb_true_iff. split.
    - intros [[_ Hk] F]. split; [exact Hk|]. intros j Hj E.
      assert (X : existsb (fun j => row_eqb (nth j rows []) (nth k rows [])) (seq 0 k) = true)
        by (apply existsb_exists; exists j; split; [apply in_seq; lia|apply Eq; assumption]). congruence.
    - intros [Hk F]. split; [lia|]. destruct (existsb _ _) eqn:X; [|reflexivity]. apply existsb_exists in X.
      destruct X as (j & Hj & E). apply in_seq in Hj. apply Eq in E. exfalso. exact (F j ltac:(lia) E). }
  assert (ND : NoDup (first_occurrences rows)) by (apply NoDup_filter, seq_NoDup).
  assert (Ins : forall cmp x l k, In k (Curve.insert_by cmp x l) <-> k = x \/ In k l).
  { intros cmp x l. induction l as [|y l IH]; intros k; cbn [Curve.insert_by]; [cbn; intuition|].
    destruct (cmp y x); cbn [In]; [rewrite IH|]; intuition. }
  assert (Srt : forall cmp l k, In k (Curve.sort_by cmp l) <-> In k l).
  { intros cmp l. induction l as [|x l IH]; intros k; [reflexivity|]. unfold Curve.sort_by in *. cbn [fold_right]. rewrite Ins, IH. cbn [In]. intuition. }
  split; [|intros k; unfold ix, np_unique_index; rewrite Srt; apply FO].
  assert (Dis : forall i j, In i (first_occurrences rows) -> In j (first_occurrences rows) -> i <> j -> nth i rows [] <> nth j rows []).
  { intros i j Hi Hj N. apply FO in Hi, Hj. destruct (Nat.lt_total i j) as [H|[H|H]]; [apply Hj; assumption|contradiction|].
    intros E. exact (proj2 Hi j H (eq_sym E)). }
  assert (Len : forall i, In i (first_occurrences rows) -> length (nth i rows []) = n) by (intros i Hi; apply D, nth_In, FO; assumption).
  unfold ix, np_unique_index. set (cmp := fun i j => row_ltb (nth i rows []) (nth j rows [])).
  set (P := fun i j => lex_lt (nth i rows []) (nth j rows [])).
  revert Dis Len ND. generalize (first_occurrences rows) as l. clear FO. intros l. induction l as [|x l IH]; intros Dis Len ND; [constructor|].
  assert (S : StronglySorted P (Curve.sort_by cmp l)).
  { apply IH; [intros; apply Dis; try (right; assumption); assumption|intros i Hi; apply Len; right; assumption|inversion ND; assumption]. }
  assert (Mem : forall k, In k (Curve.sort_by cmp l) -> In k l) by (intros k; apply Srt).
  assert (Nx : ~ In x l) by (inversion ND; assumption).
  change (Curve.sort_by cmp (x :: l)) with (Curve.insert_by cmp x (Curve.sort_by cmp l)). clear IH.
  revert S Mem. generalize (Curve.sort_by cmp l) as m. intros m. induction m as [|y m IHm]; intros S Mem; cbn [Curve.insert_by]; [constructor; constructor|].
  inversion S as [|? ? Sm Fm]; subst.
  assert (Iy : In y l) by (apply Mem; left; reflexivity).
  assert (Ly : length (nth y rows []) = n) by (apply Len; right; assumption).
  assert (Lx : length (nth x rows []) = n) by (apply Len; left; reflexivity).
  destruct (cmp y x) eqn:C.
  - apply row_ltb_iff in C; [|congruence]. constructor.
    + apply IHm; [assumption|]. intros k Hk. apply Mem. right. assumption.
    + apply Forall_forall. intros k Hk. apply Ins in Hk. destruct Hk as [->|Hk]; [exact C|]. rewrite Forall_forall in Fm. apply Fm. assumption.
  - assert (Lxy : P x y).
    { destruct (lex_total (nth x rows []) (nth y rows [])) as [H|H]; [congruence| |exact H|].
      - apply Dis; [left; reflexivity|right; assumption|]. intros ->. contradiction.
      - apply row_ltb_iff in H; [|congruence]. unfold cmp in C. congruence. }
    constructor; [assumption|]. constructor; [exact Lxy|]. apply Forall_forall. intros k Hk. rewrite Forall_forall in Fm.
    apply lex_trans with (v := nth y rows []); [congruence|exact Lxy|apply Fm; assumption].
Qed.
Print Assumptions C15_lexicographic.
Example C15_lexicographic_ex : np_unique_index [[1; 2]; [0; 5]; [1; 2]; [1; 0]; [0; 5]]%Q = [1; 3; 0]%nat /\
  dims 2 [[1; 2]; [0; 5]; [1; 2]].
Proof. split; [reflexivity|]. intros p [<-|[<-|[<-|[]]]]; reflexivity. Qed.

(** ** C22 Short curves *)

(** A curve without or with one point counts as co-oriented for all axes (also
    for axes it does not have), and the result is its copy. *)
Theorem C22_short : forall T (NT : Num T) (c : curve T) a1 a2, (c_size c <= 1)%nat ->
  is_cooriented c a1 a2 = Ok true /\ c_coorientplane c a1 a2 = curve_init (SCurve c) None None None None.
Proof.
  intros T NT c a1 a2 L.
  assert (E : is_cooriented c a1 a2 = Ok true).
  { unfold is_cooriented, c_bool. destruct (c_size c) as [|[|m]]; [reflexivity|rewrite orb_true_r; reflexivity|lia]. }
  split; [assumption|]. unfold c_coorientplane. rewrite E. reflexivity.
Qed.
Print Assumptions C22_short.
Example C22_short_ex : c_coorientplane (mkCurve [[3; 4]]%Q 2 DFloat (Some [7]%Q)) 5 (-9) = Ok (mkCurve [[3; 4]]%Q 2 DFloat (Some [7]%Q)).
Proof. reflexivity. Qed.

(** ** C31 Construction *)

(** A segment is made of two points of one dimension, at least 1; other points
    are a ValueError. *)
Theorem C31_construct : forall T (p q : list T),
  (length p = length q /\ p <> [] -> mk_segment p q = Ok (mkSeg p q)) /\
  (length p <> length q \/ p = [] -> mk_segment p q = Raise ValueError).
Proof.
  intros T p q. unfold mk_segment. split.
  - intros [L N]. rewrite L, Nat.eqb_refl. destruct q; [destruct p; [contradiction|discriminate]|]. reflexivity.
  - intros [H| ->]; [|reflexivity]. apply Nat.eqb_neq in H. rewrite H. destruct (_ || _)%bool; reflexivity.
Qed.
Print Assumptions C31_construct.
Example C31_construct_ex : mk_segment [1; 2; 3]%Q [4; 5; 6]%Q = Ok (mkSeg [1; 2; 3] [4; 5; 6])%Q /\ mk_segment [1; 2]%Q [3]%Q = Raise ValueError.
Proof. split; reflexivity. Qed.

(** ** C36 Rounding *)

(** With rounding the angle is the arccos of the rounded cosine, where values
    that rounding pushed out of [-1, 1] count as 1 and -1: whatever the rounding
    does, the result is an angle. *)
Theorem C36_rounded : forall (s1 s2 : segment R) f phi, segments_angle s1 s2 (Some f) = Some phi ->
  let c := f (inner (sg_dir s1) (sg_dir s2) / (norm (sg_dir s1) * norm (sg_dir s2))) in
  0 <= phi <= PI /\ (-1 <= c <= 1 -> cos phi = c) /\ (1 < c -> phi = 0) /\ (c < -1 -> phi = PI).
Proof.
  intros s1 s2 f phi E c. split; [exact (angle_range s1 s2 (Some f) phi E)|].
  unfold segments_angle in E. destruct (isclose _ 0); [discriminate|].
  assert (Ec : f (vdot (sg_dir s1) (sg_dir s2) / (vnorm (sg_dir s1) * vnorm (sg_dir s2))) = c).
  { unfold c. rewrite !norm_vnorm, inner_vdot. reflexivity. }
  rewrite Ec in E. clearbody c. injection E as <-. unfold Rltb.
  split; [|split].
  - intros H. destruct (Rlt_dec 1 c); [lra|]. destruct (Rlt_dec c (-1)); [lra|]. apply cos_acos. assumption.
  - intros H. destruct (Rlt_dec 1 c); [|lra]. destruct (Rlt_dec 1 (-1)); [lra|]. apply acos_1.
  - intros H. destruct (Rlt_dec 1 c); [lra|]. destruct (Rlt_dec c (-1)); [|lra]. replace (-1) with (- (1)) by lra. rewrite acos_opp, acos_1. lra.
Qed.
Print Assumptions C36_rounded.
Example C36_rounded_ex : exists phi, segments_angle seg01 seg12 (Some (fun _ => 0)) = Some phi.
Proof.
  destruct C36_angle_ex as [phi E]. revert E. unfold segments_angle. destruct (isclose _ 0); [discriminate|]. intros _. eexists. reflexivity.
Qed.

(** ** C37 The collinearity test of overlap *)

(** Segment.overlap with check_collinear=True (the default is False): None for segments not reported
    as collinear; for the others None exactly if they have no common point,
    otherwise the segment described in C37_overlap. *)
Theorem C37_checked : forall n (s1 s2 : segment R), seg_wf n s1 -> seg_wf n s2 ->
  (sg_collinear s1 s2 = false -> overlap_segments s1 s2 true = None) /\
  (sg_collinear s1 s2 = true -> overlap_segments s1 s2 true = overlap_segments s1 s2 false) /\
  (on_line_through_origin n [sg_p1 s1; sg_p2 s1; sg_p1 s2; sg_p2 s2] ->
   (overlap_segments s1 s2 true = None <->
    ~ exists x, on_segment (sg_p1 s1) (sg_p2 s1) x /\ on_segment (sg_p1 s2) (sg_p2 s2) x)).
Proof.
  intros n s1 s2 W1 W2. unfold overlap_segments at 1 2. split; [intros ->; reflexivity|].
  assert (E : sg_collinear s1 s2 = true -> overlap_segments s1 s2 true = overlap_segments s1 s2 false)
    by (intros H; unfold overlap_segments; rewrite H; reflexivity).
  split; [exact E|]. intros H. rewrite E by (apply (C33_segment_segment n s1 s2 W1 W2); right; right; right; assumption).
  apply C37_none with (n := n); [assumption|assumption|]. apply origin_line_common. assumption.
Qed.
Print Assumptions C37_checked.
Example C37_checked_ex : overlap_segments (mkSeg [0; 0] [2; 2])%Q (mkSeg [1; 0] [2; 1])%Q true = None /\
  overlap_segments (mkSeg [0; 0] [2; 2])%Q (mkSeg [1; 1] [3; 3])%Q true = Some (mkSeg [1; 1] [2; 2])%Q /\
  on_line_through_origin 2 [[0; 0]; [2; 2]; [1; 1]; [3; 3]].
Proof.
  split; [vm_compute; reflexivity|]. split; [vm_compute; reflexivity|]. exists [1; 1]. split; [reflexivity|].
  intros p [<-|[<-|[<-|[<-|[]]]]]; [exists 0|exists 2|exists 1|exists 3]; intros [|[|[|i]]]; cbn; lra.
Qed.

(** ** C46 Refused arguments *)

(** A method called with something that is neither a curve nor a segment raises
    TypeError, with objects of different dimension ValueError. *)
Theorem C46_refused : forall T (NT : Num T) (m : imethod T) o1 o2 same,
  ((exists d, o1 = Intersect.OOther d \/ o2 = Intersect.OOther d) -> method_call m o1 o2 same = Raise TypeError) /\
  (forall n1 n2, (exists s, o1 = OSeg s /\ n1 = sg_ndim s) \/ (exists c, o1 = OCurve c /\ n1 = c_ndim c) ->
     (exists s, o2 = OSeg s /\ n2 = sg_ndim s) \/ (exists c, o2 = OCurve c /\ n2 = c_ndim c) ->
     n1 <> n2 -> method_call m o1 o2 same = Raise ValueError).
Proof.
  intros T NT m o1 o2 same. split.
  - intros (d & [-> | ->]); [reflexivity|]. destruct o1; reflexivity.
  - intros n1 n2 H1 H2 N. apply Nat.eqb_neq in N.
    destruct H1 as [(s1 & -> & ->)|(c1 & -> & ->)], H2 as [(s2 & -> & ->)|(c2 & -> & ->)]; cbn [method_call]; rewrite N; reflexivity.
Qed.
Print Assumptions C46_refused.
Example C46_refused_ex : forall m : imethod Q, method_call m (Intersect.OOther (Some 2%nat)) (OCurve q4) false = Raise TypeError /\
  method_call m (OCurve q4) (OCurve q3d) false = Raise ValueError /\ c_ndim q4 <> c_ndim q3d.
Proof. intros m. split; [reflexivity|]. split; [reflexivity|discriminate]. Qed.

(** ** C62 Constructor and products of scalar points *)

(** Point(data, dtype): a number, a sequence of numbers or a point, converted to
    the dtype, float64 if none is given (also for a point of another dtype);
    nested data is a ValueError. *)
Theorem C62_constructor : forall T (NT : Num T) (dt : option dtype) (d := match dt with Some d => d | None => DFloat end),
  (forall x, point_init (PNumber x) dt = Ok (mkPoint (A0 (cast d x)) d)) /\
  (forall l, point_init (PSeq l) dt = Ok (mkPoint (A1 (map (cast d) l)) d)) /\
  (forall x d0, point_init (PPoint (mkPoint (A0 x) d0)) dt = Ok (mkPoint (A0 (cast d x)) d)) /\
  (forall l d0, point_init (PPoint (mkPoint (A1 l) d0)) dt = Ok (mkPoint (A1 (map (cast d) l)) d)) /\
  point_init PNested dt = Raise ValueError.
Proof. intros T NT dt d. repeat split; reflexivity. Qed.
Print Assumptions C62_constructor.
Example C62_constructor_ex : point_init (PPoint (mkPoint (A1 [1; 2]%Q) DInt)) None = Ok (mkPoint (A1 [1; 2]%Q) DFloat) /\
  point_init (PSeq [1 # 2; 5 # 2]) (Some DInt) = Ok (mkPoint (A1 [0; 2]%Q) DInt).
Proof. split; reflexivity. Qed.

(** @ with a point made from a single number: the product of the numbers, or the
    other point's coordinates times the number. *)
Theorem C62_matmul_scalar : forall T (NT : Num T) d1 d2 x y (l : list T),
  p_matmul (mkPoint (A0 x) d1) (OPoint (mkPoint (A0 y) d2)) = Ok (VNum (nmul x y)) /\
  (exists v, p_matmul (mkPoint (A0 x) d1) (OPoint (mkPoint (A1 l) d2)) = Ok (VArr v) /\ length v = length l /\
     forall i a, nth_error l i = Some a -> nth_error v i = Some (nmul x a)) /\
  (exists v, p_matmul (mkPoint (A1 l) d1) (OPoint (mkPoint (A0 x) d2)) = Ok (VArr v) /\ length v = length l /\
     forall i a, nth_error l i = Some a -> nth_error v i = Some (nmul a x)).
Proof.
  intros T NT d1 d2 x y l. split; [reflexivity|]. split; (eexists; split; [reflexivity|]; split; [apply map_length|]);
    intros i a H; [apply (map_nth_error (nmul x))|apply (map_nth_error (fun x0 => nmul x0 x))]; assumption.
Qed.
Print Assumptions C62_matmul_scalar.
Example C62_matmul_scalar_ex : p_matmul (mkPoint (A1 [2; 3]%Q) DFloat) (OPoint (mkPoint (A0 4%Q) DFloat)) = Ok (VArr [8; 12]%Q).
Proof. reflexivity. Qed.

(** The norm of a point made from a single number is its absolute value. *)
Theorem C62_norm_scalar : forall d (x : R), p_norm (mkPoint (A0 x) d) = Rabs x.
Proof.
  intros d x. unfold p_norm. cbn [p_data nsqrt RSqrt nmul RNum]. change (x * x) with (Rsqr x). apply sqrt_Rsqr_abs.
Qed.
Print Assumptions C62_norm_scalar.
Example C62_norm_scalar_ex : p_norm (mkPoint (A0 (-3)) DFloat) = 3.
Proof. rewrite C62_norm_scalar. unfold Rabs. destruct (Rcase_abs (-3)); lra. Qed.
