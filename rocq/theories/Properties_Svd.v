(** C89: the collinearity and coplanarity tests with numpy's rank, which counts
    the singular values above a tolerance. *)
From Coq Require Import ZArith List Bool Arith Lia Reals Lra Psatz Permutation.
From Verif Require Import Num Py Numeric Curve Vec Geom Spec GeomSpec SvdRank SvdSpec.
From Verif Require Import CurveProofs3 VecFacts RankProofs RigidProofs GeomProofs OrthoProofs SvdProofs SvdProofs2 SvdProofs3 SvdProofs4 SvdProofs5 SvdProofs6.
From Verif Require Import Properties_Geom.
Import ListNotations.
Local Open Scope R_scope.

(** ** The oracle *)

(** Every matrix has singular values, and only one list of them. *)
Theorem C89_svd : forall m n M, shape m n M ->
  (exists s, singular_values m n M s) /\
  (forall s s', singular_values m n M s -> singular_values m n M s' -> s = s').
Proof.
  intros m n M Sh. split; [apply singular_exists, Sh|]. intros s s' H H'. apply (singular_unique m n M); assumption.
Qed.
Print Assumptions C89_svd.
(** diag(3, -2) *)
Example C89_svd_ex : shape 2 2 [[3; 0]; [0; -2]] /\ singular_values 2 2 [[3; 0]; [0; -2]] [3; 2].
Proof.
  split.
  - split; [reflexivity|]. intros p [<-|[<-|[]]]; reflexivity.
  - split; [reflexivity|]. split.
    + intros [|[|i]] [|[|j]] H H'; cbn in *; lra || lia.
    + exists [[1; 0]; [0; -1]], [[1; 0]; [0; 1]]. split; [reflexivity|]. split; [reflexivity|]. split; [|split].
      * split; [intros p [<-|[<-|[]]]; reflexivity|]. intros [|[|i]] [|[|j]] H H'; cbn in *; lra || lia.
      * split; [intros p [<-|[<-|[]]]; reflexivity|]. intros [|[|i]] [|[|j]] H H'; cbn in *; lra || lia.
      * intros [|[|i]] [|[|j]] H H'; try (exfalso; lia); unfold entry, sum_below; cbn; lra.
Qed.

(** So the oracle assumed below exists. *)
Theorem C89_oracle : exists svd, correct_svd svd.
Proof. exists svd_R. exact svd_R_correct. Qed.
Print Assumptions C89_oracle.

(** The rank found is at most k iff some matrix of rank at most k lies within the
    tolerance. *)
Theorem C89_rank : forall svd m n A tol d, correct_svd svd -> shape m n A -> (0 < m)%nat -> (0 < n)%nat ->
  tolerance n A tol d -> 0 <= d ->
  exists r, matrix_rank svd tol A m n = Ok r /\
    forall k, (r <= k)%nat <-> exists B, rank_at_most n k B /\ within n A B d.
Proof.
  intros svd m n A tol d C Sh Hm Hn T Hd. assert (Lm : length A = m) by apply Sh.
  apply (tolerance_singular n A tol d svd C (proj2 Sh) Hn ltac:(lia)) in T. rewrite Lm in T.
  destruct (matrix_rank_le svd m n A tol d C Sh Hm Hn T Hd) as (r & E & H). exists r. split; [exact E|]. intros k.
  rewrite H, (singular_row_rank svd m n A k d C Sh Hd). split; intros (B & Sp & W); exists B; (split; [|exact W]); apply (span_rank n k B); try exact Sp; apply W.
Qed.
Print Assumptions C89_rank.
Example C89_rank_ex : shape 2 2 [[3; 0]; [0; -2]] /\ tolerance 2 [[3; 0]; [0; -2]] (Some 2) 2 /\
  rank_at_most 2 1 [[3; 0]; [0; 0]] /\ within 2 [[3; 0]; [0; -2]] [[3; 0]; [0; 0]] 2.
Proof.
  split; [split; [reflexivity|intros p [<-|[<-|[]]]; reflexivity]|]. split; [reflexivity|]. split.
  - exists [[1; 0]]. split; [reflexivity|]. split; [intros p [<-|[]]; reflexivity|]. intros b [<-|[<-|[]]].
    + exists [3]. intros [|[|[|i]]]; unfold sum_below, entry; cbn; lra.
    + exists [0]. intros [|[|[|i]]]; unfold sum_below, entry; cbn; lra.
  - split; [reflexivity|]. split; [intros p [<-|[<-|[]]]; reflexivity|]. intros [|a [|b [|? ?]]] L; try discriminate.
    unfold along_sq, minus_all. cbn. nra.
Qed.

(** ** What the tests decide *)

(** Collinear: at most two different points, or the points lie within the
    tolerance of points on one line through the origin. *)
Theorem C89_collinear : forall svd n pts U tol d, correct_svd svd -> pts <> [] -> dims n pts ->
  NoDup U -> (forall p, In p U <-> In p pts) -> tolerance n U tol d -> 0 <= d ->
  exists b, collinear_points_tol svd tol pts = Ok b /\
    (b = true <-> (length U <= 2)%nat \/ exists qs, on_line_through_origin n qs /\ within n U qs d).
Proof. exact collinear_tol_iff. Qed.
Print Assumptions C89_collinear.

(** Coplanar: below three dimensions, or the points relative to the last one lie
    within the tolerance of points in one plane through the origin. *)
Theorem C89_coplanar : forall svd n pts tol d, correct_svd svd -> (2 <= length pts)%nat -> dims n pts ->
  tolerance n (relative pts) tol d -> 0 <= d ->
  exists b, coplanar_points_tol svd tol pts = Ok b /\
    (b = true <-> (n < 3)%nat \/ exists qs, in_plane_through_origin n qs /\ within n (relative pts) qs d).
Proof. exact coplanar_tol_iff. Qed.
Print Assumptions C89_coplanar.

(** Three points near the diagonal, and off it by more than the tolerance. *)
Example C89_collinear_ex : forall svd, correct_svd svd ->
  collinear_points_tol svd (Some (1 / 2)) [[1; 1]; [2; 2]; [3; 3 + 1 / 4]; [1; 1]] = Ok true /\
  collinear_points_tol svd (Some (1 / 2)) [[1; 0]; [2; 0]; [0; 1]; [0; 1]] = Ok false.
Proof.
  intros svd C. split.
  - destruct (C89_collinear svd 2 [[1; 1]; [2; 2]; [3; 3 + 1 / 4]; [1; 1]] [[1; 1]; [2; 2]; [3; 3 + 1 / 4]] (Some (1 / 2)) (1 / 2) C) as (b & E & H).
    + discriminate.
    + intros p [<-|[<-|[<-|[<-|[]]]]]; reflexivity.
    + repeat constructor; cbn; intros K; decompose [or] K; try contradiction; match goal with Q : _ = _ |- _ => injection Q; intros; lra end.
    + intros p. cbn. tauto.
    + reflexivity.
    + lra.
    + rewrite E. f_equal. apply H. right. exists [[1; 1]; [2; 2]; [3; 3]]. split.
      * exists [1; 1]. split; [reflexivity|]. intros x [<-|[<-|[<-|[]]]]; [exists 1|exists 2|exists 3]; intros [|[|[|i]]]; cbn; lra.
      * split; [reflexivity|]. split; [intros p [<-|[<-|[<-|[]]]]; reflexivity|]. intros [|a [|b' [|? ?]]] L; try discriminate.
        unfold along_sq, minus_all. cbn. nra.
  - destruct (C89_collinear svd 2 [[1; 0]; [2; 0]; [0; 1]; [0; 1]] [[1; 0]; [2; 0]; [0; 1]] (Some (1 / 2)) (1 / 2) C) as (b & E & H).
    + discriminate.
    + intros p [<-|[<-|[<-|[<-|[]]]]]; reflexivity.
    + repeat constructor; cbn; intros K; decompose [or] K; try contradiction; match goal with Q : _ = _ |- _ => injection Q; intros; lra end.
    + intros p. cbn. tauto.
    + reflexivity.
    + lra.
    + rewrite E. f_equal. destruct b; [exfalso|reflexivity]. destruct (proj1 H eq_refl) as [K|(qs & (u & Lu & O) & (Lq & Dq & W))]; [cbn in K; lia|].
      destruct u as [|u1 [|u2 [|? ?]]]; try discriminate. destruct qs as [|q1 [|q2 [|q3 [|? ?]]]]; try discriminate.
      destruct (O q1 ltac:(cbn; auto)) as (t1 & T1). destruct (O q2 ltac:(cbn; auto)) as (t2 & T2). destruct (O q3 ltac:(cbn; auto)) as (t3 & T3).
      destruct q1 as [|a1 [|b1 [|? ?]]]; try (specialize (Dq _ (or_introl eq_refl)); discriminate).
      destruct q2 as [|a2 [|b2 [|? ?]]]; try (specialize (Dq _ (or_intror (or_introl eq_refl))); discriminate).
      destruct q3 as [|a3 [|b3 [|? ?]]]; try (specialize (Dq _ (or_intror (or_intror (or_introl eq_refl)))); discriminate).
      pose proof (T1 0%nat) as A1. pose proof (T1 1%nat) as B1. pose proof (T2 0%nat) as A2. pose proof (T2 1%nat) as B2.
      pose proof (T3 0%nat) as A3. pose proof (T3 1%nat) as B3. cbn in A1, A2, A3, B1, B2, B3. subst a1 b1 a2 b2 a3 b3.
      destruct (Req_dec u1 0) as [Z1|Z1].
      * subst u1. specialize (W [1; 0] eq_refl). unfold along_sq, minus_all in W. cbn in W. nra.
      * specialize (W [- u2; u1] eq_refl). unfold along_sq, minus_all in W. cbn in W.
        assert (0 < u1 * u1) by (apply Rsqr_pos_lt in Z1; exact Z1).
        replace ((2 + - (t2 * u1)) * - u2 + ((0 + - (t2 * u2)) * u1 + 0)) with (- (2 * u2)) in W by ring.
        nra.
Qed.

(** ** Relation to the exact tests *)

(** What is exactly collinear or coplanar passes the test, whatever the
    tolerance. *)
Theorem C89_collinear_exact : forall svd n pts tol, correct_svd svd -> pts <> [] -> dims n pts ->
  match tol with Some t => 0 <= t | None => True end ->
  collinear_points pts = true -> collinear_points_tol svd tol pts = Ok true.
Proof.
  intros svd n pts tol C Ne D Ht H. destruct (uniq pts) as (U & N & S2).
  assert (DU : dims n U) by (intros p Hp; apply D, S2, Hp).
  destruct (col_dec svd n pts U tol C Ne D N S2 Ht) as (b & E & K). rewrite E. f_equal. apply K.
  apply (collinear_points_iff n pts D) in H. destruct H as [H|H]; [left; apply (uniq_small pts U N S2), H|].
  destruct (Nat.le_gt_cases (length U) 2) as [L|L]; [left; exact L|]. right.
  assert (Hn : (0 < n)%nat).
  { destruct n; [|lia]. exfalso. destruct U as [|a [|a' U]]; cbn in L; try lia. apply NoDup_cons_iff in N. destruct N as [N _]. apply N. left.
    transitivity (@nil R); [|symmetry]; apply length_zero_iff_nil, DU; [right; left|left]; reflexivity. }
  destruct (tolerance_exists n U tol DU Hn) as (d & T & Hd); [intros X; rewrite X in L; cbn in L; lia|].
  exists d, U. split; [destruct tol; [subst; exact Ht|exact Hd]|]. split; [exact T|]. split; [apply (line_same n U pts S2), H|apply within_refl, DU].
Qed.
Print Assumptions C89_collinear_exact.
Example C89_collinear_exact_ex : forall svd, correct_svd svd ->
  collinear_points_tol svd None [[1; 2]; [2; 4]; [-3; -6]] = Ok true.
Proof.
  intros svd C. assert (D : dims 2 [[1; 2]; [2; 4]; [-3; -6]]) by (intros p [<-|[<-|[<-|[]]]]; reflexivity).
  apply (C89_collinear_exact svd 2); [exact C|discriminate|exact D|exact Logic.I|].
  apply (collinear_points_iff 2 _ D). right. exists [1; 2]. split; [reflexivity|].
  intros x [<-|[<-|[<-|[]]]]; [exists 1|exists 2|exists (-3)]; intros [|[|[|i]]]; cbn; lra.
Qed.

Theorem C89_coplanar_exact : forall svd n pts tol, correct_svd svd -> (2 <= length pts)%nat -> dims n pts ->
  match tol with Some t => 0 <= t | None => True end ->
  coplanar_points pts = Ok true -> coplanar_points_tol svd tol pts = Ok true.
Proof.
  intros svd n pts tol C L2 D Ht H. assert (Ne : pts <> []) by (destruct pts; [cbn in L2; lia|discriminate]).
  destruct (cop_dec svd n pts tol C L2 D Ht) as (b & E & K). rewrite E. f_equal. apply K.
  destruct (Nat.lt_ge_cases n 3) as [H3|H3]; [left; exact H3|right].
  destruct (coplanar_points_iff n pts L2 D) as (b' & E' & K'). rewrite H in E'. injection E' as E'. symmetry in E'. apply K' in E'.
  apply (relative_plane n pts D Ne) in E'. assert (Sh := relative_shape n pts D Ne).
  destruct (tolerance_exists n (relative pts) tol (proj2 Sh) ltac:(lia)) as (d & T & Hd).
  { intros X. destruct Sh as [Sh _]. rewrite X in Sh. cbn in Sh. lia. }
  exists d, (relative pts). split; [destruct tol; [subst; exact Ht|exact Hd]|]. split; [exact T|]. split; [exact E'|apply within_refl, Sh].
Qed.
Print Assumptions C89_coplanar_exact.
Example C89_coplanar_exact_ex : forall svd, correct_svd svd ->
  coplanar_points_tol svd None [[0; 0; 5]; [1; 0; 5]; [0; 1; 5]; [3; 4; 5]] = Ok true.
Proof.
  intros svd C. set (pts := [[0; 0; 5]; [1; 0; 5]; [0; 1; 5]; [3; 4; 5]]).
  assert (D : dims 3 pts) by (intros p [<-|[<-|[<-|[<-|[]]]]]; reflexivity).
  apply (C89_coplanar_exact svd 3); [exact C|cbn; lia|exact D|exact Logic.I|].
  destruct (coplanar_points_iff 3 pts ltac:(cbn; lia) D) as (b & E & K). rewrite E. f_equal. apply K.
  exists [0; 0; 5], [1; 0; 0], [0; 1; 0]. split; [reflexivity|]. split; [reflexivity|]. split; [reflexivity|].
  intros x [<-|[<-|[<-|[<-|[]]]]]; [exists 0, 0|exists 1, 0|exists 0, 1|exists 3, 4]; intros [|[|[|[|i]]]]; cbn; lra.
Qed.

(** With the tolerance zero the tests are the exact ones. *)
Theorem C89_zero : forall svd n pts, correct_svd svd -> dims n pts ->
  (pts <> [] -> collinear_points_tol svd (Some 0) pts = Ok (collinear_points pts)) /\
  ((2 <= length pts)%nat -> coplanar_points_tol svd (Some 0) pts = coplanar_points pts).
Proof.
  intros svd n pts C D. split.
  - intros Ne. destruct (uniq pts) as (U & N & S2). assert (DU : dims n U) by (intros p Hp; apply D, S2, Hp).
    destruct (col_dec svd n pts U (Some 0) C Ne D N S2 (Rle_refl 0)) as (b & E & K). rewrite E. f_equal. apply eq_true_iff_eq.
    rewrite K, (collinear_points_iff n pts D), (uniq_small pts U N S2), <- (line_same n U pts S2).
    split; (intros [H|H]; [left; exact H|right]).
    + destruct H as (d & qs & _ & T & O & W). cbn in T. rewrite T in W. rewrite (within_zero n U qs DU W) in O. exact O.
    + exists 0, U. split; [lra|]. split; [reflexivity|]. split; [exact H|apply within_refl, DU].
  - intros L2. assert (Ne : pts <> []) by (destruct pts; [cbn in L2; lia|discriminate]).
    destruct (cop_dec svd n pts (Some 0) C L2 D (Rle_refl 0)) as (b & E & K).
    destruct (coplanar_points_iff n pts L2 D) as (b' & E' & K'). rewrite E, E'. f_equal. apply eq_true_iff_eq.
    rewrite K, K', (relative_plane n pts D Ne). assert (Sh := relative_shape n pts D Ne). split.
    + intros [H|(d & qs & _ & T & O & W)]; [apply plane_small; [exact H|apply Sh]|].
      cbn in T. rewrite T in W. rewrite (within_zero n _ qs (proj2 Sh) W) in O. exact O.
    + intros H. right. exists 0, (relative pts). split; [lra|]. split; [reflexivity|]. split; [exact H|apply within_refl, Sh].
Qed.
Print Assumptions C89_zero.
Example C89_zero_ex : forall svd, correct_svd svd ->
  collinear_points_tol svd (Some 0) [[1; 2]; [2; 4]; [-3; -6]] = Ok true.
Proof.
  intros svd C. assert (D : dims 2 [[1; 2]; [2; 4]; [-3; -6]]) by (intros p [<-|[<-|[<-|[]]]]; reflexivity).
  destruct (C89_zero svd 2 _ C D) as [H _]. rewrite H by discriminate. f_equal.
  apply (collinear_points_iff 2 _ D). right. exists [1; 2]. split; [reflexivity|].
  intros x [<-|[<-|[<-|[]]]]; [exists 1|exists 2|exists (-3)]; intros [|[|[|i]]]; cbn; lra.
Qed.

(** ** Distances *)

(** Points found collinear are at most the tolerance away from one line through
    the origin; points whose squared distances from such a line sum to at most the
    square of the tolerance are found collinear. *)
Theorem C89_near_line : forall svd n pts U tol d, correct_svd svd -> pts <> [] -> dims n pts ->
  NoDup U -> (forall p, In p U <-> In p pts) -> tolerance n U tol d -> 0 <= d ->
  (collinear_points_tol svd tol pts = Ok true -> (2 < length U)%nat ->
   exists u, length u = n /\ forall p, In p pts -> exists t, dist p (times t u) <= d) /\
  (forall u ts, length u = n -> length ts = length U ->
   fold_right Rplus 0 (map (fun pt => dist (fst pt) (times (snd pt) u) ^ 2) (combine U ts)) <= d * d ->
   collinear_points_tol svd tol pts = Ok true).
Proof.
  intros svd n pts U tol d C Ne D N S2 T Hd. assert (DU : dims n U) by (intros p Hp; apply D, S2, Hp).
  destruct (collinear_tol_iff svd n pts U tol d C Ne D N S2 T Hd) as (b & E & K). split.
  - intros Et L. rewrite E in Et. injection Et as ->. destruct (proj1 K eq_refl) as [H|(qs & (u & Lu & O) & W)]; [lia|].
    exists u. split; [exact Lu|]. intros p Hp. apply S2 in Hp. apply (In_nth _ _ []) in Hp. destruct Hp as (i & Hi & <-).
    assert (Lq : length qs = length U) by apply W.
    destruct (O (nth i qs [])) as (t & Et); [apply nth_In; lia|]. exists t.
    assert (X : nth i qs [] = times t u).
    { rewrite times_vscale. apply vscale_iff; [rewrite Lu; apply W, nth_In; lia|exact Et]. }
    rewrite <- X. apply (within_each n U qs d DU W Hd i Hi).
  - intros u ts Lu Lt H. rewrite E. f_equal. apply K. right. exists (map (fun t => times t u) ts). split.
    + exists u. split; [exact Lu|]. intros x Hx. apply in_map_iff in Hx. destruct Hx as (t & <- & _). exists t. intros i.
      rewrite times_vscale, nth_vscale. ring.
    + apply within_sum; [exact DU| |rewrite map_length; exact Lt|].
      * intros q Hq. apply in_map_iff in Hq. destruct Hq as (t & <- & _). rewrite times_length. exact Lu.
      * eapply Rle_trans; [|exact H]. right. f_equal. clear -Lt. revert ts Lt. induction U as [|p U IH]; intros [|t ts] L; try discriminate; [reflexivity|].
        cbn [map combine fst snd]. f_equal. apply IH. cbn in L. lia.
Qed.
Print Assumptions C89_near_line.
(** Off the line by 1/4. *)
Example C89_near_line_ex : forall svd, correct_svd svd ->
  collinear_points_tol svd (Some (1 / 2)) [[1; 0]; [2; 1 / 4]; [3; 0]] = Ok true.
Proof.
  intros svd C.
  destruct (C89_near_line svd 2 [[1; 0]; [2; 1 / 4]; [3; 0]] [[1; 0]; [2; 1 / 4]; [3; 0]] (Some (1 / 2)) (1 / 2) C) as [_ H].
  - discriminate.
  - intros p [<-|[<-|[<-|[]]]]; reflexivity.
  - repeat constructor; cbn; intros K; decompose [or] K; try contradiction; match goal with Q : _ = _ |- _ => injection Q; intros; lra end.
  - tauto.
  - reflexivity.
  - lra.
  - apply (H [1; 0] [1; 2; 3]); [reflexivity|reflexivity|]. cbn [combine map fold_right fst snd pow]. rewrite !Rmult_1_r, !dist_sq. cbn. lra.
Qed.

Theorem C89_near_plane : forall svd n pts tol d, correct_svd svd -> (2 <= length pts)%nat -> dims n pts ->
  tolerance n (relative pts) tol d -> 0 <= d -> (3 <= n)%nat ->
  coplanar_points_tol svd tol pts = Ok true ->
  exists u v, length u = n /\ length v = n /\ forall p, In p pts -> exists q s t,
    length q = n /\ (forall i, nth i q 0 = nth i (last pts []) 0 + s * nth i u 0 + t * nth i v 0) /\ dist p q <= d.
Proof.
  intros svd n pts tol d C L2 D T Hd Hn Et. assert (Ne : pts <> []) by (destruct pts; [cbn in L2; lia|discriminate]).
  destruct (coplanar_tol_iff svd n pts tol d C L2 D T Hd) as (b & E & K). rewrite E in Et. injection Et as ->.
  destruct (proj1 K eq_refl) as [H|(qs & (u & v & Lu & Lv & O) & W)]; [lia|]. exists u, v. split; [exact Lu|]. split; [exact Lv|].
  assert (Sh := relative_shape n pts D Ne). set (q0 := last pts []) in *.
  assert (Hq : In q0 pts) by (apply last_In, Ne). assert (L0 := D _ Hq). intros p Hp.
  destruct (@exists_last _ pts Ne) as (l & a & El). assert (Ea : q0 = a) by (unfold q0; rewrite El; apply last_last).
  assert (Lp := D p Hp). rewrite El in Hp. apply in_app_or in Hp. destruct Hp as [Hp|[Hp|[]]].
  - assert (Hr : In (minus p q0) (relative pts)).
    { unfold relative. fold q0. apply in_map_iff. exists p. split; [reflexivity|]. rewrite El, removelast_last. exact Hp. }
    apply (In_nth _ _ []) in Hr. destruct Hr as (i & Hi & Ei). assert (Lq : length qs = length (relative pts)) by apply W.
    destruct (O (nth i qs [])) as (s & t & Et); [apply nth_In; lia|].
    assert (Ln : length (nth i qs []) = n) by (apply W, nth_In; lia).
    exists (vadd q0 (nth i qs [])), s, t. split; [rewrite vadd_length; congruence|]. split.
    + intros k. rewrite nth_vadd, Et by congruence. ring.
    + assert (X := within_each n (relative pts) qs d (proj2 Sh) W Hd i Hi). rewrite Ei in X.
      assert (Y : dist p (vadd q0 (nth i qs [])) = dist (minus p q0) (nth i qs [])); [|rewrite Y; exact X].
      unfold dist. f_equal. rewrite !minus_vsub. apply vec_ext; [rewrite !vsub_length; rewrite ?vadd_length, ?vsub_length; congruence|].
      intros k. rewrite !nth_vsub, nth_vadd by (rewrite ?vadd_length, ?vsub_length; congruence). ring.
  - subst p. exists a, 0, 0. split; [congruence|]. split; [intros i; rewrite <- Ea; ring|].
    rewrite dist_vdist, vdist_refl by reflexivity. exact Hd.
Qed.
Print Assumptions C89_near_plane.
Example C89_near_plane_ex : forall svd, correct_svd svd ->
  coplanar_points_tol svd (Some (1 / 2)) [[1; 0; 1 / 4]; [0; 1; 0]; [1; 1; 0]; [0; 0; 0]] = Ok true.
Proof.
  intros svd C. set (pts := [[1; 0; 1 / 4]; [0; 1; 0]; [1; 1; 0]; [0; 0; 0]]).
  assert (D : dims 3 pts) by (intros p [<-|[<-|[<-|[<-|[]]]]]; reflexivity).
  destruct (coplanar_tol_iff svd 3 pts (Some (1 / 2)) (1 / 2) C ltac:(cbn; lia) D eq_refl ltac:(lra)) as (b & E & K).
  rewrite E. f_equal. apply K. right. exists [[1; 0; 0]; [0; 1; 0]; [1; 1; 0]]. split.
  - exists [1; 0; 0], [0; 1; 0]. split; [reflexivity|]. split; [reflexivity|].
    intros x [<-|[<-|[<-|[]]]]; [exists 1, 0|exists 0, 1|exists 1, 1]; intros [|[|[|[|i]]]]; cbn; lra.
  - split; [reflexivity|]. split; [intros p [<-|[<-|[<-|[]]]]; reflexivity|]. intros [|a [|b' [|c [|? ?]]]] L; try discriminate.
    unfold along_sq, minus_all. cbn. nra.
Qed.

(** ** Changes of the input *)

(** Larger tolerances accept more. *)
Theorem C89_monotone : forall svd (t t' : R) pts, t <= t' ->
  (collinear_points_tol svd (Some t) pts = Ok true -> collinear_points_tol svd (Some t') pts = Ok true) /\
  (coplanar_points_tol svd (Some t) pts = Ok true -> coplanar_points_tol svd (Some t') pts = Ok true).
Proof.
  intros svd t t' pts H. split.
  - unfold collinear_points_tol. destruct pts as [|p l]; [discriminate|]. set (V := unique_points (p :: l)).
    destruct (Nat.ltb (length V) 3); [reflexivity|]. set (M := transposed (length p) V).
    destruct (matrix_rank svd (Some t) M (length p) (length V)) as [r|] eqn:E; [|discriminate].
    destruct (matrix_rank svd (Some t') M (length p) (length V)) as [r'|] eqn:E'; [|discriminate].
    cbn [rbind]. intros [= K]. f_equal. apply Nat.leb_le in K. apply Nat.leb_le. pose proof (rank_mono svd t t' _ _ _ r r' H E E'). lia.
  - unfold coplanar_points_tol. destruct pts as [|p l]; [discriminate|].
    destruct (Nat.ltb (length p) 3); [reflexivity|]. set (M := removelast _).
    destruct (matrix_rank svd (Some t) M (length (p :: l) - 1) (length p)) as [r|] eqn:E; [|discriminate].
    destruct (matrix_rank svd (Some t') M (length (p :: l) - 1) (length p)) as [r'|] eqn:E'; [|discriminate].
    cbn [rbind]. intros [= K]. f_equal. apply Nat.leb_le in K. apply Nat.leb_le. pose proof (rank_mono svd t t' _ _ _ r r' H E E'). lia.
Qed.
Print Assumptions C89_monotone.
Example C89_monotone_ex : forall svd, correct_svd svd ->
  collinear_points_tol svd (Some 1) [[1; 0]; [2; 1 / 4]; [3; 0]] = Ok true.
Proof. intros svd C. apply (C89_monotone svd (1 / 2)); [lra|]. apply C89_near_line_ex, C. Qed.

(** A negative tolerance refuses three different points. *)
Theorem C89_negative : forall svd n (t : R) pts U, correct_svd svd -> pts <> [] -> dims n pts -> t < 0 ->
  NoDup U -> (forall p, In p U <-> In p pts) ->
  collinear_points_tol svd (Some t) pts = Ok (Nat.leb (length U) 2 || Nat.leb n 1).
Proof.
  intros svd n t pts U C Ne D Ht N S2. destruct pts as [|p l] eqn:Ep; [contradiction|]. rewrite <- Ep in *.
  assert (Lp : length p = n) by (apply D; rewrite Ep; left; reflexivity).
  assert (P := unique_perm U pts N S2). rewrite (Permutation_length P).
  assert (EQ : collinear_points_tol svd (Some t) pts =
    if Nat.ltb (length (unique_points pts)) 3 then Ok true
    else do r <- matrix_rank svd (Some t) (transposed n (unique_points pts)) n (length (unique_points pts)) ; Ok (Nat.leb r 1)).
  { unfold collinear_points_tol. rewrite Ep at 1. rewrite Lp. reflexivity. }
  rewrite EQ. set (V := unique_points pts).
  destruct (Nat.ltb_spec (length V) 3) as [H|H].
  - destruct (Nat.leb_spec (length V) 2); [reflexivity|lia].
  - rewrite (rank_negative svd t _ n (length V) C); [|apply transposed_shape; intros v Hv; apply D, (proj1 (unique_points_In pts v)), Hv|exact Ht].
    cbn [rbind]. f_equal. destruct (Nat.leb_spec (length V) 2); [lia|]. cbn [orb].
    destruct (Nat.leb_spec (Nat.min n (length V)) 1), (Nat.leb_spec n 1); try reflexivity; lia.
Qed.
Print Assumptions C89_negative.
Example C89_negative_ex : forall svd, correct_svd svd ->
  collinear_points_tol svd (Some (-1)) [[1; 1]; [2; 2]; [3; 3]] = Ok false.
Proof.
  intros svd C. apply (C89_negative svd 2 (-1) _ [[1; 1]; [2; 2]; [3; 3]] C); [discriminate| |lra| |tauto].
  - intros p [<-|[<-|[<-|[]]]]; reflexivity.
  - repeat constructor; cbn; intros K; decompose [or] K; try contradiction; match goal with Q : _ = _ |- _ => injection Q; intros; lra end.
Qed.

(** The order and the multiplicity of the points do not matter to collinearity. *)
Theorem C89_same_points : forall svd n tol pts pts', correct_svd svd -> pts <> [] -> dims n pts ->
  (forall p, In p pts <-> In p pts') ->
  collinear_points_tol svd tol pts = collinear_points_tol svd tol pts'.
Proof.
  intros svd n tol pts pts' C Ne D Sm. destruct (uniq pts) as (U & N & S2).
  assert (D' : dims n pts') by (intros p Hp; apply D, Sm, Hp).
  assert (Ne' : pts' <> []). { destruct pts as [|p l]; [contradiction|]. intros E. assert (X : In p pts') by (apply Sm; left; reflexivity). rewrite E in X. destruct X. }
  assert (S2' : forall p, In p U <-> In p pts') by (intros p; rewrite S2; apply Sm).
  assert (G : match tol with Some t => 0 <= t | None => True end -> collinear_points_tol svd tol pts = collinear_points_tol svd tol pts').
  { intros Ht. destruct (col_dec svd n pts U tol C Ne D N S2 Ht) as (b & E & K).
    destruct (col_dec svd n pts' U tol C Ne' D' N S2' Ht) as (b' & E' & K'). rewrite E, E'. f_equal. apply eq_true_iff_eq. rewrite K, K'. tauto. }
  destruct tol as [t|]; [|apply G, Logic.I]. destruct (Rle_lt_dec 0 t) as [Ht|Ht]; [apply G, Ht|].
  rewrite (C89_negative svd n t pts U), (C89_negative svd n t pts' U) by assumption. reflexivity.
Qed.
Print Assumptions C89_same_points.
Example C89_same_points_ex : forall svd, correct_svd svd ->
  collinear_points_tol svd (Some (1 / 2)) [[3; 0]; [1; 0]; [2; 1 / 4]; [1; 0]] = Ok true.
Proof.
  intros svd C. rewrite (C89_same_points svd 2 (Some (1 / 2)) _ [[1; 0]; [2; 1 / 4]; [3; 0]] C); [apply C89_near_line_ex, C|discriminate| |].
  - intros p [<-|[<-|[<-|[<-|[]]]]]; reflexivity.
  - intros p. cbn. tauto.
Qed.

(** A change of the unit of length, with the tolerance in the same unit; the
    default tolerance follows by itself. *)
Theorem C89_scale : forall svd n tol pts c, correct_svd svd -> dims n pts -> c <> 0 ->
  match tol with Some t => 0 <= t | None => True end ->
  (pts <> [] -> collinear_points_tol svd (option_map (Rmult (Rabs c)) tol) (map (times c) pts) = collinear_points_tol svd tol pts) /\
  ((2 <= length pts)%nat -> coplanar_points_tol svd (option_map (Rmult (Rabs c)) tol) (map (times c) pts) = coplanar_points_tol svd tol pts).
Proof.
  intros svd n tol pts c C D Hc Ht. pose proof (Rabs_pos_lt c Hc) as Pc.
  assert (D' : dims n (map (times c) pts)) by (apply times_dims, D).
  assert (Ht' : match option_map (Rmult (Rabs c)) tol with Some t => 0 <= t | None => True end).
  { destruct tol as [t|]; cbn; [apply Rmult_le_pos; lra|exact Logic.I]. }
  assert (B0 : forall ps : list (list R), map (times (/ c)) (map (times c) ps) = ps).
  { intros ps. rewrite map_map. rewrite <- map_id. apply map_ext. intros p. apply times_inv, Hc. }
  assert (B1 : forall d, Rabs (/ c) * (Rabs c * d) = d).
  { intros d. rewrite <- Rmult_assoc, <- Rabs_mult, Rinv_l, Rabs_R1 by exact Hc. ring. }
  assert (BT : option_map (Rmult (Rabs (/ c))) (option_map (Rmult (Rabs c)) tol) = tol).
  { destruct tol as [t|]; [|reflexivity]. cbn. rewrite B1. reflexivity. }
  split.
  - intros Ne. destruct (uniq pts) as (U & N & S2).
    assert (N' : NoDup (map (times c) U)).
    { apply NoDup_map_in; [|exact N]. intros x y _ _ E. rewrite <- (times_inv c x Hc), <- (times_inv c y Hc), E. reflexivity. }
    destruct (col_dec svd n pts U tol C Ne D N S2 Ht) as (b & E & K).
    destruct (col_dec svd n (map (times c) pts) (map (times c) U) _ C ltac:(destruct pts; [contradiction|discriminate]) D' N' (in_map_both (times c) U pts S2) Ht') as (b' & E' & K').
    rewrite E, E'. f_equal. apply eq_true_iff_eq. rewrite K, K', map_length. split; (intros [H|(d & qs & Hd & T & O & W)]; [left; exact H|right]).
    + exists (Rabs (/ c) * d), (map (times (/ c)) qs). split; [apply Rmult_le_pos; [apply Rabs_pos|exact Hd]|].
      apply (tolerance_times n _ _ d (/ c)) in T. rewrite B0, BT in T. split; [exact T|]. split; [apply line_times, O|].
      apply (within_times n _ qs d (/ c)) in W. rewrite B0 in W. exact W.
    + exists (Rabs c * d), (map (times c) qs). split; [apply Rmult_le_pos; [apply Rabs_pos|exact Hd]|].
      split; [apply tolerance_times, T|]. split; [apply line_times, O|apply within_times, W].
  - intros L2. destruct (cop_dec svd n pts tol C L2 D Ht) as (b & E & K).
    destruct (cop_dec svd n (map (times c) pts) _ C ltac:(rewrite map_length; exact L2) D' Ht') as (b' & E' & K').
    rewrite E, E'. f_equal. apply eq_true_iff_eq. rewrite K, K', relative_times. split; (intros [H|(d & qs & Hd & T & O & W)]; [left; exact H|right]).
    + exists (Rabs (/ c) * d), (map (times (/ c)) qs). split; [apply Rmult_le_pos; [apply Rabs_pos|exact Hd]|].
      apply (tolerance_times n _ _ d (/ c)) in T. rewrite B0, BT in T. split; [exact T|]. split; [apply plane_times, O|].
      apply (within_times n _ qs d (/ c)) in W. rewrite B0 in W. exact W.
    + exists (Rabs c * d), (map (times c) qs). split; [apply Rmult_le_pos; [apply Rabs_pos|exact Hd]|].
      split; [apply tolerance_times, T|]. split; [apply plane_times, O|apply within_times, W].
Qed.
Print Assumptions C89_scale.
Example C89_scale_ex : forall svd, correct_svd svd ->
  collinear_points_tol svd (Some 1) [[2; 0]; [4; 1 / 2]; [6; 0]] = Ok true.
Proof.
  intros svd C. rewrite <- (C89_near_line_ex svd C).
  destruct (C89_scale svd 2 (Some (1 / 2)) [[1; 0]; [2; 1 / 4]; [3; 0]] 2 C) as [H _].
  - intros p [<-|[<-|[<-|[]]]]; reflexivity.
  - lra.
  - lra.
  - rewrite <- H by discriminate. unfold times. cbn [option_map map]. rewrite Rabs_right by lra.
    f_equal; [f_equal; lra|]. repeat (f_equal; try lra).
Qed.

(** Rotations about the origin (or any other distance-preserving map that keeps
    it) do not change the collinearity; into a space of another dimension only
    with a tolerance given. *)
Theorem C89_turn : forall svd n m g tol pts, correct_svd svd -> isometry n m g -> g (repeat 0 n) = repeat 0 m ->
  pts <> [] -> dims n pts -> (tol = None -> n = m) -> match tol with Some t => 0 <= t | None => True end ->
  collinear_points_tol svd tol (map g pts) = collinear_points_tol svd tol pts.
Proof.
  intros svd n m g tol pts C Iso G0 Ne D Hnm Ht. destruct (uniq pts) as (U & N & S2).
  assert (DU : dims n U) by (intros p Hp; apply D, S2, Hp).
  assert (GL : forall ps, dims n ps -> map g ps = map (vector_of n g) ps).
  { intros ps Dp. apply map_ext_in. intros p Hp. unfold vector_of. rewrite G0, minus_vsub.
    assert (Lg : length (g p) = m) by (apply Iso, Dp, Hp).
    apply vec_ext; [rewrite vsub_length; [reflexivity|rewrite repeat_length; exact Lg]|]. intros i.
    rewrite nth_vsub, nth_zeros by (rewrite repeat_length; exact Lg). ring. }
  assert (Dg : dims m (map g pts)) by (rewrite GL by exact D; apply (L_dims n m g Iso), D).
  assert (N' : NoDup (map g U)).
  { apply NoDup_map_in; [|exact N]. intros x y Hx Hy E. apply (g_inj n m g Iso); [apply DU, Hx|apply DU, Hy|exact E]. }
  destruct (col_dec svd n pts U tol C Ne D N S2 Ht) as (b & E & K).
  destruct (col_dec svd m (map g pts) (map g U) tol C ltac:(destruct pts; [contradiction|discriminate]) Dg N' (in_map_both g U pts S2) Ht) as (b' & E' & K').
  rewrite E, E'. f_equal. apply eq_true_iff_eq. rewrite K, K', map_length, (GL U DU).
  destruct (Nat.le_gt_cases (length U) 2) as [L|L]; [tauto|].
  assert (Hn : (0 < n)%nat).
  { destruct n; [|lia]. exfalso. destruct U as [|a [|a' U]]; cbn in L; try lia. apply NoDup_cons_iff in N. destruct N as [N _]. apply N. left.
    transitivity (@nil R); [|symmetry]; apply length_zero_iff_nil, DU; [right; left|left]; reflexivity. }
  destruct (tolerance_exists n U tol DU Hn) as (e & Te & He); [intros X; rewrite X in L; cbn in L; lia|].
  assert (Te' := tolerance_L n m g Iso U tol e DU Hnm Te).
  split; (intros [H|(d & qs & Hd & T & O & W)]; [left; exact H|right]).
  - assert (Dq : dims m qs) by apply W. rewrite (tolerance_unique _ _ _ _ _ T Te') in *.
    exists e, (map (adj n g) qs). split; [exact Hd|]. split; [exact Te|]. split; [apply (line_adj n m g); assumption|apply (within_adj n m g Iso); assumption].
  - assert (Dq : dims n qs) by apply W. rewrite (tolerance_unique _ _ _ _ _ T Te) in *.
    exists e, (map (vector_of n g) qs). split; [exact Hd|]. split; [exact Te'|]. split; [apply (line_L n m g Iso); assumption|apply (within_L n m g Iso); assumption].
Qed.
Print Assumptions C89_turn.

(** Every distance-preserving map keeps coplanarity. *)
Theorem C89_move : forall svd n m g tol pts, correct_svd svd -> isometry n m g ->
  (2 <= length pts)%nat -> dims n pts -> (tol = None -> n = m) -> match tol with Some t => 0 <= t | None => True end ->
  coplanar_points_tol svd tol (map g pts) = coplanar_points_tol svd tol pts.
Proof.
  intros svd n m g tol pts C Iso L2 D Hnm Ht. assert (Ne : pts <> []) by (destruct pts; [cbn in L2; lia|discriminate]).
  assert (Dg : dims m (map g pts)) by (intros q Hq; apply in_map_iff in Hq; destruct Hq as (p & <- & Hp); apply Iso, D, Hp).
  assert (Sh := relative_shape n pts D Ne).
  assert (NR : relative pts <> []) by (intros X; destruct Sh as [Sh _]; rewrite X in Sh; cbn in Sh; lia).
  destruct (cop_dec svd n pts tol C L2 D Ht) as (b & E & K).
  destruct (cop_dec svd m (map g pts) tol C ltac:(rewrite map_length; exact L2) Dg Ht) as (b' & E' & K').
  rewrite E, E'. f_equal. apply eq_true_iff_eq. rewrite K, K', (relative_map n m g pts Iso D). clear E E' K K'.
  assert (Hle := isometry_le n m g Iso). destruct (Nat.lt_ge_cases m 3) as [Hm|Hm]; [split; intros _; left; lia|].
  assert (Z : exists e, tolerance m (map (vector_of n g) (relative pts)) tol e /\ 0 <= e /\ (n = 0%nat \/ tolerance n (relative pts) tol e)).
  { destruct (Nat.eq_dec n 0) as [Hn|Hn].
    - destruct (tolerance_exists m (map (vector_of n g) (relative pts)) tol (L_dims n m g Iso _ (proj2 Sh)) ltac:(lia)) as (e & Te & He).
      { destruct (relative pts); [contradiction|discriminate]. }
      exists e. split; [exact Te|]. split; [destruct tol; [subst; exact Ht|exact He]|left; exact Hn].
    - destruct (tolerance_exists n (relative pts) tol (proj2 Sh) ltac:(lia) NR) as (e & Te & He). exists e.
      split; [apply (tolerance_L n m g Iso); [apply Sh|exact Hnm|exact Te]|]. split; [destruct tol; [subst; exact Ht|exact He]|right; exact Te]. }
  destruct Z as (e & Te' & He & Te). split.
  - intros [H|(d & qs & Hd & T & O & W)]; [lia|]. destruct Te as [Hn|Te]; [left; lia|]. right.
    assert (Dq : dims m qs) by apply W. rewrite (tolerance_unique _ _ _ _ _ T Te') in *.
    exists e, (map (adj n g) qs). split; [exact Hd|]. split; [exact Te|]. split; [apply (plane_adj n m g); assumption|apply (within_adj n m g Iso); [apply Sh|exact W]].
  - intros [H|(d & qs & Hd & T & O & W)].
    + right. exists e, (map (vector_of n g) (relative pts)). split; [exact He|]. split; [exact Te'|].
      split; [apply (plane_L n m g Iso); [apply Sh|apply plane_small; [exact H|apply Sh]]|].
      apply within_refl, (L_dims n m g Iso), Sh.
    + assert (Dq : dims n qs) by apply W. right. exists e, (map (vector_of n g) qs). split; [exact He|]. split; [exact Te'|].
      split; [apply (plane_L n m g Iso); assumption|]. apply (within_L n m g Iso); [apply Sh|].
      destruct Te as [Hn|Te]; [|rewrite (tolerance_unique _ _ _ _ _ Te T); exact W].
      subst n. assert (X : qs = relative pts).
      { destruct W as (Lq & _ & _). destruct Sh as [_ Dr]. clear -Lq Dr Dq. revert qs Lq Dq. induction (relative pts) as [|r rs IH]; intros [|q qs] Lq Dq; try discriminate; [reflexivity|].
        f_equal; [|apply IH; [intros x Hx; apply Dr; right; exact Hx|cbn in Lq; lia|intros x Hx; apply Dq; right; exact Hx]].
        transitivity (@nil R); [|symmetry]; apply length_zero_iff_nil; [apply Dq|apply Dr]; left; reflexivity. }
      rewrite X. apply within_refl, Sh.
Qed.
Print Assumptions C89_move.

Definition quarter (p : list R) : list R := [- nth 1 p 0; nth 0 p 0].
Definition climb (p : list R) : list R := [1 - nth 1 p 0; nth 0 p 0; 7 + nth 2 p 0].
Example C89_turn_ex : isometry 2 2 quarter /\ quarter (repeat 0 2) = repeat 0 2 /\ isometry 3 3 climb /\
  forall svd, correct_svd svd ->
  collinear_points_tol svd (Some (1 / 2)) [[0; 1]; [- (1 / 4); 2]; [0; 3]] = Ok true /\
  coplanar_points_tol svd (Some (1 / 2)) [[1; 1; 7 + 1 / 4]; [0; 0; 7]; [0; 1; 7]; [1; 0; 7]] = Ok true.
Proof.
  assert (I2 : isometry 2 2 quarter).
  { split; [intros p _; reflexivity|]. intros p q Hp Hq. destruct p as [|a [|b [|? ?]]]; try discriminate.
    destruct q as [|a' [|b' [|? ?]]]; try discriminate. unfold dist, norm. f_equal. cbn. ring. }
  assert (I3 : isometry 3 3 climb).
  { split; [intros p _; reflexivity|]. intros p q Hp Hq. destruct p as [|a [|b [|c [|? ?]]]]; try discriminate.
    destruct q as [|a' [|b' [|c' [|? ?]]]]; try discriminate. unfold dist, norm. f_equal. cbn. ring. }
  assert (Q0 : quarter (repeat 0 2) = repeat 0 2) by (unfold quarter; cbn; rewrite Ropp_0; reflexivity).
  split; [exact I2|]. split; [exact Q0|]. split; [exact I3|]. intros svd C. split.
  - rewrite <- (C89_near_line_ex svd C), <- (C89_turn svd 2 2 quarter (Some (1 / 2)) [[1; 0]; [2; 1 / 4]; [3; 0]] C I2 Q0).
    + unfold quarter. cbn [map nth]. f_equal. repeat (f_equal; try lra).
    + discriminate.
    + intros p [<-|[<-|[<-|[]]]]; reflexivity.
    + discriminate.
    + lra.
  - rewrite <- (C89_near_plane_ex svd C), <- (C89_move svd 3 3 climb (Some (1 / 2)) [[1; 0; 1 / 4]; [0; 1; 0]; [1; 1; 0]; [0; 0; 0]] C I3).
    + unfold climb. cbn [map nth]. f_equal. repeat (f_equal; try lra).
    + cbn. lia.
    + intros p [<-|[<-|[<-|[<-|[]]]]]; reflexivity.
    + discriminate.
    + lra.
Qed.

(** ** What fails *)

(** The order of the points matters to coplanarity: the distances count from the
    last point on. *)
Theorem C89_coplanar_order_refuted : exists (pts pts' : list (list R)) tol, 0 < tol /\ dims 3 pts /\ Permutation pts pts' /\
  forall svd, correct_svd svd ->
    coplanar_points_tol svd (Some tol) pts = Ok true /\ coplanar_points_tol svd (Some tol) pts' = Ok false.
Proof.
  exists [[0; 0; 1 / 2]; [1; 0; 0]; [-1; 0; 0]; [0; 1; 0]; [0; -1; 0]], [[1; 0; 0]; [-1; 0; 0]; [0; 1; 0]; [0; -1; 0]; [0; 0; 1 / 2]], (3 / 4).
  split; [lra|].
  assert (D : dims 3 [[0; 0; 1 / 2]; [1; 0; 0]; [-1; 0; 0]; [0; 1; 0]; [0; -1; 0]]) by (intros p [<-|[<-|[<-|[<-|[<-|[]]]]]]; reflexivity).
  assert (P : Permutation [[0; 0; 1 / 2]; [1; 0; 0]; [-1; 0; 0]; [0; 1; 0]; [0; -1; 0]] [[1; 0; 0]; [-1; 0; 0]; [0; 1; 0]; [0; -1; 0]; [0; 0; 1 / 2]])
    by apply (Permutation_cons_append [[1; 0; 0]; [-1; 0; 0]; [0; 1; 0]; [0; -1; 0]]).
  assert (D' : dims 3 [[1; 0; 0]; [-1; 0; 0]; [0; 1; 0]; [0; -1; 0]; [0; 0; 1 / 2]]) by (intros p Hp; apply D, (Permutation_in p (Permutation_sym P)), Hp).
  split; [exact D|]. split; [exact P|]. intros svd C. split.
  - destruct (C89_coplanar svd 3 [[0; 0; 1 / 2]; [1; 0; 0]; [-1; 0; 0]; [0; 1; 0]; [0; -1; 0]] (Some (3 / 4)) (3 / 4) C ltac:(cbn; lia) D eq_refl ltac:(lra)) as (b & E & K).
    rewrite E. f_equal. apply K. right. exists [[0; 1; 0]; [1; 1; 0]; [-1; 1; 0]; [0; 2; 0]]. split.
    + exists [1; 0; 0], [0; 1; 0]. split; [reflexivity|]. split; [reflexivity|].
      intros x [<-|[<-|[<-|[<-|[]]]]]; [exists 0, 1|exists 1, 1|exists (-1), 1|exists 0, 2]; intros [|[|[|[|i]]]]; cbn; lra.
    + split; [reflexivity|]. split; [intros p [<-|[<-|[<-|[<-|[]]]]]; reflexivity|]. intros [|a [|b' [|c [|? ?]]]] L; try discriminate.
      unfold along_sq, minus_all. cbn. nra.
  - destruct (C89_coplanar svd 3 [[1; 0; 0]; [-1; 0; 0]; [0; 1; 0]; [0; -1; 0]; [0; 0; 1 / 2]] (Some (3 / 4)) (3 / 4) C ltac:(cbn; lia) D' eq_refl ltac:(lra)) as (b & E & K).
    rewrite E. f_equal. destruct b; [exfalso|reflexivity].
    destruct (proj1 K eq_refl) as [H|(qs & (u & v & Lu & Lv & O) & (Lq & Dq & W))]; [lia|].
    destruct (homogeneous 2 [u; v] 3 eq_refl ltac:(lia)) as (x & Lx & Nx & Hx).
    { intros w [<-|[<-|[]]]; assumption. }
    specialize (W x Lx).
    assert (Z : forall q, In q qs -> vdot q x = 0).
    { intros q Hq. destruct (O q Hq) as (s & t & Eq). assert (Ln := Dq q Hq).
      assert (X : q = vadd (vscale u s) (vscale v t)).
      { apply vec_ext; [rewrite vadd_length; rewrite !vscale_length; congruence|]. intros k.
        rewrite nth_vadd, !nth_vscale by (rewrite !vscale_length; congruence). rewrite Eq. ring. }
      rewrite X, vdot_add_l, !vdot_scale_l by (rewrite !vscale_length; congruence).
      rewrite (Hx u), (Hx v) by (cbn; auto). ring. }
    destruct x as [|a [|b [|c [|? ?]]]]; try discriminate.
    assert (Nz : 0 < a * a + b * b + c * c).
    { destruct (Rle_lt_dec (a * a + b * b + c * c) 0) as [H|H]; [exfalso|exact H].
      assert (a = 0) by nra. assert (b = 0) by nra. assert (c = 0) by nra. subst. apply Nx. reflexivity. }
    destruct qs as [|q1 [|q2 [|q3 [|q4 [|? ?]]]]]; try discriminate.
    rewrite along_quad, minus_all_msub in W. unfold relative in W. cbn [removelast last map msub map2] in W.
    assert (Zq : forall p q, length p = 3%nat -> In q [q1; q2; q3; q4] -> vdot (vsub p q) [a; b; c] = vdot p [a; b; c]).
    { intros p q Hp Hq. rewrite vdot_sub_l by (rewrite (Dq q Hq); exact Hp). rewrite (Z q Hq). ring. }
    unfold msub in W. cbn [map2] in W. rewrite !quad_cons, !Zq in W by (try reflexivity; cbn; auto). unfold quad in W. cbn in W. nra.
Qed.
Print Assumptions C89_coplanar_order_refuted.

(** Far from the origin the default tolerance is larger than the figure: two
    unit segments crossing at right angles are found collinear. *)
Theorem C89_distant_refuted : exists (s o : segment R), seg_wf 2 s /\ seg_wf 2 o /\
  inner (minus (sg_p2 s) (sg_p1 s)) (minus (sg_p2 o) (sg_p1 o)) = 0 /\ sg_len s = 2 /\ sg_len o = 2 /\
  sg_collinear s o = false /\ forall svd, correct_svd svd -> sg_collinear_tol svd None s o = Ok true.
Proof.
  set (X := 1125899906842624).
  exists (mkSeg [X; -1] [X; 1]), (mkSeg [X - 1; 0] [X + 1; 0]).
  assert (Ws : seg_wf 2 (mkSeg [X; -1] [X; 1])) by (split; reflexivity).
  assert (Wo : seg_wf 2 (mkSeg [X - 1; 0] [X + 1; 0])) by (split; reflexivity).
  split; [exact Ws|]. split; [exact Wo|]. split; [cbn; ring|].
  assert (L4 : forall a, a = 4 -> sqrt a = 2) by (intros a ->; replace 4 with (2 * 2) by ring; apply sqrt_square; lra).
  split; [unfold sg_len, vdist, vnorm; cbn; apply L4; ring|]. split; [unfold sg_len, vdist, vnorm; cbn; apply L4; ring|]. split.
  - destruct (sg_collinear _ _) eqn:E; [exfalso|reflexivity]. apply (C33_segment_segment 2 _ _ Ws Wo) in E. cbn [sg_p1 sg_p2] in E.
    assert (NN : forall x y z, near [x; 0] [y; z] -> Rabs z = 1 -> False).
    { intros x y z H Hz. unfold near in H. inversion H as [|? ? ? ? _ G]. inversion G as [|? ? ? ? G2 _]. clear H G. rename G2 into H. subst.
      rewrite <- Rabs_Ropp in Hz. replace (0 - z) with (- z) in H by ring. rewrite Hz in H. rewrite Rabs_Ropp in Hz. rewrite Hz in H. lra. }
    destruct E as [[E _]|[[E _]|[(a & b & E)|(u & Lu & E)]]].
    + apply NN in E; [exact E|]. rewrite Rabs_left by lra. lra.
    + apply NN in E; [exact E|]. rewrite Rabs_left by lra. lra.
    + pose proof (E [X; -1] ltac:(cbn; auto)) as E1. pose proof (E [X; 1] ltac:(cbn; auto)) as E2. pose proof (E [X - 1; 0] ltac:(cbn; auto)) as E3.
      assert (N12 : [X; -1] <> [X; 1]) by (intros Q; injection Q; lra).
      assert (N13 : [X; -1] <> [X - 1; 0]) by (intros Q; injection Q; lra).
      assert (N23 : [X; 1] <> [X - 1; 0]) by (intros Q; injection Q; lra).
      destruct E1 as [E1|E1], E2 as [E2|E2], E3 as [E3|E3]; congruence.
    + destruct (E [X; 1] ltac:(cbn; auto)) as (t & T). destruct (E [X + 1; 0] ltac:(cbn; auto)) as (t' & T').
      pose proof (T 1%nat) as T1. pose proof (T' 0%nat) as T0'. pose proof (T' 1%nat) as T1'. cbn in T1, T0', T1'.
      symmetry in T1'. apply Rmult_integral in T1'. destruct T1' as [Z|Z]; [rewrite Z in T0'; unfold X in T0'; lra|rewrite Z in T1; lra].
  - intros svd C. unfold sg_collinear_tol. destruct (_ || _); [reflexivity|]. cbn [sg_p1 sg_p2].
    set (U := [[X; -1]; [X; 1]; [X - 1; 0]; [X + 1; 0]]).
    assert (DU : dims 2 U) by (intros p [<-|[<-|[<-|[<-|[]]]]]; reflexivity).
    assert (N : NoDup U).
    { repeat constructor; cbn; intros K; decompose [or] K; try contradiction; match goal with Q : _ = _ |- _ => injection Q; intros; lra end. }
    destruct (tolerance_exists 2 U None DU ltac:(lia) ltac:(discriminate)) as (d & T & Hd).
    destruct (C89_collinear svd 2 U U None d C ltac:(discriminate) DU N (fun p => iff_refl _) T Hd) as (b & E & K).
    rewrite E. f_equal. apply K. right. exists [[X; 0]; [X; 0]; [X - 1; 0]; [X + 1; 0]]. split.
    + exists [1; 0]. split; [reflexivity|]. intros x [<-|[<-|[<-|[<-|[]]]]]; [exists X|exists X|exists (X - 1)|exists (X + 1)]; intros [|[|[|i]]]; cbn; lra.
    + assert (D2 : 2 <= d).
      { destruct T as (e & (He & Hm & _) & ->). specialize (Hm [1; 0] eq_refl). unfold along_sq in Hm. cbn in Hm. change (Nat.max (length U) 2) with 4%nat.
        assert (He2 : 2 * X <= e).
        { destruct (Rle_lt_dec (2 * X) e) as [H|H]; [exact H|exfalso]. assert (0 < X) by (unfold X; lra). nra. }
        replace (2 ^ 52) with 4503599627370496 by (simpl; lra). replace (INR 4) with 4 by (simpl; lra). unfold X in He2. lra. }
      split; [reflexivity|]. split; [intros p [<-|[<-|[<-|[<-|[]]]]]; reflexivity|]. intros [|a [|b' [|? ?]]] L; try discriminate.
      unfold along_sq, minus_all, U. cbn.
      replace ((X + - X) * a + ((-1 + - 0) * b' + 0)) with (- b') by ring. replace ((X + - X) * a + ((1 + - 0) * b' + 0)) with b' by ring.
      replace ((X - 1 + - (X - 1)) * a + ((0 + - 0) * b' + 0)) with 0 by ring. replace ((X + 1 + - (X + 1)) * a + ((0 + - 0) * b' + 0)) with 0 by ring.
      assert (H4 : 4 <= d * d) by nra. assert (0 <= a * a) by apply Rle_0_sqr. assert (0 <= b' * b') by apply Rle_0_sqr. nra.
Qed.
Print Assumptions C89_distant_refuted.

(** A single point of dimension three or more: an error without a tolerance, a
    plane with one. *)
Theorem C89_one_point : forall svd (p : list R), correct_svd svd -> (3 <= length p)%nat ->
  coplanar_points_tol svd None [p] = Raise ValueError /\ forall t, coplanar_points_tol svd (Some t) [p] = Ok true.
Proof.
  intros svd p C H. assert (Sv : singular_values 0 (length p) [] (svd [])) by (apply C; split; [reflexivity|intros r []]).
  assert (E : svd [] = []) by (destruct (svd []); [reflexivity|destruct Sv as [L _]; discriminate]).
  unfold coplanar_points_tol, matrix_rank. apply Nat.ltb_ge in H. rewrite H. cbn [map removelast]. rewrite E. split; reflexivity.
Qed.
Print Assumptions C89_one_point.
Example C89_one_point_ex : coplanar_points_tol svd_R None [[1; 2; 3]] = Raise ValueError /\ coplanar_points_tol svd_R (Some 1) [[1; 2; 3]] = Ok true.
Proof. destruct (C89_one_point svd_R [1; 2; 3] svd_R_correct) as [A B]; [cbn; lia|]. split; [exact A|apply B]. Qed.

(** No points: an error. *)
Theorem C89_empty : forall svd (tol : option R),
  collinear_points_tol svd tol [] = Raise ValueError /\ coplanar_points_tol svd tol [] = Raise ValueError /\
  forall c : curve R, c_rows c = [] -> c_isplane_tol svd c = if Nat.ltb (c_ndim c) 3 then Ok true else Raise IndexError.
Proof. intros svd tol. split; [reflexivity|]. split; [reflexivity|]. intros c H. unfold c_isplane_tol. rewrite H. reflexivity. Qed.
Print Assumptions C89_empty.

(** ** Segments and curves *)

Theorem C89_segment_point : forall svd n (s : segment R) p tol d, correct_svd svd -> seg_wf n s -> length p = n ->
  tolerance n [sg_p1 s; sg_p2 s; p] tol d -> 0 <= d ->
  exists b, sg_collinear_point_tol svd tol s p = Ok b /\
    (b = true <-> near p (sg_p1 s) \/ near p (sg_p2 s) \/ sg_p1 s = sg_p2 s \/
       exists qs, on_line_through_origin n qs /\ within n [sg_p1 s; sg_p2 s; p] qs d).
Proof.
  intros svd n s p tol d C [H1 H2] Hp T Hd. unfold sg_collinear_point_tol.
  assert (M1 := pt_eqb_near p (sg_p1 s)). assert (M2 := pt_eqb_near p (sg_p2 s)).
  destruct (pt_eqb p (sg_p1 s)) eqn:E1; cbn [orb]; [exists true; tauto|].
  destruct (pt_eqb p (sg_p2 s)) eqn:E2; cbn [orb]; [exists true; tauto|].
  assert (N1 : p <> sg_p1 s) by (intros E; rewrite E, (proj2 (pt_eqb_near (sg_p1 s) (sg_p1 s)) (near_refl (sg_p1 s))) in E1; discriminate).
  assert (N2 : p <> sg_p2 s) by (intros E; rewrite E, (proj2 (pt_eqb_near (sg_p2 s) (sg_p2 s)) (near_refl (sg_p2 s))) in E2; discriminate).
  set (P := [sg_p1 s; sg_p2 s; p]) in *. assert (D : dims n P) by (apply dims3; assumption).
  destruct (list_eq_dec Req_EM_T (sg_p1 s) (sg_p2 s)) as [Eq|Nq].
  - exists true. split; [|tauto]. assert (N : NoDup [sg_p1 s; p]).
    { constructor; [intros [K|[]]; congruence|]. constructor; [intros []|constructor]. }
    assert (S2 : forall q, In q [sg_p1 s; p] <-> In q P) by (intros q; unfold P; rewrite <- Eq; cbn; tauto).
    assert (Sm := unique_perm _ P N S2). unfold collinear_points_tol, P. fold P. rewrite <- (Permutation_length Sm). reflexivity.
  - assert (N : NoDup P).
    { constructor; [intros [K|[K|[]]]; congruence|]. constructor; [intros [K|[]]; congruence|]. constructor; [intros []|constructor]. }
    destruct (C89_collinear svd n P P tol d C ltac:(discriminate) D N (fun q => iff_refl _) T Hd) as (b & E & K).
    exists b. split; [exact E|]. rewrite K. split.
    + intros [Q|Q]; [cbn in Q; lia|]. right. right. right. exact Q.
    + intros [Q|[Q|[Q|Q]]]; [apply M1 in Q; discriminate|apply M2 in Q; discriminate|contradiction|right; exact Q].
Qed.
Print Assumptions C89_segment_point.
Example C89_segment_point_ex : forall svd, correct_svd svd ->
  sg_collinear_point_tol svd (Some (1 / 2)) (mkSeg [1; 0] [2; 1 / 4]) [3; 0] = Ok true.
Proof.
  intros svd C. unfold sg_collinear_point_tol. destruct (_ || _); [reflexivity|]. apply C89_near_line_ex, C.
Qed.

(** What the exact methods accept, the methods with a tolerance accept; with the
    tolerance zero they agree. *)
Theorem C89_segment_exact : forall svd n (s o : segment R) p tol, correct_svd svd -> seg_wf n s -> seg_wf n o -> length p = n ->
  match tol with Some t => 0 <= t | None => True end ->
  (sg_collinear_point s p = true -> sg_collinear_point_tol svd tol s p = Ok true) /\
  (sg_collinear s o = true -> sg_collinear_tol svd tol s o = Ok true) /\
  (sg_coplanar_point s p = Ok true -> sg_coplanar_point_tol svd tol s p = Ok true) /\
  (sg_coplanar s o = Ok true -> sg_coplanar_tol svd tol s o = Ok true) /\
  (forall t, sg_t s p = Some t -> sg_t_tol svd tol s p = Ok (Some t)).
Proof.
  intros svd n s o p tol C [S1 S2] [O1 O2] Lp Ht.
  assert (D3 : dims n [sg_p1 s; sg_p2 s; p]) by (apply dims3; assumption).
  assert (D4 : dims n [sg_p1 s; sg_p2 s; sg_p1 o; sg_p2 o]) by (apply dims4; assumption).
  assert (A : sg_collinear_point s p = true -> sg_collinear_point_tol svd tol s p = Ok true).
  { unfold sg_collinear_point, sg_collinear_point_tol. destruct (_ || _); [reflexivity|]. apply (C89_collinear_exact svd n); [exact C|discriminate|exact D3|exact Ht]. }
  split; [exact A|]. split; [|split; [|split]].
  - unfold sg_collinear, sg_collinear_tol. destruct (_ || _); [reflexivity|]. apply (C89_collinear_exact svd n); [exact C|discriminate|exact D4|exact Ht].
  - apply (C89_coplanar_exact svd n); [exact C|cbn; lia|exact D3|exact Ht].
  - apply (C89_coplanar_exact svd n); [exact C|cbn; lia|exact D4|exact Ht].
  - intros t. unfold sg_t, sg_t_tol. destruct (sg_collinear_point s p) eqn:E; [|discriminate]. rewrite (A eq_refl). cbn [rbind]. intros ->. reflexivity.
Qed.
Print Assumptions C89_segment_exact.

Theorem C89_segment_zero : forall svd n (s o : segment R) p, correct_svd svd -> seg_wf n s -> seg_wf n o -> length p = n ->
  sg_collinear_point_tol svd (Some 0) s p = Ok (sg_collinear_point s p) /\
  sg_collinear_tol svd (Some 0) s o = Ok (sg_collinear s o) /\
  sg_coplanar_point_tol svd (Some 0) s p = sg_coplanar_point s p /\
  sg_coplanar_tol svd (Some 0) s o = sg_coplanar s o /\
  sg_t_tol svd (Some 0) s p = Ok (sg_t s p).
Proof.
  intros svd n s o p C [S1 S2] [O1 O2] Lp.
  assert (D3 : dims n [sg_p1 s; sg_p2 s; p]) by (apply dims3; assumption).
  assert (D4 : dims n [sg_p1 s; sg_p2 s; sg_p1 o; sg_p2 o]) by (apply dims4; assumption).
  assert (A : sg_collinear_point_tol svd (Some 0) s p = Ok (sg_collinear_point s p)).
  { unfold sg_collinear_point, sg_collinear_point_tol. destruct (_ || _); [reflexivity|]. apply (C89_zero svd n _ C D3). discriminate. }
  split; [exact A|]. split; [|split; [|split]].
  - unfold sg_collinear, sg_collinear_tol. destruct (_ || _); [reflexivity|]. apply (C89_zero svd n _ C D4). discriminate.
  - apply (C89_zero svd n _ C D3). cbn. lia.
  - apply (C89_zero svd n _ C D4). cbn. lia.
  - unfold sg_t, sg_t_tol. rewrite A. cbn [rbind]. destruct (sg_collinear_point s p); reflexivity.
Qed.
Print Assumptions C89_segment_zero.
Example C89_segment_exact_ex : forall svd, correct_svd svd ->
  sg_t_tol svd None (mkSeg [1; 2] [2; 4]) [3; 6] = Ok (sg_t (mkSeg [1; 2] [2; 4]) [3; 6]) /\
  sg_t (mkSeg [1; 2] [2; 4]) [3; 6] <> None.
Proof.
  intros svd C. assert (W : seg_wf 2 (mkSeg [1; 2] [2; 4])) by (split; reflexivity).
  assert (Cp : sg_collinear_point (mkSeg [1; 2] [2; 4]) [3; 6] = true).
  { apply (sg_collinear_point_iff 2 _ [3; 6] W eq_refl). right. right. right. exists [1; 2]. split; [reflexivity|].
    intros x [<-|[<-|[<-|[]]]]; [exists 1|exists 2|exists 3]; intros [|[|[|i]]]; cbn; lra. }
  destruct (sg_t (mkSeg [1; 2] [2; 4]) [3; 6]) as [t|] eqn:E.
  - split; [|discriminate]. apply (C89_segment_exact svd 2 _ (mkSeg [1; 2] [2; 4]) [3; 6] None C W W eq_refl Logic.I), E.
  - unfold sg_t in E. rewrite Cp in E. discriminate.
Qed.

(** Curve.isplane. *)
Theorem C89_isplane : forall svd (c : curve R) d, correct_svd svd -> wf c -> (2 <= length (c_rows c))%nat ->
  tolerance (c_ndim c) (relative (c_rows c)) None d ->
  (exists b, c_isplane_tol svd c = Ok b /\
    (b = true <-> (c_ndim c < 3)%nat \/
       exists qs, in_plane_through_origin (c_ndim c) qs /\ within (c_ndim c) (relative (c_rows c)) qs d)) /\
  (c_isplane c = Ok true -> c_isplane_tol svd c = Ok true).
Proof.
  intros svd c d C W L2 T. assert (D : dims (c_ndim c) (c_rows c)) by exact (proj1 (proj2 W)).
  assert (Hd : 0 <= d).
  { destruct T as (e & (He & _) & ->). unfold Rdiv. apply Rmult_le_pos; [apply Rmult_le_pos; [exact He|apply pos_INR]|].
    left. apply Rinv_0_lt_compat, pow_lt. lra. }
  assert (EQ : c_isplane_tol svd c = coplanar_points_tol svd None (c_rows c)).
  { unfold c_isplane_tol. destruct (c_rows c) as [|r rs] eqn:R; [cbn in L2; lia|].
    destruct (Nat.ltb (c_ndim c) 3) eqn:E; [|reflexivity]. unfold coplanar_points_tol. rewrite (D r (or_introl eq_refl)), E. reflexivity. }
  rewrite EQ. split; [apply C89_coplanar; assumption|]. intros H. apply (C89_coplanar_exact svd (c_ndim c)); [exact C|exact L2|exact D|exact Logic.I|].
  unfold c_isplane, coplanar_array in H. destruct (c_rows c) as [|r rs] eqn:R; [cbn in L2; lia|].
  destruct (Nat.ltb (c_ndim c) 3) eqn:E; [|exact H]. unfold coplanar_points. rewrite (D r (or_introl eq_refl)), E. reflexivity.
Qed.
Print Assumptions C89_isplane.
Example C89_isplane_ex : forall svd, correct_svd svd ->
  c_isplane_tol svd (mkCurve [[0; 0; 5]; [1; 0; 5]; [0; 1; 5]; [3; 4; 5]] 3 DFloat None) = Ok true.
Proof. intros svd C. apply C89_coplanar_exact_ex, C. Qed.
