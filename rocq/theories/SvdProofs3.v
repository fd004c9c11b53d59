(** Singular values as distances from matrices of lower rank. *)
From Coq Require Import ZArith List Bool Arith Lia Reals Lra Psatz.
From Verif Require Import Num Py Numeric Curve Vec Spec GeomSpec SvdSpec.
From Verif Require Import CurveProofs3 VecFacts RankProofs RigidProofs GeomProofs OrthoProofs SvdProofs SvdProofs2.
Import ListNotations.
Local Open Scope R_scope.

(** ** The two forms of the decomposition *)

Lemma orthonormal_ortho n vs : orthonormal n vs <-> ortho n vs.
Proof.
  unfold orthonormal, ortho. split; intros [L O]; (split; [exact L|]); intros i j Hi Hj; specialize (O i j Hi Hj).
  - rewrite inner_vdot in O. exact O.
  - rewrite inner_vdot. exact O.
Qed.

Lemma sum_below_ext k f g : (forall i, (i < k)%nat -> f i = g i) -> sum_below k f = sum_below k g.
Proof. intros H. unfold sum_below. f_equal. apply map_ext_in. intros i Hi. apply in_seq in Hi. apply H. lia. Qed.

Lemma vdot_sum (a b : list R) : length a = length b -> vdot a b = sum_below (length a) (fun k => nth k a 0 * nth k b 0).
Proof.
  revert b. induction a as [|x a IH]; intros [|y b] L; try discriminate; [reflexivity|].
  rewrite vdot_cons, IH by (cbn in L; lia). unfold sum_below. cbn [length seq map fold_right nth].
  rewrite <- seq_shift, map_map. reflexivity.
Qed.

Lemma nth_column i us k : (k < length us)%nat -> nth k (column i us) 0 = nth i (nth k us []) 0.
Proof.
  intros H. unfold column. rewrite (nth_indep _ 0 ((fun b => nth i b 0) [])) by (rewrite map_length; exact H).
  rewrite (map_nth (fun b => nth i b 0)). reflexivity.
Qed.

Lemma factors_length (s a : list R) : length a = length s -> length (map2 Rmult s a) = length s.
Proof. intros H. rewrite map2_length, H. apply Nat.min_id. Qed.
Lemma nth_factors (s a : list R) k : length a = length s -> nth k (map2 Rmult s a) 0 = nth k s 0 * nth k a 0.
Proof.
  intros H. destruct (Nat.lt_ge_cases k (length s)) as [Hk|Hk].
  - apply nth_map2; [symmetry; exact H|exact Hk].
  - rewrite !nth_overflow; rewrite ?factors_length by exact H; lia || lra.
Qed.

(** The rows of the matrix are combinations of the right vectors. *)
Definition svd_rows (m n : nat) (A : list (list R)) (s : list R) (us vs : list (list R)) : Prop :=
  length us = length s /\ length vs = length s /\ ortho m us /\ ortho n vs /\
  forall i, (i < m)%nat -> nth i A [] = lincomb n (map2 Rmult s (column i us)) vs.

Lemma column_length i us : length (column i us) = length us.
Proof. apply map_length. Qed.

Lemma entries_rows m n A s us vs : shape m n A -> length us = length s -> length vs = length s -> ortho m us -> ortho n vs ->
  ((forall i j, (i < m)%nat -> (j < n)%nat ->
      entry A i j = sum_below (length s) (fun k => nth k s 0 * entry us k i * entry vs k j)) <->
   forall i, (i < m)%nat -> nth i A [] = lincomb n (map2 Rmult s (column i us)) vs).
Proof.
  intros [Lm LA] Lu Lv Ou Ov.
  assert (E : forall i j, nth j (lincomb n (map2 Rmult s (column i us)) vs) 0
                = sum_below (length s) (fun k => nth k s 0 * entry us k i * entry vs k j)).
  { intros i j. rewrite nth_lincomb by apply Ov. rewrite vdot_sum by (rewrite factors_length; rewrite column_length; congruence).
    rewrite factors_length by (rewrite column_length; congruence). apply sum_below_ext. intros k Hk.
    rewrite nth_factors by (rewrite column_length; congruence). rewrite !nth_column by lia. reflexivity. }
  split.
  - intros H i Hi. assert (Li : length (nth i A []) = n) by (apply LA, nth_In; lia). apply vec_ext.
    + rewrite lincomb_length by apply Ov. exact Li.
    + intros j. destruct (Nat.lt_ge_cases j n) as [Hj|Hj].
      * rewrite E. exact (H i j Hi Hj).
      * rewrite !nth_overflow; rewrite ?lincomb_length by apply Ov; lia || reflexivity.
  - intros H i j Hi Hj. unfold entry at 1. rewrite H by exact Hi. apply E.
Qed.

Lemma rows_mv m n A s us vs : shape m n A -> svd_rows m n A s us vs ->
  forall x, length x = n -> mv A x = lincomb m (map2 Rmult s (mv vs x)) us.
Proof.
  intros [Lm LA] (Lu & Lv & Ou & Ov & H) x Lx. apply vec_ext; [rewrite mv_length, lincomb_length; [exact Lm|apply Ou]|].
  intros i. rewrite nth_lincomb by apply Ou. rewrite nth_mv'. destruct (Nat.lt_ge_cases i m) as [Hi|Hi].
  - rewrite H by exact Hi. rewrite lincomb_dot by apply Ov. apply vdot_pointwise. intros k.
    rewrite !nth_factors by (rewrite ?column_length, ?mv_length; congruence). ring.
  - rewrite nth_overflow by lia. change (vdot [] x) with 0. symmetry. apply vdot_all_zero. intros k.
    assert (Z : nth k (column i us) 0 = 0); [|rewrite Z; ring].
    destruct (Nat.lt_ge_cases k (length us)) as [Hk|Hk]; [|apply nth_overflow; rewrite column_length; exact Hk].
    rewrite nth_column by exact Hk. apply nth_overflow. rewrite (proj1 Ou (nth k us [])) by (apply nth_In, Hk). exact Hi.
Qed.

Lemma mv_rows m n A s us vs : shape m n A -> length us = length s -> length vs = length s -> ortho m us -> ortho n vs ->
  (forall x, length x = n -> mv A x = lincomb m (map2 Rmult s (mv vs x)) us) -> svd_rows m n A s us vs.
Proof.
  intros [Lm LA] Lu Lv Ou Ov H. split; [exact Lu|]. split; [exact Lv|]. split; [exact Ou|]. split; [exact Ov|].
  intros i Hi. assert (Li : length (nth i A []) = n) by (apply LA, nth_In; lia). apply vec_ext.
  - rewrite lincomb_length by apply Ov. exact Li.
  - intros j. rewrite nth_lincomb by apply Ov. destruct (Nat.lt_ge_cases j n) as [Hj|Hj].
    + rewrite <- (vdot_unit_vec n (nth i A []) j Li). rewrite <- nth_mv'.
      rewrite H by apply unit_vec_length. rewrite nth_lincomb by apply Ou. apply vdot_pointwise. intros k.
      rewrite !nth_factors by (rewrite ?column_length, ?mv_length; congruence). rewrite nth_mv'.
      destruct (Nat.lt_ge_cases k (length vs)) as [Hk|Hk].
      * rewrite vdot_unit_vec by (apply (proj1 Ov), nth_In, Hk). rewrite !nth_column by lia. ring.
      * rewrite (nth_overflow s) by lia. ring.
    + rewrite nth_overflow by lia. symmetry. apply vdot_all_zero. intros k.
      assert (Z : nth k (column j vs) 0 = 0); [|rewrite Z; ring].
      destruct (Nat.lt_ge_cases k (length vs)) as [Hk|Hk]; [|apply nth_overflow; rewrite column_length; exact Hk].
      rewrite nth_column by exact Hk. apply nth_overflow. rewrite (proj1 Ov (nth k vs [])) by (apply nth_In, Hk). exact Hj.
Qed.

Definition decreasing (s : list R) : Prop := forall i j, (i <= j)%nat -> (j < length s)%nat -> 0 <= nth j s 0 <= nth i s 0.

Lemma singular_iff m n A s : shape m n A ->
  (singular_values m n A s <-> length s = Nat.min m n /\ decreasing s /\ exists us vs, svd_rows m n A s us vs).
Proof.
  intros Sh. unfold singular_values. split; intros (L & D & us & vs & H); (split; [exact L|]); (split; [exact D|]); exists us, vs.
  - destruct H as (Lu & Lv & Ou & Ov & E). apply orthonormal_ortho in Ou, Ov. repeat (split; [assumption|]).
    apply (entries_rows m n A s us vs); assumption.
  - destruct H as (Lu & Lv & Ou & Ov & E). repeat (split; [assumption || apply orthonormal_ortho; assumption|]).
    apply (entries_rows m n A s us vs); assumption.
Qed.

Theorem singular_exists m n A : shape m n A -> exists s, singular_values m n A s.
Proof.
  intros Sh. destruct (svd_exists m n A (proj1 Sh) (proj2 Sh)) as (s & L & D & us & vs & Lu & Lv & Ou & Ov & E).
  exists s. apply singular_iff; [exact Sh|]. split; [exact L|]. split; [exact D|]. exists us, vs. apply mv_rows; assumption.
Qed.

(** ** Transposition *)

Lemma entry_ext m n A B : shape m n A -> shape m n B -> (forall i j, (i < m)%nat -> (j < n)%nat -> entry A i j = entry B i j) -> A = B.
Proof.
  intros [La Da] [Lb Db] H. apply (nth_ext _ _ [] []); [congruence|]. intros i Hi.
  assert (L1 : length (nth i A []) = n) by (apply Da, nth_In, Hi). assert (L2 : length (nth i B []) = n) by (apply Db, nth_In; lia).
  apply vec_ext; [congruence|]. intros j. destruct (Nat.lt_ge_cases j n) as [Hj|Hj]; [apply H; lia|].
  rewrite !nth_overflow by lia. reflexivity.
Qed.

Lemma singular_transposed m n A B s : shape m n A -> shape n m B ->
  (forall i j, (i < m)%nat -> (j < n)%nat -> entry B j i = entry A i j) -> singular_values m n A s -> singular_values n m B s.
Proof.
  intros Sa Sb H (L & D & us & vs & Lu & Lv & Ou & Ov & E). split; [rewrite L; apply Nat.min_comm|]. split; [exact D|].
  exists vs, us. repeat (split; [assumption|]). intros j i Hj Hi. rewrite H, E by assumption.
  apply sum_below_ext. intros k _. ring.
Qed.

(** ** Stretch *)

Lemma vdot_le_pointwise (a b c d : list R) : (forall i, nth i a 0 * nth i b 0 <= nth i c 0 * nth i d 0) -> vdot a b <= vdot c d.
Proof.
  assert (P : forall c d : list R, (forall i, 0 <= nth i c 0 * nth i d 0) -> 0 <= vdot c d).
  { clear. induction c as [|x c IH]; intros [|y d] H; try (cbn; lra). rewrite vdot_cons.
    pose proof (H 0%nat) as H0. cbn in H0. pose proof (IH d (fun i => H (S i))). lra. }
  assert (N : forall c d : list R, (forall i, nth i c 0 * nth i d 0 <= 0) -> vdot c d <= 0).
  { clear. induction c as [|x c IH]; intros [|y d] H; try (cbn; lra). rewrite vdot_cons.
    pose proof (H 0%nat) as H0. cbn in H0. pose proof (IH d (fun i => H (S i))). lra. }
  revert b c d. induction a as [|x a IH]; intros b c d H.
  - change (vdot [] b) with 0. apply P. intros i. specialize (H i). destruct i; cbn in *; lra.
  - destruct b as [|y b].
    { change (vdot (x :: a) []) with 0. apply P. intros i. specialize (H i). destruct i; cbn in *; lra. }
    destruct c as [|z c].
    { change (vdot [] d) with 0. apply N. intros i. specialize (H i). destruct i; cbn in *; lra. }
    destruct d as [|w d].
    { change (vdot (z :: c) []) with 0. apply N. intros i. specialize (H i). destruct i; cbn in *; lra. }
    rewrite !vdot_cons. pose proof (H 0%nat) as H0. cbn in H0. pose proof (IH b c d (fun i => H (S i))). lra.
Qed.

Lemma quad_svd m n A s us vs x : shape m n A -> svd_rows m n A s us vs -> length x = n ->
  quad A x = vdot (map2 Rmult s (mv vs x)) (map2 Rmult s (mv vs x)).
Proof.
  intros Sh H Lx. unfold quad. rewrite (rows_mv m n A s us vs) by assumption. destruct H as (Lu & Lv & Ou & Ov & _).
  apply ortho_norm; [exact Ou|]. rewrite factors_length; rewrite ?mv_length; congruence.
Qed.

(** A - B for matrices of the same shape. *)
Definition msub (A B : list (list R)) : list (list R) := map2 vsub A B.

Lemma mv_msub n A B x : length A = length B -> all_len n A -> all_len n B -> mv (msub A B) x = vsub (mv A x) (mv B x).
Proof.
  revert B. induction A as [|a A IH]; intros [|b B] L LA LB; try discriminate; [reflexivity|].
  apply all_len_cons in LA, LB. destruct LA as [La LA], LB as [Lb LB].
  change (vdot (vsub a b) x :: mv (msub A B) x = (vdot a x - vdot b x) :: vsub (mv A x) (mv B x)).
  rewrite vdot_sub_l by congruence. rewrite IH by (cbn in L; lia || assumption). reflexivity.
Qed.

Definition spanned_by (n k : nat) (B : list (list R)) : Prop := exists bs, length bs = k /\ all_len n bs /\ spanned n bs B.

(** No matrix of rank k is nearer than the singular value number k. *)
Lemma lower_bound m n A s us vs B k d : shape m n A -> decreasing s -> svd_rows m n A s us vs -> (k < length s)%nat ->
  length B = m -> all_len n B -> spanned_by n k B -> 0 <= d ->
  (forall x, length x = n -> quad (msub A B) x <= d * d * vdot x x) -> nth k s 0 <= d.
Proof.
  intros Sh D Sv Hk Lb LB (bs & Lbs & Lbn & Sp) Hd W.
  assert (Sv' := Sv). destruct Sv' as (Lu & Lv & Ou & Ov & _).
  set (ws := map (fun b => firstn (S k) (mv vs b)) bs).
  destruct (homogeneous k ws (S k)) as (c & Lc & Nc & Hc).
  { unfold ws. rewrite map_length. exact Lbs. } { lia. }
  { intros w Hw. unfold ws in Hw. apply in_map_iff in Hw. destruct Hw as (b & <- & _). rewrite firstn_length, mv_length. lia. }
  set (c' := c ++ repeat 0 (length s - S k)).
  assert (Lc' : length c' = length s) by (unfold c'; rewrite app_length, repeat_length; lia).
  assert (Nthc : forall i, (k < i)%nat -> nth i c' 0 = 0).
  { intros i Hi. unfold c'. rewrite app_nth2 by lia. apply nth_zeros. }
  set (x := lincomb n c' vs).
  assert (Lx : length x = n) by (apply lincomb_length, Ov).
  assert (Mx : mv vs x = c') by (apply (ortho_coeff n); [exact Ov|congruence]).
  assert (Nx : vdot x x = vdot c' c') by (apply (ortho_norm n); [exact Ov|congruence]).
  assert (Bx : mv B x = repeat 0 m).
  { apply vec_ext; [rewrite mv_length, repeat_length; exact Lb|]. intros i. rewrite nth_zeros.
    destruct (Nat.lt_ge_cases i (length B)) as [Hi|Hi]; [|apply nth_overflow; rewrite mv_length; exact Hi].
    rewrite nth_mv by exact Hi. destruct (Sp (nth i B [])) as (es & Le & ->); [apply nth_In, Hi|].
    rewrite lincomb_dot by exact Lbn.
    assert (Z : mv bs x = repeat 0 (length bs)); [|rewrite Z; apply vdot_zero_r].
    apply vec_ext; [rewrite mv_length, repeat_length; reflexivity|]. intros j. rewrite nth_zeros.
    destruct (Nat.lt_ge_cases j (length bs)) as [Hj|Hj]; [|apply nth_overflow; rewrite mv_length; exact Hj].
    rewrite nth_mv by exact Hj. unfold x. rewrite dot_lincomb by apply Ov.
    assert (K := Hc (firstn (S k) (mv vs (nth j bs [])))). rewrite vdot_comm in K.
    rewrite <- K.
    2:{ unfold ws. apply in_map_iff. exists (nth j bs []). split; [reflexivity|apply nth_In, Hj]. }
    apply vdot_pointwise. intros l. destruct (Nat.le_gt_cases l k) as [Hl|Hl].
    - unfold c'. rewrite app_nth1 by lia. rewrite <- (firstn_skipn (S k) (mv vs (nth j bs []))) at 1.
      rewrite app_nth1 by (rewrite firstn_length, mv_length; lia). reflexivity.
    - rewrite Nthc by exact Hl. rewrite (nth_overflow c) by lia. ring. }
  assert (Q : quad (msub A B) x = quad A x).
  { unfold quad. rewrite (mv_msub n A B x); [|destruct Sh; congruence|apply Sh|exact LB]. rewrite Bx.
    assert (Z : vsub (mv A x) (repeat 0 m) = mv A x); [|rewrite Z; reflexivity].
    assert (L : length (mv A x) = m) by (rewrite mv_length; apply Sh).
    apply vec_ext; [rewrite vsub_length; rewrite ?repeat_length; auto|]. intros i.
    rewrite nth_vsub by (rewrite repeat_length; exact L). rewrite nth_zeros. ring. }
  assert (G : nth k s 0 * nth k s 0 * vdot x x <= quad A x).
  { rewrite Nx, (quad_svd m n A s us vs) by assumption. rewrite Mx.
    rewrite <- vdot_scale_l. apply vdot_le_pointwise. intros i. rewrite nth_vscale, nth_factors by congruence.
    destruct (Nat.le_gt_cases i k) as [Hi|Hi]; [|rewrite Nthc by exact Hi; lra].
    destruct (D i k Hi Hk) as [D1 D2].
    assert (0 <= nth i c' 0 * nth i c' 0) by apply Rle_0_sqr.
    assert (nth k s 0 * nth k s 0 <= nth i s 0 * nth i s 0) by nra. nra. }
  pose proof (W x Lx) as K. rewrite Q in K.
  assert (Px : 0 < vdot x x).
  { rewrite Nx. pose proof (vdot_nonneg c'). destruct (Req_dec (vdot c' c') 0) as [E|E]; [exfalso|lra].
    apply vdot_eq0 in E. destruct (nonzero_entry c ltac:(rewrite Lc; exact Nc)) as (p & Hp & Np). apply Np.
    apply (f_equal (fun v => nth p v 0)) in E. rewrite nth_zeros in E. unfold c' in E. rewrite app_nth1 in E by exact Hp. exact E. }
  destruct (D k k (le_n k) Hk) as [D0 _].
  apply Rsqr_incr_0; unfold Rsqr; [|lra|lra]. apply Rmult_le_reg_r with (vdot x x); lra.
Qed.

(** The projection on the first k right vectors is that near. *)
Lemma upper_bound m n A s us vs k : shape m n A -> decreasing s -> svd_rows m n A s us vs ->
  exists B, length B = m /\ all_len n B /\ spanned_by n (Nat.min k (length s)) B /\
    forall x, length x = n -> quad (msub A B) x <= nth k s 0 * nth k s 0 * vdot x x.
Proof.
  intros Sh D Sv. assert (Sv' := Sv). destruct Sv' as (Lu & Lv & Ou & Ov & _).
  set (ws := firstn k vs).
  assert (Lw : length ws = Nat.min k (length s)) by (unfold ws; rewrite firstn_length, Lv; reflexivity).
  assert (Nw : forall i, (i < length ws)%nat -> nth i ws [] = nth i vs []).
  { intros i Hi. unfold ws in *. rewrite <- (firstn_skipn k vs) at 2. rewrite app_nth1 by exact Hi. reflexivity. }
  assert (Ow : ortho n ws).
  { split.
    - intros b Hb. apply (proj1 Ov). rewrite <- (firstn_skipn k vs). apply in_or_app. auto.
    - intros i j Hi Hj. rewrite !Nw by assumption. apply Ov; lia. }
  set (B := map (fun a => lincomb n (mv ws a) ws) A).
  assert (LB : all_len n B).
  { intros b Hb. unfold B in Hb. apply in_map_iff in Hb. destruct Hb as (a & <- & _). apply lincomb_length, Ow. }
  exists B. split; [unfold B; rewrite map_length; apply Sh|]. split; [exact LB|]. split.
  { exists ws. split; [exact Lw|]. split; [apply Ow|]. intros r Hr. unfold B in Hr. apply in_map_iff in Hr.
    destruct Hr as (a & <- & _). exists (mv ws a). split; [apply mv_length|reflexivity]. }
  intros x Lx.
  assert (Q : quad (msub A B) x = quad A (rest n ws x)).
  { unfold quad. assert (Z : mv (msub A B) x = mv A (rest n ws x)); [|rewrite Z; reflexivity].
    rewrite (mv_msub n A B x); [|unfold B; rewrite map_length; reflexivity|apply Sh|exact LB].
    unfold rest. rewrite mv_sub by (rewrite lincomb_length; [exact Lx|apply Ow]). f_equal.
    unfold B, mv. rewrite map_map. apply map_ext. intros a. fold (mv ws a) (mv ws x).
    rewrite lincomb_dot, dot_lincomb by apply Ow. apply vdot_comm. }
  rewrite Q. assert (Lr : length (rest n ws x) = n) by (apply rest_length; [apply Ow|exact Lx]).
  rewrite (quad_svd m n A s us vs) by assumption.
  assert (R0 : forall i, (i < length ws)%nat -> nth i (mv vs (rest n ws x)) 0 = 0).
  { intros i Hi. rewrite nth_mv', <- Nw, <- nth_mv', rest_orth by assumption. apply nth_zeros. }
  eapply Rle_trans with (nth k s 0 * nth k s 0 * vdot (mv vs (rest n ws x)) (mv vs (rest n ws x))).
  - rewrite <- vdot_scale_l. apply vdot_le_pointwise. intros i. rewrite nth_vscale, nth_factors by (rewrite mv_length; congruence).
    destruct (Nat.lt_ge_cases i (length ws)) as [Hi|Hi]; [rewrite R0 by exact Hi; lra|].
    set (q := nth i (mv vs (rest n ws x)) 0). assert (0 <= q * q) by apply Rle_0_sqr.
    destruct (Nat.lt_ge_cases i (length s)) as [Hs|Hs].
    + assert (Hki : (k <= i)%nat) by lia. destruct (D k i Hki Hs) as [D1 D2].
      assert (nth i s 0 * nth i s 0 <= nth k s 0 * nth k s 0) by nra. nra.
    + unfold q. rewrite (nth_overflow (mv vs _)) by (rewrite mv_length; lia). lra.
  - apply Rmult_le_compat_l; [apply Rle_0_sqr|]. eapply Rle_trans; [apply (bessel n); assumption|].
    rewrite rest_norm by assumption. pose proof (vdot_nonneg (mv ws x)). lra.
Qed.

Lemma spanned_more n k k' B : (k <= k')%nat -> spanned_by n k B -> spanned_by n k' B.
Proof.
  intros H (bs & L & Ln & Sp). exists (bs ++ repeat (repeat 0 n) (k' - k)).
  split; [rewrite app_length, repeat_length; lia|].
  assert (L2 : all_len n (bs ++ repeat (repeat 0 n) (k' - k))).
  { intros b Hb. apply in_app_or in Hb. destruct Hb as [Hb|Hb]; [apply Ln, Hb|]. apply repeat_spec in Hb. rewrite Hb. apply repeat_length. }
  split; [exact L2|]. intros r Hr. destruct (Sp r Hr) as (cs & Lc & ->). exists (cs ++ repeat 0 (k' - k)).
  split; [rewrite !app_length, !repeat_length; lia|]. apply vec_ext; [rewrite !lincomb_length by assumption; reflexivity|].
  intros i. rewrite !nth_lincomb by assumption. apply vdot_pointwise. intros j. unfold column. rewrite map_app.
  fold (column i bs). destruct (Nat.lt_ge_cases j (length cs)) as [Hj|Hj].
  - rewrite !app_nth1 by (rewrite ?column_length; lia). reflexivity.
  - rewrite (nth_overflow cs) by exact Hj. rewrite (app_nth2 cs) by exact Hj. rewrite nth_zeros. ring.
Qed.

(** The singular value number k is the distance from the matrices of rank k. *)
Lemma singular_distance m n A s k d : shape m n A -> singular_values m n A s -> 0 <= d ->
  (nth k s 0 <= d <->
   exists B, length B = m /\ all_len n B /\ spanned_by n k B /\ forall x, length x = n -> quad (msub A B) x <= d * d * vdot x x).
Proof.
  intros Sh Sv Hd. apply (singular_iff m n A s Sh) in Sv. destruct Sv as (L & D & us & vs & Sv). split.
  - intros H. destruct (upper_bound m n A s us vs k Sh D Sv) as (B & L1 & L2 & Sp & Q). exists B.
    split; [exact L1|]. split; [exact L2|]. split; [apply (spanned_more n (Nat.min k (length s))); [lia|exact Sp]|].
    intros x Lx. eapply Rle_trans; [apply Q, Lx|]. apply Rmult_le_compat_r; [apply vdot_nonneg|].
    assert (0 <= nth k s 0).
    { destruct (Nat.lt_ge_cases k (length s)) as [Hk|Hk]; [apply (D k k); lia|rewrite nth_overflow by exact Hk; lra]. }
    apply Rmult_le_compat; lra.
  - intros (B & L1 & L2 & Sp & Q). destruct (Nat.lt_ge_cases k (length s)) as [Hk|Hk]; [|rewrite nth_overflow by exact Hk; exact Hd].
    exact (lower_bound m n A s us vs B k d Sh D Sv Hk L1 L2 Sp Hd Q).
Qed.

Theorem singular_unique m n A s s' : shape m n A -> singular_values m n A s -> singular_values m n A s' -> s = s'.
Proof.
  assert (H : forall s s', shape m n A -> singular_values m n A s -> singular_values m n A s' -> forall k, nth k s 0 <= nth k s' 0).
  { clear. intros s s' Sh Sv Sv' k.
    assert (P : 0 <= nth k s' 0).
    { destruct Sv' as (_ & D & _). destruct (Nat.lt_ge_cases k (length s')) as [Hk|Hk]; [apply (D k k); lia|rewrite nth_overflow by exact Hk; lra]. }
    apply (singular_distance m n A s k (nth k s' 0) Sh Sv P). apply (singular_distance m n A s' k (nth k s' 0) Sh Sv' P). lra. }
  intros Sh Sv Sv'. apply vec_ext; [destruct Sv as [L _], Sv' as [L' _]; congruence|]. intros k.
  apply Rle_antisym; apply H; assumption.
Qed.

(** The largest singular value is the largest stretch. *)
Lemma singular_first m n A s : shape m n A -> singular_values m n A s -> s <> [] ->
  (forall x, length x = n -> quad A x <= nth 0 s 0 * nth 0 s 0 * vdot x x) /\
  exists x, length x = n /\ vdot x x = 1 /\ quad A x = nth 0 s 0 * nth 0 s 0.
Proof.
  intros Sh Sv N. apply (singular_iff m n A s Sh) in Sv. destruct Sv as (L & D & us & vs & Sv).
  assert (Hs : (0 < length s)%nat) by (destruct s; [contradiction|cbn; lia]).
  assert (Sv' := Sv). destruct Sv' as (Lu & Lv & Ou & Ov & _). split.
  - intros x Lx. rewrite (quad_svd m n A s us vs) by assumption.
    eapply Rle_trans with (nth 0 s 0 * nth 0 s 0 * vdot (mv vs x) (mv vs x)).
    + rewrite <- vdot_scale_l. apply vdot_le_pointwise. intros i. rewrite nth_vscale, nth_factors by (rewrite mv_length; congruence).
      set (q := nth i (mv vs x) 0). assert (0 <= q * q) by apply Rle_0_sqr.
      destruct (Nat.lt_ge_cases i (length s)) as [Hi|Hi].
      * destruct (D 0%nat i ltac:(lia) Hi) as [D1 D2]. assert (nth i s 0 * nth i s 0 <= nth 0 s 0 * nth 0 s 0) by nra. nra.
      * unfold q. rewrite (nth_overflow (mv vs x)) by (rewrite mv_length; lia). lra.
    + apply Rmult_le_compat_l; [apply Rle_0_sqr|]. apply (bessel n); assumption.
  - exists (nth 0 vs []). assert (L0 : (0 < length vs)%nat) by lia.
    assert (Lx : length (nth 0 vs []) = n) by (apply (proj1 Ov), nth_In, L0). split; [exact Lx|].
    split; [rewrite (proj2 Ov 0%nat 0%nat L0 L0); reflexivity|].
    rewrite (quad_svd m n A s us vs) by assumption. rewrite (ortho_mv n) by assumption.
    set (e := unit_vec (length vs) 0).
    assert (Le : length e = length s) by (unfold e; rewrite unit_vec_length; exact Lv).
    transitivity (vdot (vscale (map2 Rmult s e) (nth 0 s 0)) e).
    { apply vdot_pointwise. intros i. rewrite nth_vscale, !nth_factors by exact Le.
      destruct (Nat.eq_dec i 0) as [->|Ni]; [ring|]. assert (Z : nth i e 0 = 0); [|rewrite Z; ring].
      destruct (Nat.lt_ge_cases i (length vs)) as [Hi|Hi]; [|apply nth_overflow; lia].
      unfold e, unit_vec. rewrite (nth_indep _ 0 ((fun k => if Nat.eqb k 0 then 1 else 0) 0%nat)) by (rewrite map_length, seq_length; exact Hi).
      rewrite (map_nth (fun k => if Nat.eqb k 0 then 1 else 0)), seq_nth by exact Hi. destruct (Nat.eqb_spec (0 + i) 0); [lia|reflexivity]. }
    unfold e at 2. rewrite vdot_unit_vec by (rewrite vscale_length, factors_length by exact Le; congruence).
    rewrite nth_vscale, nth_factors by exact Le.
    assert (E1 : nth 0 e 0 = 1); [|rewrite E1; ring]. unfold e, unit_vec. destruct (length vs); [lia|reflexivity].
Qed.
