(** [rank_le] computes the exact rank: a matrix has rank at most k iff its
    rows are combinations of k vectors. *)
From Coq Require Import ZArith List Bool Arith Lia Reals Lra.
From Verif Require Import Num Py Numeric Curve Vec Spec.
From Verif Require Import CurveProofs3 VecFacts.
Import ListNotations.
Local Open Scope R_scope.

(** The linear combination of the vectors [bs] (of length n) with
    coefficients [cs]. *)
Fixpoint lincomb (n : nat) (cs : list R) (bs : list (list R)) : list R :=
  match cs, bs with
  | c :: cs', b :: bs' => vadd (vscale b c) (lincomb n cs' bs')
  | _, _ => repeat 0 n
  end.

Definition all_len (n : nat) (bs : list (list R)) : Prop := forall b, In b bs -> length b = n.

(** Every row is a combination of the vectors [bs]. *)
Definition spanned (n : nat) (bs rows : list (list R)) : Prop :=
  forall r, In r rows -> exists cs, length cs = length bs /\ r = lincomb n cs bs.

Definition column (m : nat) (bs : list (list R)) : list R := map (fun b => nth m b 0) bs.

Lemma all_len_cons n b bs : all_len n (b :: bs) <-> length b = n /\ all_len n bs.
Proof. unfold all_len. cbn. split; [intros H; split; auto|intros [H1 H2] x [<-|H]; auto]. Qed.

Lemma lincomb_length n cs bs : all_len n bs -> length (lincomb n cs bs) = n.
Proof.
  revert bs. induction cs as [|c cs IH]; intros [|b bs] H; cbn; try apply repeat_length.
  apply all_len_cons in H as [H1 H2]. rewrite vadd_length; rewrite vscale_length; rewrite ?IH; auto.
Qed.

Lemma nth_lincomb n cs bs m : all_len n bs -> nth m (lincomb n cs bs) 0 = vdot cs (column m bs).
Proof.
  revert bs. induction cs as [|c cs IH]; intros [|b bs] H; cbn [lincomb column map];
    try (rewrite nth_zeros; reflexivity).
  apply all_len_cons in H as [H1 H2]. rewrite nth_vadd.
  - rewrite nth_vscale, IH, vdot_cons by assumption. unfold column. ring.
  - rewrite vscale_length, lincomb_length; assumption.
Qed.

Lemma lincomb_zero n k bs : all_len n bs -> lincomb n (repeat 0 k) bs = repeat 0 n.
Proof.
  intros H. apply vec_ext; [rewrite lincomb_length, repeat_length; auto|].
  intros m. rewrite nth_lincomb, vdot_zero_l, nth_zeros by assumption. reflexivity.
Qed.

(** ** Pivots *)

Lemma pivot_none (r : list R) : pivot r = None -> r = repeat 0 (length r).
Proof.
  induction r as [|x r IH]; [reflexivity|]. cbn. destruct (Reqb x 0) eqn:E; [|discriminate].
  apply Reqb_iff in E. destruct (pivot r); [discriminate|]. intros _. rewrite E. f_equal. apply IH. reflexivity.
Qed.
Lemma pivot_some (r : list R) j x : pivot r = Some (j, x) -> nth j r 0 = x /\ x <> 0 /\ (j < length r)%nat.
Proof.
  revert j. induction r as [|y r IH]; intros j; [discriminate|]. cbn. destruct (Reqb y 0) eqn:E.
  - destruct (pivot r) as [[j' x']|]; [|discriminate]. cbn. intros [= <- <-].
    destruct (IH j' eq_refl) as (H1 & H2 & H3). repeat split; auto. lia.
  - intros [= <- <-]. apply Reqb_false in E. repeat split; auto. cbn. lia.
Qed.
Lemma pivot_row_none rows : pivot_row rows = None -> forall r : list R, In r rows -> r = repeat 0 (length r).
Proof.
  induction rows as [|y rows IH]; [intros _ r []|]. cbn. destruct (pivot y) as [[j x]|] eqn:E; [discriminate|].
  intros H r [<-|Hr]; [apply pivot_none; assumption|]. apply IH; assumption.
Qed.
Lemma pivot_row_some rows (r : list R) j x :
  pivot_row rows = Some (r, j, x) -> In r rows /\ nth j r 0 = x /\ x <> 0 /\ (j < length r)%nat.
Proof.
  induction rows as [|y rows IH]; [discriminate|]. cbn. destruct (pivot y) as [[j' x']|] eqn:E.
  - intros [= <- <- <-]. apply pivot_some in E. auto.
  - intros H. destruct (IH H) as [H1 H2]. auto.
Qed.

(** ** Removing a vector from a dependent family *)

Definition del {A} (i : nat) (l : list A) : list A := firstn i l ++ skipn (S i) l.

Lemma del_length {A} i (l : list A) : (i < length l)%nat -> length (del i l) = (length l - 1)%nat.
Proof. intros H. unfold del. rewrite app_length, firstn_length, skipn_length. lia. Qed.
Lemma del_in {A} i (l : list A) a : In a (del i l) -> In a l.
Proof.
  unfold del. revert l. induction i as [|i IH]; intros [|x l]; cbn [firstn skipn app]; try tauto.
  - intros H. right. exact H.
  - intros [<-|H]; [left; reflexivity|right; apply IH; assumption].
Qed.
Lemma vdot_del i (es col : list R) : length es = length col -> nth i es 0 = 0 -> vdot es col = vdot (del i es) (del i col).
Proof.
  revert i col. induction es as [|e es IH]; intros i [|c col] H H0; try discriminate.
  - unfold del. rewrite !firstn_nil, !skipn_nil. reflexivity.
  - destruct i; unfold del; cbn [firstn skipn app].
    + cbn in H0. rewrite vdot_cons. rewrite H0. lra.
    + rewrite !vdot_cons. fold (del i es) (del i col). rewrite (IH i col) by (cbn in *; auto).
      reflexivity.
Qed.
Lemma column_del i m bs : column m (del i bs) = del i (column m bs).
Proof. unfold del, column. rewrite map_app, firstn_map, skipn_map. reflexivity. Qed.

Lemma lincomb_drop n (cs ds : list R) bs i :
  all_len n bs -> length cs = length bs -> length ds = length bs -> nth i cs 0 <> 0 ->
  lincomb n cs bs = repeat 0 n ->
  exists es, length es = length (del i bs) /\ lincomb n ds bs = lincomb n es (del i bs).
Proof.
  intros Hn Hc Hd Hi H0.
  set (k := nth i ds 0 / nth i cs 0).
  set (es := vsub ds (vscale cs k)).
  assert (Hle : length es = length bs) by (unfold es; vlen).
  assert (Hii : (i < length bs)%nat).
  { destruct (Nat.lt_ge_cases i (length bs)); [assumption|]. rewrite nth_overflow in Hi by lia. lra. }
  exists (del i es). split.
  { rewrite !del_length by lia. lia. }
  assert (Hdel : all_len n (del i bs)) by (intros b Hb; apply Hn; eapply del_in; eassumption).
  apply vec_ext; [rewrite !lincomb_length by assumption; reflexivity|]. intros m.
  rewrite !nth_lincomb by assumption. rewrite column_del.
  assert (Hcol : length (column m bs) = length bs) by apply map_length.
  rewrite <- vdot_del.
  - unfold es. rewrite vdot_sub_l by vlen. rewrite vdot_scale_l.
    apply (f_equal (fun v => nth m v 0)) in H0. rewrite nth_lincomb, nth_zeros in H0 by assumption. rewrite H0. ring.
  - lia.
  - unfold es. rewrite nth_vsub by vlen. rewrite nth_vscale. unfold k. field. assumption.
Qed.

(** ** Elimination is linear *)

Lemma clear_col_length (r : list R) j x y : length y = length r -> length (clear_col r j x y) = length r.
Proof. intros H. unfold clear_col. rewrite vsub_length; [assumption|]. rewrite vscale_length. assumption. Qed.

Lemma clear_col_lincomb n (r : list R) j x cs bs :
  all_len n bs -> length r = n ->
  clear_col r j x (lincomb n cs bs) = lincomb n cs (map (clear_col r j x) bs).
Proof.
  intros Hn Hr.
  assert (Hn' : all_len n (map (clear_col r j x) bs)).
  { intros b Hb. apply in_map_iff in Hb as (b' & <- & Hb'). rewrite clear_col_length; [assumption|].
    rewrite Hr. apply Hn. assumption. }
  apply vec_ext.
  - rewrite clear_col_length; rewrite ?lincomb_length by assumption; congruence.
  - intros m. rewrite nth_lincomb by assumption. unfold clear_col at 1.
    rewrite nth_vsub by (rewrite vscale_length, lincomb_length by assumption; congruence).
    rewrite nth_vscale. change (@n0 R RNum) with 0. rewrite !nth_lincomb by assumption. rnum.
    clear Hn'. revert bs Hn. induction cs as [|c cs IH]; intros [|b bs] Hn; try (cbn; lra).
    apply all_len_cons in Hn as [Hb Hn]. cbn [column map]. rewrite !vdot_cons. fold (column m bs) (column j bs).
    specialize (IH bs Hn). fold (column m (map (clear_col r j x) bs)).
    rewrite <- IH. unfold clear_col. rewrite nth_vsub by (rewrite vscale_length; congruence).
    rewrite nth_vscale. rnum. unfold Rdiv. ring.
Qed.

Lemma clear_col_self (r : list R) j x : nth j r 0 = x -> x <> 0 -> clear_col r j x r = repeat 0 (length r).
Proof.
  intros H Hx. unfold clear_col. apply vec_ext; [vlen|]. intros m. rnum. rewrite H.
  rewrite nth_vsub by vlen. rewrite nth_vscale, nth_zeros. field. assumption.
Qed.

Theorem rank_le_iff n k rows :
  all_len n rows ->
  (rank_le k rows = true <->
   exists bs, length bs = k /\ all_len n bs /\ spanned n bs rows).
Proof.
  revert rows. induction k as [|k IH]; intros rows Hn; cbn [rank_le].
  - destruct (pivot_row rows) as [[[r j] x]|] eqn:E.
    + apply pivot_row_some in E as (Hr & Hj & Hx & Hl). split; [discriminate|].
      intros (bs & Hb & _ & Hs). destruct bs; [|discriminate]. destruct (Hs r Hr) as (cs & Hc & E).
      destruct cs; [|discriminate]. cbn in E. rewrite E, nth_zeros in Hj. congruence.
    + split; [|reflexivity]. intros _. exists []. split; [reflexivity|]. split; [intros b []|].
      intros r Hr. exists []. split; [reflexivity|]. cbn. rewrite <- (Hn r Hr).
      eapply pivot_row_none; eassumption.
  - destruct (pivot_row rows) as [[[r j] x]|] eqn:E.
    + apply pivot_row_some in E as (Hr & Hj & Hx & Hl).
      assert (Hrn : length r = n) by (apply Hn; assumption).
      assert (Hn' : all_len n (map (clear_col r j x) rows)).
      { intros b Hb. apply in_map_iff in Hb as (y & <- & Hy). rewrite clear_col_length; [assumption|].
        rewrite Hrn. apply Hn. assumption. }
      rewrite (IH _ Hn'). split.
      * intros (bs & Hb & Hbn & Hs). exists (r :: bs). split; [cbn; congruence|].
        split; [apply all_len_cons; auto|]. intros y Hy.
        destruct (Hs (clear_col r j x y) (in_map _ _ _ Hy)) as (cs & Hc & Hcs).
        exists ((nth j y 0 / x) :: cs). split; [cbn; congruence|]. cbn [lincomb]. rewrite <- Hcs.
        assert (length y = n) by (apply Hn; assumption).
        unfold clear_col. set (k' := (nth j y n0 / x)%num).
        assert (L : length (vsub y (vscale r k')) = n)
          by (rewrite vsub_length; [assumption|rewrite vscale_length; congruence]).
        change (nth j y 0 / x) with k'. apply vec_ext.
        -- rewrite vadd_length; rewrite vscale_length; congruence.
        -- intros m. rewrite nth_vadd by (rewrite vscale_length; congruence).
           rewrite nth_vsub by (rewrite vscale_length; congruence). rewrite !nth_vscale. ring.
      * intros (bs & Hb & Hbn & Hs). destruct (Hs r Hr) as (cs & Hc & Hcr).
        set (bs' := map (clear_col r j x) bs).
        assert (Hbn' : all_len n bs').
        { intros b Hi. apply in_map_iff in Hi as (y & <- & Hy). rewrite clear_col_length; [assumption|].
          rewrite Hrn. apply Hbn. assumption. }
        assert (Hbl : length bs' = length bs) by apply map_length.
        assert (H0 : lincomb n cs bs' = repeat 0 n).
        { unfold bs'. rewrite <- clear_col_lincomb by assumption. rewrite <- Hcr, clear_col_self by assumption. congruence. }
        assert (Hnz : exists i, nth i cs 0 <> 0).
        { destruct (pivot cs) as [[i c]|] eqn:P.
          - apply pivot_some in P as (P1 & P2 & _). exists i. congruence.
          - apply pivot_none in P. rewrite P, lincomb_zero in Hcr by assumption.
            rewrite Hcr, nth_zeros in Hj. congruence. }
        destruct Hnz as (i & Hi).
        assert (Hil : (i < length bs')%nat).
        { destruct (Nat.lt_ge_cases i (length bs')); [assumption|]. rewrite nth_overflow in Hi by lia. lra. }
        exists (del i bs'). split; [rewrite del_length by assumption; lia|].
        split; [intros b Hd; apply Hbn'; eapply del_in; eassumption|].
        intros y' Hy'. apply in_map_iff in Hy' as (y & <- & Hy).
        destruct (Hs y Hy) as (ds & Hd & ->). rewrite clear_col_lincomb by assumption. fold bs'.
        apply (lincomb_drop n cs ds bs' i); auto; congruence.
    + split; [|reflexivity]. intros _. exists (repeat (repeat 0 n) (S k)). split; [apply repeat_length|].
      split; [intros b Hb; apply repeat_spec in Hb; subst; apply repeat_length|].
      intros r Hr. exists (repeat 0 (S k)). split; [rewrite !repeat_length; reflexivity|].
      rewrite lincomb_zero by (intros b Hb; apply repeat_spec in Hb; subst; apply repeat_length).
      rewrite <- (Hn r Hr). eapply pivot_row_none; eassumption.
Qed.

(** Rank at most one: all rows are multiples of one vector. *)
Corollary rank_le_1 n rows : all_len n rows ->
  (rank_le 1 rows = true <->
   exists u, length u = n /\ forall r, In r rows -> exists c, r = vscale u c).
Proof.
  intros Hn. rewrite (rank_le_iff n) by assumption. split.
  - intros (bs & Hb & Hbn & Hs). destruct bs as [|u [|? ?]]; try discriminate.
    apply all_len_cons in Hbn as [Hu _]. exists u. split; [assumption|].
    intros r Hr. destruct (Hs r Hr) as (cs & Hc & ->). destruct cs as [|c [|? ?]]; try discriminate.
    exists c. cbn. vext.
  - intros (u & Hu & H). exists [u]. split; [reflexivity|]. split; [intros b [<-|[]]; assumption|].
    intros r Hr. destruct (H r Hr) as (c & ->). exists [c]. split; [reflexivity|]. cbn. vext.
Qed.

(** Rank at most two: all rows are combinations of two vectors. *)
Corollary rank_le_2 n rows : all_len n rows ->
  (rank_le 2 rows = true <->
   exists u v, length u = n /\ length v = n /\
     forall r, In r rows -> exists c d, r = vadd (vscale u c) (vscale v d)).
Proof.
  intros Hn. rewrite (rank_le_iff n) by assumption. split.
  - intros (bs & Hb & Hbn & Hs). destruct bs as [|u [|v [|? ?]]]; try discriminate.
    apply all_len_cons in Hbn as [Hu Hbn]. apply all_len_cons in Hbn as [Hv _].
    exists u, v. split; [assumption|]. split; [assumption|].
    intros r Hr. destruct (Hs r Hr) as (cs & Hc & ->). destruct cs as [|c [|d [|? ?]]]; try discriminate.
    exists c, d. cbn. f_equal. vext.
  - intros (u & v & Hu & Hv & H). exists [u; v]. split; [reflexivity|].
    split; [intros b [<-|[<-|[]]]; assumption|].
    intros r Hr. destruct (H r Hr) as (c & d & ->). exists [c; d]. split; [reflexivity|]. cbn. f_equal. vext.
Qed.
