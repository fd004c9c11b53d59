(** Generic list lemmas used by the proofs. *)
From Coq Require Import ZArith List Bool Arith Lia Sorted Permutation.
From Verif Require Import Num Py Numeric Curve Spec.
Import ListNotations.

Lemma rseq_ok_iff {A} (l : list (res A)) (l' : list A) :
  rseq l = Ok l' <-> l = map Ok l'.
Proof.
  revert l'. induction l as [|r l IH]; intros l'; cbn.
  - split; intros H.
    + injection H as <-. reflexivity.
    + destruct l'; [reflexivity|discriminate].
  - destruct r as [a|e].
    + destruct (rseq l) as [l2|e] eqn:E.
      * split; intros H.
        { injection H as <-. cbn. f_equal. apply IH. reflexivity. }
        { destruct l' as [|x l']; [discriminate|]. injection H as -> H.
          apply IH in H. injection H as ->. reflexivity. }
      * split; intros H; [discriminate|].
        destruct l' as [|x l']; [discriminate|]. injection H as -> H.
        apply IH in H. discriminate.
    + split; intros H; [discriminate|]. destruct l'; discriminate.
Qed.

Lemma norm_index_some n i k :
  norm_index n i = Some k <-> py_index n i k.
Proof.
  unfold norm_index, py_index.
  destruct ((i <? - Z.of_nat n) || (Z.of_nat n <=? i))%Z eqn:E.
  - split; [discriminate|]. intros [H1 H2].
    apply orb_true_iff in E. lia.
  - apply orb_false_iff in E. destruct E as [E1 E2].
    split.
    + intros H. injection H as <-. destruct (i <? 0)%Z eqn:E3; lia.
    + intros [H1 H2]. f_equal. destruct (i <? 0)%Z eqn:E3; lia.
Qed.

Lemma norm_index_none n i :
  norm_index n i = None <-> (i < - Z.of_nat n \/ Z.of_nat n <= i)%Z.
Proof.
  unfold norm_index.
  destruct ((i <? - Z.of_nat n) || (Z.of_nat n <=? i))%Z eqn:E.
  - apply orb_true_iff in E. split; [intros _; lia|reflexivity].
  - apply orb_false_iff in E. split; [discriminate|lia].
Qed.

Lemma norm_index_nat n k : k < n -> norm_index n (Z.of_nat k) = Some k.
Proof. intros H. apply norm_index_some. split; [lia|auto]. Qed.

Lemma np_get_ok {A} (l : list A) i a :
  np_get l i = Ok a <-> exists k, py_index (length l) i k /\ nth_error l k = Some a.
Proof.
  unfold np_get. destruct (norm_index (length l) i) as [k|] eqn:E.
  - apply norm_index_some in E. split.
    + intros H. exists k. split; [assumption|].
      destruct (nth_error l k); congruence.
    + intros (k' & H & H'). assert (k' = k) as ->.
      { destruct E, H. lia. }
      rewrite H'. reflexivity.
  - apply norm_index_none in E. split; [discriminate|].
    intros (k & [H1 H2] & _). lia.
Qed.

Lemma np_get_raise {A} (l : list A) i :
  (i < - Z.of_nat (length l) \/ Z.of_nat (length l) <= i)%Z -> np_get l i = Raise IndexError.
Proof.
  intros H. unfold np_get. apply norm_index_none in H. rewrite H. reflexivity.
Qed.

Lemma np_get_nat {A} (l : list A) k a :
  nth_error l k = Some a -> np_get l (Z.of_nat k) = Ok a.
Proof.
  intros H. apply np_get_ok. exists k. split; [|assumption].
  assert (k < length l) by (apply nth_error_Some; congruence).
  split; [assumption|auto].
Qed.

Lemma nth_error_ex {A} (l : list A) k : k < length l -> exists a, nth_error l k = Some a.
Proof.
  intros H. destruct (nth_error l k) eqn:E; [eauto|].
  apply nth_error_None in E. lia.
Qed.

(** *** pick *)

Lemma pick_app {A} (l : list A) p q : pick l (p ++ q) = pick l p ++ pick l q.
Proof. unfold pick. apply flat_map_app. Qed.

Lemma pick_at_positions {A} (l : list A) ps :
  Forall (fun k => k < length l) ps -> at_positions l ps (pick l ps).
Proof.
  induction 1 as [|k ps Hk _ IH]; cbn; [constructor|].
  destruct (nth_error_ex l k Hk) as [a Ha]. rewrite Ha. cbn.
  constructor; assumption.
Qed.

Lemma at_positions_det {A} (l : list A) ps l1 l2 :
  at_positions l ps l1 -> at_positions l ps l2 -> l1 = l2.
Proof.
  intros H. revert l2. induction H as [|k a ps l1 Hk _ IH]; intros l2 H2; inversion H2; subst.
  - reflexivity.
  - f_equal; [congruence|auto].
Qed.

Lemma at_positions_length {A} (l : list A) ps l1 :
  at_positions l ps l1 -> length l1 = length ps.
Proof. induction 1; cbn; congruence. Qed.

Lemma at_positions_in {A} (l : list A) ps l1 a :
  at_positions l ps l1 -> In a l1 -> In a l.
Proof.
  induction 1 as [|k x ps l1 Hk _ IH]; cbn; [tauto|].
  intros [<-|H]; [eapply nth_error_In; eauto|auto].
Qed.

Lemma at_positions_iff_pick {A} (l : list A) ps l1 :
  Forall (fun k => k < length l) ps -> (at_positions l ps l1 <-> l1 = pick l ps).
Proof.
  intros H. split.
  - intros H1. eapply at_positions_det; [exact H1|]. apply pick_at_positions. assumption.
  - intros ->. apply pick_at_positions. assumption.
Qed.

Lemma pick_length {A} (l : list A) ps :
  Forall (fun k => k < length l) ps -> length (pick l ps) = length ps.
Proof. intros H. eapply at_positions_length, pick_at_positions, H. Qed.

Lemma pick_in {A} (l : list A) ps a : In a (pick l ps) -> In a l.
Proof.
  unfold pick. rewrite in_flat_map. intros (k & _ & H).
  destruct (nth_error l k) eqn:E; [|destruct H].
  destruct H as [<-|[]]. eapply nth_error_In; eauto.
Qed.

Lemma pick_seq_firstn_skipn {A} (l : list A) a n :
  a + n <= length l -> pick l (seq a n) = firstn n (skipn a l).
Proof.
  revert a. induction n as [|n IH]; intros a H; cbn [seq pick flat_map]; [reflexivity|].
  destruct (nth_error_ex l a) as [x Hx]; [lia|]. rewrite Hx. cbn [app].
  change (flat_map _ _) with (pick l (seq (S a) n)).
  rewrite IH by lia.
  clear IH. revert l H Hx. induction a as [|a IHa]; intros l H Hx.
  - destruct l as [|y l]; [discriminate|]. cbn in *. congruence.
  - destruct l as [|y l]; [discriminate|]. cbn in H, Hx.
    cbn [skipn]. apply IHa; [lia|assumption].
Qed.

Lemma pick_seq_all {A} (l : list A) : pick l (seq 0 (length l)) = l.
Proof. rewrite pick_seq_firstn_skipn by lia. cbn. apply firstn_all. Qed.

Lemma pick_map {A B} (f : A -> B) (l : list A) ps : pick (map f l) ps = map f (pick l ps).
Proof.
  induction ps as [|k ps IH]; [reflexivity|].
  cbn [pick flat_map]. fold (pick l ps). fold (pick (map f l) ps).
  rewrite map_app, IH. f_equal. rewrite nth_error_map. destruct (nth_error l k); reflexivity.
Qed.

Lemma pick_shift {A} (x : A) l ps : pick (x :: l) (map S ps) = pick l ps.
Proof.
  induction ps as [|k ps IH]; [reflexivity|].
  cbn [pick flat_map map nth_error]. f_equal. exact IH.
Qed.

(** *** masks *)

Lemma mask_select_filter_seq {A} (l : list A) m :
  length m = length l ->
  mask_select l m = pick l (filter (fun k => nth k m false) (seq 0 (length l))).
Proof.
  revert m. induction l as [|x l IH]; intros m H; destruct m as [|b m]; cbn in H; try lia.
  - reflexivity.
  - cbn [mask_select length seq filter].
    rewrite (IH m) by lia.
    assert (E : filter (fun k => nth k (b :: m) false) (seq 1 (length l))
                = map S (filter (fun k => nth k m false) (seq 0 (length l)))).
    { rewrite <- seq_shift. generalize (seq 0 (length l)). intros q.
      induction q as [|y q IHq]; [reflexivity|]. cbn [map filter].
      rewrite IHq. cbn [nth]. destruct (nth y m false); reflexivity. }
    rewrite E. change (nth 0 (b :: m) false) with b. destruct b.
    + change (0 :: map S ?z) with ([0] ++ map S z). rewrite pick_app.
      rewrite pick_shift. reflexivity.
    + rewrite pick_shift. reflexivity.
Qed.

Lemma mask_select_map {A B} (f : A -> B) l m : mask_select (map f l) m = map f (mask_select l m).
Proof.
  revert m. induction l as [|x l IH]; intros [|b m]; try reflexivity.
  cbn. destruct b; cbn; rewrite IH; reflexivity.
Qed.

Lemma mask_select_in {A} (l : list A) m a : In a (mask_select l m) -> In a l.
Proof.
  revert m. induction l as [|x l IH]; intros [|b m]; cbn; try tauto.
  destruct b; cbn; intuition eauto.
Qed.

Lemma mask_select_length {A} (l : list A) m :
  length m = length l -> length (mask_select l m) = length (filter id m).
Proof.
  revert m. induction l as [|x l IH]; intros [|b m]; cbn; try lia.
  intros H. destruct b; cbn; rewrite IH by lia; reflexivity.
Qed.

Lemma mask_select_app {A} (l1 l2 : list A) m1 m2 :
  length l1 = length m1 ->
  mask_select (l1 ++ l2) (m1 ++ m2) = mask_select l1 m1 ++ mask_select l2 m2.
Proof.
  revert m1. induction l1 as [|x l IH]; intros [|b m]; cbn; try lia; [reflexivity|].
  intros H. rewrite IH by lia. destruct b; reflexivity.
Qed.

Lemma mask_select_all {A} (l : list A) : mask_select l (repeat true (length l)) = l.
Proof. induction l as [|x l IH]; cbn; congruence. Qed.

Lemma mask_select_none {A} (l : list A) : mask_select l (repeat false (length l)) = [].
Proof. induction l as [|x l IH]; cbn; congruence. Qed.

(** *** sorted lists of naturals *)

Lemma seq_sorted n a : StronglySorted lt (seq a n).
Proof.
  revert a. induction n as [|n IH]; intros a; cbn; constructor; [apply IH|].
  apply Forall_forall. intros x H. apply in_seq in H. lia.
Qed.

Lemma filter_sorted {A} (R : A -> A -> Prop) f l :
  StronglySorted R l -> StronglySorted R (filter f l).
Proof.
  induction 1 as [|x l H IH F]; cbn; [constructor|].
  destruct (f x); [|assumption]. constructor; [assumption|].
  apply Forall_forall. intros y Hy. apply filter_In in Hy.
  rewrite Forall_forall in F. apply F. tauto.
Qed.

Lemma sorted_ext (l1 l2 : list nat) :
  StronglySorted lt l1 -> StronglySorted lt l2 ->
  (forall k, In k l1 <-> In k l2) -> l1 = l2.
Proof.
  intros H1. revert l2. induction H1 as [|x l1 H1 IH F1]; intros l2 H2 E.
  - destruct l2 as [|y l2]; [reflexivity|]. exfalso. apply (E y). left. reflexivity.
  - destruct H2 as [|y l2 H2 F2].
    + exfalso. apply (E x). left. reflexivity.
    + rewrite Forall_forall in F1, F2.
      assert (x = y) as <-.
      { assert (Hx : In x (y :: l2)) by (apply E; left; reflexivity).
        assert (Hy : In y (x :: l1)) by (apply E; left; reflexivity).
        destruct Hx as [<-|Hx]; [reflexivity|]. destruct Hy as [->|Hy]; [reflexivity|].
        specialize (F1 _ Hy). specialize (F2 _ Hx). lia. }
      f_equal. apply IH; [assumption|].
      intros k. split; intros Hk.
      * assert (H : In k (x :: l2)) by (apply E; right; assumption).
        destruct H as [<-|H]; [|assumption]. specialize (F1 _ Hk). lia.
      * assert (H : In k (x :: l1)) by (apply E; right; assumption).
        destruct H as [<-|H]; [|assumption]. specialize (F2 _ Hk). lia.
Qed.

Lemma filter_ext_in' {A} (f g : A -> bool) l :
  (forall x, In x l -> f x = g x) -> filter f l = filter g l.
Proof. apply filter_ext_in. Qed.

(** *** insertion sort *)

Lemma insert_by_perm ltb x l : Permutation (x :: l) (insert_by ltb x l).
Proof.
  induction l as [|y l IH]; cbn; [reflexivity|].
  destruct (ltb y x); [|reflexivity].
  rewrite perm_swap. constructor. exact IH.
Qed.

Lemma sort_by_perm ltb l : Permutation l (sort_by ltb l).
Proof.
  induction l as [|x l IH]; cbn; [constructor|].
  rewrite <- insert_by_perm. constructor. exact IH.
Qed.

Lemma insert_by_sorted x l :
  StronglySorted le l -> StronglySorted le (insert_by Nat.ltb x l).
Proof.
  induction 1 as [|y l H IH F]; cbn [insert_by]; [repeat constructor|].
  destruct (Nat.ltb_spec y x).
  - constructor; [assumption|].
    apply Forall_forall. intros z Hz.
    apply (Permutation_in z (Permutation_sym (insert_by_perm Nat.ltb x l))) in Hz.
    destruct Hz as [<-|Hz]; [lia|]. rewrite Forall_forall in F. auto.
  - constructor; [constructor; assumption|].
    constructor; [assumption|]. eapply Forall_impl; [|exact F]. cbn. lia.
Qed.

Lemma sort_by_sorted l : StronglySorted le (sort_by Nat.ltb l).
Proof. induction l as [|x l IH]; cbn; [constructor|]. apply insert_by_sorted, IH. Qed.

Lemma sorted_le_nodup_lt l : StronglySorted le l -> NoDup l -> StronglySorted lt l.
Proof.
  induction 1 as [|x l H IH F]; intros N; [constructor|].
  inversion N; subst. constructor; [auto|].
  rewrite Forall_forall in *. intros y Hy. specialize (F y Hy).
  assert (x <> y) by (intros ->; auto). lia.
Qed.

Lemma sorted_lt_nodup l : StronglySorted lt l -> NoDup l.
Proof.
  induction 1 as [|x l H IH F]; constructor; [|assumption].
  intros Hx. rewrite Forall_forall in F. specialize (F _ Hx). lia.
Qed.

Lemma sort_of_perm (l p : list nat) :
  StronglySorted lt l -> Permutation l p -> sort_by Nat.ltb p = l.
Proof.
  intros Hs Hp. apply sorted_ext.
  - apply sorted_le_nodup_lt; [apply sort_by_sorted|].
    eapply Permutation_NoDup; [|apply sorted_lt_nodup, Hs].
    rewrite Hp. apply sort_by_perm.
  - assumption.
  - intros k. split; intros H.
    + eapply Permutation_in; [|exact H]. rewrite Hp. symmetry. apply sort_by_perm.
    + eapply Permutation_in; [|exact H]. rewrite Hp. apply sort_by_perm.
Qed.

(** *** membership test *)

Lemma mem_nat_iff k l : mem_nat k l = true <-> In k l.
Proof.
  unfold mem_nat. rewrite existsb_exists. split.
  - intros (x & H & E). apply Nat.eqb_eq in E. congruence.
  - intros H. exists k. split; [assumption|]. apply Nat.eqb_refl.
Qed.

Lemma mem_nat_false k l : mem_nat k l = false <-> ~ In k l.
Proof.
  rewrite <- mem_nat_iff. destruct (mem_nat k l); split; intros; try congruence.
Qed.
