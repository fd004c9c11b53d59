(** Python slices: the arithmetic progression computed by slice.indices/range
    is the declarative set of positions of [Spec.slice_spec]. *)
From Coq Require Import ZArith List Bool Arith Lia Sorted Permutation.
From Verif Require Import Num Py Numeric Curve Spec ListFacts.
Import ListNotations.

Lemma range_len_pos a b k j :
  (0 < k)%Z -> (j < range_len a b k <-> (a + Z.of_nat j * k < b)%Z).
Proof.
  intros Hk. unfold range_len. destruct (Z.ltb_spec 0 k); [|lia].
  destruct (Z.ltb_spec a b).
  - assert (Hq : ((b - a - 1) / k >= 0)%Z) by (apply Z.le_ge, Z.div_pos; lia).
    split; intros Hj.
    + assert (Z.of_nat j <= (b - a - 1) / k)%Z by lia.
      assert (k * ((b - a - 1) / k) <= b - a - 1)%Z by (apply Z.mul_div_le; lia). nia.
    + assert (Z.of_nat j <= (b - a - 1) / k)%Z by (apply Z.div_le_lower_bound; nia). lia.
  - split; [lia|]. nia.
Qed.

Lemma range_len_neg a b k j :
  (k < 0)%Z -> (j < range_len a b k <-> (b < a + Z.of_nat j * k)%Z).
Proof.
  intros Hk. unfold range_len. destruct (Z.ltb_spec 0 k); [lia|].
  destruct (Z.ltb_spec b a).
  - assert (Hq : ((a - b - 1) / (-k) >= 0)%Z) by (apply Z.le_ge, Z.div_pos; lia).
    split; intros Hj.
    + assert (Z.of_nat j <= (a - b - 1) / (-k))%Z by lia.
      assert ((-k) * ((a - b - 1) / (-k)) <= a - b - 1)%Z by (apply Z.mul_div_le; lia). nia.
    + assert (Z.of_nat j <= (a - b - 1) / (-k))%Z by (apply Z.div_le_lower_bound; nia). lia.
  - split; [lia|]. nia.
Qed.

Lemma map_seq_sorted (f : nat -> nat) m a :
  (forall i j, i < j -> j < a + m -> f i < f j) -> StronglySorted lt (map f (seq a m)).
Proof.
  revert a. induction m as [|m IH]; intros a H; cbn; constructor.
  - apply IH. intros i j Hi Hj. apply H; lia.
  - apply Forall_forall. intros x Hx. apply in_map_iff in Hx.
    destruct Hx as (y & <- & Hy). apply in_seq in Hy. apply H; lia.
Qed.

Lemma StronglySorted_snoc {A} (R : A -> A -> Prop) l x :
  StronglySorted R l -> Forall (fun y => R y x) l -> StronglySorted R (l ++ [x]).
Proof.
  induction 1 as [|y l H IH F]; intros G; cbn; [repeat constructor|].
  inversion G; subst. constructor; [auto|].
  apply Forall_app. split; [assumption|]. repeat constructor. assumption.
Qed.

Lemma map_seq_sorted_rev (f : nat -> nat) m a :
  (forall i j, i < j -> j < a + m -> f j < f i) -> StronglySorted lt (rev (map f (seq a m))).
Proof.
  revert a. induction m as [|m IH]; intros a H; cbn; [constructor|].
  apply StronglySorted_snoc.
  - apply IH. intros i j Hi Hj. apply H; lia.
  - apply Forall_forall. intros x Hx. apply in_rev in Hx. apply in_map_iff in Hx.
    destruct Hx as (y & <- & Hy). apply in_seq in Hy. apply H; lia.
Qed.

Lemma slice_positions_spec s n :
  s_step s <> Some 0%Z ->
  slice_positions s n = Ok (slice_spec s n).
Proof.
  intros Hst. unfold slice_positions, slice_spec, slice_indices.
  set (step := match s_step s with None => 1%Z | Some k => k end).
  assert (Hs : step <> 0%Z).
  { unfold step. destruct (s_step s); [|lia]. intros ->. auto. }
  destruct (Z.eqb_spec step 0); [lia|]. cbn [rmap]. f_equal.
  unfold range_list. rewrite map_map.
  destruct (Z.ltb_spec step 0); destruct (Z.ltb_spec 0 step); try lia.
  - set (lo := match s_start s with None => _ | Some x => _ end).
    set (hi := match s_stop s with None => _ | Some x => _ end).
    replace (bound (Z.of_nat n) (-1) (Z.of_nat n - 1) (Z.of_nat n - 1) (s_start s)) with lo.
    2:{ unfold lo, bound, clip. destruct (s_start s) as [v|]; [|reflexivity].
        destruct (Z.ltb_spec v 0); [destruct (Z.ltb_spec (v + Z.of_nat n) (-1)); lia|].
        destruct (Z.ltb_spec (Z.of_nat n - 1) v); lia. }
    replace (bound (Z.of_nat n) (-1) (Z.of_nat n - 1) (-1) (s_stop s)) with hi.
    2:{ unfold hi, bound, clip. destruct (s_stop s) as [v|]; [|reflexivity].
        destruct (Z.ltb_spec v 0); [destruct (Z.ltb_spec (v + Z.of_nat n) (-1)); lia|].
        destruct (Z.ltb_spec (Z.of_nat n - 1) v); lia. }
    assert (Hlo : (-1 <= lo < Z.of_nat n \/ n = O /\ lo = -1)%Z).
    { unfold lo. destruct (s_start s) as [v|]; [|lia].
      destruct (Z.ltb_spec v 0); [destruct (Z.ltb_spec (v + Z.of_nat n) (-1)); lia|].
      destruct (Z.ltb_spec (Z.of_nat n - 1) v); lia. }
    assert (Hhi : (-1 <= hi < Z.of_nat n \/ n = O /\ hi = -1)%Z).
    { unfold hi. destruct (s_stop s) as [v|]; [|lia].
      destruct (Z.ltb_spec v 0); [destruct (Z.ltb_spec (v + Z.of_nat n) (-1)); lia|].
      destruct (Z.ltb_spec (Z.of_nat n - 1) v); lia. }
    clearbody lo hi.
    rewrite <- (rev_involutive (map _ _)). f_equal. apply sorted_ext.
    + apply map_seq_sorted_rev. intros i j Hij Hj. cbn [plus] in Hj.
      apply range_len_neg in Hj; [|lia]. nia.
    + apply filter_sorted, seq_sorted.
    + intros k. rewrite <- in_rev, in_map_iff, filter_In, in_seq. split.
      * intros (j & <- & Hj). apply in_seq in Hj. destruct Hj as [_ Hj]. cbn [plus] in Hj.
        apply range_len_neg in Hj; [|lia].
        assert (0 <= lo + Z.of_nat j * step)%Z by lia.
        split; [nia|].
        rewrite Z2Nat.id by lia. rewrite !andb_true_iff.
        split; [split; nia|]. apply Z.eqb_eq.
        replace (lo - (lo + Z.of_nat j * step))%Z with (Z.of_nat j * - step)%Z by ring.
        apply Z.mod_mul. lia.
      * intros [Hk H1]. rewrite !andb_true_iff in H1. destruct H1 as [[H1 H2] H3].
        apply Z.ltb_lt in H1. apply Z.leb_le in H2. apply Z.eqb_eq in H3.
        apply Z.mod_divide in H3; [|lia]. destruct H3 as [q Hq].
        exists (Z.to_nat q). assert (0 <= q)%Z by nia.
        split; [rewrite Z2Nat.id by lia; nia|].
        apply in_seq. split; [lia|]. cbn [plus]. apply range_len_neg; [lia|]. nia.
  - set (lo := match s_start s with None => _ | Some x => _ end).
    set (hi := match s_stop s with None => _ | Some x => _ end).
    replace (bound (Z.of_nat n) 0 (Z.of_nat n) 0 (s_start s)) with lo.
    2:{ unfold lo, bound, clip. destruct (s_start s) as [v|]; [|reflexivity].
        destruct (Z.ltb_spec v 0); [destruct (Z.ltb_spec (v + Z.of_nat n) 0); lia|].
        destruct (Z.ltb_spec (Z.of_nat n) v); lia. }
    replace (bound (Z.of_nat n) 0 (Z.of_nat n) (Z.of_nat n) (s_stop s)) with hi.
    2:{ unfold hi, bound, clip. destruct (s_stop s) as [v|]; [|reflexivity].
        destruct (Z.ltb_spec v 0); [destruct (Z.ltb_spec (v + Z.of_nat n) 0); lia|].
        destruct (Z.ltb_spec (Z.of_nat n) v); lia. }
    assert (Hlo : (0 <= lo <= Z.of_nat n)%Z).
    { unfold lo. destruct (s_start s) as [v|]; [|lia].
      destruct (Z.ltb_spec v 0); [destruct (Z.ltb_spec (v + Z.of_nat n) 0); lia|].
      destruct (Z.ltb_spec (Z.of_nat n) v); lia. }
    assert (Hhi : (0 <= hi <= Z.of_nat n)%Z).
    { unfold hi. destruct (s_stop s) as [v|]; [|lia].
      destruct (Z.ltb_spec v 0); [destruct (Z.ltb_spec (v + Z.of_nat n) 0); lia|].
      destruct (Z.ltb_spec (Z.of_nat n) v); lia. }
    clearbody lo hi.
    apply sorted_ext.
    + apply map_seq_sorted. intros i j Hij Hj. nia.
    + apply filter_sorted, seq_sorted.
    + intros k. rewrite in_map_iff, filter_In, in_seq. split.
      * intros (j & <- & Hj). apply in_seq in Hj. destruct Hj as [_ Hj]. cbn [plus] in Hj.
        apply range_len_pos in Hj; [|lia].
        assert (0 <= lo + Z.of_nat j * step)%Z by nia.
        split; [lia|].
        rewrite Z2Nat.id by lia. rewrite !andb_true_iff.
        split; [split; nia|]. apply Z.eqb_eq.
        replace (lo + Z.of_nat j * step - lo)%Z with (Z.of_nat j * step)%Z by ring.
        apply Z.mod_mul. lia.
      * intros [Hk H1]. rewrite !andb_true_iff in H1. destruct H1 as [[H1 H2] H3].
        apply Z.leb_le in H1. apply Z.ltb_lt in H2. apply Z.eqb_eq in H3.
        apply Z.mod_divide in H3; [|lia]. destruct H3 as [q Hq].
        exists (Z.to_nat q). assert (0 <= q)%Z by nia.
        split; [rewrite Z2Nat.id by lia; nia|].
        apply in_seq. split; [lia|]. cbn [plus]. apply range_len_pos; [lia|]. nia.
Qed.

Lemma slice_positions_zero s n :
  s_step s = Some 0%Z -> slice_positions s n = Raise ValueError.
Proof. intros H. unfold slice_positions, slice_indices. rewrite H. reflexivity. Qed.

Lemma slice_spec_bound s n : Forall (fun k => k < n) (slice_spec s n).
Proof.
  apply Forall_forall. intros k H. unfold slice_spec in H.
  destruct (0 <? _)%Z.
  - apply filter_In in H. destruct H as [H _]. apply in_seq in H. lia.
  - apply in_rev in H. apply filter_In in H. destruct H as [H _]. apply in_seq in H. lia.
Qed.

Lemma np_slice_spec {A} (l : list A) s :
  s_step s <> Some 0%Z -> np_slice l s = Ok (pick l (slice_spec s (length l))).
Proof. intros H. unfold np_slice. rewrite slice_positions_spec by assumption. reflexivity. Qed.

Lemma np_slice_zero {A} (l : list A) s :
  s_step s = Some 0%Z -> np_slice l s = Raise ValueError.
Proof. intros H. unfold np_slice. rewrite slice_positions_zero by assumption. reflexivity. Qed.

(** A slice with step 1 and resolved bounds is a contiguous run. *)
Lemma slice_spec_run a b n :
  slice_spec (mkSlice a b None) n =
  let len := Z.of_nat n in
  let lo := Z.to_nat (bound len 0 len 0 a) in
  let hi := Z.to_nat (bound len 0 len len b) in
  seq lo (hi - lo).
Proof.
  unfold slice_spec. cbn [s_step s_start s_stop]. change (0 <? 1)%Z with true. cbv iota.
  set (lo := bound _ 0 _ 0 a). set (hi := bound _ 0 _ _ b). cbv zeta.
  assert (Hlo : (0 <= lo <= Z.of_nat n)%Z) by (unfold lo, bound, clip; destruct a; lia).
  assert (Hhi : (0 <= hi <= Z.of_nat n)%Z) by (unfold hi, bound, clip; destruct b; lia).
  clearbody lo hi.
  apply sorted_ext; [apply filter_sorted, seq_sorted|apply seq_sorted|].
  intros k. rewrite filter_In, !in_seq, !andb_true_iff. cbv zeta.
  rewrite Z.mod_1_r. split.
  - intros [H [[H1 H2] _]]. apply Z.leb_le in H1. apply Z.ltb_lt in H2. lia.
  - intros H. split; [lia|]. split; [|reflexivity].
    rewrite Z.leb_le, Z.ltb_lt. lia.
Qed.
