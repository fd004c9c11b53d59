(** numpy.insert with several indices: proofs for property C65. *)
From Coq Require Import ZArith List Bool Arith Lia.
From Verif Require Import Num Py Numeric Curve Spec ListFacts SliceProofs CurveProofs.
Import ListNotations.
Local Open Scope nat_scope.

Definition cnt {A} (f : A -> bool) (l : list A) : nat := length (filter f l).

Lemma cnt_cons {A} (f : A -> bool) x l : cnt f (x :: l) = (if f x then 1 else 0) + cnt f l.
Proof. unfold cnt. cbn [filter]. destruct (f x); reflexivity. Qed.

Lemma cnt_le {A} (f : A -> bool) l : cnt f l <= length l.
Proof. induction l as [|x l IH]; [reflexivity|]. rewrite cnt_cons. cbn [length]. destruct (f x); lia. Qed.

Lemma cnt_app {A} (f : A -> bool) l1 l2 : cnt f (l1 ++ l2) = cnt f l1 + cnt f l2.
Proof. induction l1 as [|x l IH]; [reflexivity|]. cbn [app]. rewrite !cnt_cons, IH. lia. Qed.

Lemma cnt_mono {A} (f g : A -> bool) l : (forall x, f x = true -> g x = true) -> cnt f l <= cnt g l.
Proof.
  intros H. induction l as [|x l IH]; [reflexivity|]. rewrite !cnt_cons.
  specialize (H x). destruct (f x); [rewrite H by reflexivity|destruct (g x)]; lia.
Qed.

Lemma cnt_split ks j :
  cnt (fun k => k <? S j) ks = cnt (fun k => k <? j) ks + cnt (fun k => k =? j) ks.
Proof.
  induction ks as [|x l IH]; [reflexivity|]. rewrite !cnt_cons, IH.
  destruct (Nat.ltb_spec x (S j)), (Nat.ltb_spec x j), (Nat.eqb_spec x j); lia.
Qed.

Lemma cnt_firstn {A} (f : A -> bool) p l : cnt f (firstn p l) <= cnt f l.
Proof. rewrite <- (firstn_skipn p l) at 2. rewrite cnt_app. lia. Qed.

(** The element itself is not counted among those before it. *)
Lemma cnt_firstn_lt {A} (f : A -> bool) p l x :
  nth_error l p = Some x -> f x = true -> cnt f (firstn p l) < cnt f l.
Proof.
  revert l. induction p as [|p IH]; intros [|y l] H Hf; try discriminate; cbn [nth_error] in H.
  - injection H as ->. cbn [firstn]. rewrite cnt_cons, Hf. unfold cnt at 1. cbn. lia.
  - cbn [firstn]. rewrite !cnt_cons. specialize (IH l H Hf). lia.
Qed.

Lemma cnt_firstn_step {A} (f : A -> bool) p q l x :
  nth_error l p = Some x -> f x = true -> p < q -> cnt f (firstn p l) < cnt f (firstn q l).
Proof.
  intros H Hf Hpq.
  replace (firstn p l) with (firstn p (firstn q l)) by (rewrite firstn_firstn; f_equal; lia).
  apply (cnt_firstn_lt f p (firstn q l) x); [|assumption].
  rewrite <- (firstn_skipn q l) in H. rewrite nth_error_app1 in H; [assumption|].
  assert (p < length l).
  { apply nth_error_Some. rewrite <- (firstn_skipn q l). congruence. }
  rewrite firstn_length. lia.
Qed.

(** Final position of the p-th inserted value. *)
Definition fin (ks : list nat) (p k : nat) : nat :=
  k + cnt (fun j => j <? k) ks + cnt (fun j => j =? k) (firstn p ks).

Lemma fin_le ks p k : nth_error ks p = Some k -> fin ks p k < k + cnt (fun j => j <? S k) ks.
Proof.
  intros H. unfold fin. rewrite cnt_split.
  pose proof (cnt_firstn_lt (fun j => j =? k) p ks k H (Nat.eqb_refl k)). lia.
Qed.

Lemma fin_ge ks p k j : j < k -> k + cnt (fun x => x <? S j) ks <= fin ks p k.
Proof.
  intros H. unfold fin.
  pose proof (cnt_mono (fun x => x <? S j) (fun x => x <? k) ks) as Hm.
  assert (forall x, (x <? S j) = true -> (x <? k) = true) as Hx.
  { intros x Hx. apply Nat.ltb_lt in Hx. apply Nat.ltb_lt. lia. }
  specialize (Hm Hx). lia.
Qed.

Lemma fin_bound ks p k n : nth_error ks p = Some k -> k <= n -> fin ks p k < n + length ks.
Proof.
  intros H Hk. pose proof (fin_le ks p k H). pose proof (cnt_le (fun j => j <? S k) ks). lia.
Qed.

Lemma fin_inj ks p q k j :
  nth_error ks p = Some k -> nth_error ks q = Some j -> fin ks p k = fin ks q j -> p = q.
Proof.
  intros Hp Hq E.
  pose proof (fin_le ks p k Hp). pose proof (fin_le ks q j Hq).
  destruct (lt_eq_lt_dec k j) as [[L|L]|L].
  - pose proof (fin_ge ks q j k L). lia.
  - subst j. unfold fin in E.
    destruct (lt_eq_lt_dec p q) as [[L|L]|L]; [|assumption|].
    + pose proof (cnt_firstn_step (fun x => x =? k) p q ks k Hp (Nat.eqb_refl k) L). lia.
    + pose proof (cnt_firstn_step (fun x => x =? k) q p ks k Hq (Nat.eqb_refl k) L). lia.
  - pose proof (fin_ge ks p k j L). lia.
Qed.

(** [insert_rank] counts as [fin] does. *)
Lemma rank_fin ks p k :
  k + insert_rank (map Z.of_nat ks) p (Z.of_nat k) = fin ks p k.
Proof.
  unfold insert_rank, fin. rewrite map_length.
  assert (H : forall l a, a <= p ->
    length (filter (fun '(q, j) => ((j <? Z.of_nat k) || ((j =? Z.of_nat k) && (Z.of_nat q <? Z.of_nat p)))%Z)
                   (combine (seq a (length l)) (map Z.of_nat l)))
    = cnt (fun j => j <? k) l + cnt (fun j => j =? k) (firstn (p - a) l)).
  { assert (H0 : forall l a, p <= a ->
      length (filter (fun '(q, j) => ((j <? Z.of_nat k) || ((j =? Z.of_nat k) && (Z.of_nat q <? Z.of_nat p)))%Z)
                   (combine (seq a (length l)) (map Z.of_nat l))) = cnt (fun j => j <? k) l).
    { induction l as [|x l IH]; intros a Ha; [reflexivity|].
      cbn [length seq map combine filter].
      destruct (Z.ltb_spec (Z.of_nat a) (Z.of_nat p)); [lia|].
      rewrite andb_false_r, orb_false_r, cnt_cons.
      specialize (IH (S a) ltac:(lia)).
      destruct (Z.ltb_spec (Z.of_nat x) (Z.of_nat k)), (Nat.ltb_spec x k); cbn [length]; lia. }
    induction l as [|x l IH]; intros a Ha.
    - rewrite firstn_nil. reflexivity.
    - destruct (Nat.eq_dec a p) as [->|N].
      { rewrite Nat.sub_diag. cbn [firstn]. rewrite H0 by lia. unfold cnt at 3. cbn. lia. }
      replace (p - a) with (S (p - S a)) by lia.
      cbn [length seq map combine filter firstn]. rewrite !cnt_cons.
      specialize (IH (S a) ltac:(lia)).
      destruct (Z.ltb_spec (Z.of_nat a) (Z.of_nat p)); [|lia].
      rewrite andb_true_r.
      destruct (Z.ltb_spec (Z.of_nat x) (Z.of_nat k)), (Nat.ltb_spec x k); try lia;
        destruct (Z.eqb_spec (Z.of_nat x) (Z.of_nat k)), (Nat.eqb_spec x k); try lia;
        cbn [orb length]; lia. }
  rewrite (H ks 0) by lia. rewrite Nat.sub_0_r. lia.
Qed.

(** The blocks of [inserted]. *)
Section Blocks.
  Context {A : Type}.

  Lemma nth_error_flat_map (f : nat -> list A) N j i a s :
    j < N -> nth_error (f (s + j)) i = Some a ->
    nth_error (flat_map f (seq s N)) (length (flat_map f (seq s j)) + i) = Some a.
  Proof.
    revert s N. induction j as [|j IH]; intros s N Hj H; (destruct N as [|N]; [lia|]); cbn [seq flat_map].
    - rewrite Nat.add_0_r in H. cbn [length plus].
      rewrite nth_error_app1; [assumption|]. apply nth_error_Some. congruence.
    - rewrite app_length, <- Nat.add_assoc, nth_error_app2 by lia.
      replace (length (f s) + _ - length (f s)) with (length (flat_map f (seq (S s) j)) + i) by lia.
      apply IH; [lia|]. replace (S s + j) with (s + S j) by lia. assumption.
  Qed.

  Lemma flat_map_position (f : nat -> list A) N pos a s :
    nth_error (flat_map f (seq s N)) pos = Some a ->
    exists j i, j < N /\ nth_error (f (s + j)) i = Some a /\ pos = length (flat_map f (seq s j)) + i.
  Proof.
    revert s pos. induction N as [|N IH]; intros s pos H; cbn [seq flat_map] in H.
    - destruct pos; discriminate.
    - destruct (Nat.lt_ge_cases pos (length (f s))) as [L|L].
      + rewrite nth_error_app1 in H by assumption.
        exists 0, pos. rewrite Nat.add_0_r. repeat split; [lia|assumption].
      + rewrite nth_error_app2 in H by assumption.
        destruct (IH _ _ H) as (j & i & Hj & Hi & E).
        exists (S j), i. split; [lia|]. split.
        * replace (s + S j) with (S s + j) by lia. assumption.
        * cbn [seq flat_map]. rewrite app_length. lia.
  Qed.

  Definition block (l : list A) (ks : list nat) (vals : list A) (j : nat) : list A :=
    map snd (filter (fun kv => Nat.eqb (fst kv) j) (combine ks vals)) ++ firstn 1 (skipn j l).

  Lemma filter_combine_length ks (vals : list A) j :
    length vals = length ks ->
    length (map snd (filter (fun kv => Nat.eqb (fst kv) j) (combine ks vals))) = cnt (fun k => k =? j) ks.
  Proof.
    rewrite map_length. revert vals. induction ks as [|k ks IH]; intros [|v vals] H; try discriminate; [reflexivity|].
    cbn [combine filter fst]. rewrite cnt_cons. cbn in H. specialize (IH vals ltac:(lia)).
    destruct (k =? j); cbn [length]; lia.
  Qed.

  Lemma firstn1_skipn (l : list A) j : length (firstn 1 (skipn j l)) = if j <? length l then 1 else 0.
  Proof. rewrite firstn_length, skipn_length. destruct (Nat.ltb_spec j (length l)); lia. Qed.

  Lemma nth_error_firstn1_skipn (l : list A) j i a :
    nth_error (firstn 1 (skipn j l)) i = Some a -> i = 0 /\ nth_error l j = Some a.
  Proof.
    intros H. assert (i < 1) as Hi.
    { assert (i < length (firstn 1 (skipn j l))) by (apply nth_error_Some; congruence).
      rewrite firstn1_skipn in H0. destruct (j <? length l); lia. }
    assert (i = 0) by lia. subst i. split; [reflexivity|]. clear Hi.
    revert l H. induction j as [|j IH]; intros [|x l] H; cbn in H |- *; try discriminate; [assumption|].
    apply IH. exact H.
  Qed.

  Lemma nth_error_skipn_first (l : list A) j a :
    nth_error l j = Some a -> nth_error (firstn 1 (skipn j l)) 0 = Some a.
  Proof.
    revert l. induction j as [|j IH]; intros [|x l] H; cbn in H |- *; try discriminate; [assumption|].
    apply IH. exact H.
  Qed.

  Lemma blocks_length (l : list A) ks vals j :
    length vals = length ks -> j <= length l ->
    length (flat_map (block l ks vals) (seq 0 j)) = j + cnt (fun k => k <? j) ks.
  Proof.
    intros E. induction j as [|j IH]; intros Hj.
    - cbn. unfold cnt. clear. induction ks as [|k ks IH]; [reflexivity|]. cbn. exact IH.
    - rewrite seq_S, flat_map_app, app_length, IH by lia. cbn [plus flat_map]. rewrite app_nil_r.
      unfold block. rewrite app_length, filter_combine_length by assumption. rewrite firstn1_skipn.
      destruct (Nat.ltb_spec j (length l)); [|lia]. rewrite cnt_split. lia.
  Qed.

  Lemma nth_error_block_value ks (vals : list A) p k v :
    length vals = length ks -> nth_error ks p = Some k -> nth_error vals p = Some v ->
    nth_error (map snd (filter (fun kv => Nat.eqb (fst kv) k) (combine ks vals)))
              (cnt (fun j => j =? k) (firstn p ks)) = Some v.
  Proof.
    revert ks vals. induction p as [|p IH]; intros [|k0 ks] [|v0 vals] E Hk Hv; try discriminate;
      cbn [nth_error] in Hk, Hv.
    - injection Hk as ->. injection Hv as ->. cbn [firstn combine filter fst]. rewrite Nat.eqb_refl. reflexivity.
    - cbn [firstn combine filter fst]. rewrite cnt_cons. cbn in E.
      specialize (IH ks vals ltac:(lia) Hk Hv).
      destruct (k0 =? k); cbn [map plus nth_error snd]; exact IH.
  Qed.

  Lemma block_value_inv ks (vals : list A) j i v :
    length vals = length ks ->
    nth_error (map snd (filter (fun kv => Nat.eqb (fst kv) j) (combine ks vals))) i = Some v ->
    exists p, nth_error ks p = Some j /\ nth_error vals p = Some v /\ i = cnt (fun k => k =? j) (firstn p ks).
  Proof.
    revert vals i. induction ks as [|k ks IH]; intros [|v0 vals] i E H; try discriminate;
      cbn [combine filter fst map] in H.
    - destruct i; discriminate.
    - cbn in E. destruct (Nat.eqb_spec k j) as [->|N].
      + destruct i as [|i]; cbn [map nth_error snd] in H.
        * injection H as ->. exists 0. repeat split.
        * destruct (IH vals i ltac:(lia) H) as (p & P1 & P2 & P3).
          exists (S p). cbn [nth_error firstn]. rewrite cnt_cons, Nat.eqb_refl. repeat split; [assumption..|lia].
      + destruct (IH vals i ltac:(lia) H) as (p & P1 & P2 & P3).
        exists (S p). cbn [nth_error firstn]. rewrite cnt_cons.
        destruct (Nat.eqb_spec k j); [contradiction|]. repeat split; [assumption..|lia].
  Qed.

  Lemma inserted_length (l : list A) ks vals :
    length vals = length ks -> Forall (fun k => k <= length l) ks ->
    length (inserted l ks vals) = length l + length ks.
  Proof.
    intros E F. unfold inserted. change (fun j => _) with (block l ks vals).
    rewrite seq_S, flat_map_app, app_length, blocks_length by (assumption || lia).
    cbn [plus flat_map]. rewrite app_nil_r. unfold block.
    rewrite app_length, filter_combine_length, firstn1_skipn, Nat.ltb_irrefl by assumption.
    pose proof (cnt_split ks (length l)) as H.
    assert (cnt (fun k => k <? S (length l)) ks = length ks) as H2; [|lia].
    clear -F. unfold cnt. induction F as [|k ks Hk F IH]; [reflexivity|].
    cbn [filter]. destruct (Nat.ltb_spec k (S (length l))); [|lia]. cbn [length]. lia.
  Qed.

  Lemma inserted_value (l : list A) ks vals p k v :
    length vals = length ks -> nth_error ks p = Some k -> k <= length l -> nth_error vals p = Some v ->
    nth_error (inserted l ks vals) (fin ks p k) = Some v.
  Proof.
    intros E Hk Hn Hv. unfold inserted. change (fun j => _) with (block l ks vals).
    unfold fin. rewrite <- (blocks_length l ks vals k E Hn).
    apply nth_error_flat_map; [lia|]. cbn [plus]. unfold block.
    pose proof (nth_error_block_value ks vals p k v E Hk Hv) as H.
    rewrite nth_error_app1; [assumption|]. apply nth_error_Some. congruence.
  Qed.

  Lemma inserted_position (l : list A) ks vals pos a :
    length vals = length ks -> nth_error (inserted l ks vals) pos = Some a ->
    (exists p k, nth_error ks p = Some k /\ nth_error vals p = Some a /\ pos = fin ks p k /\ k <= length l)
    \/ (exists j, nth_error l j = Some a /\ pos = j + cnt (fun k => k <? S j) ks).
  Proof.
    intros E H. unfold inserted in H. change (fun j => _) with (block l ks vals) in H.
    apply flat_map_position in H. destruct H as (j & i & Hj & H & ->). cbn [plus] in H.
    rewrite blocks_length by (assumption || lia). unfold block in H.
    set (L := map snd _) in H.
    destruct (Nat.lt_ge_cases i (length L)) as [Hi|Hi].
    - rewrite nth_error_app1 in H by assumption.
      destruct (block_value_inv ks vals j i a E H) as (p & P1 & P2 & P3).
      left. exists p, j. unfold fin. split; [assumption|]. split; [assumption|]. split; [rewrite P3; lia|lia].
    - rewrite nth_error_app2 in H by assumption. apply nth_error_firstn1_skipn in H. destruct H as [H1 H2].
      right. exists j. split; [assumption|]. rewrite cnt_split.
      unfold L in H1, Hi. rewrite filter_combine_length in H1, Hi by assumption. lia.
  Qed.

  Lemma last_pos_some p (fs : list nat) from q :
    last_pos p fs from = Some q -> from <= q /\ nth_error fs (q - from) = Some p.
  Proof.
    revert from. induction fs as [|f fs IH]; intros from H; [discriminate|]. cbn [last_pos] in H.
    destruct (last_pos p fs (S from)) as [q'|] eqn:E.
    - injection H as ->. apply IH in E. destruct E as [E1 E2]. split; [lia|].
      replace (q - from) with (S (q - S from)) by lia. assumption.
    - destruct (Nat.eqb_spec f p); [|discriminate]. injection H as ->. subst. split; [lia|].
      rewrite Nat.sub_diag. reflexivity.
  Qed.

  Lemma last_pos_none p (fs : list nat) from : last_pos p fs from = None -> ~ In p fs.
  Proof.
    revert from. induction fs as [|f fs IH]; intros from H Hin; [contradiction|]. cbn [last_pos] in H.
    destruct (last_pos p fs (S from)) as [q'|] eqn:E; [discriminate|].
    destruct (Nat.eqb_spec f p); [discriminate|]. destruct Hin; [contradiction|]. exact (IH _ E H0).
  Qed.

  Definition fins (ks : list nat) : list nat :=
    map (fun '(p, k) => fin ks p k) (combine (seq 0 (length ks)) ks).

  Lemma nth_error_combine_seq (ks : list nat) p s :
    nth_error (combine (seq s (length ks)) ks) p = option_map (fun k => (s + p, k)) (nth_error ks p).
  Proof.
    revert p s. induction ks as [|k ks IH]; intros [|p] s; cbn [length seq combine nth_error option_map]; try reflexivity.
    - rewrite Nat.add_0_r. reflexivity.
    - rewrite IH. destruct (nth_error ks p); [|reflexivity]. cbn. do 2 f_equal. lia.
  Qed.

  Lemma nth_error_fins ks p : nth_error (fins ks) p = option_map (fin ks p) (nth_error ks p).
  Proof.
    unfold fins. rewrite nth_error_map, nth_error_combine_seq. destruct (nth_error ks p); reflexivity.
  Qed.

  Lemma fins_length ks : length (fins ks) = length ks.
  Proof. unfold fins. rewrite map_length, combine_length, seq_length. lia. Qed.

  Lemma fins_nodup ks : NoDup (fins ks).
  Proof.
    apply NoDup_nth_error. intros i j Hi H. rewrite fins_length in Hi. rewrite !nth_error_fins in H.
    destruct (nth_error_ex ks i Hi) as (a & Ha). rewrite Ha in H. cbn in H.
    destruct (nth_error ks j) as [b|] eqn:Hb; [|discriminate]. cbn in H. injection H as H.
    exact (fin_inj ks i j a b Ha Hb H).
  Qed.

  Lemma nodupb_iff (l : list nat) : nodupb l = true <-> NoDup l.
  Proof.
    induction l as [|x l IH]; cbn [nodupb].
    - split; [constructor|reflexivity].
    - rewrite andb_true_iff, negb_true_iff, mem_nat_false, IH. split.
      + intros [H1 H2]. constructor; assumption.
      + intros H. inversion H; subst. split; assumption.
  Qed.

  Lemma cnt_fins ks pos (f : nat -> bool) :
    (forall p k, nth_error ks p = Some k -> (fin ks p k <? pos) = f k) ->
    cnt (fun x => x <? pos) (fins ks) = cnt f ks.
  Proof.
    intros H. unfold fins.
    assert (G : forall l s, (forall p k, nth_error l p = Some k -> nth_error ks (s + p) = Some k) ->
      cnt (fun x => x <? pos) (map (fun '(p, k) => fin ks p k) (combine (seq s (length l)) l)) = cnt f l).
    { induction l as [|k l IH]; intros s Hl; [reflexivity|].
      cbn [length seq combine map]. rewrite !cnt_cons. rewrite (H s k).
      - rewrite IH; [reflexivity|]. intros p k' Hp. specialize (Hl (S p) k' Hp).
        replace (S s + p) with (s + S p) by lia. assumption.
      - specialize (Hl 0 k eq_refl). rewrite Nat.add_0_r in Hl. assumption. }
    apply G. intros p k Hp. exact Hp.
  Qed.

  Lemma flat_map_single {B} (g : nat -> list B) (L : list B) s :
    (forall p b, nth_error L p = Some b -> g (s + p) = [b]) -> flat_map g (seq s (length L)) = L.
  Proof.
    revert s. induction L as [|b L IH]; intros s H; [reflexivity|]. cbn [length seq flat_map].
    pose proof (H 0 b eq_refl) as H0. rewrite Nat.add_0_r in H0. rewrite H0. cbn [app].
    f_equal. apply IH. intros p b' Hp. replace (S s + p) with (s + S p) by lia. apply H. exact Hp.
  Qed.

  Lemma weave_inserted (l : list A) ks vals :
    length vals = length ks -> Forall (fun k => k <= length l) ks ->
    weave l (fins ks) vals = inserted l ks vals.
  Proof.
    intros E F. unfold weave. rewrite fins_length, <- (inserted_length l ks vals E F).
    apply flat_map_single. intros pos b Hb. cbn [plus].
    destruct (last_pos pos (fins ks) 0) as [q|] eqn:El.
    - apply last_pos_some in El. destruct El as [_ El]. rewrite Nat.sub_0_r, nth_error_fins in El.
      destruct (nth_error ks q) as [k|] eqn:Hk; [|discriminate]. cbn in El. injection El as El.
      destruct (nth_error_ex vals q) as (v & Hv).
      { rewrite E. apply nth_error_Some. congruence. }
      rewrite Hv. pose proof (inserted_value l ks vals q k v E Hk) as H.
      rewrite Forall_forall in F. specialize (H (F k (nth_error_In _ _ Hk)) Hv).
      rewrite El, Hb in H. injection H as ->. reflexivity.
    - apply last_pos_none in El.
      destruct (inserted_position l ks vals pos b E Hb) as [(p & k & Hk & Hv & -> & _)|(j & Hj & ->)].
      + exfalso. apply El. apply nth_error_In with p. rewrite nth_error_fins, Hk. reflexivity.
      + fold (cnt (fun f => f <? j + cnt (fun k => k <? S j) ks) (fins ks)).
        rewrite (cnt_fins ks _ (fun k => k <? S j)).
        * rewrite Nat.add_sub, Hj. reflexivity.
        * intros p k Hk. pose proof (fin_le ks p k Hk) as H1.
          destruct (Nat.ltb_spec k (S j)) as [L|L].
          -- apply Nat.ltb_lt.
             pose proof (cnt_mono (fun x => x <? S k) (fun x => x <? S j) ks) as Hm.
             assert (forall x, (x <? S k) = true -> (x <? S j) = true) as Hx.
             { intros x Hx. apply Nat.ltb_lt in Hx. apply Nat.ltb_lt. lia. }
             specialize (Hm Hx). lia.
          -- apply Nat.ltb_ge. pose proof (fin_ge ks p k j ltac:(lia)). lia.
  Qed.
End Blocks.

Lemma f2_length {A B} (R : A -> B -> Prop) l1 l2 : Forall2 R l1 l2 -> length l1 = length l2.
Proof. induction 1; cbn [length]; congruence. Qed.

Lemma wrapped_index n i k : insert_index n i k ->
  (if (i <? 0)%Z then (i + Z.of_nat n)%Z else i) = Z.of_nat k.
Proof. intros (Hk & [-> | (H & ->)]); match goal with |- context [(?a <? 0)%Z] => destruct (Z.ltb_spec a 0) end; lia. Qed.

Lemma insert_finals_ok n is ks :
  Forall2 (insert_index n) is ks -> insert_finals n is = Ok (fins ks).
Proof.
  intros F. unfold insert_finals.
  assert (E : map (fun i => if (i <? 0)%Z then (i + Z.of_nat n)%Z else i) is = map Z.of_nat ks).
  { induction F as [|i k is ks H F IH]; [reflexivity|]. cbn [map]. rewrite IH. f_equal.
    apply wrapped_index. assumption. }
  rewrite E. rewrite (f2_length _ _ _ F).
  assert (E2 : map (fun '(p, i) => (i + Z.of_nat (insert_rank (map Z.of_nat ks) p i))%Z)
                   (combine (seq 0 (length ks)) (map Z.of_nat ks)) = map Z.of_nat (fins ks)).
  { unfold fins. rewrite map_map.
    assert (G : forall l s, map (fun '(p, i) => (i + Z.of_nat (insert_rank (map Z.of_nat ks) p i))%Z)
                   (combine (seq s (length l)) (map Z.of_nat l))
             = map (fun x => Z.of_nat (let '(p, k) := x in fin ks p k)) (combine (seq s (length l)) l)).
    { induction l as [|k l IH]; intros s; [reflexivity|]. cbn [length seq map combine]. rewrite IH. f_equal.
      rewrite <- rank_fin. lia. }
    apply G. }
  rewrite E2.
  assert (B : Forall (fun f => f < n + length ks) (fins ks)).
  { apply Forall_forall. intros f Hf. apply In_nth_error in Hf. destruct Hf as (p & Hp).
    rewrite nth_error_fins in Hp. destruct (nth_error ks p) as [k|] eqn:Hk; [|discriminate].
    cbn in Hp. injection Hp as <-. apply fin_bound; [assumption|].
    clear -F Hk. revert p Hk. induction F as [|i k' is ks H F IH]; intros [|p] Hk; try discriminate; cbn in Hk.
    - injection Hk as ->. apply H.
    - eauto. }
  unfold norm_indices. apply rseq_ok_iff. rewrite map_map.
  revert B. generalize (fins ks), (n + length ks). clear. intros fs N B.
  induction B as [|f fs Hf B IH]; [reflexivity|]. cbn [map]. rewrite IH, norm_index_nat by assumption. reflexivity.
Qed.

Lemma np_insert_many_ok {A} (l : list A) is ks vals :
  Forall2 (insert_index (length l)) is ks -> length vals = length is ->
  np_insert_many l is vals = Ok (inserted l ks vals).
Proof.
  intros F E. unfold np_insert_many. rewrite (insert_finals_ok _ _ _ F). cbn [rbind].
  rewrite E, Nat.eqb_refl. cbn [rbind].
  rewrite (proj2 (nodupb_iff _) (fins_nodup ks)).
  rewrite weave_inserted; [reflexivity| |].
  - rewrite E. exact (f2_length _ _ _ F).
  - clear -F. induction F as [|i k is ks H F IH]; constructor; [apply H|assumption].
Qed.

Lemma np_insert_many_one {A} (l : list A) is ks v :
  Forall2 (insert_index (length l)) is ks ->
  np_insert_many l is [v] = Ok (inserted l ks (repeat v (length is))).
Proof.
  intros F. rewrite <- (np_insert_many_ok l is ks); [|assumption|apply repeat_length].
  unfold np_insert_many. rewrite (insert_finals_ok _ _ _ F). cbn [rbind].
  rewrite repeat_length, Nat.eqb_refl. cbn [length].
  destruct (Nat.eqb_spec 1 (length is)) as [<-|]; reflexivity.
Qed.

Lemma np_insert_many_shape {A} (l : list A) is ks vals :
  Forall2 (insert_index (length l)) is ks -> length vals <> length is -> length vals <> 1 ->
  np_insert_many l is vals = Raise ValueError.
Proof.
  intros F E E1. unfold np_insert_many. rewrite (insert_finals_ok _ _ _ F). cbn [rbind].
  destruct (Nat.eqb_spec (length vals) (length is)); [contradiction|].
  destruct vals as [|v [|w vals]]; try reflexivity. contradiction E1. reflexivity.
Qed.

(** The greatest index has the greatest rank. *)
Lemma rank_max ws p w :
  nth_error ws p = Some w ->
  (forall q v, nth_error ws q = Some v -> (v < w)%Z \/ (v = w /\ q <= p)) ->
  S (insert_rank ws p w) = length ws.
Proof.
  intros Hp H. unfold insert_rank.
  assert (G : forall l s, (forall q v, nth_error l q = Some v -> (v < w)%Z \/ (v = w /\ s + q <= p)) ->
     length (filter (fun '(q, j) => ((j <? w) || ((j =? w) && (Z.of_nat q <? Z.of_nat p)))%Z)
                    (combine (seq s (length l)) l))
     + (if (s <=? p) && (p <? s + length l) && match nth_error l (p - s) with Some v => (v =? w)%Z | None => false end
        then 1 else 0) = length l).
  { induction l as [|v l IH]; intros s Hl.
    - cbn. destruct (p - s); cbn; rewrite andb_false_r; reflexivity.
    - cbn [length seq combine filter].
      specialize (IH (S s)).
      assert (Hl' : forall q v0, nth_error l q = Some v0 -> (v0 < w)%Z \/ (v0 = w /\ S s + q <= p)).
      { intros q v0 Hq. specialize (Hl (S q) v0 Hq). lia. }
      specialize (IH Hl'). specialize (Hl 0 v eq_refl).
      destruct (Nat.eq_dec s p) as [->|N].
      + destruct (Nat.leb_spec (S p) p); [lia|]. cbn [andb] in IH.
        rewrite Nat.leb_refl, Nat.sub_diag. cbn [nth_error].
        destruct (Nat.ltb_spec p (p + S (length l))); [|lia]. cbn [andb].
        rewrite Z.ltb_irrefl, andb_false_r, orb_false_r.
        destruct (Z.ltb_spec v w), (Z.eqb_spec v w); cbn [length]; lia.
      + destruct (Nat.leb_spec s p) as [L|L].
        * destruct (Nat.leb_spec (S s) p); [|lia].
          replace (p - s) with (S (p - S s)) by lia. cbn [nth_error].
          replace (s + S (length l)) with (S s + length l) by lia.
          destruct (Z.ltb_spec (Z.of_nat s) (Z.of_nat p)); [|lia]. rewrite andb_true_r.
          destruct (Z.ltb_spec v w), (Z.eqb_spec v w); cbn [orb length]; lia.
        * destruct (Nat.leb_spec (S s) p); [lia|]. cbn [andb] in IH |- *.
          destruct (Z.ltb_spec (Z.of_nat s) (Z.of_nat p)); [lia|]. rewrite andb_false_r, orb_false_r.
          destruct (Z.ltb_spec v w); cbn [length]; lia. }
  specialize (G ws 0 H). rewrite Nat.sub_0_r, Hp, Z.eqb_refl in G. cbn [Nat.leb plus] in G.
  assert (p < length ws) by (apply nth_error_Some; congruence).
  destruct (Nat.ltb_spec p (length ws)); [|lia]. cbn [andb] in G. lia.
Qed.

Lemma exists_max (ws : list Z) : ws <> [] ->
  exists p w, nth_error ws p = Some w /\
    forall q v, nth_error ws q = Some v -> (v < w)%Z \/ (v = w /\ q <= p).
Proof.
  induction ws as [|w0 ws IH]; intros H; [contradiction|].
  destruct ws as [|w1 ws].
  - exists 0, w0. split; [reflexivity|]. intros [|q] v Hq; cbn in Hq; [|destruct q; discriminate].
    injection Hq as ->. right. lia.
  - destruct IH as (p & w & Hp & Hm); [discriminate|].
    destruct (Z_lt_le_dec w w0) as [L|L].
    + exists 0, w0. split; [reflexivity|]. intros [|q] v Hq; cbn [nth_error] in Hq.
      * injection Hq as ->. right. lia.
      * specialize (Hm q v Hq). left. lia.
    + exists (S p), w. split; [exact Hp|]. intros [|q] v Hq; cbn [nth_error] in Hq.
      * injection Hq as ->. lia.
      * specialize (Hm q v Hq). lia.
Qed.

Lemma rseq_raise_indexerror {X} (l : list (res X)) :
  (forall x, In x l -> x = Raise IndexError \/ exists a, x = Ok a) ->
  In (Raise IndexError) l -> rseq l = Raise IndexError.
Proof.
  induction l as [|x l IH]; intros H Hin; [contradiction|]. cbn [rseq].
  destruct (H x (or_introl eq_refl)) as [->|(a & ->)]; [reflexivity|].
  destruct Hin as [E|Hin]; [discriminate|]. cbn [rbind]. rewrite IH; [reflexivity| |assumption].
  intros y Hy. apply H. right. assumption.
Qed.

Lemma np_insert_many_high {A} (l : list A) is vals :
  (exists i, In i is /\ (Z.of_nat (length l) < i)%Z) ->
  np_insert_many l is vals = Raise IndexError.
Proof.
  intros (i & Hi & Hb). unfold np_insert_many, insert_finals.
  set (ws := map _ is).
  assert (Hw : In i ws).
  { unfold ws. apply in_map_iff. exists i. split; [|assumption]. destruct (Z.ltb_spec i 0); lia. }
  destruct (exists_max ws) as (p & w & Hp & Hm).
  { intros E. rewrite E in Hw. exact Hw. }
  pose proof (rank_max ws p w Hp Hm) as Hr.
  assert (Hlen : length ws = length is) by (unfold ws; apply map_length).
  assert (Hwi : (i <= w)%Z).
  { apply In_nth_error in Hw. destruct Hw as (q & Hq). specialize (Hm q i Hq). lia. }
  unfold norm_indices. rewrite rseq_raise_indexerror; [reflexivity| |].
  - intros x Hx. apply in_map_iff in Hx. destruct Hx as (j & <- & _).
    destruct (norm_index _ j); eauto.
  - apply in_map_iff. exists (w + Z.of_nat (insert_rank ws p w))%Z. split.
    + rewrite (proj2 (norm_index_none _ _)); [reflexivity|]. lia.
    + apply in_map_iff. exists (p, w). split; [reflexivity|].
      apply nth_error_In with p. rewrite <- Hlen.
      clear -Hp. assert (G : forall (zs : list Z) s q, nth_error zs q = Some w ->
        nth_error (combine (seq s (length zs)) zs) q = Some (s + q, w)).
      { induction zs as [|x zs IH]; intros s [|q] H; cbn [nth_error length seq combine] in H |- *; try discriminate.
        - rewrite Nat.add_0_r. congruence.
        - rewrite (IH (S s) q H). do 2 f_equal. lia. }
      exact (G ws 0 p Hp).
Qed.

Lemma skipn_cons_step {A} (l : list A) s : firstn 1 (skipn s l) ++ skipn (S s) l = skipn s l.
Proof.
  revert l. induction s as [|s IH]; intros [|a l]; try reflexivity. cbn [skipn].
  specialize (IH l). exact IH.
Qed.

Lemma inserted_one {A} (l : list A) k v :
  k <= length l -> inserted l [k] [v] = firstn k l ++ [v] ++ skipn k l.
Proof.
  intros Hk. unfold inserted. change (fun j => _) with (block l [k] [v]).
  replace (S (length l)) with (k + (1 + (length l - k))) by lia.
  rewrite seq_app, flat_map_app. cbn [plus seq flat_map].
  assert (B0 : forall j, j <> k -> block l [k] [v] j = firstn 1 (skipn j l)).
  { intros j Hj. unfold block. cbn [combine filter fst]. destruct (Nat.eqb_spec k j); [lia|reflexivity]. }
  assert (B1 : block l [k] [v] k = v :: firstn 1 (skipn k l)).
  { unfold block. cbn [combine filter fst]. rewrite Nat.eqb_refl. reflexivity. }
  assert (G1 : forall m, m <= k -> flat_map (block l [k] [v]) (seq 0 m) = firstn m l).
  { induction m as [|m IH]; intros Hm; [reflexivity|].
    rewrite seq_S, flat_map_app, IH by lia. cbn [plus flat_map]. rewrite app_nil_r, B0 by lia.
    clear -Hk Hm. assert (m < length l) by lia. clear Hk Hm. revert l H. induction m as [|m IH]; intros [|a l] H; cbn in H; try lia.
    - reflexivity.
    - cbn [firstn skipn app]. f_equal. apply IH. lia. }
  assert (G2 : forall m s, k < s -> s + m = S (length l) -> flat_map (block l [k] [v]) (seq s m) = skipn s l).
  { induction m as [|m IH]; intros s Hs Hm.
    - symmetry. apply skipn_all2. lia.
    - cbn [seq flat_map]. rewrite B0, IH by lia. apply skipn_cons_step. }
  rewrite G1 by lia. rewrite B1, (G2 (length l - k) (S k)) by lia.
  cbn [app]. rewrite skipn_cons_step. reflexivity.
Qed.
