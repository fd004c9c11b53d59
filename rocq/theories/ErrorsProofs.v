(** Proof of the failure table of Errors.v. *)
From Coq Require Import ZArith List Bool Arith Lia.
From Verif Require Import Num Py Numeric Curve Program Spec Errors ListFacts SliceProofs ArrayProofs.
From Verif Require Import CurveProofs CurveProofs2 CurveProofs3 ProgramProofs InsertProofs.
Import ListNotations.

(** The call raises exactly the exceptions of [P]. *)
Definition errs {A} (r : res A) (P : exn -> Prop) : Prop := forall e, r = Raise e <-> P e.

Lemma errs_ok {A} (r : res A) (P : exn -> Prop) :
  (exists a, r = Ok a) -> (forall e, ~ P e) -> errs r P.
Proof. intros [a ->] H e. split; [discriminate|]. intros Hp. destruct (H e Hp). Qed.

Lemma errs_raise {A} (r : res A) (P : exn -> Prop) e :
  r = Raise e -> P e -> (forall e', P e' -> e' = e) -> errs r P.
Proof.
  intros -> H U e'. split; [intros E; injection E as <-; exact H|].
  intros H'. rewrite (U e' H'). reflexivity.
Qed.

Lemma errs_iff {A} (r : res A) (P Q : exn -> Prop) : (forall e, P e <-> Q e) -> errs r P -> errs r Q.
Proof. intros H E e. rewrite (E e). apply H. Qed.

(** One fixed exception under a decidable condition. *)
Lemma errs_one {A} (r : res A) (C : Prop) x :
  C \/ ~ C -> (C -> r = Raise x) -> (~ C -> exists a, r = Ok a) -> errs r (fun e => C /\ e = x).
Proof.
  intros [H|H] H1 H2.
  - apply errs_raise with x; [exact (H1 H)|split; [exact H|reflexivity]|intros e' [_ E]; exact E].
  - apply errs_ok; [exact (H2 H)|]. intros e [Hc _]. contradiction.
Qed.

Lemma outside_dec n i : outside n i \/ ~ outside n i.
Proof. unfold outside. lia. Qed.

Lemma Exists_outside_dec n l : Exists (outside n) l \/ Forall (fun i => - Z.of_nat n <= i < Z.of_nat n)%Z l.
Proof.
  induction l as [|i l [IH|IH]]; [right; constructor|left; right; exact IH|].
  destruct (outside_dec n i) as [H|H]; [left; left; exact H|].
  right. constructor; [unfold outside in H; lia|exact IH].
Qed.

Lemma outside_not l n : Forall (fun i => - Z.of_nat n <= i < Z.of_nat n)%Z l -> ~ Exists (outside n) l.
Proof.
  intros F E. apply Exists_exists in E. destruct E as (i & Hi & Ho).
  rewrite Forall_forall in F. specialize (F i Hi). unfold outside in Ho. lia.
Qed.

Lemma Exists_outside_em n l : Exists (outside n) l \/ ~ Exists (outside n) l.
Proof. destruct (Exists_outside_dec n l) as [H|H]; [left; exact H|right; apply outside_not, H]. Qed.

Lemma index_fails_in_range n ix : (forall e, ~ index_fails n ix e) <-> in_range ix n.
Proof.
  destruct ix as [i|s|l]; cbn [index_fails in_range]; split.
  - intros H. destruct (outside_dec n i) as [Ho|Ho]; [destruct (H IndexError); split; [exact Ho|reflexivity]|].
    unfold outside in Ho. lia.
  - intros H e [Ho _]. unfold outside in Ho. lia.
  - intros H E. apply (H ValueError). split; [exact E|reflexivity].
  - intros H e [E _]. contradiction.
  - intros H. apply Forall_forall. destruct (Exists_outside_dec n l) as [E|E]; [|exact E].
    destruct (H IndexError). split; [exact E|reflexivity].
  - intros H e [E _]. exact (outside_not l n (proj2 (Forall_forall _ _) H) E).
Qed.

Lemma index_fails_cases n ix :
  (exists e, index_fails n ix e /\ indexer_positions ix n = Raise e /\ forall e', index_fails n ix e' -> e' = e) \/
  in_range ix n.
Proof.
  destruct ix as [i|s|l]; cbn [index_fails in_range indexer_positions].
  - destruct (outside_dec n i) as [H|H]; [left|right; unfold outside in H; lia].
    exists IndexError. split; [split; [exact H|reflexivity]|]. split; [|intros e' [_ E]; exact E].
    apply (norm_indices_raise n [i] i); [left; reflexivity|exact H].
  - destruct (s_step s) as [[|p|p]|] eqn:E; try (right; congruence).
    left. exists ValueError. split; [split; reflexivity|]. split; [|intros e' [_ E']; exact E'].
    apply slice_positions_zero, E.
  - destruct (Exists_outside_dec n l) as [H|H].
    + left. exists IndexError. split; [split; [exact H|reflexivity]|]. split; [|intros e' [_ E]; exact E].
      apply Exists_exists in H. destruct H as (i & Hi & Ho). exact (norm_indices_raise n l i Hi Ho).
    + right. apply Forall_forall. exact H.
Qed.

Section Gen.
  Context {T : Type} {NT : Num T} {ST : NumSqrt T}.
  Implicit Types c : curve T.

  (** *** Selection *)

  Lemma slice_errs c s : wf c -> errs (getitem_slice c s) (fun e => s_step s = Some 0%Z /\ e = ValueError).
  Proof.
    intros W. apply errs_one.
    - destruct (s_step s) as [[|p|p]|]; [left; reflexivity|right; discriminate..].
    - intros H. apply getitem_slice_zero, H.
    - intros H. destruct (getitem_slice_ok c s W H) as (c' & E & _). exists c'. exact E.
  Qed.

  Lemma list_errs c ix : wf c ->
    errs (getitem_list c ix) (fun e => Exists (outside (length (c_rows c))) ix /\ e = IndexError).
  Proof.
    intros W. apply errs_one; [apply Exists_outside_em| |].
    - intros H. apply Exists_exists in H. destruct H as (i & Hi & Ho). exact (getitem_list_raise c ix i W Hi Ho).
    - intros H. destruct (norm_indices_ok (c_size c) ix) as (ps & _ & F).
      { apply Forall_forall. destruct (Exists_outside_dec (c_size c) ix) as [E|E]; [destruct (H E)|exact E]. }
      destruct (getitem_list_ok c ix ps W F) as (c' & E & _). exists c'. exact E.
  Qed.

  Lemma np_mask_bad {A} (l : list A) m : length m <> length l -> np_mask l m = Raise IndexError.
  Proof. intros H. unfold np_mask. destruct (Nat.eqb_spec (length l) (length m)); [congruence|reflexivity]. Qed.

  Lemma by_mask_errs c m : wf c ->
    errs (do td <- on_t c (fun t => np_mask t m) ;
          do rows <- np_mask (c_rows c) m ;
          mk_curve rows (c_ndim c) (c_dtype c) td)
         (fun e => length m <> length (c_rows c) /\ e = IndexError).
  Proof.
    intros W. apply errs_one; [lia| |].
    - intros H. unfold on_t. destruct (c_t c) as [t|] eqn:E.
      + rewrite np_mask_bad; [reflexivity|]. destruct W as (_ & _ & Hl). rewrite (Hl t E). exact H.
      + cbn [rbind]. rewrite np_mask_bad by exact H. reflexivity.
    - intros H. destruct (by_mask_ok c m W ltac:(unfold c_size; lia)) as (c' & E & _). exists c'. exact E.
  Qed.

  Lemma mask_errs c m : wf c ->
    errs (getitem_mask c m) (fun e => length m <> length (c_rows c) /\ e = IndexError).
  Proof. apply by_mask_errs. Qed.

  Lemma mk_ok (rows : list (list T)) n dt td :
    2 <= n -> (forall t, td = Some t -> length t = length rows) -> exists c, mk_curve rows n dt td = Ok c.
  Proof.
    intros Hn Ht. unfold mk_curve. destruct rows as [|r rows].
    - cbn [length Nat.mul Nat.eqb negb andb]. destruct td as [t|]; [|eexists; reflexivity].
      rewrite (Ht t eq_refl). eexists. reflexivity.
    - destruct (Nat.eqb_spec (length (r :: rows) * n) 0) as [E|E]; [cbn [length] in E; nia|].
      destruct (Nat.ltb_spec n 2); [lia|]. rewrite andb_false_r. destruct td as [t|]; [|eexists; reflexivity].
      rewrite (Ht t eq_refl), Nat.eqb_refl. eexists. reflexivity.
  Qed.

  Lemma add_errs c c2 : wf c -> wf c2 -> errs (c_add c c2) (fun e => c_ndim c <> c_ndim c2 /\ e = ValueError).
  Proof.
    intros (Hn & _ & Ht) (_ & _ & Ht2). unfold c_add. apply errs_one; [lia| |].
    - intros H. destruct (Nat.eqb_spec (c_ndim c) (c_ndim c2)); [contradiction|reflexivity].
    - intros H. destruct (Nat.eqb_spec (c_ndim c) (c_ndim c2)); [|lia]. cbn [negb].
      apply mk_ok; [exact Hn|]. intros t E. destruct (c_t c) as [t1|] eqn:E1; [|discriminate].
      destruct (c_t c2) as [t2|] eqn:E2; [|discriminate]. injection E as <-.
      rewrite !app_length, (Ht t1 eq_refl), (Ht2 t2 eq_refl). reflexivity.
  Qed.

  Lemma reverse_ok c : wf c -> exists c', c_reverse c = Ok c'.
  Proof.
    intros (Hn & _ & Ht). apply mk_ok; [exact Hn|]. intros t E. destruct (c_t c) as [t1|] eqn:E1; [|discriminate].
    injection E as <-. rewrite !rev_length. exact (Ht t1 eq_refl).
  Qed.

  (** *** Insertion *)

  Lemma many_ok {A} (l : list A) (is : list Z) (vals : list A) :
    Forall (fun i => - Z.of_nat (length l) <= i <= Z.of_nat (length l))%Z is ->
    (length vals = length is \/ length vals = 1 -> exists r, np_insert_many l is vals = Ok r) /\
    (length vals <> length is -> length vals <> 1 -> np_insert_many l is vals = Raise ValueError).
  Proof.
    intros F. assert (K : exists ks, Forall2 (insert_index (length l)) is ks).
    { clear vals. induction F as [|i is Hi F IH]; [exists []; constructor|]. destruct IH as [ks IH].
      exists (Z.to_nat (if i <? 0 then i + Z.of_nat (length l) else i)%Z :: ks). constructor; [|exact IH].
      unfold insert_index. destruct (Z.ltb_spec i 0); lia. }
    destruct K as [ks K]. split.
    - intros [H|H].
      + rewrite (np_insert_many_ok l is ks vals K H). eexists. reflexivity.
      + destruct vals as [|v [|w vals]]; try discriminate. rewrite (np_insert_many_one l is ks v K). eexists. reflexivity.
    - intros H1 H2. apply np_insert_many_shape with ks; assumption.
  Qed.

  Lemma one_ok {A} (l : list A) i (vals : list A) :
    ((i < - Z.of_nat (length l) \/ Z.of_nat (length l) < i)%Z -> np_insert l i vals = Raise IndexError) /\
    ((- Z.of_nat (length l) <= i <= Z.of_nat (length l))%Z -> exists r, np_insert l i vals = Ok r).
  Proof.
    unfold np_insert. split; intros H.
    - replace ((i <? - Z.of_nat (length l)) || (Z.of_nat (length l) <? i))%Z with true; [reflexivity|].
      symmetry. apply orb_true_iff. rewrite !Z.ltb_lt. exact H.
    - replace ((i <? - Z.of_nat (length l)) || (Z.of_nat (length l) <? i))%Z with false; [eexists; reflexivity|].
      symmetry. apply orb_false_iff. rewrite !Z.ltb_ge. lia.
  Qed.

  (** A list of indices, as insert sees it. *)
  Lemma go_ok {A} (l : list A) (js : list Z) (vals : list A) r :
    r = (match js with [i] => np_insert l i vals | _ => np_insert_many l js vals end) ->
    Forall (fun i => - Z.of_nat (length l) <= i <= Z.of_nat (length l))%Z js ->
    (length js = 1 \/ length vals = 1 \/ length vals = length js -> exists x, r = Ok x) /\
    (length js <> 1 -> length vals <> 1 -> length vals <> length js -> r = Raise ValueError).
  Proof.
    intros -> F. destruct (many_ok l js vals F) as [M1 M2].
    assert (O : forall i, js = [i] -> exists x, np_insert l i vals = Ok x).
    { intros i ->. apply one_ok. inversion F. assumption. }
    destruct js as [|i [|j js]]; cbn [length] in *; split; intros;
      first [apply M1; lia|apply M2; lia|apply O; reflexivity|lia].
  Qed.

  Lemma insert_in_range_dec n (l : list Z) :
    Exists (fun i => i < - Z.of_nat n \/ Z.of_nat n < i)%Z l \/
    Forall (fun i => - Z.of_nat n <= i <= Z.of_nat n)%Z l.
  Proof.
    induction l as [|i l [IH|IH]]; [right; constructor|left; right; exact IH|].
    destruct (Z_lt_dec i (- Z.of_nat n)); [left; left; lia|].
    destruct (Z_lt_dec (Z.of_nat n) i); [left; left; lia|]. right. constructor; [lia|exact IH].
  Qed.

  Lemma np_insert_ix_errs {A} (l : list A) ix (vals : list A) :
    ~ low_list (length l) ix ->
    errs (np_insert_ix l ix vals) (insert_fails (length l) (length vals) ix).
  Proof.
    intros L. destruct ix as [i|s|js]; cbn [np_insert_ix insert_fails].
    - destruct (one_ok l i vals) as [O1 O2]. apply errs_one; [lia|exact O1|intros H; apply O2; lia].
    - destruct (s_step s) as [[|p|p]|] eqn:E.
      { apply errs_raise with ValueError.
        - rewrite slice_positions_zero by exact E. reflexivity.
        - split; [reflexivity|left; exact E].
        - intros e' [E' _]. exact E'. }
      all: assert (Ns : s_step s <> Some 0%Z) by (rewrite E; discriminate);
           rewrite slice_positions_spec by exact Ns; cbn [rbind];
           (destruct (go_ok l (map Z.of_nat (slice_spec s (length l))) vals _ eq_refl) as [G1 G2];
            [apply Forall_forall; intros i Hi; apply in_map_iff in Hi; destruct Hi as (k & <- & Hk);
             pose proof (slice_spec_bound s (length l)) as B; rewrite Forall_forall in B; specialize (B k Hk); lia|]);
           rewrite map_length in G1, G2;
           destruct (Nat.eq_dec (length (slice_spec s (length l))) 1) as [D1|D1];
           [apply errs_ok; [apply G1; lia|intros e [_ [D|D]]; [contradiction|lia]]|];
           destruct (Nat.eq_dec (length vals) 1) as [D2|D2];
           [apply errs_ok; [apply G1; lia|intros e [_ [D|D]]; [contradiction|lia]]|];
           destruct (Nat.eq_dec (length vals) (length (slice_spec s (length l)))) as [D3|D3];
           [apply errs_ok; [apply G1; lia|intros e [_ [D|D]]; [contradiction|lia]]|];
           (apply errs_raise with ValueError; [apply G2; assumption|split; [reflexivity|right; auto]|intros e' [E' _]; exact E']).
    - destruct (insert_in_range_dec (length l) js) as [H|H].
      + apply errs_raise with IndexError.
        * apply Exists_exists in H. destruct H as (i & Hi & Hb).
          destruct (Nat.eq_dec (length js) 1) as [E1|E1].
          { destruct js as [|i1 [|i2 js]]; try discriminate. destruct Hi as [->|[]]. apply one_ok. exact Hb. }
          assert (Hb' : (Z.of_nat (length l) < i)%Z).
          { destruct Hb as [Hb|Hb]; [|exact Hb]. destruct L. split; [exact E1|]. apply Exists_exists. eauto. }
          assert (M : np_insert_many l js vals = Raise IndexError) by (apply np_insert_many_high; eauto).
          destruct js as [|i1 [|i2 js]]; [exact M|cbn [length] in E1; lia|exact M].
        * left. split; [exact H|reflexivity].
        * intros e' [[_ E]|(F & _)]; [exact E|]. exfalso. rewrite Forall_forall in F.
          apply Exists_exists in H. destruct H as (i & Hi & Hb). specialize (F i Hi). lia.
      + assert (Nx : ~ Exists (fun i => i < - Z.of_nat (length l) \/ Z.of_nat (length l) < i)%Z js).
        { intros X. apply Exists_exists in X. destruct X as (i & Hi & Hb). rewrite Forall_forall in H.
          specialize (H i Hi). lia. }
        destruct (go_ok l js vals _ eq_refl H) as [G1 G2].
        destruct (Nat.eq_dec (length js) 1) as [D1|D1];
          [apply errs_ok; [apply G1; lia|intros e [[X _]|(_ & X & _)]; contradiction]|].
        destruct (Nat.eq_dec (length vals) 1) as [D2|D2];
          [apply errs_ok; [apply G1; lia|intros e [[X _]|(_ & _ & X & _)]; contradiction]|].
        destruct (Nat.eq_dec (length vals) (length js)) as [D3|D3];
          [apply errs_ok; [apply G1; lia|intros e [[X _]|(_ & _ & _ & X & _)]; contradiction]|].
        apply errs_raise with ValueError; [apply G2; assumption|right; auto|].
        intros e' [[X _]|(_ & _ & _ & _ & X)]; [contradiction|exact X].
  Qed.

  Lemma insert_errs c ix x : wf c -> ~ low_list (length (c_rows c)) ix ->
    errs (c_insert c ix x) (put_fails c ix (item_ndim x) (length (item_rows x))).
  Proof.
    intros (Hn & _) L. unfold c_insert, put_fails.
    destruct (Nat.eqb_spec (c_ndim c) (item_ndim x)) as [E|E]; cbn [negb].
    - pose proof (np_insert_ix_errs (c_rows c) ix (map (map (cast (c_dtype c))) (item_rows x)) L) as I.
      rewrite map_length in I.
      destruct (np_insert_ix (c_rows c) ix (map (map (cast (c_dtype c))) (item_rows x))) as [rows|e] eqn:Ei; cbn [rbind].
      + apply errs_ok; [apply mk_ok; [exact Hn|discriminate]|]. intros e [[Ne _]|[_ H]]; [contradiction|].
        apply I in H. discriminate.
      + apply errs_raise with e; [reflexivity|right; split; [exact E|apply I; reflexivity]|].
        intros e' [[Ne _]|[_ H]]; [contradiction|]. apply I in H. injection H as ->. reflexivity.
    - apply errs_raise with ValueError; [reflexivity|left; split; [exact E|reflexivity]|].
      intros e' [[_ X]|[X _]]; [exact X|contradiction].
  Qed.

  Lemma append_errs c x : wf c ->
    errs (c_append c x) (fun e => c_ndim c <> item_ndim x /\ e = ValueError).
  Proof.
    intros W. unfold c_append. eapply errs_iff; [|apply (insert_errs c _ x W); intros []].
    intros e. unfold put_fails, c_size. cbn [insert_fails]. split; [|tauto].
    intros [H|(_ & H & _)]; [exact H|lia].
  Qed.

  Lemma delete_errs c ix : wf c -> errs (c_delete c ix) (index_fails (length (c_rows c)) ix).
  Proof.
    intros W. destruct (index_fails_cases (length (c_rows c)) ix) as [(e & H & Hp & U)|H].
    - apply errs_raise with e; [|exact H|exact U]. unfold c_delete, on_t, np_delete.
      destruct (c_t c) as [t|] eqn:E.
      + destruct W as (_ & _ & Ht). rewrite (Ht t E), Hp. reflexivity.
      + cbn [rbind]. rewrite Hp. reflexivity.
    - apply errs_ok; [|apply index_fails_in_range; exact H].
      destruct (indexer_positions_ok ix (length (c_rows c)) H) as (ps & Hp & _).
      destruct (c_delete_ok c ix ps W Hp) as (c' & E & _). exists c'. exact E.
  Qed.

  (** *** Coordinates *)

  Lemma insertdim_errs c a v : wf c -> errs (c_insertdim c a v) (dim_fails c a v).
  Proof.
    intros (Hn & _). unfold c_insertdim, dim_fails.
    destruct ((a <? - Z.of_nat (c_ndim c)) || (Z.of_nat (c_ndim c) <? a))%Z eqn:B.
    - rewrite orb_true_iff, !Z.ltb_lt in B. apply errs_raise with IndexError; [reflexivity|left; split; [exact B|reflexivity]|].
      intros e' [[_ X]|(X & _)]; [exact X|lia].
    - rewrite orb_false_iff, !Z.ltb_ge in B. destruct v as [l|].
      + rewrite map_length. unfold c_size. destruct (Nat.eqb_spec (length l) (length (c_rows c))) as [E|E].
        * apply errs_ok; [apply mk_ok; [lia|discriminate]|].
          intros e [[X _]|(_ & _ & l' & El & _ & X)]; [lia|]. injection El as <-. contradiction.
        * destruct l as [|x [|y l]]; cbn [map rbind].
          -- apply errs_raise with ValueError; [reflexivity| |].
             ++ right. split; [lia|]. split; [reflexivity|]. exists []. split; [reflexivity|]. split; [discriminate|exact E].
             ++ intros e' [[X _]|(_ & X & _)]; [lia|exact X].
          -- apply errs_ok; [apply mk_ok; [lia|discriminate]|].
             intros e [[X _]|(_ & _ & l' & El & X & _)]; [lia|]. injection El as <-. contradiction X. reflexivity.
          -- apply errs_raise with ValueError; [reflexivity| |].
             ++ right. split; [lia|]. split; [reflexivity|]. eexists. split; [reflexivity|]. split; [discriminate|exact E].
             ++ intros e' [[X _]|(_ & X & _)]; [lia|exact X].
      + rewrite repeat_length, Nat.eqb_refl. cbn [rbind].
        apply errs_ok; [apply mk_ok; [lia|discriminate]|].
        intros e [[X _]|(_ & _ & l' & El & _)]; [lia|discriminate].
  Qed.

  Lemma keep_mask_count n ix ps :
    indexer_positions ix n = Ok ps -> in_range ix n -> left_over n ix (length (filter id (keep_mask n ps))).
  Proof.
    intros H R. exists (positions n (fun k => negb (mem_nat k ps))).
    split; [apply NoDup_filter, seq_NoDup|]. split.
    - unfold keep_mask, positions. generalize (seq 0 n). intros l. induction l as [|k l IH]; [reflexivity|].
      cbn [map filter]. unfold id at 1. destruct (negb (mem_nat k ps)); cbn [length]; rewrite IH; reflexivity.
    - intros j. unfold positions. rewrite filter_In, in_seq, negb_true_iff.
      assert (G : mem_nat j ps = true <-> addressed ix n j).
      { destruct (indexer_positions_ok ix n R) as (ps' & E' & A). rewrite H in E'. injection E' as <-.
        rewrite <- A. unfold mem_nat. rewrite existsb_exists. split.
        - intros (x & Hx & Ex). apply Nat.eqb_eq in Ex. subst x. exact Hx.
        - intros Hj. exists j. split; [exact Hj|apply Nat.eqb_refl]. }
      rewrite <- G. destruct (mem_nat j ps); intuition (try lia; try discriminate; try congruence).
  Qed.

  Lemma left_over_unique n ix a b : left_over n ix a -> left_over n ix b -> a = b.
  Proof.
    intros (l1 & N1 & <- & H1) (l2 & N2 & <- & H2). apply Nat.le_antisymm; apply NoDup_incl_length; try assumption.
    - intros j Hj. apply H2, H1, Hj.
    - intros j Hj. apply H1, H2, Hj.
  Qed.

  Lemma deletedim_errs c ix : wf c ->
    errs (c_deletedim c ix) (fun e =>
        (c_ndim c = 2 /\ e = ValueError) \/
        (c_ndim c <> 2 /\ index_fails (c_ndim c) ix e) \/
        (c_ndim c <> 2 /\ (forall e', ~ index_fails (c_ndim c) ix e') /\
         c_rows c <> [] /\ left_over (c_ndim c) ix 1 /\ e = ValueError)).
  Proof.
    intros (Hn & Hr & _). unfold c_deletedim. destruct (Nat.eqb_spec (c_ndim c) 2) as [E|E].
    { apply errs_raise with ValueError; [reflexivity|left; split; [exact E|reflexivity]|].
      intros e' [[_ X]|[[X _]|[X _]]]; [exact X|contradiction..]. }
    destruct (index_fails_cases (c_ndim c) ix) as [(e & H & Hp & U)|R].
    { rewrite Hp. apply errs_raise with e; [reflexivity|right; left; split; assumption|].
      intros e' [[X _]|[[_ X]|(_ & X & _)]]; [contradiction|exact (U e' X)|destruct (X e H)]. }
    pose proof (proj2 (index_fails_in_range (c_ndim c) ix) R) as NF.
    destruct (indexer_positions ix (c_ndim c)) as [ps|e] eqn:Ep.
    2:{ exfalso. destruct (indexer_positions_ok ix (c_ndim c) R) as (ps & Ep' & _). rewrite Ep' in Ep. discriminate. }
    cbn [rbind]. pose proof (keep_mask_count (c_ndim c) ix ps Ep R) as LO.
    set (k := length (filter id (keep_mask (c_ndim c) ps))) in *. unfold mk_curve. rewrite map_length.
    destruct (Nat.eqb_spec (length (c_rows c) * k) 0) as [Z|Z].
    - cbn [length Nat.mul Nat.eqb negb andb]. apply errs_ok; [eexists; reflexivity|].
      intros e [[X _]|[[_ X]|(_ & _ & X & L & _)]]; [contradiction|destruct (NF e X)|].
      pose proof (left_over_unique _ _ _ _ LO L) as K1. destruct (c_rows c); [contradiction X; reflexivity|].
      cbn [length] in Z. nia.
    - rewrite map_length. destruct (Nat.eqb_spec (length (c_rows c) * k) 0) as [Z'|_]; [contradiction|]. cbn [negb andb].
      destruct (Nat.ltb_spec k 2) as [K|K].
      + assert (k = 1) by nia. apply errs_raise with ValueError; [reflexivity| |].
        * right. right. split; [exact E|]. split; [exact NF|]. split.
          -- intros X. rewrite X in Z. cbn [length] in Z. lia.
          -- split; [congruence|reflexivity].
        * intros e' [[X _]|[[_ X]|(_ & _ & _ & _ & X)]]; [contradiction|destruct (NF e' X)|exact X].
      + apply errs_ok; [eexists; reflexivity|].
        intros e [[X _]|[[_ X]|(_ & _ & X & L & _)]]; [contradiction|destruct (NF e X)|].
        pose proof (left_over_unique _ _ _ _ LO L). lia.
  Qed.

  (** *** drop, nonsingular, coorientplane, copies *)

  Lemma drop_errs c isa : wf c ->
    errs (c_drop c isa) (fun e => drop_fails (length (c_rows c)) (isa (c_rows c)) e).
  Proof.
    intros W. unfold c_drop. destruct (isa (c_rows c)) as [m|mm|l|]; cbn [drop_fails].
    - eapply errs_iff; [|apply (by_mask_errs c (map negb m) W)]. intros e. cbn beta. rewrite map_length. tauto.
    - eapply errs_iff; [|apply (by_mask_errs c (map negb (map (existsb id) mm)) W)].
      intros e. cbn beta. rewrite !map_length. tauto.
    - apply (delete_errs c (IxList l) W).
    - apply errs_raise with ValueError; [reflexivity|reflexivity|intros e' X; exact X].
  Qed.

  Lemma nonsingular_errs c : wf c -> errs (c_nonsingular c) (fun e => c_rows c = [] /\ e = ValueError).
  Proof.
    intros W. unfold c_nonsingular. apply errs_one.
    - destruct (c_rows c); [left; reflexivity|right; discriminate].
    - intros H. unfold c_bool, c_size. rewrite H. reflexivity.
    - intros H. assert (Hb : c_bool c = true).
      { unfold c_bool, c_size. destruct W as (Hn & _). destruct (c_rows c); [contradiction H; reflexivity|].
        cbn [length Nat.eqb negb andb]. destruct (c_ndim c); [lia|reflexivity]. }
      rewrite Hb. cbn [negb].
      destruct (c_drop_mask c (fun rows => DropMask (is_singular_mask rows)) (is_singular_mask (c_rows c)) W eq_refl)
        as (c' & E & _); [apply is_singular_mask_length; exact H|]. exists c'. exact E.
  Qed.


  (** *** Construction *)

  Lemma init_tail_errs (rows0 : list (list T)) n0_ nmin (isn : bool) d (td : option (ndarray T)) :
    2 <= nmin ->
    errs (let rows1 := map (map (cast d)) rows0 in
          let '(rows2, n2) := if Nat.eqb (length rows1 * n0_) 0 then ([], nmin) else (rows1, n0_) in
          if negb (Nat.eqb (length rows2 * n2) 0) && Nat.ltb n2 2 then Raise ValueError
          else
            let '(rows3, n3) :=
              if isn && negb (Nat.eqb (length rows2) 0) && Nat.ltb n2 nmin
              then (map (fun r => r ++ repeat n0 (nmin - n2)) rows2, nmin)
              else (rows2, n2) in
            match td with
            | None => Ok (mkCurve rows3 n3 d None)
            | Some t =>
                if negb (Nat.eqb (nd_ndim t) 1) then Raise ValueError
                else if negb (Nat.eqb (nd_size t) (length rows3)) then Raise ValueError
                else Ok (mkCurve rows3 n3 d (Some (nd_flat t)))
            end)
         (fun e => ((rows0 <> [] /\ n0_ = 1) \/ bad_tdata (if Nat.eqb n0_ 0 then 0 else length rows0) td) /\ e = ValueError).
  Proof.
    intros Hn. cbv zeta. rewrite map_length.
    set (m := if Nat.eqb n0_ 0 then 0 else length rows0).
    assert (Tail : forall (rows3 : list (list T)) n3, length rows3 = m -> ~ (rows0 <> [] /\ n0_ = 1) ->
      errs (match td with
            | None => Ok (mkCurve rows3 n3 d None)
            | Some t =>
                if negb (Nat.eqb (nd_ndim t) 1) then Raise ValueError
                else if negb (Nat.eqb (nd_size t) (length rows3)) then Raise ValueError
                else Ok (mkCurve rows3 n3 d (Some (nd_flat t)))
            end)
           (fun e => ((rows0 <> [] /\ n0_ = 1) \/ bad_tdata m td) /\ e = ValueError)).
    { intros rows3 n3 L N1. rewrite L. apply errs_one.
      - destruct td as [t|].
        + destruct (Nat.eq_dec (nd_ndim t) 1) as [A|A].
          * destruct (Nat.eq_dec (nd_size t) m) as [B|B].
            -- right. intros [X|(t' & E & X)]; [exact (N1 X)|]. injection E as <-. lia.
            -- left. right. exists t. split; [reflexivity|]. right. exact B.
          * left. right. exists t. split; [reflexivity|]. left. exact A.
        + right. intros [X|(t' & E & _)]; [exact (N1 X)|discriminate].
      - intros [X|(t & -> & X)]; [destruct (N1 X)|].
        destruct (Nat.eqb_spec (nd_ndim t) 1); [|reflexivity]. cbn [negb].
        destruct (Nat.eqb_spec (nd_size t) m); [lia|reflexivity].
      - intros X. destruct td as [t|]; [|eexists; reflexivity].
        destruct (Nat.eqb_spec (nd_ndim t) 1) as [A|A]; cbn [negb].
        + destruct (Nat.eqb_spec (nd_size t) m) as [B|B]; cbn [negb]; [eexists; reflexivity|].
          destruct X. right. exists t. split; [reflexivity|]. right. exact B.
        + destruct X. right. exists t. split; [reflexivity|]. left. exact A. }
    destruct (Nat.eqb_spec (length rows0 * n0_) 0) as [E|E].
    - change (length ([] : list (list T)) * nmin) with 0. cbn [Nat.eqb negb andb].
      change (length ([] : list (list T))) with 0. cbn [Nat.eqb negb]. rewrite andb_false_r, andb_false_l.
      apply Tail.
      + unfold m. destruct (Nat.eqb_spec n0_ 0); [reflexivity|]. cbn [length]. nia.
      + intros [A ->]. destruct rows0; [contradiction A; reflexivity|]. cbn [length] in E. lia.
    - rewrite map_length. destruct (Nat.eqb_spec (length rows0 * n0_) 0) as [|_]; [contradiction|]. cbn [negb andb].
      assert (Hm : m = length rows0) by (unfold m; destruct (Nat.eqb_spec n0_ 0); [subst; lia|reflexivity]).
      destruct (Nat.ltb_spec n0_ 2) as [L|L].
      + apply errs_raise with ValueError; [reflexivity| |intros e' [_ X]; exact X]. split; [|reflexivity]. left.
        split; [intros ->; cbn [length] in E; lia|]. nia.
      + destruct (isn && negb (Nat.eqb (length rows0) 0) && Nat.ltb n0_ nmin);
          apply Tail; rewrite ?map_length; [congruence|lia|congruence|lia].
  Qed.

  Lemma init_errs (a : ndarray T) adt (td : option (ndarray T)) (ax : Z) nm src axis dt :
    nd_wf a ->
    (src = SArray a adt /\ ax = (match axis with None => 0%Z | Some k => k end) \/
     src = SSeq a /\ ax = (match axis with None => 1%Z | Some k => k end)) ->
    errs (curve_init src td axis nm dt) (new_fails a td ax nm).
  Proof.
    intros Wa Hs. unfold new_fails.
    set (nmz := match nm with None => 2%Z | Some k => k end).
    destruct (Z.ltb_spec nmz 2) as [L|L].
    { assert (Em : exists k, nm = Some k /\ (k < 2)%Z).
      { unfold nmz in L. destruct nm as [k|]; [|lia]. exists k. split; [reflexivity|exact L]. }
      destruct Em as (k & -> & Lk).
      apply errs_raise with ValueError.
      - unfold curve_init. apply Z.ltb_lt in Lk. rewrite Lk. reflexivity.
      - left. exists k. split; [reflexivity|]. split; [exact Lk|reflexivity].
      - intros e' [(k' & _ & _ & X)|[X _]]; [exact X|]. specialize (X k eq_refl). lia. }
    assert (Hnm : forall k, nm = Some k -> (2 <= k)%Z) by (intros k ->; exact L).
    assert (Nk : forall e, ~ exists k, nm = Some k /\ (k < 2)%Z /\ e = ValueError).
    { intros e (k & -> & Lk & _). specialize (Hnm k eq_refl). lia. }
    set (dd := match dt with Some x => x | None => match src with SArray _ x => x | _ => DFloat end end).
    set (isn := match nm with None => false | Some _ => true end).
    set (tail := fun rows0 n0_ =>
          let rows1 := map (map (cast dd)) rows0 in
          let '(rows2, n2) := if Nat.eqb (length rows1 * n0_) 0 then ([], Z.to_nat nmz) else (rows1, n0_) in
          if negb (Nat.eqb (length rows2 * n2) 0) && Nat.ltb n2 2 then Raise ValueError
          else
            let '(rows3, n3) :=
              if isn && negb (Nat.eqb (length rows2) 0) && Nat.ltb n2 (Z.to_nat nmz)
              then (map (fun r => r ++ repeat n0 (Z.to_nat nmz - n2)) rows2, Z.to_nat nmz)
              else (rows2, n2) in
            match td with
            | None => Ok (mkCurve rows3 n3 dd None)
            | Some t =>
                if negb (Nat.eqb (nd_ndim t) 1) then Raise ValueError
                else if negb (Nat.eqb (nd_size t) (length rows3)) then Raise ValueError
                else Ok (mkCurve rows3 n3 dd (Some (nd_flat t)))
            end).
    assert (TE : forall rows0 n0_, errs (tail rows0 n0_)
       (fun e => ((rows0 <> [] /\ n0_ = 1) \/ bad_tdata (if Nat.eqb n0_ 0 then 0 else length rows0) td) /\ e = ValueError)).
    { intros rows0 n0_. apply init_tail_errs. lia. }
    assert (EI : curve_init src td axis nm dt = (do (rows0, n0_) <- as2d a ax ; tail rows0 n0_)).
    { unfold curve_init. fold nmz. destruct (Z.ltb_spec nmz 2); [lia|].
      destruct Hs as [[-> ->]|[-> ->]]; unfold tail, dd; destruct dt; reflexivity. }
    rewrite EI. clear EI. clearbody tail.
    destruct (Nat.eq_dec (nd_size a) 0) as [E0|E0].
    { rewrite as2d_empty by exact E0. cbn [rbind]. eapply errs_iff; [|apply TE]. intros e. cbn [Nat.eqb length].
      split.
      - intros [[[X _]|X] ->]; [contradiction X; reflexivity|]. right. split; [exact Hnm|]. left. auto.
      - intros [X|[_ [(_ & X & ->)|[X _]]]]; [destruct (Nk e X)|auto|contradiction]. }
    destruct (Z.le_gt_cases (Z.of_nat (nd_ndim a)) ax) as [A1|A1].
    { rewrite as2d_axis_too_big by assumption. apply errs_raise with ValueError; [reflexivity| |].
      - right. split; [exact Hnm|]. right. split; [exact E0|]. left. split; [exact A1|reflexivity].
      - intros e' [X|[_ [(X & _)|[_ [[_ X]|[[X _]|(k & m & (Hk & X) & _)]]]]]]; [destruct (Nk e' X)|contradiction|exact X|lia|lia]. }
    destruct (Z.lt_ge_cases ax (-2 * Z.of_nat (nd_ndim a))) as [A2|A2].
    { rewrite as2d_axis_too_small by assumption. apply errs_raise with IndexError; [reflexivity| |].
      - right. split; [exact Hnm|]. right. split; [exact E0|]. right. left. split; [exact A2|reflexivity].
      - intros e' [X|[_ [(X & _)|[_ [[X _]|[[_ X]|(k & m & (Hk & X) & _)]]]]]]; [destruct (Nk e' X)|contradiction|lia|exact X|lia]. }
    assert (Hk : exists k, as2d_axis (nd_ndim a) ax k).
    { destruct (Z.lt_ge_cases ax (- Z.of_nat (nd_ndim a))); [exists (Z.to_nat (ax + 2 * Z.of_nat (nd_ndim a)))|
        destruct (Z.lt_ge_cases ax 0); [exists (Z.to_nat (ax + Z.of_nat (nd_ndim a)))|exists (Z.to_nat ax)]];
        unfold as2d_axis; lia. }
    destruct Hk as [k Hk]. destruct (nth_error_ex (nd_shape a) k) as [m Hm]; [apply Hk|].
    destruct (as2d_char a ax k m Wa E0 Hk Hm) as (rows & Er & Hl & _ & _). rewrite Er. cbn [rbind].
    set (p := prod (firstn k (nd_shape a) ++ skipn (S k) (nd_shape a))) in *.
    assert (Hsize : nd_size a = m * p) by (unfold nd_size; rewrite (prod_move_front _ _ _ Hm); reflexivity).
    assert (Hp : p <> 0) by nia. assert (Hm0 : m <> 0) by nia.
    eapply errs_iff; [|apply TE]. intros e. cbn beta. destruct (Nat.eqb_spec p 0); [contradiction|]. rewrite Hl. split.
    - intros [H ->]. right. split; [exact Hnm|]. right. split; [exact E0|]. right. right. exists k, m.
      split; [exact Hk|]. split; [exact Hm|]. split; [|reflexivity].
      destruct H as [[_ H]|H]; [left; nia|right; exact H].
    - intros [X|[_ [(X & _)|[_ [[X _]|[[X _]|(k' & m' & Hk' & Hm' & H & ->)]]]]]]; [destruct (Nk e X)|contradiction|lia|lia|].
      assert (k' = k) by (unfold names_axis in Hk'; unfold as2d_axis in Hk; lia). subst k'.
      assert (m' = m) by congruence. subst m'. split; [|reflexivity].
      destruct H as [H|H]; [left|right; exact H]. split; [intros ->; cbn [length] in Hl; lia|nia].
  Qed.

  Lemma init_curve_errs c td axis nm dt : wf c ->
    errs (curve_init (SCurve c) td axis nm dt) (fun e => exists k, nm = Some k /\ (k < 2)%Z /\ e = ValueError).
  Proof.
    intros (Hn & Hr & Ht).
    set (nmz := match nm with None => 2%Z | Some k => k end).
    destruct (Z.ltb_spec nmz 2) as [L|L].
    { assert (Em : exists k, nm = Some k /\ (k < 2)%Z).
      { unfold nmz in L. destruct nm as [k|]; [|lia]. exists k. split; [reflexivity|exact L]. }
      destruct Em as (k & -> & Lk).
      apply errs_raise with ValueError.
      - unfold curve_init. apply Z.ltb_lt in Lk. rewrite Lk. reflexivity.
      - exists k. split; [reflexivity|]. split; [exact Lk|reflexivity].
      - intros e' (k' & _ & _ & X). exact X. }
    apply errs_ok; [|intros e (k & -> & Lk & _); unfold nmz in L; lia].
    unfold curve_init. fold nmz. destruct (Z.ltb_spec nmz 2); [lia|]. cbn [c_rows].
    set (tdc := match c_t c with Some t => Some (mkNd [length t] t) | None => None end).
    assert (Hz : (c_rows c = [] /\ as2d (mkNd [c_size c; c_ndim c] (concat (c_rows c))) 0 = Ok ([], 2)) \/
                 (c_rows c <> [] /\ as2d (mkNd [c_size c; c_ndim c] (concat (c_rows c))) 0 = Ok (c_rows c, c_ndim c))).
    { destruct (c_rows c) as [|r rows] eqn:E.
      - left. split; [reflexivity|]. apply as2d_empty. unfold nd_size, c_size. rewrite E. reflexivity.
      - right. split; [discriminate|]. unfold c_size. rewrite E. apply as2d_id; [exact Hr|]. cbn [length]. nia. }
    assert (G : forall (rows0 : list (list T)) n0_, 2 <= n0_ -> length rows0 = length (c_rows c) ->
       ~ (((rows0 <> [] /\ n0_ = 1) \/ bad_tdata (if Nat.eqb n0_ 0 then 0 else length rows0) tdc))).
    { intros rows0 n0_ H2 Hl [[_ X]|(t & E & X)]; [lia|]. destruct (Nat.eqb_spec n0_ 0); [lia|].
      unfold tdc in E. destruct (c_t c) as [t0|] eqn:Et; [|discriminate]. injection E as <-.
      unfold nd_ndim, nd_size in X. cbn [nd_shape length fold_right] in X. rewrite (Ht t0 eq_refl) in X. lia. }
    destruct Hz as [[E H1]|[E H1]]; rewrite H1; cbn [rbind].
    - match goal with |- exists a, ?r = Ok a => destruct r as [x|e] eqn:R; [eexists; reflexivity|] end.
      exfalso. refine (G [] 2 (le_n 2) _ _); [rewrite E; reflexivity|].
      apply (init_tail_errs [] 2 (Z.to_nat nmz) (match nm with None => false | Some _ => true end)
               (match dt with Some d => d | None => c_dtype c end) tdc ltac:(lia) e). exact R.
    - match goal with |- exists a, ?r = Ok a => destruct r as [x|e] eqn:R; [eexists; reflexivity|] end.
      exfalso. refine (G (c_rows c) (c_ndim c) Hn eq_refl _).
      apply (init_tail_errs (c_rows c) (c_ndim c) (Z.to_nat nmz) (match nm with None => false | Some _ => true end)
               (match dt with Some d => d | None => c_dtype c end) tdc ltac:(lia) e). exact R.
  Qed.

  Lemma copy_ok c : wf c -> exists c', curve_init (SCurve c) None None None None = Ok c'.
  Proof.
    intros W. destruct (curve_init (SCurve c) None None None None) as [c'|e] eqn:E; [eexists; reflexivity|].
    apply (init_curve_errs c None None None None W e) in E. destruct E as (k & X & _). discriminate.
  Qed.

  (** *** coorientplane *)

  Lemma np_get_cases {A} (l : list A) i :
    (outside (length l) i /\ np_get l i = Raise IndexError) \/ (~ outside (length l) i /\ exists a, np_get l i = Ok a).
  Proof.
    destruct (outside_dec (length l) i) as [H|H]; [left; split; [exact H|apply np_get_raise, H]|right; split; [exact H|]].
    unfold np_get. destruct (norm_index (length l) i) as [k|] eqn:E.
    - apply norm_index_some in E. destruct (nth_error_ex l k) as [a Ha]; [apply E|]. rewrite Ha. eexists. reflexivity.
    - apply norm_index_none in E. contradiction.
  Qed.

  Lemma coorient_errs c a1 a2 : wf c ->
    errs (c_coorientplane c a1 a2) (fun e =>
      2 <= length (c_rows c) /\ (outside (c_ndim c) a1 \/ outside (c_ndim c) a2) /\ e = IndexError).
  Proof.
    intros W. pose proof W as (Hn & Hr & _). unfold c_coorientplane, is_cooriented.
    assert (Fin : forall b : bool, exists c', (if negb b then c_reverse c else curve_init (SCurve c) None None None None) = Ok c').
    { intros [|]; cbn [negb]; [apply copy_ok, W|apply reverse_ok, W]. }
    destruct (le_lt_dec 2 (length (c_rows c))) as [L|L].
    - assert (B : negb (c_bool c) || Nat.eqb (c_size c) 1 = false).
      { unfold c_bool, c_size. destruct (Nat.eqb_spec (length (c_rows c)) 0); [lia|].
        destruct (Nat.eqb_spec (c_ndim c) 0); [lia|]. destruct (Nat.eqb_spec (length (c_rows c)) 1); [lia|reflexivity]. }
      rewrite B.
      destruct (nth_error_ex (c_rows c) 0) as [p Hp]; [lia|].
      destruct (nth_error_ex (c_rows c) (length (c_rows c) - 1)) as [q Hq]; [lia|].
      rewrite (getitem_int_ok c 0 0 p); [|unfold py_index, c_size; lia|exact Hp].
      rewrite (getitem_int_ok c (-1) (length (c_rows c) - 1) q); [|unfold py_index, c_size; lia|exact Hq].
      cbn [rbind snd]. apply nth_error_In, Hr in Hp. apply nth_error_In, Hr in Hq.
      assert (P : forall i, (outside (c_ndim c) i /\ np_get p i = Raise IndexError) \/
                            (~ outside (c_ndim c) i /\ (exists x, np_get p i = Ok x) /\ exists y, np_get q i = Ok y)).
      { intros i. destruct (np_get_cases p i) as [[A B1]|[A B1]]; rewrite Hp in A; [left; auto|right].
        split; [exact A|]. split; [exact B1|]. destruct (np_get_cases q i) as [[A' B2]|[A' B2]]; [|exact B2].
        rewrite Hq in A'. contradiction. }
      destruct (P a1) as [[O1 E1]|(O1 & (x & Ex) & (y & Ey))].
      + rewrite E1. apply errs_raise with IndexError; [reflexivity| |intros e' (_ & _ & X); exact X]. auto.
      + rewrite Ex, Ey. cbn [rbind]. destruct (P a2) as [[O2 E2]|(O2 & (x2 & Ex2) & (y2 & Ey2))].
        * rewrite E2. apply errs_raise with IndexError; [reflexivity| |intros e' (_ & _ & X); exact X]. auto.
        * rewrite Ex2, Ey2. cbn [rbind]. apply errs_ok; [apply Fin|]. intros e (_ & X & _). tauto.
    - assert (B : negb (c_bool c) || Nat.eqb (c_size c) 1 = true).
      { unfold c_bool, c_size. destruct (length (c_rows c)) as [|[|k]]; [reflexivity| |lia].
        cbn [Nat.eqb]. apply orb_true_r. }
      rewrite B. cbn [rbind]. apply errs_ok; [apply copy_ok, W|]. intros e (X & _). lia.
  Qed.

  (** *** The table *)

  Lemma deref_errs {B} (st : list (curve T)) h (f : curve T -> res B) (P : exn -> curve T -> Prop) :
    (forall c, nth_error st h = Some c -> errs (f c) (fun e => P e c)) ->
    errs (do c <- deref st h ; f c) (fun e => with_curve st h e (P e)).
  Proof.
    intros H. unfold deref, with_curve. destruct (nth_error st h) as [c|]; cbn [rbind].
    - exact (H c eq_refl).
    - apply errs_raise with NameError; [reflexivity|reflexivity|]. intros e' X. exact X.
  Qed.

  Lemma fails_iff (st : list (curve T)) (o : op T) e :
    Forall wf st -> valid_op o -> covered st o -> (exec st o = Raise e <-> fails st o e).
  Proof.
    intros W V C. assert (Wn : forall h c, nth_error st h = Some c -> wf c).
    { intros h c H. rewrite Forall_forall in W. apply W. eapply nth_error_In, H. }
    revert e. change (errs (exec st o) (fun e => fails st o e)).
    destruct o; cbn [exec fails valid_op covered] in *.
    - apply init_errs with (adt := dt); [exact (proj1 V)|left; split; reflexivity].
    - apply init_errs with (adt := DFloat); [exact (proj1 V)|right; split; reflexivity].
    - apply deref_errs. intros c H. apply (init_curve_errs c _ _ _ _ (Wn _ _ H)).
    - apply deref_errs. intros c H. apply (slice_errs c _ (Wn _ _ H)).
    - apply deref_errs. intros c H. apply (list_errs c _ (Wn _ _ H)).
    - apply deref_errs. intros c H. apply (mask_errs c _ (Wn _ _ H)).
    - apply (deref_errs st h _ (fun _ _ => False)). intros c H. eapply errs_iff; [|apply (slice_errs c _ (Wn _ _ H))].
      intros x. cbn [s_step]. split; [intros [X _]; discriminate|intros []].
    - apply deref_errs. intros c H. apply (deref_errs st h2 _ (fun e c2 => c_ndim c <> c_ndim c2 /\ e = ValueError)).
      intros c2 H2. apply (add_errs c c2 (Wn _ _ H) (Wn _ _ H2)).
    - apply (deref_errs st h _ (fun _ _ => False)). intros c H.
      apply errs_ok; [apply reverse_ok, (Wn _ _ H)|intros x []].
    - apply deref_errs. intros c H. apply (insert_errs c ix (IPoint p) (Wn _ _ H) (C c H)).
    - apply deref_errs. intros c H. apply (deref_errs st h2 _ (fun e c2 => put_fails c ix (c_ndim c2) (length (c_rows c2)) e)).
      intros c2 H2. apply (insert_errs c ix (ICurve c2) (Wn _ _ H) (C c H)).
    - apply deref_errs. intros c H. apply (append_errs c (IPoint p) (Wn _ _ H)).
    - apply deref_errs. intros c H. apply (deref_errs st h2 _ (fun e c2 => c_ndim c <> c_ndim c2 /\ e = ValueError)).
      intros c2 H2. apply (append_errs c (ICurve c2) (Wn _ _ H)).
    - apply deref_errs. intros c H. apply (delete_errs c _ (Wn _ _ H)).
    - apply deref_errs. intros c H. apply (insertdim_errs c _ _ (Wn _ _ H)).
    - apply deref_errs. intros c H. apply (insertdim_errs c _ _ (Wn _ _ H)).
    - apply deref_errs. intros c H. apply (deletedim_errs c _ (Wn _ _ H)).
    - apply (deref_errs st h _ (fun _ _ => False)). intros c H.
      apply errs_ok; [|intros x []]. destruct (c_unique_ok c (Wn _ _ H)) as (c' & E & _). exists c'. exact E.
    - apply deref_errs. intros c H. apply (drop_errs c _ (Wn _ _ H)).
    - apply deref_errs. intros c H. apply (nonsingular_errs c (Wn _ _ H)).
    - apply (deref_errs st h _ (fun _ _ => False)). intros c H.
      apply errs_ok; [apply copy_ok, (Wn _ _ H)|intros x []].
    - apply deref_errs. intros c H. apply (coorient_errs c _ _ (Wn _ _ H)).
  Qed.
End Gen.
