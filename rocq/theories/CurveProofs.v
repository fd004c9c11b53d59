(** Proofs about the Curve container operations (generic in the scalar type). *)
From Coq Require Import ZArith List Bool Arith Lia Sorted Permutation.
From Verif Require Import Num Py Numeric Curve Spec ListFacts SliceProofs ArrayProofs.
Import ListNotations.

Lemma ascending_sorted ks : StronglySorted lt ks -> ascending ks.
Proof.
  intros H. induction H as [|x l H IH F]; intros i j a b Hij Ha Hb.
  - destruct i; discriminate.
  - rewrite Forall_forall in F. destruct j as [|j]; [lia|]. cbn in Hb.
    destruct i as [|i]; cbn in Ha.
    + injection Ha as <-. apply F. eapply nth_error_In; eauto.
    + eapply (IH i j); eauto. lia.
Qed.

Lemma forallb_seq_Forall ks n : (forall k, In k ks -> k < n) -> Forall (fun k => k < n) ks.
Proof. intros H. apply Forall_forall. assumption. Qed.

Section Gen.
  Context {T : Type} {NT : Num T} {ST : NumSqrt T}.
  Implicit Types c : curve T.

  Lemma mk_curve_ok (rows : list (list T)) n dt td :
    2 <= n -> (forall r, In r rows -> length r = n) ->
    (forall t, td = Some t -> length t = length rows) ->
    mk_curve rows n dt td
    = Ok (mkCurve rows (match rows with [] => 2 | _ => n end) dt td).
  Proof.
    intros Hn Hr Ht. unfold mk_curve.
    destruct rows as [|r rows].
    - cbn. destruct td as [t|]; [|reflexivity].
      specialize (Ht t eq_refl). cbn in Ht. rewrite Ht. reflexivity.
    - destruct (Nat.eqb_spec (length (r :: rows) * n) 0) as [E|E]; [cbn in E; lia|].
      destruct (Nat.ltb_spec n 2); [lia|]. rewrite andb_false_r.
      destruct td as [t|]; [|reflexivity].
      rewrite (Ht t eq_refl), Nat.eqb_refl. reflexivity.
  Qed.

  Lemma mk_curve_wf (rows : list (list T)) n dt td c :
    2 <= n -> (forall r, In r rows -> length r = n) ->
    (forall t, td = Some t -> length t = length rows) ->
    mk_curve rows n dt td = Ok c -> wf c.
  Proof.
    intros Hn Hr Ht H. rewrite mk_curve_ok in H by assumption. injection H as <-.
    split; [|split]; cbn.
    - destruct rows; lia.
    - intros p Hp. destruct rows; [destruct Hp|]. apply Hr. assumption.
    - assumption.
  Qed.

  Lemma select_pick c ks :
    wf c -> Forall (fun k => k < c_size c) ks ->
    exists c', mk_curve (pick (c_rows c) ks) (c_ndim c) (c_dtype c)
                 (option_map (fun t => pick t ks) (c_t c)) = Ok c'
               /\ selects c ks c' /\ wf c'.
  Proof.
    intros (Hn & Hr & Ht) Hk.
    assert (Hr' : forall r, In r (pick (c_rows c) ks) -> length r = c_ndim c)
      by (intros r H; apply Hr; eapply pick_in; eauto).
    assert (Ht' : forall t, option_map (fun t => pick t ks) (c_t c) = Some t ->
                  length t = length (pick (c_rows c) ks)).
    { intros t H. destruct (c_t c) as [t0|]; [|discriminate]. injection H as <-.
      rewrite !pick_length; [reflexivity|exact Hk|].
      rewrite (Ht t0 eq_refl). exact Hk. }
    rewrite mk_curve_ok by assumption. eexists. split; [reflexivity|].
    split.
    - split; [|split; [|split]]; cbn [c_rows c_t c_dtype c_ndim].
      + apply pick_at_positions. exact Hk.
      + unfold at_positions_opt. destruct (c_t c) as [t0|]; cbn; [|exact I].
        apply pick_at_positions. rewrite (Ht t0 eq_refl). exact Hk.
      + reflexivity.
      + intros Hne. destruct (pick (c_rows c) ks) eqn:E; [|reflexivity].
        apply (f_equal (@length _)) in E. rewrite pick_length in E by assumption.
        destruct ks; [contradiction|discriminate].
    - eapply mk_curve_wf; [exact Hn|exact Hr'|exact Ht'|]. apply mk_curve_ok; assumption.
  Qed.

  (** *** Slices *)

  Lemma on_t_ok c (f : list T -> res (list T)) (g : list T -> list T) :
    (forall t, c_t c = Some t -> f t = Ok (g t)) -> on_t c f = Ok (option_map g (c_t c)).
  Proof.
    intros H. unfold on_t. destruct (c_t c) as [t|]; [|reflexivity].
    rewrite (H t eq_refl). reflexivity.
  Qed.

  Lemma getitem_slice_ok c s :
    wf c -> s_step s <> Some 0%Z ->
    exists c', getitem_slice c s = Ok c' /\ selects c (slice_spec s (c_size c)) c' /\ wf c'.
  Proof.
    intros Hwf Hs. unfold getitem_slice.
    rewrite (on_t_ok c _ (fun t => pick t (slice_spec s (c_size c)))).
    - cbn [rbind]. rewrite np_slice_spec by assumption. cbn [rbind].
      apply select_pick; [assumption|]. apply slice_spec_bound.
    - intros t Ht. rewrite np_slice_spec by assumption. f_equal.
      destruct Hwf as (_ & _ & Hl). rewrite (Hl t Ht). reflexivity.
  Qed.

  Lemma getitem_slice_zero c s :
    s_step s = Some 0%Z -> getitem_slice c s = Raise ValueError.
  Proof.
    intros Hs. unfold getitem_slice, on_t. destruct (c_t c) as [t|].
    - rewrite np_slice_zero by assumption. reflexivity.
    - cbn. rewrite np_slice_zero by assumption. reflexivity.
  Qed.

  (** *** Integer index *)

  Lemma getitem_int_ok c i k r :
    py_index (c_size c) i k -> nth_error (c_rows c) k = Some r ->
    getitem_int c i = Ok (Z.of_nat k, r).
  Proof.
    intros [H1 H2] Hr. unfold getitem_int.
    replace (if (i <? 0)%Z then (Z.of_nat (c_size c) + i)%Z else i) with (Z.of_nat k).
    - rewrite (np_get_nat _ _ _ Hr). reflexivity.
    - destruct (Z.ltb_spec i 0); lia.
  Qed.

  Lemma getitem_int_raise c i :
    (Z.of_nat (c_size c) <= i \/ i < - 2 * Z.of_nat (c_size c))%Z ->
    getitem_int c i = Raise IndexError.
  Proof.
    intros H. unfold getitem_int. rewrite np_get_raise; [reflexivity|].
    fold (c_size c). destruct (Z.ltb_spec i 0); lia.
  Qed.

  Lemma getitem_int_double_wrap c i k r :
    i = (Z.of_nat k - 2 * Z.of_nat (c_size c))%Z -> nth_error (c_rows c) k = Some r ->
    getitem_int c i = Ok ((Z.of_nat k - Z.of_nat (c_size c))%Z, r).
  Proof.
    intros -> Hr.
    assert (k < c_size c) by (apply nth_error_Some; unfold c_size; congruence).
    unfold getitem_int.
    replace (if (_ <? 0)%Z then _ else _) with (Z.of_nat k - Z.of_nat (c_size c))%Z
      by (destruct (Z.ltb_spec (Z.of_nat k - 2 * Z.of_nat (c_size c)) 0); lia).
    replace (np_get (c_rows c) (Z.of_nat k - Z.of_nat (c_size c))) with (Ok r); [reflexivity|].
    symmetry. apply np_get_ok. exists k. split; [|assumption]. split; [assumption|auto].
  Qed.

  (** *** Index lists and masks *)

  Lemma np_take_ok {A} (l : list A) ix ks :
    Forall2 (py_index (length l)) ix ks -> np_take l ix = Ok (pick l ks).
  Proof.
    intros H. unfold np_take. apply rseq_ok_iff.
    induction H as [|i k ix ks H _ IH]; cbn; [reflexivity|].
    destruct (nth_error_ex l k) as [a Ha]; [apply H|]. rewrite Ha. cbn. rewrite IH.
    f_equal. apply np_get_ok. exists k. auto.
  Qed.

  Lemma Forall2_py_bound n ix ks : Forall2 (py_index n) ix ks -> Forall (fun k => k < n) ks.
  Proof. induction 1 as [|i k ix ks [H _] _ IH]; constructor; assumption. Qed.

  Lemma getitem_list_ok c ix ks :
    wf c -> Forall2 (py_index (c_size c)) ix ks ->
    exists c', getitem_list c ix = Ok c' /\ selects c ks c' /\ wf c'.
  Proof.
    intros Hwf Hk. unfold getitem_list.
    rewrite (on_t_ok c _ (fun t => pick t ks)).
    - cbn [rbind]. rewrite (np_take_ok _ _ ks) by exact Hk. cbn [rbind].
      apply select_pick; [assumption|]. eapply Forall2_py_bound; eauto.
    - intros t Ht. apply np_take_ok. destruct Hwf as (_ & _ & Hl). rewrite (Hl t Ht). exact Hk.
  Qed.

  Lemma rseq_raise {A B} (f : A -> res B) l :
    (exists x, In x l /\ f x = Raise IndexError) ->
    (forall x e, f x = Raise e -> e = IndexError) ->
    rseq (map f l) = Raise IndexError.
  Proof.
    intros (x & Hx & E) He. induction l as [|y l IH]; [destruct Hx|]. cbn.
    destruct (f y) as [b|e] eqn:Ey.
    - destruct Hx as [->|Hx]; [congruence|]. rewrite IH by assumption. reflexivity.
    - f_equal. eapply He; eauto.
  Qed.

  Lemma np_get_exn {A} (l : list A) i e : np_get l i = Raise e -> e = IndexError.
  Proof.
    unfold np_get. destruct (norm_index _ _); [destruct (nth_error _ _)|]; congruence.
  Qed.

  Lemma np_take_raise {A} (l : list A) ix i :
    In i ix -> (i < - Z.of_nat (length l) \/ Z.of_nat (length l) <= i)%Z ->
    np_take l ix = Raise IndexError.
  Proof.
    intros Hi Hr. apply rseq_raise.
    - exists i. split; [assumption|]. apply np_get_raise. assumption.
    - intros x e. apply np_get_exn.
  Qed.

  Lemma getitem_list_raise c ix i :
    wf c -> In i ix -> (i < - Z.of_nat (c_size c) \/ Z.of_nat (c_size c) <= i)%Z ->
    getitem_list c ix = Raise IndexError.
  Proof.
    intros (_ & _ & Hl) Hi Hr. unfold getitem_list, on_t.
    destruct (c_t c) as [t|] eqn:E; cbn [rmap rbind].
    - rewrite (np_take_raise _ _ i); [reflexivity|assumption|].
      rewrite (Hl t eq_refl). exact Hr.
    - rewrite (np_take_raise _ _ i); [reflexivity|assumption|]. exact Hr.
  Qed.

  Lemma np_mask_ok {A} (l : list A) m :
    length m = length l ->
    np_mask l m = Ok (pick l (positions (length l) (fun k => nth k m false))).
  Proof.
    intros H. unfold np_mask. rewrite H, Nat.eqb_refl. f_equal.
    apply mask_select_filter_seq. assumption.
  Qed.

  Lemma positions_bound n f : Forall (fun k => k < n) (positions n f).
  Proof.
    apply Forall_forall. intros k H. apply filter_In in H. destruct H as [H _].
    apply in_seq in H. lia.
  Qed.

  Lemma by_mask_ok c m :
    wf c -> length m = c_size c ->
    exists c', (do td <- on_t c (fun t => np_mask t m) ;
                do rows <- np_mask (c_rows c) m ;
                mk_curve rows (c_ndim c) (c_dtype c) td) = Ok c'
      /\ selects c (positions (c_size c) (fun k => nth k m false)) c' /\ wf c'.
  Proof.
    intros Hwf Hm.
    rewrite (on_t_ok c _ (fun t => pick t (positions (c_size c) (fun k => nth k m false)))).
    - cbn [rbind]. rewrite np_mask_ok by exact Hm. cbn [rbind].
      apply select_pick; [assumption|]. apply positions_bound.
    - intros t Ht. destruct Hwf as (_ & _ & Hl).
      rewrite np_mask_ok; rewrite (Hl t Ht); [reflexivity|exact Hm].
  Qed.

  Lemma by_mask_raise c m :
    wf c -> length m <> c_size c ->
    (do td <- on_t c (fun t => np_mask t m) ;
     do rows <- np_mask (c_rows c) m ;
     mk_curve rows (c_ndim c) (c_dtype c) td) = Raise IndexError.
  Proof.
    intros (_ & _ & Hl) Hm.
    assert (E : forall A (l : list A), length l = c_size c -> np_mask l m = Raise IndexError).
    { intros A l H. unfold np_mask. rewrite H.
      destruct (Nat.eqb_spec (c_size c) (length m)); [congruence|reflexivity]. }
    unfold on_t. destruct (c_t c) as [t|]; cbn [rmap rbind].
    - rewrite E by (apply Hl; reflexivity). reflexivity.
    - rewrite E by reflexivity. reflexivity.
  Qed.

  Lemma getitem_mask_ok c m :
    wf c -> length m = c_size c ->
    exists c', getitem_mask c m = Ok c'
      /\ selects c (positions (c_size c) (fun k => nth k m false)) c' /\ wf c'.
  Proof. apply by_mask_ok. Qed.

  Lemma getitem_mask_raise c m :
    wf c -> length m <> c_size c -> getitem_mask c m = Raise IndexError.
  Proof. apply by_mask_raise. Qed.

  (** *** Concatenation *)

  Definition add_ndim (c1 c2 : curve T) : nat :=
    match c_rows c1 ++ c_rows c2 with [] => 2 | _ => c_ndim c1 end.

  Lemma c_add_ok c1 c2 :
    wf c1 -> wf c2 -> c_ndim c1 = c_ndim c2 ->
    c_add c1 c2 = Ok (mkCurve (c_rows c1 ++ c_rows c2) (add_ndim c1 c2)
                        (promote (c_dtype c1) (c_dtype c2))
                        (match c_t c1, c_t c2 with
                         | Some t1, Some t2 => Some (t1 ++ t2) | _, _ => None end)).
  Proof.
    intros (Hn1 & Hr1 & Ht1) (Hn2 & Hr2 & Ht2) E. unfold c_add. rewrite E, Nat.eqb_refl.
    cbn [negb]. rewrite <- E. rewrite mk_curve_ok.
    - unfold add_ndim. reflexivity.
    - assumption.
    - intros r H. apply in_app_iff in H. destruct H as [H|H]; [auto|]. rewrite E. auto.
    - intros t H. rewrite app_length. destruct (c_t c1) as [t1|]; [|discriminate].
      destruct (c_t c2) as [t2|]; [|discriminate]. injection H as <-.
      rewrite app_length, (Ht1 t1 eq_refl), (Ht2 t2 eq_refl). reflexivity.
  Qed.

  Lemma wf_mk rows n dt td :
    2 <= n -> (forall r, In r rows -> length r = n) ->
    (forall t, td = Some t -> length t = length rows) ->
    wf (mkCurve (T:=T) rows (match rows with [] => 2 | _ => n end) dt td).
  Proof.
    intros Hn Hr Ht. apply (mk_curve_wf rows n dt td); try assumption.
    apply mk_curve_ok; assumption.
  Qed.

  Lemma c_add_wf c1 c2 c : wf c1 -> wf c2 -> c_add c1 c2 = Ok c -> wf c.
  Proof.
    intros H1 H2 H. destruct (Nat.eq_dec (c_ndim c1) (c_ndim c2)) as [E|E].
    - rewrite c_add_ok in H by assumption. injection H as <-.
      destruct H1 as (Hn1 & Hr1 & Ht1), H2 as (Hn2 & Hr2 & Ht2).
      apply wf_mk; [assumption| |].
      + intros r H. apply in_app_iff in H. destruct H as [H|H]; [auto|]. rewrite E. auto.
      + intros t H. rewrite app_length. destruct (c_t c1) as [t1|]; [|discriminate].
        destruct (c_t c2) as [t2|]; [|discriminate]. injection H as <-.
        rewrite app_length, (Ht1 t1 eq_refl), (Ht2 t2 eq_refl). reflexivity.
    - unfold c_add in H. destruct (Nat.eqb_spec (c_ndim c1) (c_ndim c2)); [contradiction|discriminate].
  Qed.

  Lemma c_add_raise c1 c2 :
    c_ndim c1 <> c_ndim c2 -> c_add c1 c2 = Raise ValueError.
  Proof.
    intros E. unfold c_add. destruct (Nat.eqb_spec (c_ndim c1) (c_ndim c2)); [contradiction|reflexivity].
  Qed.

  Lemma promote_assoc a b d : promote (promote a b) d = promote a (promote b d).
  Proof. destruct a, b, d; reflexivity. Qed.

  Lemma c_add_assoc (a b d : curve T) :
    wf a -> wf b -> wf d -> c_ndim a = c_ndim b -> c_ndim b = c_ndim d ->
    c_ndim b = 2 \/ c_rows b <> [] ->
    (do x <- c_add a b ; c_add x d) = (do y <- c_add b d ; c_add a y).
  Proof.
    intros Ha Hb Hd E1 E2 Hb0.
    destruct (c_add a b) as [x|e] eqn:Ex; [|rewrite c_add_ok in Ex by assumption; discriminate].
    destruct (c_add b d) as [y|e] eqn:Ey; [|rewrite c_add_ok in Ey by assumption; discriminate].
    cbn [rbind].
    assert (wf x) by (eapply c_add_wf; [exact Ha|exact Hb|exact Ex]).
    assert (wf y) by (eapply c_add_wf; [exact Hb|exact Hd|exact Ey]).
    rewrite c_add_ok in Ex by assumption. rewrite c_add_ok in Ey by assumption.
    assert (Hx : c_ndim x = c_ndim b).
    { injection Ex as <-. cbn. unfold add_ndim.
      destruct (c_rows a ++ c_rows b) eqn:E; [|assumption].
      apply app_eq_nil in E. destruct E as [_ E]. destruct Hb0; [lia|contradiction]. }
    assert (Hy : c_ndim y = c_ndim b).
    { injection Ey as <-. cbn. unfold add_ndim.
      destruct (c_rows b ++ c_rows d) eqn:E; [|reflexivity].
      apply app_eq_nil in E. destruct E as [E _]. destruct Hb0; [lia|contradiction]. }
    rewrite (c_add_ok x d) by (assumption || congruence).
    rewrite (c_add_ok a y) by (assumption || congruence).
    injection Ex as <-. injection Ey as <-. cbn [c_rows c_ndim c_dtype c_t] in *.
    f_equal. rewrite <- app_assoc, promote_assoc. f_equal.
    - unfold add_ndim. cbn [c_rows c_ndim]. rewrite <- app_assoc.
      destruct (c_rows a ++ c_rows b ++ c_rows d); [reflexivity|]. fold (add_ndim a b). congruence.
    - destruct (c_t a), (c_t b), (c_t d); try reflexivity. f_equal. symmetry. apply app_assoc.
  Qed.

  (** With a middle operand that loses its dimension. *)
  Lemma c_add_assoc_empty (a b d : curve T) :
    wf a -> wf b -> wf d -> c_ndim a = c_ndim b -> c_ndim b = c_ndim d -> c_ndim b <> 2 -> c_rows b = [] ->
    ((do x <- c_add a b ; c_add x d) = (do y <- c_add b d ; c_add a y) <-> (c_rows a = [] <-> c_rows d = [])).
  Proof.
    intros Ha Hb Hd E1 E2 N Eb. rewrite (c_add_ok a b), (c_add_ok b d) by assumption. cbn [rbind].
    set (x := mkCurve _ _ _ _). set (y := mkCurve _ _ _ _).
    assert (Wx : wf x) by (apply (c_add_wf a b x Ha Hb); rewrite c_add_ok by assumption; reflexivity).
    assert (Wy : wf y) by (apply (c_add_wf b d y Hb Hd); rewrite c_add_ok by assumption; reflexivity).
    assert (Nx : c_ndim x = match c_rows a with [] => 2 | _ => c_ndim a end) by (unfold x, add_ndim; cbn [c_ndim]; rewrite Eb, app_nil_r; reflexivity).
    assert (Ny : c_ndim y = match c_rows d with [] => 2 | _ => c_ndim b end) by (unfold y, add_ndim; cbn [c_ndim]; rewrite Eb; reflexivity).
    destruct (c_rows a) as [|ra rowsa] eqn:Ea; destruct (c_rows d) as [|rd rowsd] eqn:Ed.
    - rewrite !c_add_raise by congruence. tauto.
    - rewrite (c_add_raise x d), (c_add_ok a y) by (assumption || congruence). split; [discriminate|]. intros [H _]. specialize (H eq_refl). discriminate.
    - rewrite (c_add_ok x d), (c_add_raise a y) by (assumption || congruence). split; [discriminate|]. intros [_ H]. specialize (H eq_refl). discriminate.
    - rewrite (c_add_ok x d), (c_add_ok a y) by (assumption || congruence). split; [intros _; split; discriminate|intros _].
      unfold x, y, add_ndim. cbn [c_rows c_ndim c_dtype c_t]. rewrite Ea, Eb, Ed, <- app_assoc, promote_assoc. cbn [app]. do 2 f_equal.
      destruct (c_t a), (c_t b), (c_t d); try reflexivity. f_equal. symmetry. apply app_assoc.
  Qed.

  (** *** Splitting *)

  Definition take_slice (k : Z) : slice := mkSlice None (Some k) None.
  Definition drop_slice (k : Z) : slice := mkSlice (Some k) None None.

  Lemma pick_seq_to_end {A} (l : list A) a : a <= length l -> pick l (seq a (length l - a)) = skipn a l.
  Proof.
    intros H. rewrite pick_seq_firstn_skipn by lia. apply firstn_all2. rewrite skipn_length. lia.
  Qed.

  Lemma split_join c (k : Z) :
    wf c ->
    c_ndim c = 2 \/ (0 < k < Z.of_nat (c_size c))%Z \/ (- Z.of_nat (c_size c) < k < 0)%Z ->
    exists a b, getitem_slice c (take_slice k) = Ok a /\ getitem_slice c (drop_slice k) = Ok b
                /\ c_add a b = Ok c.
  Proof.
    intros Hwf Hk.
    destruct (getitem_slice_ok c (take_slice k) Hwf) as (a & Ha & Sa & Wa); [discriminate|].
    destruct (getitem_slice_ok c (drop_slice k) Hwf) as (b & Hb & Sb & Wb); [discriminate|].
    exists a, b. split; [assumption|]. split; [assumption|].
    set (n := c_size c) in *.
    set (h := Z.to_nat (clip 0 (Z.of_nat n) (if (k <? 0)%Z then k + Z.of_nat n else k)%Z)).
    assert (Ea : slice_spec (take_slice k) n = seq 0 h).
    { unfold take_slice. rewrite slice_spec_run. cbv zeta. cbn [bound].
      change (Z.to_nat 0) with 0. rewrite Nat.sub_0_r. reflexivity. }
    assert (Eb : slice_spec (drop_slice k) n = seq h (n - h)).
    { unfold drop_slice. rewrite slice_spec_run. cbv zeta. cbn [bound]. rewrite Nat2Z.id. reflexivity. }
    assert (Hh : h <= n) by (unfold h, clip; lia).
    rewrite Ea in Sa. rewrite Eb in Sb.
    destruct Sa as (Ra & Ta & Da & Na), Sb as (Rb & Tb & Db & Nb).
    apply at_positions_iff_pick in Ra; [|rewrite <- Ea; apply slice_spec_bound].
    apply at_positions_iff_pick in Rb; [|rewrite <- Eb; apply slice_spec_bound].
    rewrite pick_seq_firstn_skipn in Ra by exact Hh. cbn [skipn] in Ra.
    unfold n, c_size in Rb. rewrite pick_seq_to_end in Rb by exact Hh.
    assert (Hna : c_ndim a = c_ndim c).
    { destruct h eqn:Eh.
      - destruct Hk as [Hk|Hk].
        + destruct Wa as (? & Wr & _). cbn in Ra.
          rewrite Hk. unfold getitem_slice in Ha. rewrite np_slice_spec in Ha by discriminate.
          destruct (on_t c _) as [td|] in Ha; [|discriminate]. cbn [rbind] in Ha.
          unfold mk_curve in Ha. change (length (c_rows c)) with n in Ha. rewrite Ea in Ha. cbn in Ha.
          destruct td as [t|]; [destruct (Nat.eqb (length t) 0)|]; try discriminate; injection Ha as <-; reflexivity.
        + unfold h, clip in Eh. destruct (Z.ltb_spec k 0); lia.
      - apply Na. discriminate. }
    assert (Hnb : c_ndim b = c_ndim c).
    { destruct (n - h) eqn:Eh.
      - destruct Hk as [Hk|Hk].
        + rewrite Hk. unfold getitem_slice in Hb. rewrite np_slice_spec in Hb by discriminate.
          destruct (on_t c _) as [td|] in Hb; [|discriminate]. cbn [rbind] in Hb.
          unfold mk_curve in Hb. change (length (c_rows c)) with n in Hb. rewrite Eb in Hb. cbn in Hb.
          destruct td as [t|]; [destruct (Nat.eqb (length t) 0)|]; try discriminate; injection Hb as <-; reflexivity.
        + unfold h, clip in Eh. destruct (Z.ltb_spec k 0); lia.
      - apply Nb. discriminate. }
    rewrite c_add_ok by (assumption || congruence).
    f_equal. destruct c as [rows nd dt td]. cbn [c_rows c_ndim c_dtype c_t] in *.
    f_equal.
    - rewrite Ra, Rb. apply firstn_skipn.
    - unfold add_ndim. rewrite Ra, Rb, firstn_skipn.
      destruct rows as [|r0 rows0] eqn:Er; [|assumption].
      destruct Hk as [Hk|Hk]; [congruence|]. unfold n in Hk. cbn in Hk. lia.
    - rewrite Da, Db. destruct dt; reflexivity.
    - destruct Hwf as (_ & _ & Hl). cbn [c_t c_rows] in Hl.
      unfold at_positions_opt in Ta, Tb.
      destruct td as [t|]; destruct (c_t a) as [ta|]; destruct (c_t b) as [tb|]; try tauto.
      f_equal. specialize (Hl t eq_refl).
      assert (En : n = length t) by (unfold n; cbn; congruence). clearbody n. subst n.
      apply at_positions_iff_pick in Ta; [|rewrite <- Ea; apply slice_spec_bound].
      apply at_positions_iff_pick in Tb; [|rewrite <- Eb; apply slice_spec_bound].
      rewrite pick_seq_firstn_skipn in Ta by exact Hh. cbn [skipn] in Ta.
      rewrite pick_seq_to_end in Tb by exact Hh.
      rewrite Ta, Tb. apply firstn_skipn.
  Qed.

  (** *** Reverse *)

  Definition keeps_dim c : Prop := c_ndim c = 2 \/ c_rows c <> [].

  Lemma c_reverse_ok c :
    wf c -> c_reverse c = Ok (mkCurve (rev (c_rows c)) (match c_rows c with [] => 2 | _ => c_ndim c end)
                                (c_dtype c) (option_map (@rev T) (c_t c))).
  Proof.
    intros (Hn & Hr & Ht). unfold c_reverse. rewrite mk_curve_ok.
    - f_equal. f_equal. destruct (c_rows c) as [|r l]; [reflexivity|]. cbn.
      destruct (rev l ++ [r]) eqn:E; [|reflexivity]. apply app_eq_nil in E. destruct E; discriminate.
    - assumption.
    - intros r H. apply Hr. apply in_rev. assumption.
    - intros t H. destruct (c_t c) as [t0|]; [|discriminate]. injection H as <-.
      rewrite !rev_length. auto.
  Qed.

  Lemma c_reverse_wf c c' : wf c -> c_reverse c = Ok c' -> wf c'.
  Proof.
    intros Hwf H. rewrite c_reverse_ok in H by assumption. injection H as <-.
    destruct Hwf as (Hn & Hr & Ht). split; [|split]; cbn.
    - destruct (c_rows c); lia.
    - intros p Hp. apply in_rev in Hp. destruct (c_rows c); [destruct Hp|]. auto.
    - intros t H. destruct (c_t c) as [t0|]; [|discriminate]. injection H as <-.
      rewrite !rev_length. auto.
  Qed.

  Lemma c_reverse_involutive c :
    wf c -> keeps_dim c -> (do x <- c_reverse c ; c_reverse x) = Ok c.
  Proof.
    intros Hwf Hk. rewrite c_reverse_ok by assumption. cbn [rbind].
    rewrite c_reverse_ok by (eapply c_reverse_wf; [exact Hwf|]; apply c_reverse_ok; assumption).
    cbn [c_rows c_ndim c_dtype c_t]. f_equal.
    destruct c as [rows n dt t]. unfold keeps_dim in Hk. cbn in *. f_equal.
    - apply rev_involutive.
    - destruct rows as [|r rows]; cbn; [destruct Hk; [congruence|contradiction]|].
      destruct (rev rows ++ [r]) eqn:E; [|reflexivity]. apply app_eq_nil in E. destruct E; discriminate.
    - destruct t as [t|]; cbn; [|reflexivity]. f_equal. apply rev_involutive.
  Qed.

  (** *** Insert *)

  Lemma cast_row_length d (r : list T) : length (map (cast d) r) = length r.
  Proof. apply map_length. Qed.

  Lemma item_rows_length (x : item T) r :
    (forall c, x = ICurve c -> wf c) ->
    In r (item_rows x) -> length r = item_ndim x.
  Proof.
    intros H Hr. destruct x as [p|c]; cbn in *.
    - destruct Hr as [<-|[]]. reflexivity.
    - destruct (H c eq_refl) as (_ & W & _). auto.
  Qed.

  Definition new_rows c (x : item T) : list (list T) := map (map (cast (c_dtype c))) (item_rows x).

  Lemma new_rows_length c x r :
    (forall c, x = ICurve c -> wf c) -> c_ndim c = item_ndim x ->
    In r (new_rows c x) -> length r = c_ndim c.
  Proof.
    intros Hx E Hr. unfold new_rows in Hr. apply in_map_iff in Hr. destruct Hr as (r0 & <- & Hr).
    rewrite map_length, E. apply item_rows_length; assumption.
  Qed.

  Lemma c_insert_int_ok c i k x :
    wf c -> (forall c, x = ICurve c -> wf c) -> c_ndim c = item_ndim x ->
    k <= c_size c -> (i = Z.of_nat k \/ (i < 0 /\ i = Z.of_nat k - Z.of_nat (c_size c)))%Z ->
    exists c', c_insert c (IxInt i) x = Ok c' /\
      c_rows c' = firstn k (c_rows c) ++ new_rows c x ++ skipn k (c_rows c)
      /\ c_t c' = None /\ c_dtype c' = c_dtype c
      /\ (c_rows c' <> [] -> c_ndim c' = c_ndim c) /\ wf c'.
  Proof.
    intros Hwf Hx E Hk Hi. unfold c_insert. rewrite E, Nat.eqb_refl. cbn [negb].
    cbn [np_insert_ix]. unfold np_insert. fold (c_size c).
    destruct ((i <? - Z.of_nat (c_size c)) || (Z.of_nat (c_size c) <? i))%Z eqn:Eb.
    { apply orb_true_iff in Eb. lia. }
    cbn [rbind]. replace (Z.to_nat _) with k by (destruct (Z.ltb_spec i 0); lia).
    fold (new_rows c x).
    assert (Hr : forall r, In r (firstn k (c_rows c) ++ new_rows c x ++ skipn k (c_rows c)) -> length r = c_ndim c).
    { destruct Hwf as (_ & Hr & _). intros r H. rewrite !in_app_iff in H.
      destruct H as [H|[H|H]].
      - apply Hr. rewrite <- (firstn_skipn k (c_rows c)). apply in_app_iff. left. assumption.
      - eapply new_rows_length; eauto.
      - apply Hr. rewrite <- (firstn_skipn k (c_rows c)). apply in_app_iff. right. assumption. }
    rewrite <- E. rewrite mk_curve_ok; [|apply Hwf|exact Hr|discriminate].
    eexists. split; [reflexivity|]. cbn [c_rows c_t c_dtype c_ndim].
    split; [reflexivity|]. split; [reflexivity|]. split; [reflexivity|]. split.
    - intros H. destruct (firstn k (c_rows c) ++ new_rows c x ++ skipn k (c_rows c)); [contradiction|reflexivity].
    - apply wf_mk; [apply Hwf|exact Hr|discriminate].
  Qed.

  Lemma c_insert_int_raise c i x :
    c_ndim c = item_ndim x ->
    (i < - Z.of_nat (c_size c) \/ Z.of_nat (c_size c) < i)%Z ->
    c_insert c (IxInt i) x = Raise IndexError.
  Proof.
    intros E Hi. unfold c_insert. rewrite E, Nat.eqb_refl. cbn [negb np_insert_ix].
    unfold np_insert. fold (c_size c).
    destruct ((i <? - Z.of_nat (c_size c)) || (Z.of_nat (c_size c) <? i))%Z eqn:Eb; [reflexivity|].
    apply orb_false_iff in Eb. lia.
  Qed.

  Lemma c_insert_ndim c ix x :
    c_ndim c <> item_ndim x -> c_insert c ix x = Raise ValueError.
  Proof.
    intros H. unfold c_insert. destruct (Nat.eqb_spec (c_ndim c) (item_ndim x)); [contradiction|reflexivity].
  Qed.
End Gen.
