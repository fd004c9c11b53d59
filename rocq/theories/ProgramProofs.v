(** Well-formedness is an invariant of every program over curves. *)
From Coq Require Import ZArith List Bool Arith Lia.
From Verif Require Import Num Py Numeric Curve Spec ListFacts SliceProofs ArrayProofs CurveProofs CurveProofs2 Program.
Import ListNotations.

Section PP.
  Context {T : Type} {NT : Num T} {ST : NumSqrt T}.
  Implicit Types c : curve T.

  Lemma mk_curve_wf_any (rows : list (list T)) n dt td c :
    (forall r, In r rows -> length r = n) -> mk_curve rows n dt td = Ok c -> wf c.
  Proof.
    intros Hr H. unfold mk_curve in H.
    destruct (Nat.eqb_spec (length rows * n) 0) as [E|E]; cbn [length Nat.mul Nat.eqb negb andb] in H.
    - destruct td as [t|]; [destruct (Nat.eqb_spec (length t) 0)|]; try discriminate;
        injection H as <-; split; [|split| |split]; cbn; try lia; try tauto; try discriminate.
      intros t' E'. injection E' as <-. assumption.
    - destruct (Nat.eqb_spec (length rows * n) 0); [contradiction|]. cbn [negb andb] in H.
      destruct (Nat.ltb_spec n 2); [discriminate|].
      destruct td as [t|]; [destruct (Nat.eqb_spec (length t) (length rows))|]; try discriminate;
        injection H as <-; split; [|split| |split]; cbn; try lia; try assumption; try discriminate.
      intros t' E'. injection E' as <-. assumption.
  Qed.

  Lemma rbind_ok {A B} (r : res A) (f : A -> res B) b :
    rbind r f = Ok b -> exists a, r = Ok a /\ f a = Ok b.
  Proof. destruct r as [a|e]; cbn; [eauto|discriminate]. Qed.

  Lemma rmap_ok {A B} (r : res A) (f : A -> B) b :
    rmap f r = Ok b -> exists a, r = Ok a /\ f a = b.
  Proof. destruct r as [a|e]; cbn; [|discriminate]. intros H. injection H as <-. eauto. Qed.

  Lemma np_take_in {A} (l : list A) ix l' a : np_take l ix = Ok l' -> In a l' -> In a l.
  Proof.
    intros H Ha. apply rseq_ok_iff in H.
    assert (Hin : In (Ok a) (map (np_get l) ix)) by (rewrite H; apply in_map; assumption).
    apply in_map_iff in Hin. destruct Hin as (i & Hi & _). apply np_get_ok in Hi.
    destruct Hi as (k & _ & Hk). eapply nth_error_In; eauto.
  Qed.

  Lemma np_slice_in {A} (l : list A) s l' a : np_slice l s = Ok l' -> In a l' -> In a l.
  Proof. intros H Ha. apply rmap_ok in H. destruct H as (ps & _ & <-). eapply pick_in; eauto. Qed.

  Lemma np_mask_in {A} (l : list A) m l' a : np_mask l m = Ok l' -> In a l' -> In a l.
  Proof.
    unfold np_mask. destruct (Nat.eqb _ _); [|discriminate]. intros H. injection H as <-.
    apply mask_select_in.
  Qed.

  Lemma np_delete_in {A} (l : list A) ix l' a : np_delete l ix = Ok l' -> In a l' -> In a l.
  Proof. intros H Ha. apply rmap_ok in H. destruct H as (ps & _ & <-). eapply mask_select_in; eauto. Qed.

  Lemma firstn_in {A} k (l : list A) a : In a (firstn k l) -> In a l.
  Proof. intros H. rewrite <- (firstn_skipn k l). apply in_app_iff. auto. Qed.

  Lemma skipn_in {A} k (l : list A) a : In a (skipn k l) -> In a l.
  Proof. intros H. rewrite <- (firstn_skipn k l). apply in_app_iff. auto. Qed.

  Lemma weave_in {A} (l vals : list A) finals a : In a (weave l finals vals) -> In a l \/ In a vals.
  Proof.
    unfold weave. rewrite in_flat_map. intros (p & _ & H).
    destruct (last_pos p finals 0) as [q|].
    - destruct (nth_error vals q) eqn:E; [|destruct H]. destruct H as [<-|[]].
      right. eapply nth_error_In; eauto.
    - destruct (nth_error l _) eqn:E; [|destruct H]. destruct H as [<-|[]].
      left. eapply nth_error_In; eauto.
  Qed.

  Lemma np_insert_in {A} (l : list A) i vals l' a :
    np_insert l i vals = Ok l' -> In a l' -> In a l \/ In a vals.
  Proof.
    unfold np_insert. destruct (_ || _)%bool; [discriminate|]. intros H. injection H as <-.
    rewrite !in_app_iff. intros [H|[H|H]]; [left|right|left]; eauto using firstn_in, skipn_in.
  Qed.

  Lemma np_insert_many_in {A} (l : list A) ix vals l' a :
    np_insert_many l ix vals = Ok l' -> In a l' -> In a l \/ In a vals.
  Proof.
    unfold np_insert_many. intros H Ha. apply rbind_ok in H. destruct H as (fin & _ & H).
    apply rbind_ok in H. destruct H as (vs & Hv & H).
    destruct (nodupb fin); [|discriminate]. injection H as <-.
    apply weave_in in Ha. destruct Ha as [Ha|Ha]; [left; assumption|right].
    destruct (Nat.eqb _ _); [injection Hv as <-; assumption|].
    destruct vals as [|v [|]]; try discriminate. injection Hv as <-.
    apply repeat_spec in Ha. left. congruence.
  Qed.

  Lemma np_insert_ix_in {A} (l : list A) ix vals l' a :
    np_insert_ix l ix vals = Ok l' -> In a l' -> In a l \/ In a vals.
  Proof.
    unfold np_insert_ix. destruct ix as [i|s|js]; intros H.
    - eapply np_insert_in; eauto.
    - apply rbind_ok in H. destruct H as (ps & _ & H).
      destruct (map Z.of_nat ps) as [|i [|]]; eauto using np_insert_in, np_insert_many_in.
    - destruct js as [|i [|]]; eauto using np_insert_in, np_insert_many_in.
  Qed.

  Lemma curve_init_wf src td ax nm d c :
    (match src with
     | SArray a _ | SSeq a => nd_wf a
     | SCurve c0 => wf c0 end) ->
    (forall t, td = Some t -> nd_wf t) ->
    curve_init src td ax nm d = Ok c -> wf c.
  Proof.
    intros Hs Ht H. unfold curve_init in H.
    destruct ((match nm with None => 2 | Some k => k end <? 2)%Z) eqn:Enm; [discriminate|].
    apply Z.ltb_ge in Enm.
    set (nmin := Z.to_nat (match nm with None => 2%Z | Some k => k end)) in *.
    assert (Hnmin : 2 <= nmin) by (unfold nmin; lia).
    match type of H with
    | (let '(x, y) := ?P in _) = _ => destruct P as [[[arr adt] td'] ax'] eqn:EP
    end.
    assert (Harr : nd_wf arr /\ (forall t, td' = Some t -> nd_wf t)).
    { destruct src as [a dt|a|c0]; injection EP as <- <- <- <-; try (split; assumption).
      split.
      - destruct Hs as (_ & Hr & _). unfold nd_wf, nd_size. cbn.
        rewrite (concat_length _ _ Hr). unfold c_size. lia.
      - intros t E. destruct (c_t c0) as [t0|]; [|discriminate]. injection E as <-.
        unfold nd_wf, nd_size. cbn. lia. }
    destruct Harr as [Ha Ht']. clear EP.
    apply rbind_ok in H. destruct H as ([rows0 n] & H0 & H).
    pose proof (as2d_rect _ _ _ _ Ha H0) as Hr0.
    set (dd := match d with Some d => d | None => match adt with Some d => d | None => DFloat end end) in *.
    set (rows1 := map (map (cast dd)) rows0) in *.
    assert (Hr1 : forall r, In r rows1 -> length r = n).
    { intros r Hr. unfold rows1 in Hr. apply in_map_iff in Hr. destruct Hr as (r0 & <- & Hr).
      rewrite map_length. auto. }
    clearbody rows1 dd nmin.
    assert (G : forall rows2 n2, (forall r, In r rows2 -> length r = n2) ->
      (rows2 = [] -> 2 <= n2) ->
      (if negb (Nat.eqb (length rows2 * n2) 0) && Nat.ltb n2 2 then Raise ValueError
       else
        let '(rows3, n3) :=
          if (match nm with None => false | Some _ => true end)
             && negb (Nat.eqb (length rows2) 0) && Nat.ltb n2 nmin
          then (map (fun r => r ++ repeat n0 (nmin - n2)) rows2, nmin)
          else (rows2, n2) in
        match td' with
        | None => Ok (mkCurve rows3 n3 dd None)
        | Some t =>
            if negb (Nat.eqb (nd_ndim t) 1) then Raise ValueError
            else if negb (Nat.eqb (nd_size t) (length rows3)) then Raise ValueError
            else Ok (mkCurve rows3 n3 dd (Some (nd_flat t)))
        end) = Ok c -> (length rows2 * n2 = 0 -> rows2 = []) -> wf c).
    { clear H Hr1 Hr0 H0. intros rows2 n2 Hr2 Hn2 H Hz.
      destruct (negb (Nat.eqb (length rows2 * n2) 0) && Nat.ltb n2 2) eqn:E1; [discriminate|].
      assert (Hn2' : 2 <= n2).
      { apply andb_false_iff in E1. destruct E1 as [E1|E1].
        - apply negb_false_iff, Nat.eqb_eq in E1. auto.
        - apply Nat.ltb_ge in E1. assumption. }
      match type of H with
      | (let '(x, y) := ?P in _) = _ => destruct P as [rows3 n3] eqn:EP
      end.
      assert (H3 : 2 <= n3 /\ forall r, In r rows3 -> length r = n3).
      { destruct (_ && _ && _)%bool eqn:E2; injection EP as <- <-; [|split; assumption].
        apply andb_true_iff in E2. destruct E2 as [_ E2]. apply Nat.ltb_lt in E2.
        split; [assumption|]. intros r Hr. apply in_map_iff in Hr. destruct Hr as (r0 & <- & Hr).
        rewrite app_length, repeat_length, (Hr2 _ Hr). lia. }
      destruct H3 as [Hn3 Hr3].
      destruct td' as [t|].
      - destruct (Nat.eqb_spec (nd_ndim t) 1); [|discriminate]. cbn [negb] in H.
        destruct (Nat.eqb_spec (nd_size t) (length rows3)) as [Et|]; [|discriminate]. cbn [negb] in H.
        injection H as <-. split; [|split]; cbn; try assumption.
        intros t' E. injection E as <-. rewrite <- Et. apply Ht'. reflexivity.
      - injection H as <-. split; [|split]; cbn; try assumption. discriminate. }
    destruct (Nat.eqb_spec (length rows1 * n) 0) as [E|E].
    - apply (G [] nmin); [intros r []|auto|exact H|reflexivity].
    - apply (G rows1 n); [assumption| |exact H|intros; contradiction].
      intros ->. cbn in E. lia.
  Qed.

  Lemma on_td_mk c (rows : res (list (list T))) (td : res (option (list T))) n c' :
    (forall rs, rows = Ok rs -> forall r, In r rs -> length r = n) ->
    (do t <- td ; do rs <- rows ; mk_curve rs n (c_dtype c) t) = Ok c' -> wf c'.
  Proof.
    intros Hr H. apply rbind_ok in H. destruct H as (t & _ & H).
    apply rbind_ok in H. destruct H as (rs & E & H).
    eapply mk_curve_wf_any; [|exact H]. eauto.
  Qed.

  Lemma c_insert_wf c ix x c' :
    wf c -> (forall c2, x = ICurve c2 -> wf c2) -> c_insert c ix x = Ok c' -> wf c'.
  Proof.
    intros Hwf Hx H. unfold c_insert in H.
    destruct (Nat.eqb_spec (c_ndim c) (item_ndim x)) as [E|]; [|discriminate]. cbn [negb] in H.
    apply rbind_ok in H. destruct H as (rows & Hrows & H).
    eapply mk_curve_wf_any; [|exact H]. intros r Hr.
    apply (np_insert_ix_in _ _ _ _ _ Hrows) in Hr. destruct Hr as [Hr|Hr].
    - destruct Hwf as (_ & W & _). auto.
    - eapply new_rows_length; eauto.
  Qed.

  Lemma c_insertdim_wf c axis v c' : wf c -> c_insertdim c axis v = Ok c' -> wf c'.
  Proof.
    intros (Hn & Hr & _) H. unfold c_insertdim in H.
    destruct ((axis <? - Z.of_nat (c_ndim c)) || (Z.of_nat (c_ndim c) <? axis))%Z eqn:Eb; [discriminate|].
    apply orb_false_iff in Eb. destruct Eb as [E1 E2]. apply Z.ltb_ge in E1, E2.
    apply rbind_ok in H. destruct H as (vals & _ & H).
    eapply mk_curve_wf_any; [|exact H]. intros r H0. apply in_map_iff in H0.
    destruct H0 as ([r0 w] & <- & H0). apply in_combine_l in H0. apply Hr in H0.
    rewrite app_length. cbn [length]. rewrite firstn_length, skipn_length.
    destruct (Z.ltb_spec axis 0); lia.
  Qed.

  Lemma c_deletedim_wf c ix c' : wf c -> c_deletedim c ix = Ok c' -> wf c'.
  Proof.
    intros (Hn & Hr & _) H. unfold c_deletedim in H.
    destruct (Nat.eqb_spec (c_ndim c) 2); [discriminate|].
    apply rbind_ok in H. destruct H as (ps & _ & H).
    eapply mk_curve_wf_any; [|exact H]. intros r H0. apply in_map_iff in H0.
    destruct H0 as (r0 & <- & H0). apply Hr in H0.
    apply mask_select_length. rewrite keep_mask_length. lia.
  Qed.

  Lemma c_drop_wf c isa c' : wf c -> c_drop c isa = Ok c' -> wf c'.
  Proof.
    intros Hwf H. pose proof Hwf as (Hn & Hr & _). unfold c_drop in H.
    destruct (isa (c_rows c)) as [m|m|l|].
    - eapply on_td_mk; [|exact H]. intros rs E r Hin. apply Hr. eapply np_mask_in; eauto.
    - eapply on_td_mk; [|exact H]. intros rs E r Hin. apply Hr. eapply np_mask_in; eauto.
    - unfold c_delete in H. eapply on_td_mk; [|exact H].
      intros rs E r Hin. apply Hr. eapply np_delete_in; eauto.
    - discriminate.
  Qed.

  Lemma exec_wf st o c : Forall wf st -> valid_op o -> exec st o = Ok c -> wf c.
  Proof.
    intros Hst Hv H.
    assert (D : forall h c, deref st h = Ok c -> wf c).
    { intros h x E. unfold deref in E. destruct (nth_error st h) eqn:En; [|discriminate].
      injection E as <-. rewrite Forall_forall in Hst. apply Hst. eapply nth_error_In; eauto. }
    destruct o; cbn [exec valid_op] in *;
      try (apply rbind_ok in H; destruct H as (c1 & H1 & H); apply D in H1);
      try (apply rbind_ok in H; destruct H as (c2 & H2 & H); apply D in H2).
    - destruct Hv. eapply curve_init_wf; [|eassumption|eassumption]; assumption.
    - destruct Hv. eapply curve_init_wf; [|eassumption|eassumption]; assumption.
    - eapply curve_init_wf; [|eassumption|eassumption]; assumption.
    - unfold getitem_slice in H. eapply on_td_mk; [|exact H].
      intros rs E r Hin. apply H1. eapply np_slice_in; eauto.
    - unfold getitem_list in H. eapply on_td_mk; [|exact H].
      intros rs E r Hin. apply H1. eapply np_take_in; eauto.
    - unfold getitem_mask in H. eapply on_td_mk; [|exact H].
      intros rs E r Hin. apply H1. eapply np_mask_in; eauto.
    - unfold subcurve, getitem_slice in H. eapply on_td_mk; [|exact H].
      intros rs E r Hin. apply H1. eapply np_slice_in; eauto.
    - eapply (c_add_wf c1 c2); [exact H1|exact H2|exact H].
    - exact (c_reverse_wf _ _ H1 H).
    - eapply c_insert_wf; [| |exact H]; [assumption|discriminate].
    - eapply c_insert_wf; [| |exact H]; [assumption|]. intros c3 E. injection E as <-. assumption.
    - eapply c_insert_wf; [| |exact H]; [assumption|discriminate].
    - eapply c_insert_wf; [| |exact H]; [assumption|]. intros c3 E. injection E as <-. assumption.
    - unfold c_delete in H. eapply on_td_mk; [|exact H].
      intros rs E r Hin. apply H1. eapply np_delete_in; eauto.
    - eapply c_insertdim_wf; eassumption.
    - eapply c_insertdim_wf; eassumption.
    - eapply c_deletedim_wf; eassumption.
    - destruct (c_unique_ok c1 H1) as (c' & E & _ & W). congruence.
    - eapply c_drop_wf; eassumption.
    - unfold c_nonsingular in H. destruct (c_bool c1); [|discriminate]. cbn [negb] in H.
      eapply c_drop_wf; eassumption.
    - unfold c_copy in H. eapply (curve_init_wf (SCurve c1) None); [exact H1|discriminate|exact H].
    - unfold c_coorientplane in H. apply rbind_ok in H. destruct H as (b & _ & H).
      destruct b; cbn [negb] in H.
      + eapply (curve_init_wf (SCurve c1) None); [exact H1|discriminate|exact H].
      + exact (c_reverse_wf _ _ H1 H).
  Qed.

  Lemma run_wf prog : Forall valid_op prog -> Forall wf (run prog).
  Proof.
    intros H. unfold run.
    assert (G : forall st, Forall wf st -> Forall wf (fold_left step prog st)).
    { induction H as [|o prog Ho _ IH]; intros st Hst; cbn; [assumption|].
      apply IH. unfold step. destruct (exec st o) as [c|e] eqn:E; [|assumption].
      apply Forall_app. split; [assumption|]. constructor; [eapply exec_wf; eassumption|constructor]. }
    apply G. constructor.
  Qed.

  (** Failed operations and later operations never alter curves already made. *)
  Lemma step_prefix st o : exists l, step st o = st ++ l.
  Proof.
    unfold step. destruct (exec st o) as [c|e]; [eauto|]. exists []. rewrite app_nil_r. reflexivity.
  Qed.
End PP.
