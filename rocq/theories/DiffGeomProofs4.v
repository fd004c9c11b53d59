(** Lengths of the property arrays for every scalar type, curve points,
    selections of points and arc length. *)
From Coq Require Import ZArith List Bool Arith Lia Reals Lra Sorting.Sorted.
From Verif Require Import Num Py Numeric Curve Vec DiffGeom Spec GeomSpec ListFacts CurveProofs CurveProofs2 CurveProofs3 VecFacts GeomProofs.
From Verif Require Import DiffGeomProofs DiffGeomProofs2 DiffGeomProofs3.
Import ListNotations.

Section Gen.
  Context {T : Type} {NT : Num T} {ST : NumSqrt T}.
  Implicit Types rows : list (list T).

  Lemma gen_gradient_length rows : length (gradient rows) = length rows.
  Proof.
    unfold gradient. destruct rows as [|a [|b [|c r]]]; try reflexivity. cbn [length].
    unfold np_gradient. rewrite map_length, seq_length. reflexivity.
  Qed.
  Lemma gen_map2_length {A B C} (f : A -> B -> C) u v n : length u = n -> length v = n -> length (map2 f u v) = n.
  Proof. intros H1 H2. rewrite map2_length, H1, H2. apply Nat.min_id. Qed.
  Lemma gen_combine_length {A B} (u : list A) (v : list B) n : length u = n -> length v = n -> length (combine u v) = n.
  Proof. intros H1 H2. rewrite combine_length, H1, H2. apply Nat.min_id. Qed.
  Lemma gen_d1 rows : length (deriv1 rows) = length rows. Proof. apply gen_gradient_length. Qed.
  Lemma gen_d2 rows : length (deriv2 rows) = length rows. Proof. unfold deriv2. rewrite gen_gradient_length. apply gen_d1. Qed.
  Lemma gen_d3 rows : length (deriv3 rows) = length rows. Proof. unfold deriv3. rewrite gen_gradient_length. apply gen_d2. Qed.
  Lemma gen_e1 rows : length (frenet1_rows rows) = length rows. Proof. unfold frenet1_rows. rewrite map_length. apply gen_d1. Qed.
  Lemma gen_n rows : length (normal_rows rows) = length rows. Proof. apply gen_map2_length; [apply gen_d2|apply gen_e1]. Qed.
  Lemma gen_e2 rows : length (frenet2_rows rows) = length rows. Proof. unfold frenet2_rows. rewrite map_length. apply gen_n. Qed.
  Lemma gen_b rows : length (binormal_rows rows) = length rows.
  Proof. apply gen_map2_length; [apply gen_d3|apply gen_combine_length; [apply gen_e1|apply gen_e2]]. Qed.
  Lemma gen_e3 rows : length (frenet3_rows rows) = length rows. Proof. unfold frenet3_rows. rewrite map_length. apply gen_b. Qed.

  Lemma gen_chordlen rows : length (chordlen_rows rows) = length rows - 1.
  Proof.
    unfold chordlen_rows. rewrite map_length. induction rows as [|a [|b r] IH]; cbn; [reflexivity|reflexivity|].
    cbn in IH. rewrite IH. lia.
  Qed.
  Lemma gen_cumarclen junk (c : curve T) : c_bool c = true -> length (c_cumarclen junk c) = c_size c.
  Proof.
    intros B. unfold c_cumarclen. rewrite c_chordlen_rows by assumption. cbn [length]. rewrite cumsum_length, gen_chordlen.
    apply c_bool_rows in B. unfold c_size. destruct (c_rows c); [contradiction|]. cbn. lia.
  Qed.

  (** Every property of a non-empty curve has one entry per point. *)
  Definition entries (a : arr T) : nat :=
    match a with AVec v => length v | AMat r => length r | ANil _ => 0 end.
  Lemma prop_entries junk (c : curve T) q a : wf c -> c_bool c = true -> curve_prop junk c q = Ok a ->
    entries a = c_size c /\ (forall k, a <> ANil k).
  Proof.
    intros (_ & _ & Ht) B. rewrite prop_nonempty by assumption. unfold c_size.
    destruct q; try (intros H; injection H as <-; split; [cbn [entries]|discriminate]).
    - unfold c_tval. destruct (c_t c) eqn:E; [apply Ht; reflexivity|apply gen_cumarclen; assumption].
    - apply gen_cumarclen; assumption.
    - apply gen_d1.
    - apply gen_d2.
    - apply gen_d3.
    - apply gen_d1.
    - apply gen_n.
    - apply gen_b.
    - unfold speed_rows. rewrite map_length. apply gen_d1.
    - apply gen_e1.
    - apply gen_e2.
    - apply gen_e3.
    - destruct (Nat.eqb (c_ndim c) 2).
      + unfold curvature_plane. destruct (Nat.eqb _ 1); [discriminate|]. intros H. injection H as <-. split; [|discriminate].
        cbn [entries]. apply gen_map2_length; [apply gen_d1|apply gen_d2].
      + intros H. injection H as <-. split; [|discriminate]. cbn [entries]. unfold curvature_space.
        apply gen_map2_length; [rewrite gen_gradient_length; apply gen_e1|apply gen_d1].
    - unfold torsion_rows. apply gen_map2_length; [|apply gen_d1]. apply gen_combine_length; [|apply gen_e3].
      rewrite gen_gradient_length. apply gen_e2.
  Qed.

  (** What getitem_int accepts, and how it numbers the point. *)
  Lemma getitem_int_cases (c : curve T) i idx r : getitem_int c i = Ok (idx, r) ->
    exists k, nth_error (c_rows c) k = Some r /\ k < c_size c /\ (idx = Z.of_nat k \/ idx = Z.of_nat k - Z.of_nat (c_size c))%Z.
  Proof.
    unfold getitem_int. cbv zeta. unfold np_get. fold (c_size c).
    set (j := if (i <? 0)%Z then (Z.of_nat (c_size c) + i)%Z else i). unfold norm_index.
    destruct (_ || _) eqn:E; [discriminate|]. cbn [rbind].
    destruct (nth_error (c_rows c) _) as [x|] eqn:F; cbn [rbind]; [|discriminate]. intros H. injection H as <- <-.
    eexists. split; [exact F|]. split.
    - apply (proj1 (nth_error_Some (c_rows c) _)). rewrite F. discriminate.
    - destruct (Z.ltb_spec j 0); lia.
  Qed.

  Lemma np_get_wrapped {A} (l : list A) n k idx : length l = n -> k < n ->
    (idx = Z.of_nat k \/ idx = Z.of_nat k - Z.of_nat n)%Z ->
    exists x, nth_error l k = Some x /\ np_get l idx = Ok x.
  Proof.
    intros L Hk Hi. destruct (nth_error l k) as [x|] eqn:E; [|apply nth_error_None in E; lia].
    exists x. split; [reflexivity|]. unfold np_get, norm_index. rewrite L.
    replace ((idx <? - Z.of_nat n) || (Z.of_nat n <=? idx))%Z with false by (symmetry; apply orb_false_iff; split; [apply Z.ltb_ge|apply Z.leb_gt]; lia).
    replace (Z.to_nat (if (idx <? 0)%Z then idx + Z.of_nat n else idx)%Z) with k by (destruct (Z.ltb_spec idx 0); lia).
    rewrite E. reflexivity.
  Qed.

  Lemma point_prop_row junk (c : curve T) i idx r q : wf c -> getitem_int c i = Ok (idx, r) ->
    exists k, k < c_size c /\ nth_error (c_rows c) k = Some r /\
      match curve_prop junk c q with
      | Ok (AVec v) => exists x, nth_error v k = Some x /\ point_prop junk c idx q = Ok (VNum x)
      | Ok (AMat m) => exists x, nth_error m k = Some x /\ point_prop junk c idx q = Ok (VRow x)
      | Ok (ANil _) => False
      | Raise e => point_prop junk c idx q = Raise e
      end.
  Proof.
    intros W G. destruct (getitem_int_cases c i idx r G) as (k & E & Hk & Hi). exists k. split; [assumption|]. split; [assumption|].
    assert (B : c_bool c = true) by (apply c_bool_wf; [assumption|]; intros N; unfold c_size in Hk; rewrite N in Hk; cbn in Hk; lia).
    assert (Q : point_prop junk c idx q = (do a <- curve_prop junk c q ; arr_get a idx)).
    { unfold point_prop. destruct q; try reflexivity; unfold curve_prop; rewrite B; reflexivity. }
    rewrite Q. destruct (curve_prop junk c q) as [a|e] eqn:P; cbn [rbind]; [|reflexivity].
    destruct (prop_entries junk c q a W B P) as (L & N).
    destruct a as [v|m|ax]; cbn [entries arr_get] in *; [| |exact (N ax eq_refl)].
    - destruct (np_get_wrapped v (c_size c) k idx L Hk Hi) as (x & Ex & Gx). exists x. rewrite Gx. auto.
    - destruct (np_get_wrapped m (c_size c) k idx L Hk Hi) as (x & Ex & Gx). exists x. rewrite Gx. auto.
  Qed.
End Gen.

(** ** Selecting points *)

Lemma at_positions_sublist {A} (l : list A) : forall ks l' o, ascending ks -> (forall k, In k ks -> o <= k) ->
  Forall2 (fun k a => nth_error l (k - o) = Some a) ks l' -> sublist l' l.
Proof.
  induction l as [|x l IH]; intros ks l' o Asc Lo H.
  - destruct H as [|k a ks l' Hk _]; [constructor|]. destruct (k - o); discriminate.
  - destruct H as [|k a ks l' Hk H].
    { clear. assert (Q : forall r : list A, sublist [] r) by (induction r; constructor; assumption). apply Q. }
    assert (Asc' : ascending ks) by (intros i j p q Hij Hp Hq; apply (Asc (S i) (S j)); [lia|assumption|assumption]).
    assert (Hlt : forall q, In q ks -> k < q).
    { intros q Hq. apply In_nth_error in Hq. destruct Hq as (j & Hj). apply (Asc 0 (S j) k q); [lia|reflexivity|assumption]. }
    pose proof (Lo k (or_introl eq_refl)) as Lk.
    destruct (Nat.eq_dec k o) as [->|NE].
    + rewrite Nat.sub_diag in Hk. cbn in Hk. injection Hk as ->. apply sub_keep.
      apply (IH ks l' (S o) Asc'); [intros q Hq; apply Hlt in Hq; lia|].
      clear -H Hlt. induction H as [|q b ks l' Hq H IH]; constructor.
      * pose proof (Hlt q (or_introl eq_refl)). replace (q - o) with (S (q - S o)) in Hq by lia. assumption.
      * apply IH. intros z Hz. apply Hlt. right. assumption.
    + apply sub_skip. apply (IH (k :: ks) (a :: l') (S o) Asc).
      * intros q [<-|Hq]; [lia|]. apply Hlt in Hq. lia.
      * constructor.
        -- replace (k - o) with (S (k - S o)) in Hk by lia. assumption.
        -- clear -H Hlt Lk. induction H as [|q b ks l' Hq H IH]; constructor.
           ++ pose proof (Hlt q (or_introl eq_refl)). replace (q - o) with (S (q - S o)) in Hq by lia. assumption.
           ++ apply IH. intros z Hz. apply Hlt. right. assumption.
Qed.

Lemma selects_arclen (c c' : curve R) ks junk junk' : wf c -> wf c' -> c_rows c' <> [] -> selects c ks c' -> ascending ks ->
  (c_arclen junk' c' <= c_arclen junk c)%R.
Proof.
  intros (W1 & W & W3) W' N (A & _) Asc.
  assert (SL : sublist (c_rows c') (c_rows c)).
  { apply (at_positions_sublist (c_rows c) ks _ 0 Asc); [intros; lia|]. unfold at_positions in A.
    clear -A. induction A; constructor; [rewrite Nat.sub_0_r; assumption|assumption]. }
  assert (N' : c_rows c <> []) by (intros E; rewrite E in SL; inversion SL; congruence).
  assert (D' : dims (c_ndim c) (c_rows c')) by (intros p Hp; apply W, (sublist_in _ _ SL), Hp).
  rewrite (arclen_polyline (c_ndim c)); [|assumption|apply c_bool_wf; assumption].
  rewrite (arclen_polyline (c_ndim c)); [|exact W|apply c_bool_wf; [split; [assumption|split; assumption]|assumption]].
  apply (polyline_sublist (c_ndim c)); [exact W|assumption].
Qed.

Lemma sublist_mid {A} (l m r : list A) : sublist (l ++ r) (l ++ m ++ r).
Proof.
  induction l as [|a l IH]; cbn [app]; [|apply sub_keep; assumption].
  induction m as [|b m IH]; cbn [app]; [|apply sub_skip; assumption].
  induction r as [|b r IH]; [constructor|apply sub_keep; assumption].
Qed.
