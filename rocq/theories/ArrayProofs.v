(** Proofs about as2d (row-major arithmetic). *)
From Coq Require Import ZArith List Bool Arith Lia Sorted Permutation.
From Verif Require Import Num Py Numeric Curve Spec ListFacts.
Import ListNotations.

Notation prod := (fold_right Nat.mul 1).

Lemma unravel_valid shape k :
  k < prod shape -> Forall2 lt (unravel shape k) shape.
Proof.
  revert k. induction shape as [|n shape IH]; intros k H; cbn in *; [constructor|].
  assert (prod shape <> 0) by (intros E; rewrite E in H; lia).
  constructor.
  - apply Nat.div_lt_upper_bound; lia.
  - apply IH. apply Nat.mod_upper_bound. assumption.
Qed.

Lemma ravel_lt shape idx :
  Forall2 lt idx shape -> ravel shape idx < prod shape.
Proof. induction 1 as [|i n idx shape H _ IH]; cbn; [lia|]. nia. Qed.

Lemma ravel_unravel shape k : k < prod shape -> ravel shape (unravel shape k) = k.
Proof.
  revert k. induction shape as [|n shape IH]; intros k H; cbn in *; [lia|].
  assert (prod shape <> 0) by (intros E; rewrite E in H; lia).
  rewrite IH by (apply Nat.mod_upper_bound; assumption).
  rewrite (Nat.div_mod k (prod shape)) at 3 by assumption. lia.
Qed.

Lemma unravel_ravel shape idx :
  Forall2 lt idx shape -> unravel shape (ravel shape idx) = idx.
Proof.
  induction 1 as [|i n idx shape H H2 IH]; cbn; [reflexivity|].
  apply ravel_lt in H2.
  assert (prod shape <> 0) by lia.
  f_equal.
  - rewrite Nat.add_comm, Nat.div_add by assumption. rewrite Nat.div_small; lia.
  - rewrite Nat.add_comm, Nat.mod_add by assumption. rewrite Nat.mod_small by lia. assumption.
Qed.

Lemma pick_one {A} (l : list A) k a : nth_error l k = Some a -> pick l [k] = [a].
Proof. intros H. cbn. rewrite H. reflexivity. Qed.

Lemma split_at {A} (l : list A) k a :
  nth_error l k = Some a -> l = firstn k l ++ a :: skipn (S k) l.
Proof.
  revert k. induction l as [|x l IH]; intros [|k] H; cbn in *; try discriminate.
  - congruence.
  - f_equal. apply IH. assumption.
Qed.

Lemma prod_app l1 l2 : prod (l1 ++ l2) = prod l1 * prod l2.
Proof. induction l1 as [|x l IH]; cbn; [lia|]. rewrite IH. lia. Qed.

Lemma move_front_eq {A} (l : list A) k a :
  nth_error l k = Some a -> move_front l k = a :: firstn k l ++ skipn (S k) l.
Proof. intros H. unfold move_front. rewrite (pick_one _ _ _ H). reflexivity. Qed.

Lemma prod_move_front l k a :
  nth_error l k = Some a -> prod l = a * prod (firstn k l ++ skipn (S k) l).
Proof.
  intros H. rewrite (split_at _ _ _ H) at 1. rewrite !prod_app. cbn. lia.
Qed.

Lemma Forall2_firstn {A B} (R : A -> B -> Prop) l1 l2 k :
  Forall2 R l1 l2 -> Forall2 R (firstn k l1) (firstn k l2).
Proof.
  intros H. revert k. induction H; intros [|k]; cbn; constructor; auto.
Qed.

Lemma Forall2_skipn {A B} (R : A -> B -> Prop) l1 l2 k :
  Forall2 R l1 l2 -> Forall2 R (skipn k l1) (skipn k l2).
Proof.
  intros H. revert k. induction H; intros [|k]; cbn; try constructor; auto.
Qed.

Lemma move_back_valid shape k a i r :
  nth_error shape k = Some a -> i < a ->
  Forall2 lt r (firstn k shape ++ skipn (S k) shape) ->
  Forall2 lt (move_back (i :: r) k) shape.
Proof.
  intros Hk Hi Hr. cbn [move_back].
  assert (Hlen : length (firstn k shape) = k).
  { rewrite firstn_length. assert (k < length shape) by (apply nth_error_Some; congruence). lia. }
  rewrite (split_at _ _ _ Hk).
  pose proof (Forall2_firstn _ _ _ k Hr) as H1.
  pose proof (Forall2_skipn _ _ _ k Hr) as H2.
  rewrite firstn_app, Hlen, Nat.sub_diag, firstn_O, app_nil_r in H1.
  rewrite (firstn_all2 (firstn k shape)) in H1 by lia.
  rewrite skipn_app, Hlen, Nat.sub_diag in H2.
  rewrite (skipn_all2 (firstn k shape)) in H2 by lia. cbn [app] in H2.
  change (skipn 0 (skipn (S k) shape)) with (skipn (S k) shape) in H2.
  apply Forall2_app; [assumption|]. constructor; assumption.
Qed.

Lemma chunk_nth {A} m n (l : list A) i :
  i < m -> nth_error (chunk m n l) i = Some (firstn n (skipn (i * n) l)).
Proof.
  revert l i. induction m as [|m IH]; intros l i H; [lia|].
  destruct i as [|i]; cbn [chunk nth_error Nat.mul]; [reflexivity|].
  rewrite IH by lia. f_equal. f_equal.
  clear. revert l. induction n as [|n IHn]; intros l; [reflexivity|].
  destruct l as [|x l]; [destruct (i * S n); reflexivity|].
  change (skipn (S n) (x :: l)) with (skipn n l).
  change (skipn (S n + i * S n) (x :: l)) with (skipn (n + i * S n) l).
  generalize (i * S n). intros q. clear. revert l.
  induction n as [|n IHn]; intros l; [reflexivity|]. destruct l; [destruct q; reflexivity|].
  apply IHn.
Qed.

Lemma chunk_length {A} m n (l : list A) : length (chunk m n l) = m.
Proof. revert l. induction m as [|m IH]; intros l; cbn; [reflexivity|]. rewrite IH. reflexivity. Qed.

Lemma chunk_row_length {A} m n (l : list A) r :
  length l = m * n -> In r (chunk m n l) -> length r = n.
Proof.
  revert l. induction m as [|m IH]; intros l H Hr; [destruct Hr|].
  cbn in Hr. destruct Hr as [<-|Hr].
  - rewrite firstn_length. lia.
  - apply (IH (skipn n l)); [|assumption]. rewrite skipn_length. lia.
Qed.

Lemma chunk_concat {A} (rows : list (list A)) n :
  (forall r, In r rows -> length r = n) -> chunk (length rows) n (concat rows) = rows.
Proof.
  induction rows as [|r rows IH]; intros H; cbn; [reflexivity|].
  assert (length r = n) by (apply H; left; reflexivity). subst n.
  rewrite firstn_app, firstn_all, Nat.sub_diag. cbn. rewrite app_nil_r.
  rewrite skipn_app, skipn_all, Nat.sub_diag. cbn.
  rewrite IH; [reflexivity|]. intros; apply H; right; assumption.
Qed.

Lemma concat_length {A} (rows : list (list A)) n :
  (forall r, In r rows -> length r = n) -> length (concat rows) = length rows * n.
Proof.
  induction rows as [|r rows IH]; intros H; cbn; [reflexivity|].
  rewrite app_length, IH by (intros; apply H; right; assumption).
  rewrite (H r) by (left; reflexivity). reflexivity.
Qed.

Lemma as2d_flat_pick {A} (l : list A) (f : nat -> nat) (qs : list nat) :
  flat_map (fun q => match nth_error l (f q) with Some x => [x] | None => [] end) qs
  = pick l (map f qs).
Proof. unfold pick. induction qs as [|q qs IH]; cbn; [reflexivity|]. rewrite IH. reflexivity. Qed.

(** Which axis as2d uses for a given argument: the Python wrap, plus a second
    wrap for values in [-2*ndim, -ndim). *)
Definition as2d_axis (nd : nat) (axis : Z) (k : nat) : Prop :=
  k < nd /\ (axis = Z.of_nat k \/ axis = Z.of_nat k - Z.of_nat nd
             \/ axis = Z.of_nat k - 2 * Z.of_nat nd)%Z.

(** The general characterisation of as2d. *)
Lemma as2d_char {T} (a : ndarray T) (axis : Z) k m :
  nd_wf a -> nd_size a <> 0 ->
  as2d_axis (nd_ndim a) axis k -> nth_error (nd_shape a) k = Some m ->
  let rest := firstn k (nd_shape a) ++ skipn (S k) (nd_shape a) in
  exists rows, as2d a axis = Ok (rows, prod rest) /\ length rows = m
    /\ (forall r, In r rows -> length r = prod rest)
    /\ (forall i r, i < m -> Forall2 lt r rest ->
         exists row, nth_error rows i = Some row /\
           nth_error row (ravel rest r) =
           nth_error (nd_flat a) (ravel (nd_shape a) (firstn k r ++ i :: skipn k r))).
Proof.
  intros Hwf Hsz Hax Hm rest.
  assert (Hsize : nd_size a = m * prod rest).
  { unfold nd_size. rewrite (prod_move_front _ _ _ Hm). reflexivity. }
  assert (Hm0 : m <> 0) by nia.
  assert (Hdiv : nd_size a / m = prod rest).
  { rewrite Hsize, Nat.mul_comm, Nat.div_mul by assumption. reflexivity. }
  unfold as2d. destruct (Nat.eqb_spec (nd_size a) 0) as [E|_]; [contradiction|].
  set (ax := if (axis <? 0)%Z then (Z.of_nat (nd_ndim a) + axis)%Z else axis).
  assert (Hk : k < nd_ndim a) by (apply Hax).
  assert (Hax' : ax = Z.of_nat k \/ ax = (Z.of_nat k - Z.of_nat (nd_ndim a))%Z).
  { unfold ax. destruct Hax as [_ Hax]. destruct (Z.ltb_spec axis 0); lia. }
  destruct (Z.leb_spec (Z.of_nat (nd_ndim a)) ax); [lia|].
  assert (En : norm_index (nd_ndim a) ax = Some k).
  { apply norm_index_some. split; [assumption|]. assumption. }
  rewrite En. rewrite (nth_error_nth _ _ 0 Hm), Hdiv.
  rewrite (move_front_eq _ _ _ Hm). fold rest.
  set (f := fun q => ravel (nd_shape a) (move_back (unravel (m :: rest) q) k)).
  rewrite (as2d_flat_pick (nd_flat a) f).
  set (flat := pick (nd_flat a) (map f (seq 0 (nd_size a)))).
  assert (Hf : forall i r, i < m -> Forall2 lt r rest ->
             f (i * prod rest + ravel rest r) = ravel (nd_shape a) (firstn k r ++ i :: skipn k r)).
  { intros i r Hi Hr. unfold f. f_equal.
    change (i * prod rest + ravel rest r) with (ravel (m :: rest) (i :: r)).
    rewrite unravel_ravel by (constructor; assumption). reflexivity. }
  assert (Hfb : forall q, q < nd_size a -> f q < length (nd_flat a)).
  { intros q Hq. rewrite Hwf. unfold nd_size at 1. apply ravel_lt.
    assert (Hv : Forall2 lt (unravel (m :: rest) q) (m :: rest)).
    { apply unravel_valid. cbn. rewrite <- Hsize. assumption. }
    remember (unravel (m :: rest) q) as u eqn:Eu.
    destruct u as [|i r]; inversion Hv; subst.
    eapply move_back_valid; eassumption. }
  assert (Hb : Forall (fun k0 => k0 < length (nd_flat a)) (map f (seq 0 (nd_size a)))).
  { apply Forall_forall. intros x Hx. apply in_map_iff in Hx. destruct Hx as (q & <- & Hq).
    apply in_seq in Hq. apply Hfb. lia. }
  assert (Hflat : forall q, q < nd_size a -> nth_error flat q = nth_error (nd_flat a) (f q)).
  { pose proof (pick_at_positions _ _ Hb) as H2. fold flat in H2.
    intros q Hq.
    assert (G : forall (ps : list nat) l' p, at_positions (nd_flat a) ps l' ->
                p < length ps -> nth_error l' p = nth_error (nd_flat a) (nth p ps 0)).
    { clear. intros ps l' p H. revert p. induction H as [|k x ps l' H _ IH]; intros p Hp; [cbn in Hp; lia|].
      destruct p as [|p]; cbn; [congruence|]. apply IH. cbn in Hp. lia. }
    rewrite (G _ _ _ H2) by (rewrite map_length, seq_length; assumption).
    rewrite (nth_indep _ 0 (f 0)) by (rewrite map_length, seq_length; assumption).
    rewrite map_nth, seq_nth by assumption. reflexivity. }
  assert (Hlen : length flat = m * prod rest).
  { unfold flat. rewrite pick_length by assumption. rewrite map_length, seq_length. assumption. }
  exists (chunk m (prod rest) flat).
  split; [reflexivity|]. split; [apply chunk_length|]. split.
  - intros r Hr. eapply chunk_row_length; eassumption.
  - intros i r Hi Hr. eexists. split; [apply chunk_nth; assumption|].
    pose proof (ravel_lt _ _ Hr) as Hrl.
    assert (E : forall (l : list T) a0 n q, q < n -> nth_error (firstn n (skipn a0 l)) q = nth_error l (a0 + q)).
    { clear. intros l a0. revert l. induction a0 as [|a0 IH]; intros l n q H.
      - cbn [skipn plus]. revert l q H. induction n as [|n IHn]; intros l q H; [lia|].
        destruct l as [|x l]; [destruct q; reflexivity|]. destruct q as [|q]; [reflexivity|].
        cbn. apply IHn. lia.
      - destruct l as [|x l]; cbn [skipn plus].
        + rewrite firstn_nil. destruct q; reflexivity.
        + cbn [nth_error]. apply IH. assumption. }
    rewrite E by assumption.
    rewrite Hflat by nia. rewrite Hf by assumption. reflexivity.
Qed.

Lemma as2d_empty {T} (a : ndarray T) axis : nd_size a = 0 -> as2d a axis = Ok ([], 2).
Proof. intros H. unfold as2d. rewrite H. reflexivity. Qed.

Lemma as2d_axis_too_big {T} (a : ndarray T) axis :
  nd_size a <> 0 -> (Z.of_nat (nd_ndim a) <= axis)%Z -> as2d a axis = Raise ValueError.
Proof.
  intros H Ha. unfold as2d. destruct (Nat.eqb_spec (nd_size a) 0); [contradiction|].
  destruct (Z.ltb_spec axis 0); [lia|]. destruct (Z.leb_spec (Z.of_nat (nd_ndim a)) axis); [reflexivity|lia].
Qed.

Lemma as2d_axis_too_small {T} (a : ndarray T) axis :
  nd_size a <> 0 -> (axis < - 2 * Z.of_nat (nd_ndim a))%Z -> as2d a axis = Raise IndexError.
Proof.
  intros H Ha. unfold as2d. destruct (Nat.eqb_spec (nd_size a) 0); [contradiction|].
  destruct (Z.ltb_spec axis 0); [|lia].
  destruct (Z.leb_spec (Z.of_nat (nd_ndim a)) (Z.of_nat (nd_ndim a) + axis)); [lia|].
  replace (norm_index (nd_ndim a) (Z.of_nat (nd_ndim a) + axis)) with (@None nat); [reflexivity|].
  symmetry. apply norm_index_none. lia.
Qed.

(** as2d always returns a rectangular array (or an exception). *)
Lemma as2d_rect {T} (a : ndarray T) axis rows n :
  nd_wf a -> as2d a axis = Ok (rows, n) -> forall r, In r rows -> length r = n.
Proof.
  intros Hwf H. destruct (Nat.eq_dec (nd_size a) 0) as [E|E].
  - rewrite as2d_empty in H by assumption. injection H as <- <-. intros r [].
  - destruct (Z.le_gt_cases (Z.of_nat (nd_ndim a)) axis) as [H1|H1].
    { rewrite as2d_axis_too_big in H by assumption. discriminate. }
    destruct (Z.lt_ge_cases axis (-2 * Z.of_nat (nd_ndim a))) as [H2|H2].
    { rewrite as2d_axis_too_small in H by assumption. discriminate. }
    assert (Hk : exists k, as2d_axis (nd_ndim a) axis k).
    { assert (0 < nd_ndim a) by lia.
      exists (Z.to_nat (axis mod Z.of_nat (nd_ndim a))).
      pose proof (Z.mod_pos_bound axis (Z.of_nat (nd_ndim a)) ltac:(lia)).
      split; [lia|]. rewrite Z2Nat.id by lia.
      pose proof (Z.div_mod axis (Z.of_nat (nd_ndim a)) ltac:(lia)) as Hd.
      assert (axis / Z.of_nat (nd_ndim a) = 0 \/ axis / Z.of_nat (nd_ndim a) = -1 \/ axis / Z.of_nat (nd_ndim a) = -2)%Z.
      { assert (-2 <= axis / Z.of_nat (nd_ndim a))%Z by (apply Z.div_le_lower_bound; lia).
        assert (axis / Z.of_nat (nd_ndim a) < 1)%Z by (apply Z.div_lt_upper_bound; lia). lia. }
      nia. }
    destruct Hk as [k Hk].
    destruct (nth_error_ex (nd_shape a) k) as [m Hm]; [apply Hk|].
    destruct (as2d_char a axis k m Hwf E Hk Hm) as (rows' & H' & _ & Hr & _).
    rewrite H' in H. injection H as <- <-. assumption.
Qed.

Lemma nth_error_ext_list {A} (l1 l2 : list A) :
  (forall q, nth_error l1 q = nth_error l2 q) -> l1 = l2.
Proof.
  revert l2. induction l1 as [|x l1 IH]; intros l2 G.
  - destruct l2 as [|y l2]; [reflexivity|]. specialize (G 0). discriminate.
  - destruct l2 as [|y l2]; [specialize (G 0); discriminate|].
    f_equal; [specialize (G 0); cbn in G; congruence|].
    apply IH. intros q. apply (G (S q)).
Qed.

Lemma nth_error_concat_uniform {A} (rows : list (list A)) n i q row :
  (forall r, In r rows -> length r = n) -> nth_error rows i = Some row -> q < n ->
  nth_error (concat rows) (i * n + q) = nth_error row q.
Proof.
  intros Hr. revert i. induction rows as [|r0 rows IH]; intros i Hrow Hq; [destruct i; discriminate|].
  assert (length r0 = n) by (apply Hr; left; reflexivity).
  destruct i as [|i]; cbn in Hrow.
  - injection Hrow as <-. cbn [concat Nat.mul plus]. apply nth_error_app1. lia.
  - cbn [concat]. rewrite nth_error_app2 by (cbn; lia).
    replace (S i * n + q - length r0) with (i * n + q) by (cbn; lia).
    apply IH; [intros; apply Hr; right; assumption|assumption|assumption].
Qed.

(** as2d along axis 0 of a 2-D array is the array itself. *)
Lemma as2d_id {T} (rows : list (list T)) n :
  (forall r, In r rows -> length r = n) -> length rows * n <> 0 ->
  as2d (mkNd [length rows; n] (concat rows)) 0 = Ok (rows, n).
Proof.
  intros Hr Hs.
  assert (Hwf : nd_wf (mkNd [length rows; n] (concat rows))).
  { unfold nd_wf, nd_size. cbn. rewrite (concat_length _ _ Hr). lia. }
  destruct (as2d_char (mkNd [length rows; n] (concat rows)) 0 0 (length rows) Hwf) as (rows' & H & Hl & Hlr & Hat).
  - unfold nd_size. cbn. lia.
  - unfold as2d_axis, nd_ndim. cbn. lia.
  - reflexivity.
  - cbn [nd_shape firstn skipn app] in *. cbn [fold_right] in *. rewrite Nat.mul_1_r in *.
    rewrite H. f_equal. f_equal.
    apply nth_ext with (d := []) (d' := []); [assumption|].
    intros i Hi. rewrite Hl in Hi.
    destruct (nth_error_ex rows i) as [row Hrow]; [assumption|].
    destruct (nth_error_ex rows' i) as [row' Hrow']; [lia|].
    rewrite (nth_error_nth _ _ _ Hrow), (nth_error_nth _ _ _ Hrow').
    apply nth_error_In in Hrow as HIn. apply nth_error_In in Hrow' as HIn'.
    apply Hr in HIn. apply Hlr in HIn'.
    assert (G : forall q, nth_error row' q = nth_error row q).
    { intros q. destruct (Nat.lt_ge_cases q n) as [Hq|Hq].
      - destruct (Hat i [q] Hi) as (row2 & E2 & E3).
        { repeat constructor. assumption. }
        assert (row2 = row') by congruence. subst row2.
        cbn [ravel firstn skipn app fold_right nd_flat] in E3.
        replace (q * 1 + 0) with q in E3 by lia. rewrite E3.
        replace (i * (n * 1) + q) with (i * n + q) by lia.
        apply nth_error_concat_uniform; assumption.
      - rewrite (proj2 (nth_error_None _ _)) by lia.
        rewrite (proj2 (nth_error_None _ _)) by lia. reflexivity. }
    apply nth_error_ext_list. assumption.
Qed.

(** as2d along axis 1 of a 2-D array is its transpose. *)
Lemma as2d_transpose {T} (cols : list (list T)) m d :
  (forall r, In r cols -> length r = m) -> length cols * m <> 0 ->
  as2d (mkNd [length cols; m] (concat cols)) 1
  = Ok (map (fun i => map (fun c => nth i c d) cols) (seq 0 m), length cols).
Proof.
  intros Hr Hs.
  assert (Hwf : nd_wf (mkNd [length cols; m] (concat cols))).
  { unfold nd_wf, nd_size. cbn. rewrite (concat_length _ _ Hr). lia. }
  destruct (as2d_char (mkNd [length cols; m] (concat cols)) 1 1 m Hwf) as (rows & H & Hl & Hlr & Hat).
  - unfold nd_size. cbn. lia.
  - unfold as2d_axis, nd_ndim. cbn. lia.
  - reflexivity.
  - cbn [nd_shape firstn skipn app] in *. cbn [fold_right] in *. rewrite Nat.mul_1_r in *.
    rewrite H. f_equal. f_equal. apply nth_error_ext_list. intros i.
    destruct (Nat.lt_ge_cases i m) as [Hi|Hi].
    + rewrite nth_error_map. rewrite (nth_error_nth' _ 0) by (rewrite seq_length; assumption).
      rewrite seq_nth by assumption. cbn [option_map plus].
      destruct (nth_error_ex rows i) as [row Hrow]; [lia|]. rewrite Hrow. f_equal.
      apply nth_error_In in Hrow as HIn. apply Hlr in HIn.
      apply nth_error_ext_list. intros q. rewrite nth_error_map.
      destruct (Nat.lt_ge_cases q (length cols)) as [Hq|Hq].
      * destruct (Hat i [q] Hi) as (row2 & E2 & E3). { repeat constructor. assumption. }
        assert (row2 = row) by congruence. subst row2.
        cbn [ravel firstn skipn app fold_right nd_flat] in E3.
        replace (q * 1 + 0) with q in E3 by lia. rewrite E3.
        replace (q * (m * 1) + (i * 1 + 0)) with (q * m + i) by lia || replace (q * (m * 1) + i) with (q * m + i) by lia.
        destruct (nth_error_ex cols q) as [col Hcol]; [assumption|]. rewrite Hcol.
        cbn [option_map].
        rewrite (nth_error_concat_uniform _ m q i col) by assumption.
        apply nth_error_nth'. rewrite (Hr col) by (eapply nth_error_In; eauto). assumption.
      * rewrite (proj2 (nth_error_None row q)) by lia.
        rewrite (proj2 (nth_error_None cols q)) by lia. reflexivity.
    + rewrite (proj2 (nth_error_None rows i)) by lia.
      rewrite (proj2 (nth_error_None _ i)); [reflexivity|]. rewrite map_length, seq_length. lia.
Qed.
