(** Extrapolation grids, preserved-speed grids and linrescale over the reals. *)
From Coq Require Import ZArith String List Bool Arith Lia Reals Lra Psatz.
From Verif Require Import Num Py Numeric Curve Vec Geom DiffGeom Intersect Registry Interp Spec GeomSpec.
From Verif Require Import ListFacts ArrayProofs VecFacts CurveProofs CurveProofs2 CurveProofs3 GeomProofs GeomProofs2 DiffGeomProofs InterpProofs InterpProofs2.
Import ListNotations.
Local Open Scope list_scope.
Local Open Scope R_scope.

(** ** Extrapolation *)

Lemma nlit_IZR z : (nlit z 1 : R) = IZR z.
Proof. cbn [nlit RNum]. field. Qed.

Lemma before_nth (x h : R) n i : (i < n)%nat ->
  nth i (linspace_nat (- h * IZR (Z.of_nat n) + x) (- h + x) n) 0 = x - (INR n - INR i) * h.
Proof.
  intros Hi. rewrite <- INR_IZR_INZ. destruct (Nat.eq_dec n 1) as [->|].
  - assert (i = 0)%nat by lia. subst i. rewrite linspace_one. cbn. lra.
  - rewrite linspace_nth by lia. assert (INR (n - 1) = INR n - 1) as E by (rewrite minus_INR by lia; reflexivity).
    assert (0 < INR (n - 1)) by (apply lt_0_INR; lia). rewrite E in *. field. lra.
Qed.
Lemma after_nth (x h : R) n i : (i < n)%nat ->
  nth i (linspace_nat (x + h) (x + h * IZR (Z.of_nat n)) n) 0 = x + (INR i + 1) * h.
Proof.
  intros Hi. rewrite <- INR_IZR_INZ. destruct (Nat.eq_dec n 1) as [->|].
  - assert (i = 0)%nat by lia. subst i. rewrite linspace_one. cbn. lra.
  - rewrite linspace_nth by lia. assert (INR (n - 1) = INR n - 1) as E by (rewrite minus_INR by lia; reflexivity).
    assert (0 < INR (n - 1)) by (apply lt_0_INR; lia). rewrite E in *. field. lra.
Qed.

Lemma extrap_point_ok (g : list R) nb na : (2 <= length g)%nat ->
  let h := (nth (length g - 1) g 0 - nth 0 g 0) / INR (length g - 1) in
  exists lb la, extrap_call (EPoint (Z.of_nat nb) (Z.of_nat na)) g = Ok (lb ++ g ++ la) /\ length lb = nb /\ length la = na /\
    (forall i, (i < nb)%nat -> nth i lb 0 = nth 0 g 0 - (INR nb - INR i) * h) /\
    (forall i, (i < na)%nat -> nth i la 0 = nth (length g - 1) g 0 + (INR i + 1) * h).
Proof.
  intros H h. assert (N : g <> []) by (intros E; rewrite E in H; cbn in H; lia).
  unfold extrap_call. rewrite mean_diff by assumption. fold h. cbn [rbind].
  rewrite (np_get_first g 0 N), (np_get_last g 0 N). cbn [rbind]. unfold linspace.
  destruct (Z.ltb_spec (Z.of_nat nb) 0); [lia|]. destruct (Z.ltb_spec (Z.of_nat na) 0); [lia|]. cbn [rbind]. rewrite !Nat2Z.id.
  do 2 eexists. split; [reflexivity|]. rewrite !linspace_length. split; [reflexivity|]. split; [reflexivity|]. rewrite !nlit_IZR. rnum.
  split; intros i Hi; [apply before_nth|apply after_nth]; assumption.
Qed.

Lemma extrap_point_negative (g : list R) nb na : g <> [] -> (nb < 0 \/ na < 0)%Z -> extrap_call (EPoint nb na) g = Raise ValueError.
Proof.
  intros N H. unfold extrap_call. cbn [rbind]. rewrite (np_get_first g 0 N), (np_get_last g 0 N). cbn [rbind]. unfold linspace.
  destruct (Z.ltb_spec nb 0); [reflexivity|]. cbn [rbind]. destruct (Z.ltb_spec na 0); [reflexivity|lia].
Qed.

(** ** Preserved speed *)

Lemma linspace01_increasing n : (2 <= n)%nat -> increasing (linspace_nat 0 1 n).
Proof.
  intros H i Hi. rewrite linspace_length in Hi. rewrite !linspace_nth by lia. rewrite S_INR.
  assert (0 < INR (n - 1)) by (apply lt_0_INR; lia). assert (0 < (1 - 0) / INR (n - 1)) by (apply Rdiv_lt_0_compat; lra). nra.
Qed.

(** The value at abscissa [v] of the polygon through the points (k/(m-1), s_k). *)
Definition polygon (s : list R) (v : R) : R := nth 0 (interp_at (linspace_nat 0 1 (length s)) (map (fun y => [y]) s) v) 0.

Lemma polygon_piece (s : list R) v k : (S k < length s)%nat ->
  (k = 0%nat \/ INR k <= v * INR (length s - 1)) -> (S (S k) = length s \/ v * INR (length s - 1) <= INR (S k)) ->
  polygon s v = nth k s 0 + (v * INR (length s - 1) - INR k) * (nth (S k) s 0 - nth k s 0).
Proof.
  intros Hk Hl Hr. assert (P : 0 < INR (length s - 1)) by (apply lt_0_INR; lia).
  set (xs := linspace_nat 0 1 (length s)).
  assert (X : forall j, (j < length s)%nat -> nth j xs 0 = INR j / INR (length s - 1))
    by (intros j Hj; unfold xs; rewrite linspace_nth by lia; field; lra).
  assert (Lx : length xs = length s) by apply linspace_length.
  assert (A : affine_at (nth k (map (fun y => [y]) s) []) (nth (S k) (map (fun y => [y]) s) [])
                ((v - nth k xs 0) / (nth (S k) xs 0 - nth k xs 0)) (interp_at xs (map (fun y => [y]) s) v)).
  { apply (interp_at_piece 1).
    - apply linspace01_increasing. lia.
    - rewrite map_length. congruence.
    - intros p Hp. apply in_map_iff in Hp as (y & <- & _). reflexivity.
    - lia.
    - rewrite X by lia. destruct Hl as [Hl|Hl]; [left; assumption|right]. apply (Rmult_le_reg_r (INR (length s - 1))); [assumption|].
      unfold Rdiv. rewrite Rmult_assoc, Rinv_l by lra. lra.
    - rewrite X by lia. destruct Hr as [Hr|Hr]; [left; lia|right]. apply (Rmult_le_reg_r (INR (length s - 1))); [assumption|].
      unfold Rdiv. rewrite Rmult_assoc, Rinv_l by lra. lra. }
  unfold polygon. fold xs. destruct A as [_ A]. rewrite A.
  rewrite !(nth_indep (map (fun y => [y]) s) [] [0]) by (rewrite map_length; lia).
  rewrite !(map_nth (fun y => [y]) s 0). cbn [nth]. rewrite !X by lia. rewrite S_INR. f_equal. f_equal. field. lra.
Qed.

Lemma polygon_node (s : list R) k : (2 <= length s)%nat -> (k < length s)%nat -> polygon s (INR k / INR (length s - 1)) = nth k s 0.
Proof.
  intros H Hk. assert (P : 0 < INR (length s - 1)) by (apply lt_0_INR; lia).
  assert (E : INR k / INR (length s - 1) * INR (length s - 1) = INR k) by (field; lra).
  destruct (Nat.eq_dec (S k) (length s)) as [F|F].
  - destruct k as [|k]; [lia|]. rewrite (polygon_piece s _ k); rewrite ?E.
    + rewrite S_INR. ring.
    + lia.
    + right. apply le_INR. lia.
    + right. lra.
  - rewrite (polygon_piece s _ k); rewrite ?E.
    + ring.
    + lia.
    + right. lra.
    + right. apply le_INR. lia.
Qed.

(** Pieces of a polygon with bounded abscissa. *)
Lemma polygon_piece_exists m u : (2 <= m)%nat -> 0 <= u <= INR (m - 1) ->
  exists k, (S k < m)%nat /\ INR k <= u <= INR (S k).
Proof.
  intros H [H0 H1]. induction m as [|m IH]; [lia|]. destruct (Nat.eq_dec m 1) as [->|].
  - exists 0%nat. split; [lia|]. cbn in *. lra.
  - destruct (Rle_lt_dec u (INR (m - 1))) as [L|L].
    + destruct (IH ltac:(lia) L) as (k & Hk & K). exists k. split; [lia|assumption].
    + exists (m - 1)%nat. split; [lia|]. replace (S (m - 1)) with (S m - 1)%nat by lia. lra.
Qed.

Lemma polygon_mono (s : list R) v w : (2 <= length s)%nat -> (forall i, (S i < length s)%nat -> nth i s 0 <= nth (S i) s 0) ->
  0 <= v -> v <= w -> w <= 1 -> polygon s v <= polygon s w.
Proof.
  intros H M V0 VW W1. assert (P : 0 < INR (length s - 1)) by (apply lt_0_INR; lia).
  destruct (polygon_piece_exists (length s) (v * INR (length s - 1)) H) as (k & Hk & K1 & K2); [split; nra|].
  destruct (polygon_piece_exists (length s) (w * INR (length s - 1)) H) as (l & Hl & L1 & L2); [split; nra|].
  rewrite (polygon_piece s v k Hk (or_intror K1) (or_intror K2)), (polygon_piece s w l Hl (or_intror L1) (or_intror L2)).
  set (u := v * INR (length s - 1)) in *. set (z := w * INR (length s - 1)) in *.
  assert (UZ : u <= z) by (unfold u, z; nra).
  pose proof (M k Hk) as Mk. pose proof (M l Hl) as Ml.
  destruct (Nat.lt_trichotomy k l) as [C|[->|C]].
  - pose proof (nondecreasing_le s M (S k) l ltac:(lia)). rewrite S_INR in K2. nra.
  - nra.
  - assert (INR (S l) <= INR k) by (apply le_INR; lia).
    assert (E1 : u = INR k) by lra. assert (E2 : z = INR (S l)) by lra. assert (E3 : INR k = INR (S l)) by lra.
    apply INR_eq in E3. subst k. rewrite E1, E2, S_INR. lra.
Qed.

Lemma linrescale_id (l : list R) A : A <> 0 -> linrescale l (0, A) (0, A) = l.
Proof.
  intros H. unfold linrescale. cbn [fst snd]. rewrite map_map. rewrite <- (map_id l) at 2. apply map_ext. intros x. rnum. field. lra.
Qed.

Lemma cumarclen_facts junk (c : curve R) : wf c -> (2 <= c_size c)%nat ->
  length (c_cumarclen junk c) = c_size c /\ nth 0 (c_cumarclen junk c) 0 = 0 /\
  (forall i, (S i < length (c_cumarclen junk c))%nat -> nth i (c_cumarclen junk c) 0 <= nth (S i) (c_cumarclen junk c) 0) /\
  nth (c_size c - 1) (c_cumarclen junk c) 0 = c_arclen junk c.
Proof.
  intros W H. assert (N := size_nonempty c ltac:(lia)). assert (B := c_bool_wf c W N).
  assert (D : dims (c_ndim c) (c_rows c)) by (intros p Hp; apply W; assumption).
  assert (L : length (c_cumarclen junk c) = c_size c) by (apply cumarclen_length; assumption).
  split; [assumption|]. split; [reflexivity|]. split.
  - intros i Hi. rewrite L in Hi. rewrite (cumarclen_step (c_ndim c)) by assumption.
    pose proof (dist_nonneg (nth i (c_rows c) []) (nth (S i) (c_rows c) [])). lra.
  - unfold c_size. rewrite (cumarclen_polyline (c_ndim c)) by (assumption || (unfold c_size in H; lia)).
    rewrite (arclen_polyline (c_ndim c)) by assumption. f_equal.
    replace (S (length (c_rows c) - 1)) with (length (c_rows c)) by (unfold c_size in H; lia). apply firstn_all.
Qed.

Lemma speed_call_eq junk few (c : curve R) n : wf c -> (2 <= c_size c)%nat -> isparametric c = false -> (2 <= n)%nat -> c_arclen junk c <> 0 ->
  speed_call junk few (Z.of_nat n) c = Ok (map (fun i => polygon (c_cumarclen junk c) (INR i / INR (n - 1))) (seq 0 n)).
Proof.
  intros W H Np Hn A. unfold speed_call. rewrite Np. cbn [negb]. unfold linspace.
  destruct (Z.ltb_spec (Z.of_nat (c_size c)) 0); [lia|]. destruct (Z.ltb_spec (Z.of_nat n) 0); [lia|]. cbn [rbind]. rewrite !Nat2Z.id.
  destruct (cumarclen_facts junk c W H) as (L & F0 & M & Fl). set (s := c_cumarclen junk c) in *.
  rewrite <- L. rewrite interp1d_increasing; [|apply linspace01_increasing; lia|rewrite map_length, linspace_length; reflexivity|rewrite linspace_length; lia].
  cbn [rbind]. rewrite rseq_map_ok. cbn [rbind]. rewrite map_map.
  set (l := map _ _).
  assert (P : 0 < INR (n - 1)) by (apply lt_0_INR; lia).
  assert (E : l = map (fun i => polygon s (INR i / INR (n - 1))) (seq 0 n)).
  { unfold l. apply (nth_ext _ _ 0 0); [rewrite !map_length, linspace_length, seq_length; reflexivity|].
    intros i Hi. rewrite map_length, linspace_length in Hi.
    rewrite (nth_indep _ 0 ((fun x => nth 0 (interp_at (linspace_nat n0 n1 (length s)) (map (fun y => [y]) s) x) n0) 0)) by (rewrite map_length, linspace_length; assumption).
    rewrite (map_nth (fun x => nth 0 (interp_at (linspace_nat n0 n1 (length s)) (map (fun y => [y]) s) x) n0)).
    rewrite (nth_indep (map _ (seq 0 n)) 0 (polygon s (INR 0 / INR (n - 1)))) by (rewrite map_length, seq_length; assumption).
    rewrite (map_nth (fun i => polygon s (INR i / INR (n - 1)))), seq_nth by assumption. cbn [Nat.add].
    unfold polygon. rewrite (linspace_nth n0 n1) by assumption. rnum. f_equal. f_equal. field. lra. }
  clearbody l. subst l. set (l := map _ (seq 0 n)).
  assert (Ll : length l = n) by (unfold l; rewrite map_length, seq_length; reflexivity).
  assert (Nl : forall i, (i < n)%nat -> nth i l 0 = polygon s (INR i / INR (n - 1))).
  { intros i Hi. unfold l. rewrite (nth_indep _ 0 (polygon s (INR 0 / INR (n - 1)))) by (rewrite map_length, seq_length; assumption).
    rewrite (map_nth (fun i => polygon s (INR i / INR (n - 1)))), seq_nth by assumption. reflexivity. }
  assert (Ml : forall i, (S i < length l)%nat -> nth i l 0 <= nth (S i) l 0).
  { intros i Hi. rewrite Ll in Hi. rewrite !Nl by lia. apply polygon_mono; [lia|assumption| | |].
    - apply Rmult_le_pos; [apply pos_INR|apply Rlt_le, Rinv_0_lt_compat; assumption].
    - apply Rmult_le_compat_r; [apply Rlt_le, Rinv_0_lt_compat; assumption|apply le_INR; lia].
    - apply (Rmult_le_reg_r (INR (n - 1))); [assumption|]. unfold Rdiv. rewrite Rmult_assoc, Rinv_l, Rmult_1_r, Rmult_1_l by lra. apply le_INR. lia. }
  assert (Nn : l <> []) by (intros E; rewrite E in Ll; cbn in Ll; lia).
  destruct (np_minmax_nondecreasing l Nn Ml) as [Emin Emax]. unfold linrescale_default. rewrite Emin, Emax. cbn [rbind].
  rewrite Ll, !Nl by lia.
  replace (INR 0 / INR (n - 1)) with (INR 0 / INR (length s - 1)) by (cbn; unfold Rdiv; rewrite !Rmult_0_l; reflexivity).
  rewrite polygon_node by lia. rewrite F0.
  replace (INR (n - 1) / INR (n - 1)) with (INR (length s - 1) / INR (length s - 1)).
  2:{ assert (0 < INR (length s - 1)) by (apply lt_0_INR; lia). field. lra. }
  rewrite polygon_node by lia. rewrite L, Fl. f_equal. apply linrescale_id. assumption.
Qed.
