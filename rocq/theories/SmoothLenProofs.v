(** Lengths of smoothed curves: sums of steps along the extended line. *)
From Coq Require Import ZArith List Bool Arith Lia Reals Lra Psatz.
From Verif Require Import Num Py Numeric Curve Vec Geom DiffGeom Registry Smooth GeomSpec.
From Verif Require Import ListFacts ArrayProofs VecFacts CurveProofs CurveProofs2 CurveProofs3 GeomProofs DiffGeomProofs SmoothProofs Properties_Smooth.
Import ListNotations.
Local Open Scope R_scope.

(** ** Sums over consecutive integers *)

Fixpoint zs (f : Z -> R) (d : Z) (m : nat) : R :=
  match m with O => 0 | S m => f d + zs f (d + 1) m end.
Fixpoint ns (f : nat -> R) (m : nat) : R :=
  match m with O => 0 | S m => ns f m + f m end.

Lemma zs_app f d a b : zs f d (a + b) = zs f d a + zs f (d + Z.of_nat a) b.
Proof.
  revert d. induction a as [|a IH]; intros d; cbn [zs Nat.add].
  - replace (d + Z.of_nat 0)%Z with d by lia. lra.
  - rewrite IH. replace (d + 1 + Z.of_nat a)%Z with (d + Z.of_nat (S a))%Z by lia. lra.
Qed.
Lemma zs_last f d m : zs f d (S m) = zs f d m + f (d + Z.of_nat m)%Z.
Proof. replace (S m) with (m + 1)%nat by lia. rewrite zs_app. cbn [zs]. lra. Qed.
Lemma zs_ext f g d m : (forall j, (d <= j < d + Z.of_nat m)%Z -> f j = g j) -> zs f d m = zs g d m.
Proof.
  revert d. induction m as [|m IH]; intros d H; [reflexivity|]. cbn [zs]. rewrite (H d) by lia. rewrite IH; [reflexivity|].
  intros j Hj. apply H. lia.
Qed.
Lemma zs_nonneg f d m : (forall j, 0 <= f j) -> 0 <= zs f d m.
Proof. intros H. revert d. induction m as [|m IH]; intros d; cbn [zs]; [lra|]. pose proof (H d). pose proof (IH (d + 1)%Z). lra. Qed.
Lemma zs_zero f d m : (forall j, (d <= j < d + Z.of_nat m)%Z -> f j = 0) -> zs f d m = 0.
Proof.
  revert d. induction m as [|m IH]; intros d H; [reflexivity|]. cbn [zs]. rewrite (H d) by lia. rewrite IH; [lra|].
  intros j Hj. apply H. lia.
Qed.
Lemma zs_rev f c d m : zs (fun j => f (c - j)%Z) d m = zs f (c - d - Z.of_nat m + 1)%Z m.
Proof.
  revert d. induction m as [|m IH]; intros d; [reflexivity|]. cbn [zs]. rewrite IH.
  replace (c - (d + 1) - Z.of_nat m + 1)%Z with (c - d - Z.of_nat (S m) + 1)%Z by lia.
  change (f (c - d - Z.of_nat (S m) + 1)%Z + zs f (c - d - Z.of_nat (S m) + 1 + 1) m) with (zs f (c - d - Z.of_nat (S m) + 1) (S m)).
  rewrite zs_last. replace (c - d - Z.of_nat (S m) + 1 + Z.of_nat m)%Z with (c - d)%Z by lia. lra.
Qed.

(** A full period. *)
Lemma zs_period f p d : (forall j, f (j + Z.of_nat p)%Z = f j) -> zs f d p = zs f 0 p.
Proof.
  intros P. assert (St : forall d, zs f (d + 1) p = zs f d p).
  { intros e. pose proof (zs_last f e p) as A. cbn [zs] in A. rewrite P in A. lra. }
  assert (Up : forall k, zs f (Z.of_nat k) p = zs f 0 p).
  { intros k. induction k as [|k IH]; [reflexivity|]. rewrite <- IH, <- (St (Z.of_nat k)). f_equal. lia. }
  assert (Dn : forall k, zs f (- Z.of_nat k) p = zs f 0 p).
  { intros k. induction k as [|k IH]; [reflexivity|]. rewrite <- IH, <- (St (- Z.of_nat (S k))%Z). f_equal. lia. }
  destruct (Z_le_gt_dec 0 d) as [K|K].
  - rewrite <- (Up (Z.to_nat d)). f_equal. lia.
  - rewrite <- (Dn (Z.to_nat (- d))). f_equal. lia.
Qed.
(** Steps that vanish outside [a, a + m). *)
Lemma zs_support f a m d k : (forall j, 0 <= f j) -> (forall j, (j < a \/ a + Z.of_nat m <= j)%Z -> f j = 0) -> zs f d k <= zs f a m.
Proof.
  intros H0 Hz. set (lo := Z.min a d). set (hi := Z.max (a + Z.of_nat m) (d + Z.of_nat k)).
  assert (T : zs f lo (Z.to_nat (hi - lo)) = zs f a m).
  { replace (Z.to_nat (hi - lo)) with (Z.to_nat (a - lo) + (m + Z.to_nat (hi - a - Z.of_nat m)))%nat by lia.
    rewrite !zs_app. rewrite (zs_zero f lo), (zs_zero f (lo + Z.of_nat (Z.to_nat (a - lo)) + Z.of_nat m)).
    - replace (lo + Z.of_nat (Z.to_nat (a - lo)))%Z with a by lia. lra.
    - intros j Hj. apply Hz. lia.
    - intros j Hj. apply Hz. lia. }
  rewrite <- T. replace (Z.to_nat (hi - lo)) with (Z.to_nat (d - lo) + (k + Z.to_nat (hi - d - Z.of_nat k)))%nat by lia.
  rewrite !zs_app. replace (lo + Z.of_nat (Z.to_nat (d - lo)))%Z with d by lia.
  pose proof (zs_nonneg f lo (Z.to_nat (d - lo)) H0). pose proof (zs_nonneg f (d + Z.of_nat k) (Z.to_nat (hi - d - Z.of_nat k)) H0). lra.
Qed.
Lemma zs_part f d a b : (forall j, 0 <= f j) -> zs f d a <= zs f d (a + b).
Proof. intros H. rewrite zs_app. pose proof (zs_nonneg f (d + Z.of_nat a) b H). lra. Qed.

Lemma ns_ext f g m : (forall k, (k < m)%nat -> f k = g k) -> ns f m = ns g m.
Proof. induction m as [|m IH]; intros H; [reflexivity|]. cbn. rewrite IH, H by (lia || (intros; apply H; lia)). reflexivity. Qed.
Lemma ns_le f g m : (forall k, (k < m)%nat -> f k <= g k) -> ns f m <= ns g m.
Proof. induction m as [|m IH]; intros H; [cbn; lra|]. cbn. pose proof (H m ltac:(lia)). pose proof (IH ltac:(intros; apply H; lia)). lra. Qed.
Lemma ns_add f g m : ns (fun k => f k + g k) m = ns f m + ns g m.
Proof. induction m as [|m IH]; cbn; [lra|]. rewrite IH. lra. Qed.
Lemma ns_scale f s m : ns (fun k => f k * s) m = ns f m * s.
Proof. induction m as [|m IH]; cbn; [lra|]. rewrite IH. lra. Qed.
Lemma ns_first f m : ns f (S m) = f 0%nat + ns (fun k => f (S k)) m.
Proof. induction m as [|m IH]; [cbn; lra|]. change (ns f (S (S m))) with (ns f (S m) + f (S m)). rewrite IH. cbn. lra. Qed.
Lemma ns_rev f m : ns f m = ns (fun k => f (m - 1 - k)%nat) m.
Proof.
  revert f. induction m as [|m IH]; intros f; [reflexivity|]. rewrite ns_first, (IH (fun k => f (S k))). cbn [ns].
  replace (S m - 1 - m)%nat with 0%nat by lia. rewrite Rplus_comm. f_equal. apply ns_ext. intros k Hk. f_equal. lia.
Qed.
Lemma ns_swap (f : nat -> nat -> R) a b : ns (fun i => ns (fun k => f i k) b) a = ns (fun k => ns (fun i => f i k) a) b.
Proof. induction a as [|a IH]; cbn; [induction b as [|b IHb]; cbn; [reflexivity|rewrite <- IHb; lra]|]. rewrite IH, <- ns_add. reflexivity. Qed.
Lemma ns_zs f d m : ns (fun i => f (d + Z.of_nat i)%Z) m = zs f d m.
Proof. induction m as [|m IH]; [reflexivity|]. rewrite zs_last. cbn [ns]. rewrite IH. reflexivity. Qed.
Lemma vsum_ns f m : vsum (map f (seq 0 m)) = ns f m.
Proof.
  induction m as [|m IH]; [reflexivity|]. rewrite seq_S, map_app, vsum_app, IH. cbn. lra.
Qed.

(** ** Distances of weighted sums *)

Lemma comb_succ n v X m : length (X m) = n -> comb n v X (S m) = vadd (comb n v X m) (vscale (X m) (v m)).
Proof.
  intros L. apply vec_ext; [rewrite vadd_length, !comb_length; [reflexivity|rewrite comb_length, vscale_length; congruence]|].
  intros j. destruct (Nat.lt_ge_cases j n) as [J|J].
  - rewrite nth_vadd by (rewrite comb_length, vscale_length; congruence). rewrite nth_vscale, !comb_nth by assumption.
    rewrite !vsum_ns. cbn [ns]. ring.
  - rewrite !nth_overflow; [reflexivity| |rewrite comb_length; lia]. rewrite vadd_length; rewrite comb_length; [lia|rewrite vscale_length; congruence].
Qed.
Lemma dist_add a a' b b' : length a = length b -> length a' = length a -> length b' = length a ->
  dist (vadd a b) (vadd a' b') <= dist a a' + dist b b'.
Proof.
  intros L1 L2 L3. rewrite !dist_vdist by (rewrite ?vadd_length by congruence; congruence). unfold vdist.
  replace (vsub (vadd a b) (vadd a' b')) with (vadd (vsub a a') (vsub b b')).
  - apply vnorm_triangle. rewrite !vsub_length by congruence. congruence.
  - apply vec_ext; [rewrite vadd_length, !vsub_length, vadd_length; rewrite ?vsub_length, ?vadd_length; congruence|].
    intros i. rewrite nth_vadd by (rewrite !vsub_length by congruence; congruence).
    rewrite !nth_vsub by (rewrite ?vadd_length by congruence; congruence). rewrite !nth_vadd by congruence. ring.
Qed.
Lemma dist_scale a b s : length a = length b -> dist (vscale a s) (vscale b s) = Rabs s * dist a b.
Proof.
  intros L. rewrite !dist_vdist by (rewrite ?vscale_length; congruence). unfold vdist. rewrite <- vnorm_scale. f_equal.
  apply vec_ext; [rewrite vsub_length, !vscale_length, vsub_length; rewrite ?vscale_length; congruence|].
  intros i. rewrite nth_vsub by (rewrite !vscale_length; congruence). rewrite !nth_vscale, nth_vsub by congruence. ring.
Qed.
Lemma comb_dist n v X Y m : (forall k, (k < m)%nat -> length (X k) = n /\ length (Y k) = n) ->
  dist (comb n v X m) (comb n v Y m) <= ns (fun k => Rabs (v k) * dist (X k) (Y k)) m.
Proof.
  induction m as [|m IH]; intros H.
  - cbn [ns]. unfold comb. cbn [seq map]. rewrite dist_refl. lra.
  - destruct (H m ltac:(lia)) as [Lx Ly]. rewrite !comb_succ by assumption. cbn [ns].
    eapply Rle_trans; [apply dist_add; rewrite ?comb_length, ?vscale_length; congruence|].
    rewrite dist_scale by congruence. pose proof (IH ltac:(intros; apply H; lia)). lra.
Qed.
Lemma comb_const n v y m : length y = n -> ns v m = 1 -> comb n v (fun _ => y) m = y.
Proof.
  intros L H. apply vec_ext; [rewrite comb_length; congruence|]. intros j. destruct (Nat.lt_ge_cases j n) as [J|J].
  - rewrite comb_nth by assumption. rewrite vsum_ns, ns_scale, H. ring.
  - rewrite !nth_overflow; [reflexivity|lia|rewrite comb_length; lia].
Qed.

Lemma polyline_map_seq (g : nat -> list R) m : forall a, polyline (map g (seq a (S m))) = ns (fun i => dist (g (a + i)%nat) (g (S (a + i)))) m.
Proof.
  induction m as [|m IH]; intros a; [reflexivity|]. change (seq a (S (S m))) with (a :: seq (S a) (S m)).
  change (map g (a :: seq (S a) (S m))) with (g a :: map g (seq (S a) (S m))).
  rewrite ns_first. rewrite <- (ns_ext (fun i => dist (g (S a + i)%nat) (g (S (S a + i))))) by (intros k _; rewrite Nat.add_succ_r; reflexivity).
  rewrite <- IH. rewrite Nat.add_0_r. reflexivity.
Qed.

Lemma map_nth_seq {A} (d : A) l : map (fun i => nth i l d) (seq 0 (length l)) = l.
Proof.
  apply (nth_ext _ _ d d); [rewrite map_length; apply seq_length|]. intros i Hi. rewrite map_length, seq_length in Hi.
  rewrite (nth_indep _ d ((fun i => nth i l d) 0%nat)) by (rewrite map_length, seq_length; assumption).
  rewrite (map_nth (fun i => nth i l d)), seq_nth by assumption. reflexivity.
Qed.

(** ** Steps of the extended line *)

Section Steps.
  Variables (rows : list (list R)) (n : nat) (cval : R).
  Hypothesis (D : dims n rows) (Ne : rows <> []).
  Let N := length rows.

  Definition xrow (b : bmode) (j : Z) : list R := ext_row b cval rows n j.
  Definition xstep (b : bmode) (j : Z) : R := dist (xrow b j) (xrow b (j + 1)).

  Lemma N_pos : (0 < N)%nat.
  Proof. unfold N. destruct rows; [contradiction|cbn; lia]. Qed.
  Lemma xrow_length b j : length (xrow b j) = n.
  Proof. apply ext_row_length; assumption. Qed.
  Lemma xstep_nonneg b j : 0 <= xstep b j.
  Proof. apply dist_nonneg. Qed.
  Lemma xrow_index b j i : ext_index b N j = Some i -> xrow b j = nth i rows [].
  Proof. intros E. unfold xrow, ext_row. fold N. rewrite E. reflexivity. Qed.
  Lemma xrow_same b j j' : ext_index b N j = ext_index b N j' -> xrow b j = xrow b j'.
  Proof. intros E. unfold xrow, ext_row. fold N. rewrite E. reflexivity. Qed.
  Lemma xrow_in b j : (0 <= j < Z.of_nat N)%Z -> xrow b j = nth (Z.to_nat j) rows [].
  Proof. intros H. apply xrow_index, ext_index_in, H. Qed.

  (** Along the curve itself the steps are its chords. *)
  Lemma inner_steps b : zs (xstep b) 0 (N - 1) = polyline rows.
  Proof.
    rewrite <- (map_nth_seq [] rows) at 1.
    replace (length rows) with (S (N - 1)) by (pose proof N_pos; unfold N in *; lia).
    rewrite polyline_map_seq, <- ns_zs. apply ns_ext. intros k Hk. unfold xstep.
    rewrite !xrow_in by lia. cbn [Nat.add]. f_equal; f_equal; lia.
  Qed.

  Lemma conv_steps_part b (v : list R) p :
    polyline (map (conv_row b cval v rows n) (seq 0 (S p)))
    <= ns (fun k => Rabs (nth k v 0) * zs (xstep b) (Z.of_nat (length v / 2) - Z.of_nat k) p) (length v).
  Proof.
    rewrite polyline_map_seq. cbn [Nat.add].
    eapply Rle_trans.
    - apply ns_le. intros i Hi. rewrite !conv_row_comb. apply comb_dist. intros k Hk. split; apply ext_row_length; assumption.
    - cbv beta. rewrite ns_swap. right. apply ns_ext. intros k Hk.
      rewrite <- ns_zs, (Rmult_comm (Rabs _)), <- ns_scale. apply ns_ext. intros i Hi.
      unfold xstep, xrow.
      replace (Z.of_nat (S i) + Z.of_nat (length v / 2) - Z.of_nat k)%Z with (Z.of_nat (length v / 2) - Z.of_nat k + Z.of_nat i + 1)%Z by lia.
      replace (Z.of_nat i + Z.of_nat (length v / 2) - Z.of_nat k)%Z with (Z.of_nat (length v / 2) - Z.of_nat k + Z.of_nat i)%Z by lia. ring.
  Qed.
  Lemma conv_steps b (v : list R) :
    polyline (map (conv_row b cval v rows n) (seq 0 N))
    <= ns (fun k => Rabs (nth k v 0) * zs (xstep b) (Z.of_nat (length v / 2) - Z.of_nat k) (N - 1)) (length v).
  Proof. replace N with (S (N - 1)) at 1 by (pose proof N_pos; lia). apply conv_steps_part. Qed.

  Lemma nearest_steps d k : zs (xstep BNearest) d k <= polyline rows.
  Proof.
    rewrite <- (inner_steps BNearest). apply zs_support; [apply xstep_nonneg|]. intros j Hj.
    assert (E : xrow BNearest j = xrow BNearest (j + 1)).
    { apply xrow_same. cbn [ext_index]. f_equal. pose proof N_pos. lia. }
    unfold xstep. rewrite E. apply dist_refl.
  Qed.
  Lemma constant_steps d k : zs (xstep BConstant) d k <=
    dist (repeat cval n) (nth 0 rows []) + polyline rows + dist (nth (N - 1) rows []) (repeat cval n).
  Proof.
    pose proof N_pos as P.
    assert (F : forall j, (j < 0 \/ Z.of_nat N <= j)%Z -> xrow BConstant j = repeat cval n).
    { intros j Hj. unfold xrow, ext_row. fold N. cbn [ext_index]. destruct (Z.leb_spec 0 j), (Z.ltb_spec j (Z.of_nat N)); try lia; reflexivity. }
    eapply Rle_trans; [apply (zs_support _ (-1) (S (N - 1 + 1))); [apply xstep_nonneg|]|].
    - intros j Hj. unfold xstep. rewrite (F j), (F (j + 1)%Z) by lia. apply dist_refl.
    - cbn [zs]. change (-1 + 1)%Z with 0%Z. rewrite zs_app, inner_steps. cbn [zs]. unfold xstep at 1 2.
      rewrite (F (-1)%Z) by lia. change (-1 + 1)%Z with 0%Z. rewrite (F (0 + Z.of_nat (N - 1) + 1)%Z) by lia. rewrite !xrow_in by lia.
      replace (Z.to_nat (0 + Z.of_nat (N - 1))) with (N - 1)%nat by lia. change (Z.to_nat 0) with 0%nat. lra.
  Qed.
  Lemma wrap_steps d : zs (xstep BWrap) d (N - 1) <= polyline rows + dist (nth (N - 1) rows []) (nth 0 rows []).
  Proof.
    pose proof N_pos as P. eapply Rle_trans; [apply (zs_part _ d (N - 1) 1); apply xstep_nonneg|].
    replace (N - 1 + 1)%nat with N by lia.
    destruct (C58_boundary N P) as (_ & _ & _ & Per & _).
    rewrite zs_period.
    - replace N with (N - 1 + 1)%nat at 1 by lia. rewrite zs_app, inner_steps. cbn [zs]. unfold xstep.
      replace (0 + Z.of_nat (N - 1) + 1)%Z with (0 + Z.of_nat N)%Z by lia. rewrite (xrow_same BWrap (0 + Z.of_nat N) 0 (Per 0%Z)).
      rewrite !xrow_in by lia. replace (Z.to_nat (0 + Z.of_nat (N - 1))) with (N - 1)%nat by lia. change (Z.to_nat 0) with 0%nat. lra.
    - intros j. unfold xstep. rewrite (xrow_same BWrap _ _ (Per j)).
      replace (j + Z.of_nat N + 1)%Z with (j + 1 + Z.of_nat N)%Z by lia. rewrite (xrow_same BWrap _ _ (Per (j + 1)%Z)). reflexivity.
  Qed.

  (** reflect: the steps repeat backwards after a step of length zero. *)
  Lemma reflect_sym j : xstep BReflect (-2 - j) = xstep BReflect j.
  Proof.
    destruct (C58_boundary N N_pos) as (_ & R & _). unfold xstep.
    replace (-2 - j)%Z with (-1 - (j + 1))%Z by lia. rewrite (xrow_same BReflect _ _ (proj1 (R (j + 1)%Z))).
    replace (-1 - (j + 1) + 1)%Z with (-1 - j)%Z by lia. rewrite (xrow_same BReflect _ _ (proj1 (R j))).
    apply dist_sym. rewrite !xrow_length. reflexivity.
  Qed.
  Lemma reflect_period j : xstep BReflect (j + Z.of_nat (2 * N)) = xstep BReflect j.
  Proof.
    destruct (C58_boundary N N_pos) as (_ & R & _). unfold xstep.
    replace (j + Z.of_nat (2 * N))%Z with (j + 2 * Z.of_nat N)%Z by lia. rewrite (xrow_same BReflect _ _ (proj2 (R j))).
    replace (j + 2 * Z.of_nat N + 1)%Z with (j + 1 + 2 * Z.of_nat N)%Z by lia. rewrite (xrow_same BReflect _ _ (proj2 (R (j + 1)%Z))). reflexivity.
  Qed.
  Lemma reflect_pause : xstep BReflect (-1) = 0.
  Proof.
    destruct (C58_boundary N N_pos) as (_ & R & _). unfold xstep.
    rewrite (xrow_same BReflect (-1) (-1 + 1) (proj1 (R 0%Z))). apply dist_refl.
  Qed.
  Lemma reflect_total d : zs (xstep BReflect) d (2 * N) = 2 * polyline rows.
  Proof.
    pose proof N_pos as P. rewrite zs_period by apply reflect_period. rewrite <- (zs_period _ (2 * N) (- Z.of_nat N)) by apply reflect_period.
    replace (2 * N)%nat with ((N - 1) + (1 + ((N - 1) + 1)))%nat by lia. rewrite !zs_app.
    rewrite (zs_ext (xstep BReflect) (fun j => xstep BReflect (-2 - j)) (- Z.of_nat N)) by (intros; symmetry; apply reflect_sym).
    rewrite zs_rev. replace (-2 - - Z.of_nat N - Z.of_nat (N - 1) + 1)%Z with 0%Z by lia.
    replace (- Z.of_nat N + Z.of_nat (N - 1) + Z.of_nat 1)%Z with 0%Z by lia. rewrite inner_steps. cbn [zs].
    replace (- Z.of_nat N + Z.of_nat (N - 1))%Z with (-1)%Z by lia. rewrite reflect_pause.
    replace (0 + Z.of_nat (N - 1))%Z with (-2 - (- Z.of_nat N - 1))%Z by lia. rewrite reflect_sym.
    replace (xstep BReflect (- Z.of_nat N - 1)) with (xstep BReflect (Z.of_nat N - 1)).
    2:{ rewrite <- (reflect_period (- Z.of_nat N - 1)%Z). f_equal. lia. }
    assert (Z0 : xstep BReflect (Z.of_nat N - 1) = 0).
    { destruct (C58_boundary N N_pos) as (_ & R & _). unfold xstep.
      rewrite (xrow_same BReflect (Z.of_nat N - 1 + 1) (Z.of_nat N - 1)); [apply dist_refl|].
      rewrite <- (proj1 (R (Z.of_nat N - 1 + 1)%Z)), <- (proj2 (R (-1 - (Z.of_nat N - 1 + 1))%Z)). f_equal. lia. }
    rewrite Z0. lra.
  Qed.
  Lemma reflect_steps d : zs (xstep BReflect) d (N - 1) <= 2 * polyline rows.
  Proof.
    pose proof N_pos as P. rewrite <- (reflect_total d). replace (2 * N)%nat with (N - 1 + (N + 1))%nat by lia. apply zs_part, xstep_nonneg.
  Qed.
  Lemma reflect_pair d : zs (xstep BReflect) d (N - 1) + zs (xstep BReflect) (- d) (N - 1) <= 2 * polyline rows.
  Proof.
    pose proof N_pos as P.
    rewrite (zs_ext (xstep BReflect) (fun j => xstep BReflect (-2 - j)) (- d)) by (intros; symmetry; apply reflect_sym). rewrite zs_rev.
    replace (-2 - - d - Z.of_nat (N - 1) + 1)%Z with (d - Z.of_nat N)%Z by lia.
    rewrite <- (reflect_total (d - Z.of_nat N)). replace (2 * N)%nat with ((N - 1) + (1 + ((N - 1) + 1)))%nat by lia. rewrite !zs_app.
    replace (d - Z.of_nat N + Z.of_nat (N - 1) + Z.of_nat 1)%Z with d by lia. cbn [zs].
    pose proof (xstep_nonneg BReflect (d - Z.of_nat N + Z.of_nat (N - 1))). pose proof (xstep_nonneg BReflect (d + Z.of_nat (N - 1))). lra.
  Qed.
  Lemma reflect_pair_even d : zs (xstep BReflect) d (N - 1) + zs (xstep BReflect) (1 - d) (N - 1) <= 2 * polyline rows.
  Proof.
    pose proof N_pos as P.
    rewrite (zs_ext (xstep BReflect) (fun j => xstep BReflect (-2 - j)) (1 - d)) by (intros; symmetry; apply reflect_sym). rewrite zs_rev.
    replace (-2 - (1 - d) - Z.of_nat (N - 1) + 1)%Z with (d - Z.of_nat N - 1)%Z by lia.
    rewrite <- (reflect_total (d - Z.of_nat N - 1)). replace (2 * N)%nat with ((N - 1) + (2 + (N - 1)))%nat by lia. rewrite !zs_app.
    replace (d - Z.of_nat N - 1 + Z.of_nat (N - 1) + Z.of_nat 2)%Z with d by lia.
    pose proof (zs_nonneg (xstep BReflect) (d - Z.of_nat N - 1 + Z.of_nat (N - 1)) 2 (xstep_nonneg BReflect)). lra.
  Qed.

  (** mirror: the steps repeat backwards at once. *)
  Lemma mirror_sym j : xstep BMirror (-1 - j) = xstep BMirror j.
  Proof.
    destruct (C58_boundary N N_pos) as (_ & _ & M & _). unfold xstep.
    replace (-1 - j)%Z with (- (j + 1))%Z by lia. rewrite (xrow_same BMirror _ _ (proj1 (M (j + 1)%Z))).
    replace (- (j + 1) + 1)%Z with (- j)%Z by lia. rewrite (xrow_same BMirror _ _ (proj1 (M j))).
    apply dist_sym. rewrite !xrow_length. reflexivity.
  Qed.
  Lemma mirror_period j : xstep BMirror (j + Z.of_nat (2 * (N - 1))) = xstep BMirror j.
  Proof.
    pose proof N_pos as P. destruct (C58_boundary N N_pos) as (_ & _ & M & _). unfold xstep.
    replace (j + Z.of_nat (2 * (N - 1)))%Z with (j + 2 * (Z.of_nat N - 1))%Z by lia. rewrite (xrow_same BMirror _ _ (proj2 (M j))).
    replace (j + 2 * (Z.of_nat N - 1) + 1)%Z with (j + 1 + 2 * (Z.of_nat N - 1))%Z by lia. rewrite (xrow_same BMirror _ _ (proj2 (M (j + 1)%Z))). reflexivity.
  Qed.
  Lemma mirror_total d : zs (xstep BMirror) d (2 * (N - 1)) = 2 * polyline rows.
  Proof.
    pose proof N_pos as P. rewrite zs_period by apply mirror_period. rewrite <- (zs_period _ (2 * (N - 1)) (- Z.of_nat (N - 1))) by apply mirror_period.
    replace (2 * (N - 1))%nat with ((N - 1) + (N - 1))%nat by lia. rewrite !zs_app.
    rewrite (zs_ext (xstep BMirror) (fun j => xstep BMirror (-1 - j)) (- Z.of_nat (N - 1))) by (intros; symmetry; apply mirror_sym).
    rewrite zs_rev. replace (-1 - - Z.of_nat (N - 1) - Z.of_nat (N - 1) + 1)%Z with 0%Z by lia.
    replace (- Z.of_nat (N - 1) + Z.of_nat (N - 1))%Z with 0%Z by lia. rewrite inner_steps. lra.
  Qed.
  Lemma mirror_steps d : zs (xstep BMirror) d (N - 1) <= 2 * polyline rows.
  Proof. rewrite <- (mirror_total d). replace (2 * (N - 1))%nat with (N - 1 + (N - 1))%nat by lia. apply zs_part, xstep_nonneg. Qed.
  Lemma mirror_pair d : zs (xstep BMirror) d (N - 1) + zs (xstep BMirror) (- d) (N - 1) = 2 * polyline rows.
  Proof.
    pose proof N_pos as P.
    rewrite (zs_ext (xstep BMirror) (fun j => xstep BMirror (-1 - j)) (- d)) by (intros; symmetry; apply mirror_sym). rewrite zs_rev.
    replace (-1 - - d - Z.of_nat (N - 1) + 1)%Z with (d - Z.of_nat (N - 1))%Z by lia.
    rewrite <- (mirror_total (d - Z.of_nat (N - 1))). replace (2 * (N - 1))%nat with ((N - 1) + (N - 1))%nat by lia. rewrite !zs_app.
    replace (d - Z.of_nat (N - 1) + Z.of_nat (N - 1))%Z with d by lia. lra.
  Qed.

  (** A symmetric window of even length makes the last two points equal in mode mirror. *)
  Lemma mirror_even_last (v : list R) h : rev v = v -> length v = (2 * h)%nat -> (2 <= N)%nat ->
    conv_row BMirror cval v rows n (N - 1) = conv_row BMirror cval v rows n (N - 2).
  Proof.
    intros Sy Lv H2. rewrite !conv_row_comb. rewrite Lv. replace (2 * h / 2)%nat with h by (rewrite Nat.mul_comm, Nat.div_mul; lia).
    apply vec_ext; [rewrite !comb_length; reflexivity|]. intros j. destruct (Nat.lt_ge_cases j n) as [J|J].
    2:{ rewrite !nth_overflow by (rewrite comb_length; lia). reflexivity. }
    rewrite !comb_nth by assumption. rewrite !vsum_ns. rewrite (ns_rev _ (2 * h)). apply ns_ext. intros k Hk.
    assert (V : nth (2 * h - 1 - k) v 0 = nth k v 0).
    { rewrite <- Sy at 1. rewrite rev_nth by lia. f_equal. lia. }
    rewrite V. f_equal. f_equal. destruct (C58_boundary N N_pos) as (_ & _ & M & _).
    apply (xrow_same BMirror). rewrite <- (proj1 (M (Z.of_nat (N - 2) + Z.of_nat h - Z.of_nat k)%Z)).
    rewrite <- (proj2 (M (- (Z.of_nat (N - 2) + Z.of_nat h - Z.of_nat k))%Z)). f_equal. lia.
  Qed.
  Lemma mirror_pair_even d : (2 <= N)%nat -> zs (xstep BMirror) d (N - 2) + zs (xstep BMirror) (1 - d) (N - 2) <= 2 * polyline rows.
  Proof.
    intros H2.
    rewrite (zs_ext (xstep BMirror) (fun j => xstep BMirror (-1 - j)) (1 - d)) by (intros; symmetry; apply mirror_sym). rewrite zs_rev.
    replace (-1 - (1 - d) - Z.of_nat (N - 2) + 1)%Z with (d - 1 - Z.of_nat (N - 2))%Z by lia.
    rewrite <- (mirror_total (d - 1 - Z.of_nat (N - 2))). replace (2 * (N - 1))%nat with ((N - 2) + (1 + ((N - 2) + 1)))%nat by lia. rewrite !zs_app.
    replace (d - 1 - Z.of_nat (N - 2) + Z.of_nat (N - 2) + Z.of_nat 1)%Z with d by lia. cbn [zs].
    pose proof (xstep_nonneg BMirror (d - 1 - Z.of_nat (N - 2) + Z.of_nat (N - 2))). pose proof (xstep_nonneg BMirror (d + Z.of_nat (N - 2))). lra.
  Qed.
  Lemma conv_steps_mirror_even (v : list R) h : rev v = v -> length v = (2 * h)%nat -> (2 <= N)%nat ->
    polyline (map (conv_row BMirror cval v rows n) (seq 0 N))
    <= ns (fun k => Rabs (nth k v 0) * zs (xstep BMirror) (Z.of_nat (length v / 2) - Z.of_nat k) (N - 2)) (length v).
  Proof.
    intros Sy Lv H2. eapply Rle_trans; [|apply (conv_steps_part BMirror v (N - 2))].
    replace N with (S (S (N - 2))) at 1 by lia. rewrite (polyline_map_seq _ (S (N - 2))), (polyline_map_seq _ (N - 2)). cbn [ns Nat.add].
    replace (S (N - 2)) with (N - 1)%nat by lia. rewrite (mirror_even_last v h Sy Lv H2), dist_refl. lra.
  Qed.

  (** All steps of the extended line are chords or zero. *)
  Lemma all_steps b h : b = BReflect \/ b = BMirror \/ b = BNearest -> 0 <= h ->
    (forall i, (S i < N)%nat -> dist (nth i rows []) (nth (S i) rows []) <= h) -> forall j, xstep b j <= h.
  Proof.
    intros B Hh Hs. pose proof N_pos as P.
    assert (In : forall b j, (0 <= j < Z.of_nat N - 1)%Z -> xstep b j <= h).
    { intros b' j Hj. unfold xstep. rewrite !xrow_in by lia. replace (Z.to_nat (j + 1)) with (S (Z.to_nat j)) by lia. apply Hs. lia. }
    destruct B as [-> | [-> | ->]]; intros j.
    - assert (Q : forall f p, (0 < p)%nat -> (forall j, f (j + Z.of_nat p)%Z = f j) -> forall j : Z, f j = f (j mod Z.of_nat p)%Z :> R).
      { intros f p Hp Per i. rewrite (Z.div_mod i (Z.of_nat p)) at 1 by lia. generalize (i mod Z.of_nat p)%Z as r. intros r.
        assert (K : forall q, f (Z.of_nat p * Z.of_nat q + r)%Z = f r).
        { induction q as [|q IH]; [f_equal; lia|]. rewrite <- IH, <- (Per (Z.of_nat p * Z.of_nat q + r)%Z). f_equal. lia. }
        destruct (Z_le_gt_dec 0 (i / Z.of_nat p)) as [G|G].
        - rewrite <- (K (Z.to_nat (i / Z.of_nat p))). f_equal. lia.
        - specialize (K (Z.to_nat (- (i / Z.of_nat p)))).
          assert (K2 : forall q x, f (x + Z.of_nat p * Z.of_nat q)%Z = f x).
          { induction q as [|q IH]; intros x; [f_equal; lia|]. rewrite <- (IH x), <- (Per (x + Z.of_nat p * Z.of_nat q)%Z). f_equal. lia. }
          rewrite <- (K2 (Z.to_nat (- (i / Z.of_nat p))) (Z.of_nat p * (i / Z.of_nat p) + r)%Z). f_equal. lia. }
      rewrite (Q (xstep BReflect) (2 * N)%nat ltac:(lia) reflect_period j).
      pose proof (Z.mod_pos_bound j (Z.of_nat (2 * N)) ltac:(lia)) as Bd. set (k := (j mod Z.of_nat (2 * N))%Z) in *.
      destruct (Z_lt_ge_dec k (Z.of_nat N - 1)) as [C1|C1]; [apply In; lia|].
      destruct (Z.eq_dec k (Z.of_nat N - 1)) as [C2|C2].
      { rewrite C2. replace (xstep BReflect (Z.of_nat N - 1)) with 0; [exact Hh|].
        destruct (C58_boundary N N_pos) as (_ & R & _). unfold xstep.
        rewrite (xrow_same BReflect (Z.of_nat N - 1 + 1) (Z.of_nat N - 1)); [symmetry; apply dist_refl|].
        rewrite <- (proj1 (R (Z.of_nat N - 1 + 1)%Z)), <- (proj2 (R (-1 - (Z.of_nat N - 1 + 1))%Z)). f_equal. lia. }
      destruct (Z.eq_dec k (Z.of_nat (2 * N) - 1)) as [C3|C3].
      { rewrite C3. replace (Z.of_nat (2 * N) - 1)%Z with (-1 + Z.of_nat (2 * N))%Z by lia. rewrite reflect_period, reflect_pause. exact Hh. }
      rewrite <- reflect_sym, <- reflect_period. apply In. lia.
    - destruct (Nat.eq_dec N 1) as [E1|E1].
      { unfold xstep. rewrite (xrow_same BMirror j (j + 1)); [rewrite dist_refl; exact Hh|]. cbn [ext_index]. rewrite E1. reflexivity. }
      assert (K : exists k, (0 <= k < 2 * (Z.of_nat N - 1))%Z /\ xstep BMirror j = xstep BMirror k).
      { exists (j mod (2 * (Z.of_nat N - 1)))%Z. split; [apply Z.mod_pos_bound; lia|].
        destruct (C58_boundary N N_pos) as (_ & _ & M & _). unfold xstep.
        assert (Ix : forall x q, ext_index BMirror N (x + 2 * (Z.of_nat N - 1) * q) = ext_index BMirror N x).
        { intros x q. cbn [ext_index]. destruct (Nat.eqb_spec N 1); [lia|]. rewrite Z.mul_comm, Z_mod_plus_full. reflexivity. }
        rewrite (Z.div_mod j (2 * (Z.of_nat N - 1))) at 1 2 by lia. set (q := (j / (2 * (Z.of_nat N - 1)))%Z). set (k := (j mod (2 * (Z.of_nat N - 1)))%Z).
        rewrite (xrow_same BMirror (2 * (Z.of_nat N - 1) * q + k) k) by (rewrite Z.add_comm; apply Ix).
        rewrite (xrow_same BMirror (2 * (Z.of_nat N - 1) * q + k + 1) (k + 1)); [reflexivity|]. rewrite <- (Ix (k + 1)%Z q). f_equal. lia. }
      destruct K as (k & Hk & ->). destruct (Z_lt_ge_dec k (Z.of_nat N - 1)) as [C1|C1]; [apply In; lia|].
      rewrite <- mirror_sym, <- mirror_period. apply In. lia.
    - destruct (Z_lt_ge_dec j 0) as [C1|C1]; [|destruct (Z_lt_ge_dec j (Z.of_nat N - 1)) as [C2|C2]; [apply In; lia|]];
      (unfold xstep; rewrite (xrow_same BNearest j (j + 1)); [rewrite dist_refl; exact Hh|cbn [ext_index]; f_equal; lia]).
  Qed.

  Lemma walk b h : (forall j, xstep b j <= h) -> forall k j, dist (xrow b j) (xrow b (j + Z.of_nat k)) <= INR k * h.
  Proof.
    intros H k j. induction k as [|k IH].
    - replace (j + Z.of_nat 0)%Z with j by lia. rewrite dist_refl. cbn. lra.
    - rewrite S_INR. pose proof (H (j + Z.of_nat k)%Z) as K. unfold xstep in K.
      replace (j + Z.of_nat (S k))%Z with (j + Z.of_nat k + 1)%Z by lia.
      pose proof (dist_triangle (xrow b j) (xrow b (j + Z.of_nat k)) (xrow b (j + Z.of_nat k + 1)) ltac:(rewrite !xrow_length; reflexivity) ltac:(rewrite !xrow_length; reflexivity)). lra.
  Qed.
End Steps.
