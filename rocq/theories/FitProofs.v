(** Splines in truncated powers: derivatives, sign changes, zeros, and the
    theorem of Schoenberg and Whitney. *)
From Coq Require Import ZArith List Bool Arith Lia Reals Lra Psatz.
From Coquelicot Require Import Hierarchy Derive Continuity.
From Verif Require Import Num Py Numeric Curve Vec Csaps Registry Savgol FitSpline Spec.
From Verif Require Import ListFacts VecFacts CurveProofs3 CurvesProofs SmoothProofs CsapsProofs SavgolProofs SavgolProofs2.
Import ListNotations.
Local Open Scope list_scope.
Local Open Scope R_scope.

(** ** Truncated powers *)

Lemma tpow_neg e (u : R) : u <= 0 -> tpow e u = 0.
Proof. intros H. unfold tpow. change (nleb u n0) with (Rleb u 0). rewrite (proj2 (Rleb_iff u 0)) by assumption. reflexivity. Qed.
Lemma tpow_pos e (u : R) : 0 < u -> tpow e u = u ^ e.
Proof. intros H. unfold tpow. destruct (nleb u n0) eqn:E; [apply Rleb_iff in E; cbn in E; lra|]. apply npow_R. Qed.

(** knots with coefficients *)
Fixpoint tsum (e : nat) (cs : list (R * R)) (x : R) : R :=
  match cs with [] => 0 | (q, c) :: r => c * tpow e (x - q) + tsum e r x end.
Definition sp (e : nat) (a : list R) (cs : list (R * R)) (x : R) : R := polyval a x + tsum e cs x.
Definition dcs (e : nat) (cs : list (R * R)) : list (R * R) := map (fun p => (fst p, INR e * snd p)) cs.
Definition knots (cs : list (R * R)) : list R := map fst cs.

Lemma knots_dcs e cs : knots (dcs e cs) = knots cs.
Proof. unfold knots, dcs. rewrite map_map. reflexivity. Qed.

Lemma tpow_derive e q x : x <> q -> is_derive (fun y => tpow (S e) (y - q)) x (INR (S e) * tpow e (x - q)).
Proof.
  intros N. destruct (Rlt_le_dec x q) as [H|H].
  - rewrite tpow_neg by lra. replace (INR (S e) * 0) with 0 by ring.
    apply (is_derive_ext_loc (fun _ => 0)); [|apply (@is_derive_const R_AbsRing R_NormedModule)].
    exists (mkposreal (q - x) ltac:(lra)). intros y Hy. unfold ball in Hy. cbn in Hy. unfold AbsRing_ball, abs, minus, plus, opp in Hy. cbn in Hy.
    rewrite tpow_neg; [reflexivity|]. apply Rabs_def2 in Hy. lra.
  - assert (P : 0 < x - q) by lra. rewrite tpow_pos by lra.
    apply (is_derive_ext_loc (fun y => (y - q) ^ S e)).
    + exists (mkposreal (x - q) P). intros y Hy. unfold ball in Hy. cbn in Hy. unfold AbsRing_ball, abs, minus, plus, opp in Hy. cbn in Hy.
      rewrite tpow_pos; [reflexivity|]. apply Rabs_def2 in Hy. lra.
    + replace (INR (S e) * (x - q) ^ e) with (INR (S e) * 1 * (x - q) ^ pred (S e)) by (cbn [pred]; ring).
      apply (is_derive_pow (fun y => y - q) (S e) x 1).
      replace 1 with (1 - 0) at 1 by ring. apply (@is_derive_minus R_AbsRing R_NormedModule); [apply (@is_derive_id R_AbsRing)|apply (@is_derive_const R_AbsRing R_NormedModule)].
Qed.
Lemma tpow_cont e q x : continuity_pt (fun y => tpow (S e) (y - q)) x.
Proof.
  apply (continuity_pt_ext (fun y => ((y - q + Rabs (y - q)) / 2) ^ S e)).
  { intros y. destruct (Rle_lt_dec (y - q) 0) as [H|H].
    - rewrite tpow_neg, Rabs_left1 by assumption. replace ((y - q + - (y - q)) / 2) with 0 by field. cbn. ring.
    - rewrite tpow_pos, Rabs_pos_eq by lra. f_equal. field. }
  reg. 
Qed.

Lemma tsum_derive e cs x : ~ In x (knots cs) -> is_derive (tsum (S e) cs) x (tsum e (dcs (S e) cs) x).
Proof.
  induction cs as [|[q c] cs IH]; intros N; [apply (@is_derive_const R_AbsRing R_NormedModule)|].
  cbn [tsum dcs map fst snd]. change (map (fun p : R * R => (fst p, INR (S e) * snd p)) cs) with (dcs (S e) cs).
  apply (@is_derive_plus R_AbsRing R_NormedModule).
  - replace (INR (S e) * c * tpow e (x - q)) with (c * (INR (S e) * tpow e (x - q))) by ring.
    apply is_derive_scal. apply tpow_derive. intros E. apply N. left. symmetry. exact E.
  - apply IH. intros H. apply N. right. exact H.
Qed.
Lemma tsum_cont e cs x : continuity_pt (tsum (S e) cs) x.
Proof.
  induction cs as [|[q c] cs IH]; [apply continuity_pt_const; intros ? ?; reflexivity|].
  apply (continuity_pt_plus (fun y => c * tpow (S e) (y - q)) (tsum (S e) cs)); [|exact IH].
  apply (continuity_pt_scal (fun y => tpow (S e) (y - q))). apply tpow_cont.
Qed.

Definition dsp (e : nat) (a : list R) (cs : list (R * R)) : R -> R := sp e (pder a) (dcs (S e) cs).
Lemma sp_derive e a cs x : ~ In x (knots cs) -> is_derive (sp (S e) a cs) x (dsp e a cs x).
Proof.
  intros N. apply (@is_derive_plus R_AbsRing R_NormedModule); [apply polyval_pder|apply tsum_derive, N].
Qed.
Lemma sp_cont e a cs x : continuity_pt (sp (S e) a cs) x.
Proof.
  apply (continuity_pt_plus (polyval a) (tsum (S e) cs)); [|apply tsum_cont].
  apply derivable_continuous_pt. exists (polyval (pder a) x). apply is_derive_Reals, polyval_pder.
Qed.

(** A function that is larger at y than at x has a positive derivative between. *)
Lemma sp_rises_neg e a cs ks : forall x y, x < y -> (forall q, In q (knots cs) -> x < q < y -> In q ks) ->
  (forall v, x < v < y -> dsp e a cs v <= 0) -> sp (S e) a cs y <= sp (S e) a cs x.
Proof.
  induction ks as [|k ks IH]; intros x y H K D.
  - assert (pr1 : forall v, x < v < y -> derivable_pt (sp (S e) a cs) v).
    { intros v Hv. exists (dsp e a cs v). apply is_derive_Reals, sp_derive. intros I. exact (K v I Hv). }
    assert (pr2 : forall v, x < v < y -> derivable_pt id v) by (intros; apply derivable_pt_id).
    destruct (MVT (sp (S e) a cs) id x y pr1 pr2 H) as (v & Hv & E).
    + intros v _. apply sp_cont.
    + intros v _. apply derivable_continuous_pt, derivable_pt_id.
    + assert (E1 : derive_pt (sp (S e) a cs) v (pr1 v Hv) = dsp e a cs v).
      { apply derive_pt_eq_0, is_derive_Reals, sp_derive. intros I. exact (K v I Hv). }
      assert (E2 : derive_pt id v (pr2 v Hv) = 1) by (apply derive_pt_eq_0, derivable_pt_lim_id).
      rewrite E1, E2 in E. unfold id in E. specialize (D v Hv). nra.
  - destruct (Rlt_le_dec x k) as [H1|H1]; [destruct (Rlt_le_dec k y) as [H2|H2]|].
    + apply Rle_trans with (sp (S e) a cs k); apply IH; try assumption; try (intros v Hv; apply D; lra);
        intros q I Hq; (destruct (K q I ltac:(lra)) as [E|]; [lra|assumption]).
    + apply IH; try assumption. intros q I Hq. destruct (K q I Hq) as [E|]; [lra|assumption].
    + apply IH; try assumption. intros q I Hq. destruct (K q I Hq) as [E|]; [lra|assumption].
Qed.

Definition rises (f f' : R -> R) : Prop := forall s x y, x < y -> s * f x < s * f y -> exists v, x < v < y /\ 0 < s * f' v.

Lemma tsum_scale e s cs x : tsum e (map (fun p => (fst p, s * snd p)) cs) x = s * tsum e cs x.
Proof. induction cs as [|[q c] cs IH]; cbn [map tsum fst snd]; [ring|]. rewrite IH. ring. Qed.
Lemma pder_scale (a : list R) s x : polyval (pder (vscale a s)) x = s * polyval (pder a) x.
Proof.
  rewrite <- polyval_scale. f_equal. apply vec_ext; [rewrite pder_length, !vscale_length, pder_length; reflexivity|].
  intros i. rewrite pder_nth, !nth_vscale, pder_nth. ring.
Qed.
Definition scs (s : R) (cs : list (R * R)) : list (R * R) := map (fun p => (fst p, s * snd p)) cs.
Lemma sp_scale e s a cs x : sp e (vscale a s) (scs s cs) x = s * sp e a cs x.
Proof. unfold sp, scs. rewrite tsum_scale, polyval_scale. ring. Qed.
Lemma dsp_scale e s a cs x : dsp e (vscale a s) (scs s cs) x = s * dsp e a cs x.
Proof.
  unfold dsp, sp. rewrite pder_scale. rewrite Rmult_plus_distr_l. f_equal. unfold dcs, scs. rewrite map_map. rewrite <- tsum_scale, map_map. f_equal.
  apply map_ext. intros [q c]. cbn. f_equal. ring.
Qed.

Lemma sp_rises e a cs : rises (sp (S e) a cs) (dsp e a cs).
Proof.
  intros s x y H L. rewrite <- !sp_scale in L.
  destruct (Classical_Prop.classic (exists v, x < v < y /\ 0 < s * dsp e a cs v)) as [|N]; [assumption|]. exfalso.
  assert (B : sp (S e) (vscale a s) (scs s cs) y <= sp (S e) (vscale a s) (scs s cs) x); [|lra].
  apply sp_rises_neg with (ks := knots (scs s cs)); [assumption|auto|]. intros v Hv. rewrite dsp_scale.
  destruct (Rle_lt_dec (s * dsp e a cs v) 0) as [|P]; [assumption|]. exfalso. apply N. exists v. split; assumption.
Qed.

(** ** Sign changes *)

(** n points between l and u where f has alternating signs, the first that of s. *)
Fixpoint alt (f : R -> R) (l s : R) (n : nat) (u : R) : Prop :=
  match n with O => l < u | S n' => exists w, l < w /\ 0 < s * f w /\ alt f w (- s) n' u end.

Lemma alt_lt f n : forall l s u, alt f l s n u -> l < u.
Proof. induction n as [|n IH]; intros l s u H; [exact H|]. destruct H as (w & H1 & _ & H2). apply IH in H2. lra. Qed.
Lemma alt_weaken f n : forall l l' s u, l' <= l -> alt f l s n u -> alt f l' s n u.
Proof. intros l l' s u H A. destruct n; [cbn in *; lra|]. destruct A as (w & A1 & A2 & A3). exists w. split; [lra|]. split; assumption. Qed.
Lemma alt_fewer f n : forall l s u m, (m <= n)%nat -> alt f l s n u -> alt f l s m u.
Proof.
  induction n as [|n IH]; intros l s u m H A; [assert (m = 0%nat) by lia; subst; exact A|].
  destruct m as [|m]; [exact (alt_lt f (S n) l s u A)|]. destruct A as (w & A1 & A2 & A3). exists w. split; [assumption|]. split; [assumption|]. apply IH; [lia|assumption].
Qed.

Section Step.
  Variables f f' : R -> R.
  Hypothesis F : rises f f'.

  Lemma alt_left n : forall l s u, s * f l <= 0 -> alt f l s n u -> alt f' l s n u.
  Proof.
    induction n as [|n IH]; intros l s u H A; [exact A|]. destruct A as (w & A1 & A2 & A3).
    destruct (F s l w A1 ltac:(lra)) as (v & Hv & P). exists v. split; [lra|]. split; [assumption|].
    apply alt_weaken with w; [lra|]. apply IH; [lra|assumption].
  Qed.
  Lemma alt_right n : forall l s u, s * f l < 0 -> f u = 0 -> alt f l s n u -> alt f' l s (S n) u.
  Proof.
    induction n as [|n IH]; intros l s u H Z A.
    - cbn in A. destruct (F s l u A) as (v & Hv & P); [rewrite Z; lra|]. exists v. split; [lra|]. split; [assumption|]. cbn. lra.
    - destruct A as (w & A1 & A2 & A3). destruct (F s l w A1 ltac:(lra)) as (v & Hv & P). exists v. split; [lra|]. split; [assumption|].
      apply alt_weaken with w; [lra|]. apply IH; [lra|assumption|assumption].
  Qed.

  Definition b2n (b : bool) : nat := if b then 1%nat else 0%nat.
  (** One derivative: one sign change fewer, one more for each end where f vanishes. *)
  Lemma alt_step (lz rz : bool) n l s u : (lz = true -> f l = 0) -> (rz = true -> f u = 0) -> alt f l s (S n) u ->
    exists s', (s <> 0 -> s' <> 0) /\ alt f' l s' (n + b2n lz + b2n rz) u.
  Proof.
    intros L U (w & A1 & A2 & A3).
    assert (B : alt f' w (- s) (n + b2n rz) u).
    { destruct rz; cbn [b2n]; [rewrite Nat.add_1_r; apply alt_right; [lra|auto|assumption]|rewrite Nat.add_0_r; apply alt_left; [lra|assumption]]. }
    destruct lz; cbn [b2n].
    - exists s. split; [auto|]. replace (n + 1 + b2n rz)%nat with (S (n + b2n rz)) by lia.
      destruct (F s l w A1) as (v & Hv & P); [rewrite L by reflexivity; lra|]. exists v. split; [lra|]. split; [assumption|]. apply alt_weaken with w; [lra|assumption].
    - exists (- s). split; [intros; lra|]. rewrite Nat.add_0_r. apply alt_weaken with w; [lra|assumption].
  Qed.

  (** Zeros with non-zero values between them. *)
  Definition chain (Z : nat -> R) (i n : nat) : Prop :=
    (forall j, (i <= j <= n)%nat -> f (Z j) = 0) /\ (forall j, (i <= j < n)%nat -> exists y, Z j < y < Z (S j) /\ f y <> 0).
  Lemma gap_sign z z' s : s <> 0 -> f z = 0 -> f z' = 0 -> (exists y, z < y < z' /\ f y <> 0) -> exists v, z < v < z' /\ 0 < s * f' v.
  Proof.
    intros Hs Z Z' (y & Hy & Ny). destruct (Rtotal_order (s * f y) 0) as [Q|[Q|Q]].
    - destruct (F s y z') as (v & Hv & P); [lra|rewrite Z'; lra|]. exists v. split; [lra|assumption].
    - exfalso. apply Ny. apply Rmult_integral in Q. tauto.
    - destruct (F s z y) as (v & Hv & P); [lra|rewrite Z; lra|]. exists v. split; [lra|assumption].
  Qed.
  Lemma chain_lt Z i n : chain Z i n -> (i < n)%nat -> Z i < Z (S i).
  Proof. intros [_ C] H. destruct (C i ltac:(lia)) as (y & ? & _). lra. Qed.
  Lemma chain_alt Z m : forall i s, s <> 0 -> chain Z i (i + S m) -> alt f' (Z i) s (S m) (Z (i + S m)%nat).
  Proof.
    induction m as [|m IH]; intros i s Hs [C1 C2].
    - rewrite Nat.add_1_r in *. destruct (gap_sign (Z i) (Z (S i)) s Hs) as (v & Hv & P); [apply C1; lia|apply C1; lia|apply C2; lia|].
      exists v. split; [lra|]. split; [assumption|]. cbn. lra.
    - destruct (gap_sign (Z i) (Z (S i)) s Hs) as (v & Hv & P); [apply C1; lia|apply C1; lia|apply C2; lia|].
      exists v. split; [lra|]. split; [assumption|]. apply alt_weaken with (Z (S i)); [lra|].
      replace (i + S (S m))%nat with (S i + S m)%nat by lia. apply IH; [lra|]. split; intros j Hj; [apply C1|apply C2]; lia.
  Qed.
  (** The derivative changes sign in every gap. *)
  Lemma chain_changes Z m : chain Z 0 (S m) -> exists s, s <> 0 /\ alt f' (Z 0%nat) s (S (S m)) (Z (S m)).
  Proof.
    intros C. assert (C' := C). destruct C as [C1 C2]. destruct (C2 0%nat ltac:(lia)) as (y & Hy & Ny).
    set (s := f y). assert (P : 0 < s * f y) by exact (Rsqr_pos_lt (f y) Ny).
    destruct (F s (Z 0%nat) y) as (v & Hv & Pv); [lra|rewrite C1 by lia; lra|].
    destruct (F (- s) y (Z 1%nat)) as (v' & Hv' & Pv'); [lra|rewrite C1 by lia; lra|].
    exists s. split; [exact Ny|]. exists v. split; [lra|]. split; [assumption|]. exists v'. split; [lra|]. split; [assumption|].
    destruct m as [|m]; [cbn [alt]; lra|]. apply alt_weaken with (Z 1%nat); [lra|].
    change (S (S m)) with (1 + S m)%nat. apply chain_alt; [unfold s; lra|]. split; intros j Hj; [apply C1|apply C2]; lia.
  Qed.
End Step.

(** Between points of different sign of a piecewise constant function is a knot. *)
Lemma const_knot a cs x y : (length a <= 1)%nat -> x < y -> sp 0 a cs x <> sp 0 a cs y -> exists q, In q (knots cs) /\ x <= q < y.
Proof.
  intros La H N. destruct (Classical_Prop.classic (exists q, In q (knots cs) /\ x <= q < y)) as [|K]; [assumption|]. exfalso. apply N.
  unfold sp. f_equal.
  - destruct a as [|c [|d a]]; cbn in *; [reflexivity|ring|lia].
  - clear N. induction cs as [|[q c] cs IH]; [reflexivity|]. cbn [tsum]. rewrite IH.
    2:{ intros (p & I & Hp). apply K. exists p. split; [right; assumption|assumption]. }
    f_equal. f_equal. destruct (Rlt_le_dec q x) as [L|L].
    + rewrite !tpow_pos by lra. reflexivity.
    + destruct (Rlt_le_dec q y) as [L'|L']; [exfalso; apply K; exists q; split; [left; reflexivity|lra]|]. rewrite !tpow_neg by lra. reflexivity.
Qed.
(** The sign changes of a piecewise constant function are at most its knots. *)
Lemma const_changes a cs : (length a <= 1)%nat -> forall ks l s n u, alt (sp 0 a cs) l s (S n) u ->
  (forall q, In q (knots cs) -> l < q < u -> In q ks) -> (n <= length ks)%nat.
Proof.
  intros La ks l s n u A K.
  assert (G : forall n w s, 0 < s * sp 0 a cs w -> alt (sp 0 a cs) w (- s) n u -> l < w ->
     exists ps, length ps = n /\ NoDup ps /\ forall p, In p ps -> w <= p /\ l < p < u /\ In p (knots cs)).
  { clear n s A. induction n as [|n IH]; intros w s P A Hw.
    - exists []. split; [reflexivity|]. split; [constructor|intros p []].
    - destruct A as (w' & A1 & A2 & A3). assert (U := alt_lt _ _ _ _ _ A3).
      destruct (IH w' (- s) A2 A3 ltac:(lra)) as (ps & E & D & Q).
      destruct (const_knot a cs w w' La A1) as (q & Iq & Hq); [intros E'; rewrite E' in P; lra|].
      exists (q :: ps). split; [cbn; lia|]. split.
      + constructor; [|assumption]. intros I. destruct (Q q I) as (H & _). lra.
      + intros p [<-|I]; [split; [lra|split; [lra|assumption]]|]. destruct (Q p I) as (H & H1 & H2). split; [lra|split; assumption]. }
  destruct A as (w & A1 & A2 & A3). destruct (G n w s A2 A3 A1) as (ps & <- & D & Q).
  apply NoDup_incl_length; [assumption|]. intros p I. destruct (Q p I) as (_ & H1 & H2). apply K; assumption.
Qed.

(** ** All derivatives *)

(** the d-th derivative of a spline of degree k *)
Fixpoint dcoef (d k : nat) (cs : list (R * R)) : list (R * R) :=
  match d with O => cs | S d' => dcs (k - d') (dcoef d' k cs) end.
Definition dspn (d k : nat) (a : list R) (cs : list (R * R)) : R -> R := sp (k - d) (Nat.iter d pder a) (dcoef d k cs).
Lemma knots_dcoef d k cs : knots (dcoef d k cs) = knots cs.
Proof. induction d as [|d IH]; [reflexivity|]. cbn [dcoef]. rewrite knots_dcs. exact IH. Qed.
Lemma dspn_S d k a cs : (d < k)%nat -> dspn (S d) k a cs = dsp (k - S d) (Nat.iter d pder a) (dcoef d k cs).
Proof. intros H. unfold dspn, dsp. cbn [dcoef]. replace (S (k - S d)) with (k - d)%nat by lia. reflexivity. Qed.
Lemma dspn_split d k a cs : (d < k)%nat -> dspn d k a cs = sp (S (k - S d)) (Nat.iter d pder a) (dcoef d k cs).
Proof. intros H. unfold dspn. replace (S (k - S d)) with (k - d)%nat by lia. reflexivity. Qed.
Lemma dspn_rises d k a cs : (d < k)%nat -> rises (dspn d k a cs) (dspn (S d) k a cs).
Proof. intros H. rewrite dspn_S, dspn_split by assumption. apply sp_rises. Qed.
Lemma dspn_cont d k a cs x : (d < k)%nat -> continuity_pt (dspn d k a cs) x.
Proof. intros H. rewrite dspn_split by assumption. apply sp_cont. Qed.
Lemma dspn_derive d k a cs x : (d < k)%nat -> ~ In x (knots cs) -> is_derive (dspn d k a cs) x (dspn (S d) k a cs x).
Proof. intros H N. rewrite dspn_S, dspn_split by assumption. apply sp_derive. rewrite knots_dcoef. exact N. Qed.

(** Zeros of a spline of degree k against its knots: n + 1 zeros with non-zero
    values between them, and all derivatives zero at the ends with lz, rz. *)
Theorem zero_count k a cs Z n (lz rz : bool) ks : (0 < k)%nat -> (length a <= S k)%nat -> chain (sp k a cs) Z 0 (S n) ->
  (lz = true -> forall d, (d < k)%nat -> dspn d k a cs (Z 0%nat) = 0) ->
  (rz = true -> forall d, (d < k)%nat -> dspn d k a cs (Z (S n)) = 0) ->
  (forall q, In q (knots cs) -> Z 0%nat < q < Z (S n) -> In q ks) ->
  (S n + (k - 1) * (b2n lz + b2n rz) <= length ks + (k - 1))%nat.
Proof.
  intros Hk La C LZ RZ K.
  assert (A : forall d, (d < k)%nat -> exists s m, (S m + d >= S (S n) + d * (b2n lz + b2n rz))%nat /\ alt (dspn (S d) k a cs) (Z 0%nat) s (S m) (Z (S n)) \/ (S (S n) + d * (b2n lz + b2n rz) <= d)%nat).
  { induction d as [|d IH]; intros Hd.
    - destruct (chain_changes (sp k a cs) (dspn 1 k a cs)) with (Z := Z) (m := n) as (s & _ & A); [|assumption|].
      + assert (E : sp k a cs = dspn 0 k a cs) by (unfold dspn; rewrite Nat.sub_0_r; reflexivity). rewrite E. apply dspn_rises. lia.
      + exists s, (S n). left. split; [lia|assumption].
    - destruct (IH ltac:(lia)) as (s & m & [[L A]|L]).
      2:{ exists 0, 0%nat. right. destruct lz, rz; cbn [b2n] in *; lia. }
      destruct (alt_step (dspn (S d) k a cs) (dspn (S (S d)) k a cs)) with (lz := lz) (rz := rz) (n := m) (l := Z 0%nat) (s := s) (u := Z (S n)) as (s' & _ & A').
      + apply dspn_rises. assumption.
      + intros E. apply LZ; assumption.
      + intros E. apply RZ; assumption.
      + assumption.
      + destruct (m + b2n lz + b2n rz)%nat as [|m'] eqn:E.
        * exists 0, 0%nat. right. destruct lz, rz; cbn [b2n] in *; lia.
        * exists s', m'. left. split; [destruct lz, rz; cbn [b2n] in *; lia|assumption]. }
  destruct (A (k - 1)%nat ltac:(lia)) as (s & m & [[L B]|L]).
  - replace (S (k - 1)) with k in B by lia.
    assert (M : (m <= length ks)%nat).
    { unfold dspn in B. rewrite Nat.sub_diag in B. apply (const_changes (Nat.iter k pder a) (dcoef k k cs)) with (l := Z 0%nat) (s := s) (u := Z (S n)).
      - rewrite iter_pder_length. lia.
      - assumption.
      - intros q I H. rewrite knots_dcoef in I. apply K; assumption. }
    destruct lz, rz; cbn [b2n] in *; lia.
  - destruct lz, rz; cbn [b2n] in *; lia.
Qed.

(** ** Pieces *)

Lemma pprod_pow q k x : polyval (pprod (repeat q k)) x = (x - q) ^ k.
Proof. induction k as [|k IH]; [cbn; ring|]. cbn [repeat pprod fold_right]. rewrite pmul_eval. fold (pprod (repeat q k)). rewrite IH. reflexivity. Qed.

Definition clear (cs : list (R * R)) (u v : R) : Prop := forall q, In q (knots cs) -> q <= u \/ v <= q.
Lemma piece_poly k a cs u v : length a = S k -> (0 < k)%nat -> u < v -> clear cs u v ->
  exists b, length b = S k /\ forall x, u <= x <= v -> sp k a cs x = polyval b x.
Proof.
  intros La Hk H. induction cs as [|[q c] cs IH]; intros C.
  - exists a. split; [assumption|]. intros x _. unfold sp. cbn. ring.
  - destruct IH as (b & Lb & E); [intros p I; apply C; right; assumption|].
    destruct (C q (or_introl eq_refl)) as [Q|Q].
    + exists (vadd b (vscale (pprod (repeat q k)) c)).
      assert (Lp : length (vscale (pprod (repeat q k)) c) = S k) by (rewrite vscale_length, pprod_length, repeat_length; reflexivity).
      split; [rewrite vadd_length; congruence|]. intros x Hx. rewrite polyval_add by congruence. rewrite <- E, polyval_scale, pprod_pow by assumption.
      unfold sp. cbn [tsum]. destruct (Rle_lt_dec (x - q) 0) as [Z|P].
      * rewrite tpow_neg by assumption. replace (x - q) with 0 by lra. rewrite pow_i by assumption. ring.
      * rewrite tpow_pos by assumption. ring.
    + exists b. split; [assumption|]. intros x Hx. rewrite <- E by assumption. unfold sp. cbn [tsum]. rewrite tpow_neg by lra. ring.
Qed.

Lemma poly_null b u v : u < v -> (forall x, u < x < v -> polyval b x = 0) -> forall i, nth i b 0 = 0.
Proof.
  intros H Z. set (n := length b).
  assert (P : 0 < INR (S n)) by (apply lt_0_INR; lia).
  apply (poly_roots b (map (fun i => u + (v - u) * (INR (S i) / INR (S n))) (seq 0 n) )).
  - apply FinFun.Injective_map_NoDup; [|apply seq_NoDup]. intros i j E.
    assert (E1 : (v - u) * (INR (S i) / INR (S n)) = (v - u) * (INR (S j) / INR (S n))) by lra.
    apply Rmult_eq_reg_l in E1; [|lra]. unfold Rdiv in E1. apply Rmult_eq_reg_r in E1; [|apply Rinv_neq_0_compat; lra]. apply INR_eq in E1. lia.
  - rewrite map_length, seq_length. unfold n. lia.
  - intros x Hx. apply in_map_iff in Hx as (i & <- & Hi). apply in_seq in Hi. apply Z.
    assert (L1 : 0 < INR (S i) / INR (S n)) by (apply Rdiv_lt_0_compat; [apply lt_0_INR; lia|assumption]).
    assert (L2 : INR (S i) / INR (S n) < 1).
    { apply Rmult_lt_reg_r with (INR (S n)); [assumption|]. unfold Rdiv. rewrite Rmult_assoc, Rinv_l, Rmult_1_r, Rmult_1_l by lra. apply lt_INR. lia. }
    split; nra.
Qed.
Lemma polyval_null b x : (forall i, nth i b 0 = 0) -> polyval b x = 0.
Proof. intros H. rewrite polyval_bsum. transitivity (bsum (fun _ => 0) (length b)); [apply bsum_ext; intros i _; rewrite H; ring|apply bsum_zero]. Qed.

Lemma piece_null k a cs u v u' v' : length a = S k -> (0 < k)%nat -> clear cs u v -> u <= u' -> u' < v' -> v' <= v ->
  (forall x, u' < x < v' -> sp k a cs x = 0) -> forall x, u <= x <= v -> sp k a cs x = 0.
Proof.
  intros La Hk C H1 H2 H3 Z. destruct (piece_poly k a cs u v La Hk ltac:(lra) C) as (b & Lb & E). intros x Hx. rewrite E by assumption.
  apply polyval_null. apply (poly_null b u' v' H2). intros y Hy. rewrite <- E by lra. apply Z, Hy.
Qed.

Lemma cont_null (g : R -> R) u v w : continuity_pt g w -> u < v -> u <= w <= v -> (forall x, u < x < v -> g x = 0) -> g w = 0.
Proof.
  intros C H Hw Z. destruct (Req_dec (g w) 0) as [|N]; [assumption|]. exfalso.
  destruct (C (Rabs (g w)) (Rabs_pos_lt _ N)) as (d & Hd & D).
  assert (X : exists x, u < x < v /\ x <> w /\ Rabs (x - w) < d).
  { destruct (Rlt_le_dec w v) as [L|L].
    - set (m := Rmin d (v - w)). assert (M : 0 < m) by (apply Rmin_pos; lra). assert (M1 : m <= d) by apply Rmin_l. assert (M2 : m <= v - w) by apply Rmin_r.
      exists (w + m / 2). split; [lra|]. split; [lra|]. rewrite Rabs_pos_eq; lra.
    - set (m := Rmin d (w - u)). assert (M : 0 < m) by (apply Rmin_pos; lra). assert (M1 : m <= d) by apply Rmin_l. assert (M2 : m <= w - u) by apply Rmin_r.
      exists (w - m / 2). split; [lra|]. split; [lra|]. rewrite Rabs_left; lra. }
  destruct X as (x & X1 & X2 & X3). specialize (D x). cbn in D. unfold R_dist, D_x, no_cond in D.
  assert (D' := D (conj (conj Logic.I (not_eq_sym X2)) X3)). rewrite (Z x X1) in D'. replace (0 - g w) with (- g w) in D' by ring. rewrite Rabs_Ropp in D'. lra.
Qed.

Lemma null_derivs k a cs u v : u < v -> clear cs u v -> (forall x, u < x < v -> sp k a cs x = 0) ->
  forall d, (d <= k)%nat -> forall x, u < x < v -> dspn d k a cs x = 0.
Proof.
  intros H C Z. induction d as [|d IH]; intros Hd x Hx.
  - unfold dspn. rewrite Nat.sub_0_r. apply Z, Hx.
  - assert (D := dspn_derive d k a cs x ltac:(lia) ltac:(intros I; destruct (C x I); lra)).
    assert (D0 : is_derive (dspn d k a cs) x 0).
    { apply (is_derive_ext_loc (fun _ => 0)); [|apply (@is_derive_const R_AbsRing R_NormedModule)].
      assert (P : 0 < Rmin (x - u) (v - x)) by (apply Rmin_pos; lra). exists (mkposreal _ P). intros y Hy.
      unfold ball in Hy. cbn in Hy. unfold AbsRing_ball, abs, minus, plus, opp in Hy. cbn in Hy. apply Rabs_def2 in Hy.
      assert (M1 := Rmin_l (x - u) (v - x)). assert (M2 := Rmin_r (x - u) (v - x)). symmetry. apply IH; [lia|lra]. }
    rewrite <- (is_derive_unique _ _ _ D). apply is_derive_unique. assumption.
Qed.
Lemma null_ends k a cs u v : u < v -> clear cs u v -> (forall x, u < x < v -> sp k a cs x = 0) ->
  forall d, (d < k)%nat -> forall x, u <= x <= v -> dspn d k a cs x = 0.
Proof.
  intros H C Z d Hd x Hx. apply (cont_null (dspn d k a cs) u v); [apply dspn_cont; assumption|assumption|assumption|].
  apply null_derivs; [assumption|assumption|assumption|lia].
Qed.

(** ** The theorem of Schoenberg and Whitney *)

Section Whitney.
  Variables (k r : nat) (a : list R) (c : nat -> R) (K X : nat -> R).
  Hypotheses (Hk : (0 < k)%nat) (La : length a = S k).
  Hypothesis KI : forall i, (i <= r)%nat -> K i < K (S i).
  Hypothesis XI : forall i, (i < k + r)%nat -> X i < X (S i).
  Hypotheses (X0 : K 0%nat < X 0%nat) (X1 : X (k + r)%nat < K (S r)).
  Hypothesis XK : forall j, (1 <= j <= r)%nat -> X (j - 1)%nat < K j < X (j + k)%nat.
  Definition wcs : list (R * R) := map (fun j => (K (S j), c j)) (seq 0 r).
  Let f := sp k a wcs.
  Hypothesis Zero : forall i, (i <= k + r)%nat -> f (X i) = 0.

  Lemma K_lt i j : (i < j <= S r)%nat -> K i < K j.
  Proof. intros [H1 H2]. induction H1 as [|j H1 IH]; [apply KI; lia|]. apply Rlt_trans with (K j); [apply IH; lia|apply KI; lia]. Qed.
  Lemma K_le i j : (i <= j <= S r)%nat -> K i <= K j.
  Proof. intros H. destruct (Nat.eq_dec i j) as [->|]; [lra|]. apply Rlt_le, K_lt. lia. Qed.
  Lemma X_lt i j : (i < j <= k + r)%nat -> X i < X j.
  Proof. intros [H1 H2]. induction H1 as [|j H1 IH]; [apply XI; lia|]. apply Rlt_trans with (X j); [apply IH; lia|apply XI; lia]. Qed.
  Lemma X_le i j : (i <= j <= k + r)%nat -> X i <= X j.
  Proof. intros H. destruct (Nat.eq_dec i j) as [->|]; [lra|]. apply Rlt_le, X_lt. lia. Qed.
  Lemma wknots q : In q (knots wcs) -> exists j, (1 <= j <= r)%nat /\ q = K j.
  Proof. unfold knots, wcs. rewrite map_map. intros I. apply in_map_iff in I as (j & <- & Hj). apply in_seq in Hj. exists (S j). split; [lia|reflexivity]. Qed.
  Lemma wclear i : (i <= r)%nat -> clear wcs (K i) (K (S i)).
  Proof.
    intros Hi q I. apply wknots in I as (j & Hj & ->). destruct (Nat.le_gt_cases j i); [left; apply K_le; lia|right; apply K_le; lia].
  Qed.

  Definition null (i : nat) : Prop := forall x, K i < x < K (S i) -> f x = 0.

  (** Between two points inside a run of pieces that are not null, f is not null. *)
  Lemma separated p q : (p <= q <= r)%nat -> (forall i, (p <= i <= q)%nat -> ~ null i) -> forall z z', K p <= z -> z < z' -> z' <= K (S q) ->
    exists y, z < y < z' /\ f y <> 0.
  Proof.
    intros Hp N z z' H1 H2 H3. destruct (Classical_Prop.classic (exists y, z < y < z' /\ f y <> 0)) as [|B]; [assumption|]. exfalso.
    assert (Zz : forall y, z < y < z' -> f y = 0).
    { intros y Hy. destruct (Req_dec (f y) 0) as [|Ny]; [assumption|]. exfalso. apply B. exists y. split; assumption. }
    assert (I : exists i, (p <= i <= q)%nat /\ K i <= z < K (S i)).
    { clear N Zz B. assert (G : forall m, (p + m <= q)%nat -> z < K (S (p + m)) -> exists i, (p <= i <= p + m)%nat /\ K i <= z < K (S i)).
      { induction m as [|m IH]; intros Hm L.
        - exists p. rewrite Nat.add_0_r in *. split; [lia|]. split; [assumption|lra].
        - destruct (Rlt_le_dec z (K (S (p + m)))) as [L'|L'].
          + destruct IH as (i & Hi & E); [lia|assumption|]. exists i. split; [lia|assumption].
          + exists (p + S m)%nat. split; [lia|]. replace (p + S m)%nat with (S (p + m)) by lia. split; [assumption|].
            replace (S (S (p + m))) with (S (p + S m)) by lia. assumption. }
      destruct (G (q - p)%nat ltac:(lia)) as (i & Hi & E); [replace (p + (q - p))%nat with q by lia; lra|]. exists i. split; [lia|assumption]. }
    destruct I as (i & Hi & Hz). apply (N i Hi). intros x Hx.
    assert (M1 := Rmin_l z' (K (S i))). assert (M2 := Rmin_r z' (K (S i))).
    apply (piece_null k a wcs (K i) (K (S i)) z (Rmin z' (K (S i)))); try assumption; try lra.
    - apply wclear. lia.
    - apply Rmin_glb_lt; lra.
    - intros y Hy. apply Zz. lra.
  Qed.

  Lemma run p : (p <= r)%nat -> ~ null p -> exists q, (p <= q <= r)%nat /\ (forall i, (p <= i <= q)%nat -> ~ null i) /\ (q = r \/ null (S q)).
  Proof.
    intros Hp N. assert (G : forall m, (p + m <= r)%nat -> (forall i, (p <= i <= p + m)%nat -> ~ null i) \/
      exists q, (p <= q <= r)%nat /\ (forall i, (p <= i <= q)%nat -> ~ null i) /\ (q = r \/ null (S q))).
    { induction m as [|m IH]; intros Hm.
      - left. intros i Hi. replace i with p by lia. assumption.
      - destruct (IH ltac:(lia)) as [A|A]; [|right; assumption]. destruct (Classical_Prop.classic (null (S (p + m)))) as [Y|Y].
        + right. exists (p + m)%nat. split; [lia|]. split; [assumption|]. right. assumption.
        + left. intros i Hi. destruct (Nat.eq_dec i (S (p + m))) as [->|]; [assumption|]. apply A. lia. }
    destruct (G (r - p)%nat ltac:(lia)) as [A|A]; [|assumption]. exists r. split; [lia|]. split; [intros i Hi; apply A; lia|left; reflexivity].
  Qed.
  Lemma first_nonnull i : (i <= r)%nat -> ~ null i -> exists p, (p <= r)%nat /\ ~ null p /\ (p = 0%nat \/ (1 <= p)%nat /\ null (p - 1)).
  Proof.
    induction i as [|i IH]; intros Hi N; [exists 0%nat; repeat split; auto|].
    destruct (Classical_Prop.classic (null i)) as [Y|Y]; [|apply IH; [lia|assumption]].
    exists (S i). split; [assumption|]. split; [assumption|]. right. replace (S i - 1)%nat with i by lia. split; [lia|assumption].
  Qed.

  Theorem all_null i : (i <= r)%nat -> null i.
  Proof.
    intros Hi. destruct (Classical_Prop.classic (null i)) as [|Ni]; [assumption|]. exfalso.
    destruct (first_nonnull i Hi Ni) as (p & Hp & Np & Ep). destruct (run p Hp Np) as (q & Hq & Nq & Eq).
    set (lz := negb (Nat.eqb p 0)). set (rz := Nat.ltb q r).
    set (lo := if lz then (p + k)%nat else 0%nat). set (hi := if rz then (q + 1)%nat else (k + r + 1)%nat). set (N := (hi - lo)%nat).
    set (Z := fun j : nat => if lz && Nat.eqb j 0 then K p else if Nat.ltb (j - b2n lz) N then X (lo + (j - b2n lz))%nat else K (S q)).
    assert (Hlz : (lz = true /\ (0 < p)%nat) \/ (lz = false /\ p = 0%nat)) by (unfold lz; destruct (Nat.eqb_spec p 0); cbn; [right|left]; split; (reflexivity || lia)).
    assert (Hrz : (rz = true /\ (q < r)%nat) \/ (rz = false /\ q = r)) by (unfold rz; destruct (Nat.ltb_spec q r); [left|right]; split; (reflexivity || lia)).
    assert (Tot : exists n, (b2n lz + N + b2n rz = S (S n))%nat).
    { exists (b2n lz + N + b2n rz - 2)%nat. unfold N, hi, lo. destruct Hlz as [[-> ?]|[-> ?]]; destruct Hrz as [[-> ?]|[-> ?]]; cbn [b2n]; lia. }
    destruct Tot as (n & Tot).
    assert (LZ : lz = true -> forall d, (d < k)%nat -> dspn d k a wcs (K p) = 0).
    { intros E d Hd. destruct Hlz as [[_ P]|[E' _]]; [|congruence]. destruct Ep as [->|[_ Y]]; [lia|].
      apply (null_ends k a wcs (K (p - 1)%nat) (K p)); try assumption.
      - apply K_lt. lia.
      - replace (K p) with (K (S (p - 1))) by (f_equal; lia). apply wclear. lia.
      - unfold null in Y. replace (S (p - 1)) with p in Y by lia. exact Y.
      - split; [apply K_le; lia|lra]. }
    assert (RZ : rz = true -> forall d, (d < k)%nat -> dspn d k a wcs (K (S q)) = 0).
    { intros E d Hd. destruct Hrz as [[_ P]|[E' _]]; [|congruence]. destruct Eq as [->|Y]; [lia|].
      apply (null_ends k a wcs (K (S q)) (K (S (S q)))); try assumption.
      - apply KI. lia.
      - apply wclear. lia.
      - split; [lra|apply K_le; lia]. }
    assert (f0 : f = dspn 0 k a wcs) by (unfold f, dspn; rewrite Nat.sub_0_r; reflexivity).
    (* the bounds of the inner zeros *)
    assert (In1 : forall j, (lo <= j)%nat -> (j <= k + r)%nat -> K p < X j).
    { intros j H1 H2. unfold lo in H1. destruct Hlz as [[E P]|[E P]]; rewrite E in H1.
      - apply Rlt_le_trans with (X (p + k)%nat); [apply XK; lia|apply X_le; lia].
      - subst p. apply Rlt_le_trans with (X 0%nat); [assumption|apply X_le; lia]. }
    assert (In2 : forall j, (j < hi)%nat -> (j <= k + r)%nat /\ X j < K (S q)).
    { intros j H1. unfold hi in H1. destruct Hrz as [[E P]|[E P]]; rewrite E in H1.
      - split; [lia|]. apply Rle_lt_trans with (X q); [apply X_le; lia|]. destruct (XK (S q)) as [H _]; [lia|]. replace (S q - 1)%nat with q in H by lia. exact H.
      - split; [lia|]. subst q. apply Rle_lt_trans with (X (k + r)%nat); [apply X_le; lia|assumption]. }
    assert (Zin : forall j, (j <= S n)%nat -> K p <= Z j <= K (S q) /\ f (Z j) = 0 /\ ((j < S n)%nat -> Z j < Z (S j))).
    { intros j Hj. assert (Kpq : K p < K (S q)) by (apply K_lt; lia).
      unfold Z. destruct (lz && Nat.eqb j 0) eqn:E0.
      - apply andb_true_iff in E0 as [E0 E1]. apply Nat.eqb_eq in E1. subst j. split; [lra|]. split; [rewrite f0; apply LZ; assumption|]. intros _.
        cbn [Nat.eqb]. rewrite andb_false_r. rewrite E0. cbn [b2n Nat.sub]. destruct (Nat.ltb_spec 0 N) as [H|H]; [|assumption].
        apply In1; [lia|]. apply In2. unfold N in H. lia.
      - destruct (Nat.ltb_spec (j - b2n lz) N) as [H|H].
        + assert (B : (lo + (j - b2n lz) < hi)%nat) by (unfold N in H; lia). destruct (In2 _ B) as [B1 B2]. assert (B3 := In1 _ (Nat.le_add_r lo (j - b2n lz)) B1).
          split; [lra|]. split; [apply Zero; assumption|]. intros _. cbn [Nat.eqb]. rewrite andb_false_r.
          assert (Ej : (S j - b2n lz = S (j - b2n lz))%nat).
          { destruct Hlz as [[E P]|[E P]]; rewrite E in *; cbn [b2n andb] in *; [apply Nat.eqb_neq in E0; lia|lia]. }
          rewrite Ej. destruct (Nat.ltb_spec (S (j - b2n lz)) N) as [H'|H'].
          * apply X_lt. assert (B' : (lo + S (j - b2n lz) < hi)%nat) by (unfold N in H'; lia). destruct (In2 _ B'). lia.
          * exact B2.
        + assert (E : rz = true /\ j = S n).
          { destruct Hlz as [[E P]|[E P]]; rewrite E in *; destruct Hrz as [[E' P']|[E' P']]; rewrite E' in *; cbn [b2n andb] in *; split; try reflexivity; try lia;
              try (apply Nat.eqb_neq in E0; lia). }
          destruct E as [E ->]. split; [lra|]. split; [rewrite f0; apply RZ; [assumption|lia]|]. intros Q. lia. }
    assert (C : chain f Z 0 (S n)).
    { split; intros j Hj; [apply Zin; lia|]. destruct (Zin j ltac:(lia)) as ((B1 & _) & _ & B2). destruct (Zin (S j) ltac:(lia)) as ((_ & B3) & _).
      apply (separated p q); try assumption. apply B2. lia. }
    assert (Cnt := zero_count k a wcs Z n lz rz (map K (seq (S p) (q - p))) Hk ltac:(lia) C).
    rewrite map_length, seq_length in Cnt.
    assert (Le : (S n + (k - 1) * (b2n lz + b2n rz) <= q - p + (k - 1))%nat).
    { apply Cnt.
      - intros E d Hd. unfold Z. rewrite E. cbn [andb Nat.eqb]. apply LZ; assumption.
      - intros E d Hd. unfold Z. cbn [Nat.eqb]. rewrite andb_false_r. destruct (Nat.ltb_spec (S n - b2n lz) N) as [H|H].
        + rewrite E in Tot. cbn [b2n] in Tot. lia.
        + apply RZ; assumption.
      - intros y I Hy. apply wknots in I as (j & Hj & ->). destruct (Zin 0%nat ltac:(lia)) as ((B1 & _) & _). destruct (Zin (S n) ltac:(lia)) as ((_ & B2) & _).
        apply in_map_iff. exists j. split; [reflexivity|]. apply in_seq.
        assert (p < j)%nat by (destruct (Nat.le_gt_cases j p) as [L|]; [assert (K j <= K p) by (apply K_le; lia); lra|assumption]).
        assert (j < S q)%nat by (destruct (Nat.le_gt_cases (S q) j) as [L|]; [assert (K (S q) <= K j) by (apply K_le; lia); lra|assumption]). lia. }
    unfold N, hi, lo in Tot. destruct Hlz as [[E P]|[E P]]; rewrite E in *; destruct Hrz as [[E' P']|[E' P']]; rewrite E' in *; cbn [b2n] in *; lia.
  Qed.

  Lemma tsum_wcs e x : tsum e wcs x = bsum (fun j => c j * tpow e (x - K (S j))) r.
  Proof.
    clear - r. unfold wcs. rewrite <- vsum_seq. induction (seq 0 r) as [|j l IH]; [reflexivity|]. cbn [map tsum]. rewrite vsum_cons, IH. reflexivity.
  Qed.
  (** The only spline with these zeros is zero. *)
  Theorem whitney : (forall i, nth i a 0 = 0) /\ (forall j, (j < r)%nat -> c j = 0).
  Proof.
    assert (A : forall i, nth i a 0 = 0).
    { apply (poly_null a (K 0%nat) (K 1%nat)); [apply KI; lia|]. intros x Hx. rewrite <- (all_null 0 ltac:(lia) x Hx). unfold f, sp. rewrite tsum_wcs.
      transitivity (polyval a x + bsum (fun _ => 0) r); [rewrite bsum_zero; ring|]. f_equal. apply bsum_ext. intros j Hj. rewrite tpow_neg; [ring|].
      assert (K 1%nat <= K (S j)) by (apply K_le; lia). lra. }
    split; [assumption|]. intros j. induction j as [j IH] using (well_founded_induction lt_wf). intros Hj.
    set (x := (K (S j) + K (S (S j))) / 2). assert (L : K (S j) < K (S (S j))) by (apply KI; lia).
    assert (E := all_null (S j) ltac:(lia) x ltac:(unfold x; lra)). unfold f, sp in E. rewrite (polyval_null a x A), tsum_wcs in E.
    assert (E1 : bsum (fun i => c i * tpow k (x - K (S i))) r = c j * (x - K (S j)) ^ k).
    { transitivity (bsum (fun i => (if Nat.eqb i j then c j else 0) * (x - K (S j)) ^ k) r).
      - apply bsum_ext. intros i Hi. destruct (Nat.eqb_spec i j) as [->|Ne]; [rewrite tpow_pos by (unfold x; lra); reflexivity|].
        destruct (Nat.lt_ge_cases i j) as [H|H]; [rewrite IH by lia; ring|]. rewrite tpow_neg; [ring|].
        assert (K (S (S j)) <= K (S i)) by (apply K_le; lia). unfold x. lra.
      - rewrite (bsum_one (c j) (fun _ => (x - K (S j)) ^ k) j r). destruct (Nat.ltb_spec j r); [reflexivity|lia]. }
    rewrite E1 in E. assert (P : (x - K (S j)) ^ k <> 0) by (apply pow_nonzero; unfold x; lra).
    assert (E2 : c j * (x - K (S j)) ^ k = 0) by lra. apply Rmult_integral in E2. tauto.
  Qed.
End Whitney.
