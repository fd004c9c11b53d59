(** Singular value decompositions exist. *)
From Coq Require Import ZArith List Bool Arith Lia Reals Lra Psatz.
From Verif Require Import Num Py Numeric Curve Vec Spec.
From Verif Require Import CurveProofs3 VecFacts RankProofs RigidProofs OrthoProofs SvdProofs.
Import ListNotations.
Local Open Scope R_scope.

(** A maximal direction is orthogonal, after applying A, to everything
    orthogonal to it. *)
Lemma max_orth n A vs v w : all_len n A -> ortho n vs -> length v = n -> length w = n ->
  mv vs v = repeat 0 (length vs) -> mv vs w = repeat 0 (length vs) -> vdot v v = 1 -> vdot v w = 0 ->
  (forall y, length y = n -> mv vs y = repeat 0 (length vs) -> quad A y <= quad A v * vdot y y) ->
  vdot (mv A v) (mv A w) = 0.
Proof.
  intros LA O Lv Lw Ov Ow U Z M.
  set (b := vdot (mv A v) (mv A w)). set (s := quad A v). set (g := s * vdot w w - quad A w).
  assert (Q : forall t, 2 * t * b <= t * t * g).
  { intros t. assert (Ls : length v = length (vscale w t)) by (rewrite vscale_length; congruence).
    assert (K := M (vadd v (vscale w t))). fold s in K.
    rewrite vadd_length in K by exact Ls. specialize (K Lv).
    rewrite mv_add in K by exact Ls. rewrite mv_scale, Ov, Ow in K.
    assert (E0 : vadd (repeat 0 (length vs)) (vscale (repeat 0 (length vs)) t) = repeat 0 (length vs)).
    { apply vec_ext; [rewrite vadd_length; rewrite ?vscale_length; reflexivity|]. intros i.
      rewrite nth_vadd by (rewrite vscale_length; reflexivity). rewrite nth_vscale, nth_zeros. ring. }
    specialize (K E0).
    unfold quad at 1 in K. rewrite mv_add, mv_scale in K by exact Ls.
    assert (Lm : length (mv A v) = length (vscale (mv A w) t)) by (rewrite vscale_length, !mv_length; reflexivity).
    rewrite !vdot_add_l, !vdot_add_r, !vdot_scale_l, !vdot_scale_r in K by assumption.
    rewrite (vdot_comm w v), Z, U, (vdot_comm (mv A w) (mv A v)) in K. fold b in K.
    change (vdot (mv A v) (mv A v)) with s in K. change (vdot (mv A w) (mv A w)) with (quad A w) in K. unfold g. nra. }
  destruct (Req_dec b 0) as [E|E]; [exact E|exfalso].
  destruct (Rle_lt_dec g 0) as [G|G].
  - pose proof (Q b). assert (0 < b * b) by nra. nra.
  - pose proof (Q (b / g)) as K.
    replace (2 * (b / g) * b) with (2 * (b * b / g)) in K by (field; lra).
    replace (b / g * (b / g) * g) with (b * b / g) in K by (field; lra).
    assert (0 < b * b / g) by (apply Rdiv_lt_0_compat; [nra|exact G]). lra.
Qed.

(** The largest stretch among the vectors orthogonal to a family. *)
Lemma max_direction_rest n A vs : all_len n A -> ortho n vs -> (length vs < n)%nat ->
  exists v, length v = n /\ vdot v v = 1 /\ mv vs v = repeat 0 (length vs) /\
    forall y, length y = n -> mv vs y = repeat 0 (length vs) -> quad A y <= quad A v * vdot y y.
Proof.
  intros LA O Hk. set (A' := map (rest n vs) A).
  assert (LA' : all_len n A').
  { intros r Hr. apply in_map_iff in Hr. destruct Hr as (a & <- & Ha). apply rest_length; [apply O|apply LA, Ha]. }
  assert (MV : forall x, length x = n -> mv A' x = mv A (rest n vs x)).
  { intros x Lx. unfold A', mv. rewrite map_map. apply map_ext_in. intros a Ha. apply rest_sym; [exact O|apply LA, Ha|exact Lx]. }
  assert (QA : forall x, length x = n -> quad A' x = quad A (rest n vs x)).
  { intros x Lx. unfold quad. rewrite MV by exact Lx. reflexivity. }
  destruct (max_direction n A' ltac:(lia) LA') as (v & Lv & Uv & Mv).
  assert (Mv' : forall y, length y = n -> mv vs y = repeat 0 (length vs) -> quad A y <= quad A' v * vdot y y).
  { intros y Ly Oy. specialize (Mv y Ly). rewrite QA, (rest_fix n) in Mv by assumption. exact Mv. }
  set (p := rest n vs v).
  assert (Lp : length p = n) by (apply rest_length; [apply O|exact Lv]).
  assert (Op : mv vs p = repeat 0 (length vs)) by (apply rest_orth; assumption).
  destruct (list_eq_dec Req_EM_T p (repeat 0 n)) as [E|E].
  - destruct (extend n vs O Hk) as (w & Lw & Uw & Ow). exists w. repeat (split; [assumption|]).
    intros y Ly Oy. specialize (Mv' y Ly Oy). rewrite QA in Mv' by exact Lv. fold p in Mv'. rewrite E in Mv'.
    unfold quad at 2 in Mv'. rewrite mv_zero, vdot_zero_l in Mv'.
    pose proof (quad_nonneg A w). pose proof (vdot_nonneg y). nra.
  - destruct (unit_of p ltac:(rewrite Lp; exact E)) as (P & U).
    exists (vscale p (/ vnorm p)). split; [rewrite vscale_length; exact Lp|]. split; [exact U|]. split.
    { rewrite mv_scale, Op. apply vec_ext; [rewrite vscale_length; reflexivity|]. intros i. rewrite nth_vscale, nth_zeros. ring. }
    intros y Ly Oy. eapply Rle_trans; [apply Mv'; assumption|]. apply Rmult_le_compat_r; [apply vdot_nonneg|].
    rewrite QA by exact Lv. fold p. rewrite quad_scale.
    assert (N1 : vnorm p * vnorm p <= 1).
    { rewrite vnorm_sq. unfold p. rewrite rest_norm by assumption. rewrite Uv. pose proof (vdot_nonneg (mv vs v)). lra. }
    pose proof (quad_nonneg A p).
    assert (1 <= / vnorm p * / vnorm p).
    { rewrite <- Rinv_mult. rewrite <- Rinv_1. apply Rinv_le_contravar; [nra|exact N1]. }
    nra.
Qed.

Definition right_system (n : nat) (A vs : list (list R)) : Prop :=
  ortho n vs /\
  (forall i j, (i < length vs)%nat -> (j < length vs)%nat -> i <> j -> vdot (mv A (nth i vs [])) (mv A (nth j vs [])) = 0) /\
  (forall i j, (i <= j)%nat -> (j < length vs)%nat -> quad A (nth j vs []) <= quad A (nth i vs [])) /\
  (forall x i, length x = n -> mv vs x = repeat 0 (length vs) -> (i < length vs)%nat ->
     quad A x <= quad A (nth i vs []) * vdot x x /\ vdot (mv A (nth i vs [])) (mv A x) = 0).

Lemma mv_app vs v x : mv (vs ++ [v]) x = mv vs x ++ [vdot v x].
Proof. unfold mv. rewrite map_app. reflexivity. Qed.
Lemma app_zero (l : list R) a : l ++ [a] = repeat 0 (length l + 1) -> l = repeat 0 (length l) /\ a = 0.
Proof.
  intros H. rewrite repeat_app in H. apply app_inj_tail in H. exact H.
Qed.

Lemma right_system_exists n A k : all_len n A -> (k <= n)%nat -> exists vs, length vs = k /\ right_system n A vs.
Proof.
  intros LA. induction k as [|k IH]; intros Hk.
  - exists []. split; [reflexivity|]. split; [split; [intros b []|cbn; intros; lia]|]. cbn. repeat split; intros; lia.
  - destruct (IH ltac:(lia)) as (vs & Lvs & O & X & D & S2).
    destruct (max_direction_rest n A vs LA O ltac:(lia)) as (v & Lv & Uv & Ov & Mv).
    exists (vs ++ [v]). split; [rewrite app_length; cbn; lia|].
    assert (Z : forall i, (i < length vs)%nat -> vdot (nth i vs []) v = 0).
    { intros i Hi. rewrite <- nth_mv by exact Hi. rewrite Ov. apply nth_zeros. }
    split; [apply ortho_app; assumption|]. rewrite app_length. cbn [length]. split; [|split].
    + intros i j Hi Hj N. destruct (Nat.eq_dec i (length vs)) as [->|Ni], (Nat.eq_dec j (length vs)) as [->|Nj]; try lia.
      * rewrite nth_middle, app_nth1 by lia. rewrite vdot_comm. apply S2; [exact Lv|exact Ov|lia].
      * rewrite nth_middle, app_nth1 by lia. apply S2; [exact Lv|exact Ov|lia].
      * rewrite !app_nth1 by lia. apply X; lia.
    + intros i j Hij Hj. destruct (Nat.eq_dec j (length vs)) as [->|Nj].
      * rewrite nth_middle. destruct (Nat.eq_dec i (length vs)) as [->|Ni]; [rewrite nth_middle; lra|].
        rewrite app_nth1 by lia. destruct (S2 v i Lv Ov ltac:(lia)) as [K _]. rewrite Uv in K. lra.
      * rewrite !app_nth1 by lia. apply D; lia.
    + intros x i Lx Ox Hi. rewrite mv_app in Ox. rewrite <- (mv_length vs x) in Ox. apply app_zero in Ox.
      destruct Ox as [Ox Vx]. rewrite mv_length in Ox.
      destruct (Nat.eq_dec i (length vs)) as [->|Ni].
      * rewrite nth_middle. split; [apply Mv; assumption|]. apply (max_orth n A vs); assumption.
      * rewrite app_nth1 by lia. apply S2; [assumption|assumption|lia].
Qed.

(** Left vectors: the images, normalised, and anything orthogonal where the
    image is zero. *)
Lemma left_vectors m A vs k : length A = m ->
  (forall i j, (i < k)%nat -> (j < k)%nat -> i <> j -> vdot (mv A (nth i vs [])) (mv A (nth j vs [])) = 0) ->
  (k <= m)%nat -> (forall i j, (i <= j)%nat -> (j < k)%nat -> quad A (nth j vs []) <= quad A (nth i vs [])) ->
  exists us, length us = k /\ ortho m us /\
    forall i, (i < k)%nat -> mv A (nth i vs []) = vscale (nth i us []) (sqrt (quad A (nth i vs []))).
Proof.
  intros Lm. induction k as [|k IH]; intros X Hk D.
  - exists []. split; [reflexivity|]. split; [split; [intros b []|cbn; intros; lia]|intros i Hi; lia].
  - destruct IH as (us & Lus & O & E); [intros; apply X; lia|lia|intros; apply D; lia|].
    set (a := mv A (nth k vs [])). assert (La : length a = m) by (unfold a; rewrite mv_length; exact Lm).
    destruct (Req_dec (quad A (nth k vs [])) 0) as [Z|Z].
    + destruct (extend m us O ltac:(lia)) as (u & Lu & Uu & Ou). exists (us ++ [u]).
      split; [rewrite app_length; cbn; lia|]. split; [apply ortho_app; assumption|]. intros i Hi.
      destruct (Nat.eq_dec i k) as [->|Ni].
      * rewrite <- Lus at 2. rewrite nth_middle. rewrite Z, sqrt_0. fold a. apply vec_ext; [rewrite vscale_length; congruence|].
        intros j. rewrite nth_vscale, Rmult_0_r. apply vdot_eq0 in Z. fold a in Z. rewrite Z. apply nth_zeros.
      * rewrite app_nth1 by lia. apply E. lia.
    + assert (Nz : a <> repeat 0 (length a)) by (intros K; apply Z; apply vdot_eq0_iff, K).
      destruct (unit_of a Nz) as (P & U). set (u := vscale a (/ vnorm a)) in *.
      exists (us ++ [u]). split; [rewrite app_length; cbn; lia|]. split.
      * apply ortho_app; [exact O|unfold u; rewrite vscale_length; exact La| |exact U].
        apply vec_ext; [rewrite mv_length, repeat_length; reflexivity|]. intros i. rewrite nth_zeros.
        destruct (Nat.lt_ge_cases i k) as [Hi|Hi]; [|rewrite nth_overflow by (rewrite mv_length; lia); reflexivity].
        rewrite nth_mv by lia. unfold u. rewrite vdot_scale_r.
        pose proof (X i k ltac:(lia) ltac:(lia) ltac:(lia)) as K. rewrite E in K by exact Hi. fold a in K.
        rewrite vdot_scale_l in K. apply Rmult_integral in K. destruct K as [K|K]; [|rewrite K; ring].
        exfalso. apply Z. assert (D' := D i k ltac:(lia) ltac:(lia)). pose proof (quad_nonneg A (nth k vs [])).
        pose proof (quad_nonneg A (nth i vs [])) as Qi. apply sqrt_eq_0 in K; [lra|exact Qi].
      * intros i Hi. destruct (Nat.eq_dec i k) as [->|Ni].
        -- rewrite <- Lus at 2. rewrite nth_middle. fold a. unfold u. change (sqrt (quad A (nth k vs []))) with (vnorm a).
           apply vec_ext; [rewrite !vscale_length; reflexivity|]. intros j. rewrite !nth_vscale. field. lra.
        -- rewrite app_nth1 by lia. apply E. lia.
Qed.

Lemma vdot_all_zero (a b : list R) : (forall i, nth i a 0 * nth i b 0 = 0) -> vdot a b = 0.
Proof.
  revert b. induction a as [|x a IH]; intros [|y b] H; try reflexivity. rewrite vdot_cons.
  pose proof (H 0%nat) as H0. cbn in H0. rewrite H0, IH by (intros i; apply (H (S i))). lra.
Qed.
Lemma vdot_pointwise (a b c d : list R) : (forall i, nth i a 0 * nth i b 0 = nth i c 0 * nth i d 0) -> vdot a b = vdot c d.
Proof.
  revert b c d. induction a as [|x a IH]; intros b c d H.
  - change (vdot [] b) with 0. symmetry. apply vdot_all_zero. intros i. rewrite <- H. destruct i; cbn; ring.
  - destruct b as [|y b].
    { change (vdot (x :: a) []) with 0. symmetry. apply vdot_all_zero. intros i. rewrite <- H. destruct i; cbn; ring. }
    destruct c as [|z c].
    { change (vdot [] d) with 0. apply vdot_all_zero. intros i. rewrite H. destruct i; cbn; ring. }
    destruct d as [|w d].
    { change (vdot (z :: c) []) with 0. apply vdot_all_zero. intros i. rewrite H. destruct i; cbn; ring. }
    rewrite !vdot_cons. pose proof (H 0%nat) as H0. cbn in H0. rewrite H0, (IH b c d) by (intros i; apply (H (S i))). reflexivity.
Qed.

(** A x = sum of s_k (v_k . x) u_k. *)
Definition svd_of (m n : nat) (A : list (list R)) (s : list R) : Prop :=
  length s = Nat.min m n /\ (forall i j, (i <= j)%nat -> (j < length s)%nat -> 0 <= nth j s 0 <= nth i s 0) /\
  exists us vs, length us = length s /\ length vs = length s /\ ortho m us /\ ortho n vs /\
    forall x, length x = n -> mv A x = lincomb m (map2 Rmult s (mv vs x)) us.

Lemma mv_lincomb m A n cs bs : length A = m -> all_len n bs -> length cs = length bs ->
  mv A (lincomb n cs bs) = lincomb m cs (map (mv A) bs).
Proof.
  intros Lm Ln Lc.
  assert (L' : all_len m (map (mv A) bs)) by (intros b Hb; apply in_map_iff in Hb; destruct Hb as (c & <- & _); rewrite mv_length; exact Lm).
  apply vec_ext; [rewrite mv_length, lincomb_length; assumption|]. intros i.
  rewrite nth_lincomb by exact L'. rewrite nth_mv', dot_lincomb by exact Ln. f_equal.
  unfold column, mv. rewrite map_map. apply map_ext. intros b. fold (mv A b). rewrite nth_mv'. apply vdot_comm.
Qed.

Theorem svd_exists m n A : length A = m -> all_len n A -> exists s, svd_of m n A s.
Proof.
  intros Lm LA. destruct (right_system_exists n A n LA (le_n n)) as (vs & Lvs & O & X & D & _).
  set (k := Nat.min m n).
  (* beyond m the images vanish *)
  assert (ZERO : forall i, (k <= i)%nat -> (i < n)%nat -> mv A (nth i vs []) = repeat 0 m).
  { intros i Hi Hin. destruct (list_eq_dec Req_EM_T (mv A (nth i vs [])) (repeat 0 m)) as [E|E]; [exact E|exfalso].
    assert (Hm : (m <= i)%nat) by (unfold k in Hi; lia).
    destruct (left_vectors m A vs m Lm) as (us & Lus & Ou & Eu); [intros; apply X; lia|lia|intros; apply D; lia|].
    assert (Qi : quad A (nth i vs []) <> 0).
    { intros K. apply E. apply vdot_eq0 in K. rewrite K, mv_length, Lm. reflexivity. }
    assert (La : length (mv A (nth i vs [])) = m) by (rewrite mv_length; exact Lm).
    assert (OO : mv us (mv A (nth i vs [])) = repeat 0 (length us)).
    { apply vec_ext; [rewrite mv_length, repeat_length; reflexivity|]. intros j. rewrite nth_zeros.
      destruct (Nat.lt_ge_cases j m) as [Hj|Hj]; [|rewrite nth_overflow by (rewrite mv_length; lia); reflexivity].
      rewrite nth_mv by lia. pose proof (X j i ltac:(lia) ltac:(lia) ltac:(lia)) as K. rewrite Eu in K by exact Hj.
      rewrite vdot_scale_l in K. apply Rmult_integral in K. destruct K as [K|K]; [|exact K]. exfalso. apply Qi.
      pose proof (D j i ltac:(lia) ltac:(lia)). pose proof (quad_nonneg A (nth i vs [])).
      apply sqrt_eq_0 in K; [lra|apply quad_nonneg]. }
    pose proof (complete m us (mv A (nth i vs [])) Ou Lus La) as C. rewrite OO, lincomb_zero in C by apply Ou. contradiction. }
  destruct (left_vectors m A vs k Lm) as (us & Lus & Ou & Eu); [intros; apply X; unfold k in *; lia|unfold k; lia|intros; apply D; unfold k in *; lia|].
  set (s := map (fun i => sqrt (quad A (nth i vs []))) (seq 0 k)).
  assert (Ls : length s = k) by (unfold s; rewrite map_length, seq_length; reflexivity).
  assert (Ns : forall i, (i < k)%nat -> nth i s 0 = sqrt (quad A (nth i vs []))).
  { intros i Hi. unfold s. rewrite (nth_indep _ 0 ((fun i => sqrt (quad A (nth i vs []))) 0%nat)) by (rewrite map_length, seq_length; exact Hi).
    rewrite (map_nth (fun i => sqrt (quad A (nth i vs [])))), seq_nth by exact Hi. reflexivity. }
  exists s. split; [exact Ls|]. split.
  { intros i j Hij Hj. rewrite Ls in Hj. rewrite !Ns by lia. split; [apply sqrt_pos|]. apply sqrt_le_1_alt, D; [lia|unfold k in Hj; lia]. }
  assert (Lf : length (firstn k vs) = k) by (rewrite firstn_length; unfold k; lia).
  assert (Nf : forall i, (i < k)%nat -> nth i (firstn k vs) [] = nth i vs []).
  { intros i Hi. rewrite <- (firstn_skipn k vs) at 2. rewrite app_nth1 by lia. reflexivity. }
  exists us, (firstn k vs). rewrite Ls. split; [exact Lus|]. split; [exact Lf|]. split; [exact Ou|]. split.
  - split.
    + intros b Hb. apply (proj1 O). rewrite <- (firstn_skipn k vs). apply in_or_app. auto.
    + rewrite Lf. intros i j Hi Hj. rewrite !Nf by assumption. apply O; unfold k in *; lia.
  - intros x Lx. rewrite (complete n vs x O Lvs Lx) at 1.
    rewrite (mv_lincomb m A n) by (try assumption; try apply mv_length; apply O).
    apply vec_ext.
    { rewrite !lincomb_length; [reflexivity|apply Ou|]. intros b Hb. apply in_map_iff in Hb. destruct Hb as (c & <- & _). rewrite mv_length. exact Lm. }
    intros j. rewrite !nth_lincomb; [|apply Ou|intros b Hb; apply in_map_iff in Hb; destruct Hb as (c & <- & _); rewrite mv_length; exact Lm].
    apply vdot_pointwise. intros i.
    assert (Kn : (k <= n)%nat) by (unfold k; lia).
    assert (Lc : length (column j (map (mv A) vs)) = n) by (unfold column; rewrite !map_length; exact Lvs).
    assert (Lr : length (map2 Rmult s (mv (firstn k vs) x)) = k) by (rewrite map2_length, mv_length, Ls, Lf; apply Nat.min_id).
    destruct (Nat.lt_ge_cases i n) as [Hi|Hi].
    2:{ rewrite (nth_overflow (mv vs x)) by (rewrite mv_length; lia).
        rewrite (nth_overflow (map2 _ _ _)) by lia. ring. }
    rewrite nth_mv by lia. unfold column.
    rewrite (nth_indep _ 0 ((fun b => nth j b 0) (mv A []))) by (rewrite !map_length; lia).
    rewrite (map_nth (fun b => nth j b 0)), (map_nth (mv A)).
    destruct (Nat.lt_ge_cases i k) as [Hk|Hk].
    + rewrite (nth_map2 _ _ _ i 0 0) by (rewrite ?mv_length; lia). rewrite (nth_mv (firstn k vs)) by lia. rewrite Nf, Ns, Eu by exact Hk.
      rewrite (nth_indep (map (fun b => nth j b 0) us) 0 ((fun b => nth j b 0) [])) by (rewrite map_length; lia).
      rewrite (map_nth (fun b => nth j b 0)), nth_vscale. ring.
    + rewrite ZERO by lia. rewrite nth_zeros. rewrite (nth_overflow (map2 _ _ _)) by lia. ring.
Qed.
