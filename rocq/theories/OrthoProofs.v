(** Orthonormal families of real vectors: projections, extension, completeness. *)
From Coq Require Import ZArith List Bool Arith Lia Reals Lra Psatz.
From Verif Require Import Num Py Numeric Curve Vec Spec.
From Verif Require Import CurveProofs3 VecFacts RankProofs RigidProofs.
Import ListNotations.
Local Open Scope R_scope.

(** The matrix-vector product. *)
Definition mv (rows : list (list R)) (x : list R) : list R := map (fun r => vdot r x) rows.

Lemma mv_length A x : length (mv A x) = length A.
Proof. apply map_length. Qed.
Lemma nth_mv A x i : (i < length A)%nat -> nth i (mv A x) 0 = vdot (nth i A []) x.
Proof. intros H. unfold mv. rewrite (nth_indep _ 0 (vdot [] x)) by (rewrite map_length; exact H). exact (map_nth (fun r => vdot r x) A [] i). Qed.
Lemma nth_mv' A x i : nth i (mv A x) 0 = vdot (nth i A []) x.
Proof.
  destruct (Nat.lt_ge_cases i (length A)) as [H|H]; [apply nth_mv, H|].
  rewrite !nth_overflow by (rewrite ?mv_length; exact H). reflexivity.
Qed.
Lemma mv_add A (x y : list R) : length x = length y -> mv A (vadd x y) = vadd (mv A x) (mv A y).
Proof.
  intros H. apply vec_ext; [rewrite vadd_length; rewrite !mv_length; reflexivity|]. intros i.
  rewrite nth_vadd by (rewrite !mv_length; reflexivity). rewrite !nth_mv', vdot_add_r by exact H. reflexivity.
Qed.
Lemma mv_sub A (x y : list R) : length x = length y -> mv A (vsub x y) = vsub (mv A x) (mv A y).
Proof.
  intros H. apply vec_ext; [rewrite vsub_length; rewrite !mv_length; reflexivity|]. intros i.
  rewrite nth_vsub by (rewrite !mv_length; reflexivity). rewrite !nth_mv', vdot_sub_r by exact H. reflexivity.
Qed.
Lemma mv_scale A (x : list R) c : mv A (vscale x c) = vscale (mv A x) c.
Proof.
  apply vec_ext; [rewrite vscale_length, !mv_length; reflexivity|]. intros i.
  rewrite nth_vscale, !nth_mv', vdot_scale_r. ring.
Qed.
Lemma mv_zero A n : mv A (repeat 0 n) = repeat 0 (length A).
Proof.
  apply vec_ext; [rewrite mv_length, repeat_length; reflexivity|]. intros i. rewrite nth_mv', nth_zeros. apply vdot_zero_r.
Qed.

Lemma lincomb_dot n cs bs y : all_len n bs -> vdot (lincomb n cs bs) y = vdot cs (mv bs y).
Proof.
  revert bs. induction cs as [|c cs IH]; intros [|b bs] H; cbn [lincomb mv map]; try (rewrite vdot_zero_l; reflexivity).
  apply all_len_cons in H as [H1 H2]. rewrite vdot_add_l by (rewrite vscale_length, lincomb_length; assumption).
  rewrite vdot_scale_l, IH by assumption. rewrite vdot_cons. reflexivity.
Qed.
Lemma dot_lincomb n cs bs y : all_len n bs -> vdot y (lincomb n cs bs) = vdot cs (mv bs y).
Proof. intros H. rewrite vdot_comm. apply lincomb_dot, H. Qed.

Definition ortho (n : nat) (vs : list (list R)) : Prop :=
  all_len n vs /\ forall i j, (i < length vs)%nat -> (j < length vs)%nat ->
    vdot (nth i vs []) (nth j vs []) = if Nat.eqb i j then 1 else 0.

Lemma all_len_nth n vs i : all_len n vs -> (i < length vs)%nat -> length (nth i vs []) = n.
Proof. intros H Hi. apply H, nth_In, Hi. Qed.

Lemma ortho_mv n vs i : ortho n vs -> (i < length vs)%nat -> mv vs (nth i vs []) = unit_vec (length vs) i.
Proof.
  intros [L O] Hi. apply vec_ext; [rewrite mv_length, unit_vec_length; reflexivity|]. intros j.
  destruct (Nat.lt_ge_cases j (length vs)) as [Hj|Hj].
  - rewrite nth_mv, O by assumption. unfold unit_vec.
    rewrite (nth_indep _ 0 ((fun k => if Nat.eqb k i then 1 else 0) 0%nat)) by (rewrite map_length, seq_length; exact Hj).
    rewrite (map_nth (fun k => if Nat.eqb k i then 1 else 0)), seq_nth by exact Hj. reflexivity.
  - rewrite !nth_overflow; rewrite ?mv_length, ?unit_vec_length; auto.
Qed.

Lemma ortho_coeff n vs cs : ortho n vs -> length cs = length vs -> mv vs (lincomb n cs vs) = cs.
Proof.
  intros O L. apply vec_ext; [rewrite mv_length; auto|]. intros i.
  destruct (Nat.lt_ge_cases i (length vs)) as [Hi|Hi].
  - rewrite nth_mv by exact Hi. rewrite dot_lincomb by apply O. rewrite (ortho_mv n) by assumption.
    apply vdot_unit_vec, L.
  - rewrite !nth_overflow; rewrite ?mv_length; auto. lia.
Qed.

Lemma ortho_norm n vs cs : ortho n vs -> length cs = length vs -> vdot (lincomb n cs vs) (lincomb n cs vs) = vdot cs cs.
Proof. intros O L. rewrite lincomb_dot by apply O. rewrite (ortho_coeff n) by assumption. reflexivity. Qed.

(** The component of [x] orthogonal to the family. *)
Definition rest (n : nat) (vs : list (list R)) (x : list R) : list R := vsub x (lincomb n (mv vs x) vs).

Lemma rest_length n vs x : all_len n vs -> length x = n -> length (rest n vs x) = n.
Proof. intros H L. unfold rest. rewrite vsub_length; rewrite ?lincomb_length by assumption; assumption. Qed.

Lemma rest_orth n vs x : ortho n vs -> length x = n -> mv vs (rest n vs x) = repeat 0 (length vs).
Proof.
  intros O L. unfold rest. rewrite mv_sub by (rewrite lincomb_length; [exact L|apply O]).
  rewrite (ortho_coeff n) by (try assumption; apply mv_length).
  apply vec_ext; [rewrite vsub_length, mv_length, repeat_length; reflexivity|]. intros i.
  rewrite nth_vsub, nth_zeros by reflexivity. ring.
Qed.

Lemma rest_fix n vs x : ortho n vs -> length x = n -> mv vs x = repeat 0 (length vs) -> rest n vs x = x.
Proof.
  intros O L E. unfold rest. rewrite E, lincomb_zero by apply O. apply vec_ext.
  - rewrite vsub_length; [reflexivity|rewrite repeat_length; exact L].
  - intros i. rewrite nth_vsub by (rewrite repeat_length; exact L). rewrite nth_zeros. ring.
Qed.

Lemma rest_sym n vs x y : ortho n vs -> length x = n -> length y = n -> vdot (rest n vs x) y = vdot x (rest n vs y).
Proof.
  intros O Lx Ly. unfold rest. rewrite vdot_sub_l, vdot_sub_r by (rewrite lincomb_length; [assumption|apply O]).
  rewrite lincomb_dot, dot_lincomb by apply O. rewrite (vdot_comm (mv vs x)). reflexivity.
Qed.

Lemma rest_norm n vs x : ortho n vs -> length x = n ->
  vdot (rest n vs x) (rest n vs x) = vdot x x - vdot (mv vs x) (mv vs x).
Proof.
  intros O L. unfold rest at 1. rewrite vdot_sub_l by (rewrite lincomb_length; [assumption|apply O]).
  rewrite lincomb_dot, (rest_orth n), vdot_zero_r by (try assumption; apply O).
  unfold rest. rewrite vdot_sub_r by (rewrite lincomb_length; [assumption|apply O]).
  rewrite dot_lincomb by apply O. ring.
Qed.

Lemma bessel n vs x : ortho n vs -> length x = n -> vdot (mv vs x) (mv vs x) <= vdot x x.
Proof. intros O L. pose proof (rest_norm n vs x O L). pose proof (vdot_nonneg (rest n vs x)). lra. Qed.

(** ** Fewer equations than unknowns *)

Definition put0 (p : nat) (d : list R) : list R := firstn p d ++ 0 :: skipn p d.

Lemma put0_length p d : length (put0 p d) = S (length d).
Proof. unfold put0. rewrite app_length. cbn [length]. rewrite <- (firstn_skipn p d) at 3. rewrite app_length. lia. Qed.
Lemma put0_nth p d : (p <= length d)%nat -> nth p (put0 p d) 0 = 0.
Proof.
  intros H. unfold put0. rewrite app_nth2; rewrite firstn_length, Nat.min_l by exact H; [|lia].
  rewrite Nat.sub_diag. reflexivity.
Qed.
Lemma del_put0 p d : (p <= length d)%nat -> del p (put0 p d) = d.
Proof.
  intros H. unfold del, put0. rewrite firstn_app, firstn_firstn, Nat.min_id, firstn_length, Nat.min_l, Nat.sub_diag by exact H.
  cbn [firstn]. rewrite app_nil_r. rewrite skipn_app, skipn_all2 by (rewrite firstn_length; lia).
  rewrite firstn_length, Nat.min_l by exact H. replace (S p - p)%nat with 1%nat by lia. cbn [skipn app].
  apply firstn_skipn.
Qed.
Lemma vdot_put0 p d w : (p <= length d)%nat -> length w = S (length d) -> vdot w (put0 p d) = vdot (del p w) d.
Proof.
  intros H L. rewrite vdot_comm, (vdot_del p) by (rewrite ?put0_length; auto using put0_nth).
  rewrite del_put0 by exact H. apply vdot_comm.
Qed.

Lemma nonzero_entry (c : list R) : c <> repeat 0 (length c) -> exists p, (p < length c)%nat /\ nth p c 0 <> 0.
Proof.
  induction c as [|a c IH]; intros H; [contradiction H; reflexivity|].
  destruct (Req_dec a 0) as [E|E].
  - destruct IH as (p & Hp & N).
    + intros K. apply H. cbn [length repeat]. rewrite E, <- K. reflexivity.
    + exists (S p). split; [cbn; lia|exact N].
  - exists O. split; [cbn; lia|exact E].
Qed.
Lemma entry_nonzero (c : list R) p n : nth p c 0 <> 0 -> c <> repeat 0 n.
Proof. intros N E. apply N. rewrite E. apply nth_zeros. Qed.

Lemma homogeneous k : forall ws N, length ws = k -> (k < N)%nat -> all_len N ws ->
  exists c, length c = N /\ c <> repeat 0 N /\ forall w, In w ws -> vdot w c = 0.
Proof.
  induction k as [|k IH]; intros [|w ws] N Lk HN L; try discriminate.
  - exists (repeat 1 N). rewrite repeat_length. split; [reflexivity|]. split; [|intros w []].
    destruct N; [lia|]. apply (entry_nonzero _ 0). cbn. lra.
  - apply all_len_cons in L as [Lw L]. cbn in Lk.
    destruct (IH ws N ltac:(lia) ltac:(lia) L) as (c & Lc & Nc & Hc).
    destruct (nonzero_entry c ltac:(rewrite Lc; exact Nc)) as (p & Hp & Np).
    destruct N as [|N]; [lia|].
    destruct (IH (map (del p) ws) N) as (d & Ld & Nd & Hd).
    { rewrite map_length. lia. } { lia. }
    { intros x Hx. apply in_map_iff in Hx. destruct Hx as (y & <- & Hy). rewrite del_length; rewrite (L y Hy); lia. }
    assert (Lp : length (put0 p d) = S N) by (rewrite put0_length, Ld; reflexivity).
    assert (Hd' : forall v, In v ws -> vdot v (put0 p d) = 0).
    { intros v Hv. rewrite vdot_put0 by (rewrite ?(L v Hv); lia). apply Hd, in_map, Hv. }
    destruct (Req_dec (vdot w (put0 p d)) 0) as [E|E].
    + exists (put0 p d). split; [exact Lp|]. split.
      * intros K. apply Nd. rewrite <- (del_put0 p d) by lia. rewrite K. apply vec_ext.
        -- rewrite del_length by (rewrite repeat_length; lia). rewrite !repeat_length. lia.
        -- intros i. rewrite nth_zeros. unfold del.
           assert (Z : forall l : list R, (forall x, In x l -> x = 0) -> forall j, nth j l 0 = 0).
           { intros l Hl j. destruct (nth_in_or_default j l 0) as [H|H]; [apply Hl, H|exact H]. }
           apply Z. intros x Hx. apply (repeat_spec (S N) 0). apply (del_in p). exact Hx.
      * intros v [<-|Hv]; [exact E|apply Hd', Hv].
    + exists (vsub (vscale c (vdot w (put0 p d))) (vscale (put0 p d) (vdot w c))).
      assert (LL : length (vscale c (vdot w (put0 p d))) = length (vscale (put0 p d) (vdot w c))) by (rewrite !vscale_length; congruence).
      split; [rewrite vsub_length by exact LL; rewrite vscale_length; exact Lc|]. split.
      * apply (entry_nonzero _ p). rewrite nth_vsub by exact LL. rewrite !nth_vscale, put0_nth by lia.
        intros K. assert (K' : nth p c 0 * vdot w (put0 p d) = 0) by lra. apply Rmult_integral in K'. tauto.
      * intros v Hv. rewrite vdot_sub_r by exact LL. rewrite !vdot_scale_r. destruct Hv as [<-|Hv]; [ring|].
        rewrite (Hc v Hv), (Hd' v Hv). ring.
Qed.

(** ** Extending and exhausting *)

Lemma unit_of (x : list R) : x <> repeat 0 (length x) ->
  0 < vnorm x /\ vdot (vscale x (/ vnorm x)) (vscale x (/ vnorm x)) = 1.
Proof.
  intros N. assert (P : vnorm x <> 0) by (intros E; apply N, vnorm_eq0, E).
  pose proof (vnorm_nonneg x). split; [lra|]. rewrite vdot_scale_l, vdot_scale_r, <- vnorm_sq. field. exact P.
Qed.

Lemma ortho_app n vs v : ortho n vs -> length v = n -> mv vs v = repeat 0 (length vs) -> vdot v v = 1 -> ortho n (vs ++ [v]).
Proof.
  intros [L O] Lv M U. split.
  - intros b Hb. apply in_app_or in Hb. destruct Hb as [Hb|[<-|[]]]; [apply L, Hb|exact Lv].
  - intros i j Hi Hj. rewrite app_length in Hi, Hj. cbn in Hi, Hj.
    assert (Z : forall k, (k < length vs)%nat -> vdot (nth k vs []) v = 0).
    { intros k Hk. rewrite <- nth_mv by exact Hk. rewrite M. apply nth_zeros. }
    destruct (Nat.eq_dec i (length vs)) as [->|Ni], (Nat.eq_dec j (length vs)) as [->|Nj].
    + rewrite nth_middle, Nat.eqb_refl. exact U.
    + rewrite nth_middle, app_nth1 by lia. rewrite vdot_comm, Z by lia.
      destruct (Nat.eqb_spec (length vs) j); [lia|reflexivity].
    + rewrite nth_middle, app_nth1 by lia. rewrite Z by lia. destruct (Nat.eqb_spec i (length vs)); [lia|reflexivity].
    + rewrite !app_nth1 by lia. apply O; lia.
Qed.

Lemma extend n vs : ortho n vs -> (length vs < n)%nat ->
  exists v, length v = n /\ vdot v v = 1 /\ mv vs v = repeat 0 (length vs).
Proof.
  intros [L O] H. destruct (homogeneous (length vs) vs n eq_refl H L) as (c & Lc & Nc & Hc).
  destruct (unit_of c ltac:(rewrite Lc; exact Nc)) as (P & U).
  exists (vscale c (/ vnorm c)). split; [rewrite vscale_length; exact Lc|]. split; [exact U|].
  rewrite mv_scale. apply vec_ext; [rewrite vscale_length, mv_length, repeat_length; reflexivity|]. intros i.
  rewrite nth_vscale, nth_zeros, nth_mv'. destruct (Nat.lt_ge_cases i (length vs)) as [Hi|Hi].
  - rewrite Hc by (apply nth_In, Hi). ring.
  - rewrite (nth_overflow vs) by exact Hi. cbn. ring.
Qed.

Lemma ortho_le n vs : ortho n vs -> (length vs <= n)%nat.
Proof.
  intros O. destruct (Nat.le_gt_cases (length vs) n) as [H|H]; [exact H|exfalso].
  set (cols := map (fun j => column j vs) (seq 0 n)).
  destruct (homogeneous n cols (length vs)) as (c & Lc & Nc & Hc).
  { unfold cols. rewrite map_length, seq_length. reflexivity. } { exact H. }
  { intros w Hw. unfold cols in Hw. apply in_map_iff in Hw. destruct Hw as (j & <- & _). apply map_length. }
  assert (Z : lincomb n c vs = repeat 0 n).
  { apply vec_ext; [rewrite lincomb_length, repeat_length; [reflexivity|apply O]|]. intros j.
    rewrite nth_lincomb by apply O. rewrite nth_zeros. destruct (Nat.lt_ge_cases j n) as [Hj|Hj].
    - rewrite vdot_comm. apply Hc. unfold cols. apply in_map_iff. exists j. split; [reflexivity|apply in_seq; lia].
    - assert (E : column j vs = repeat 0 (length vs)).
      { apply vec_ext; [unfold column; rewrite map_length, repeat_length; reflexivity|]. intros k. rewrite nth_zeros.
        destruct (nth_in_or_default k (column j vs) 0) as [K|K]; [|exact K]. unfold column in K at 2.
        apply in_map_iff in K. destruct K as (b & K & Hb). rewrite <- K. apply nth_overflow. rewrite (proj1 O b Hb). exact Hj. }
      rewrite E. apply vdot_zero_r. }
  pose proof (ortho_norm n vs c O Lc) as E. rewrite Z, vdot_zero_l in E. symmetry in E. apply vdot_eq0 in E.
  rewrite Lc in E. contradiction.
Qed.

Lemma complete n vs x : ortho n vs -> length vs = n -> length x = n -> x = lincomb n (mv vs x) vs.
Proof.
  intros O Lv Lx.
  assert (Z : rest n vs x = repeat 0 n).
  { destruct (list_eq_dec Req_EM_T (rest n vs x) (repeat 0 n)) as [E|E]; [exact E|exfalso].
    assert (Lr : length (rest n vs x) = n) by (apply rest_length; [apply O|exact Lx]).
    destruct (unit_of (rest n vs x) ltac:(rewrite Lr; exact E)) as (P & U).
    assert (K : ortho n (vs ++ [vscale (rest n vs x) (/ vnorm (rest n vs x))])).
    { apply ortho_app; [exact O|rewrite vscale_length; exact Lr| |exact U].
      rewrite mv_scale, (rest_orth n) by assumption. apply vec_ext; [rewrite vscale_length; reflexivity|].
      intros i. rewrite nth_vscale, !nth_zeros. ring. }
    apply ortho_le in K. rewrite app_length in K. cbn in K. lia. }
  apply vec_ext; [rewrite lincomb_length; [exact Lx|apply O]|]. intros i.
  apply (f_equal (fun v => nth i v 0)) in Z. unfold rest in Z.
  rewrite nth_vsub, nth_zeros in Z by (rewrite lincomb_length; [exact Lx|apply O]). lra.
Qed.
