(** What the tests with a tolerance do under scaling and motions. *)
From Coq Require Import ZArith List Bool Arith Lia Reals Lra Psatz Permutation.
From Verif Require Import Num Py Numeric Curve Vec Geom Spec GeomSpec SvdRank SvdSpec.
From Verif Require Import CurveProofs3 VecFacts RankProofs RigidProofs GeomProofs OrthoProofs SvdProofs SvdProofs2 SvdProofs3 SvdProofs4.
Import ListNotations.
Local Open Scope R_scope.

Lemma span_rank n k B : all_len n B -> (spanned_by n k B <-> rank_at_most n k B).
Proof.
  intros LB. unfold spanned_by, rank_at_most. split; intros (bs & L & Ln & Sp); exists bs; (split; [exact L|]); (split; [exact Ln|]).
  - intros b Hb. destruct (Sp b Hb) as (cs & Lc & E). exists cs. intros i. rewrite E, nth_lincomb by exact Ln.
    rewrite vdot_sum by (rewrite column_length; exact Lc). rewrite Lc, L. apply sum_below_ext. intros j Hj.
    rewrite nth_column by lia. reflexivity.
  - intros b Hb. destruct (Sp b Hb) as (cs & E).
    set (ds := map (fun j => nth j cs 0) (seq 0 k)).
    assert (Ld : length ds = length bs) by (unfold ds; rewrite map_length, seq_length; congruence).
    exists ds. split; [exact Ld|]. apply vec_ext; [rewrite lincomb_length by exact Ln; apply LB, Hb|]. intros i.
    rewrite E, nth_lincomb by exact Ln. rewrite vdot_sum by (rewrite column_length; exact Ld). rewrite Ld, L. apply sum_below_ext.
    intros j Hj. rewrite nth_column by lia. f_equal. unfold ds.
    rewrite (nth_indep (map (fun j => nth j cs 0) (seq 0 k)) 0 ((fun j => nth j cs 0) 0%nat)) by (rewrite map_length, seq_length; exact Hj).
    rewrite (map_nth (fun j => nth j cs 0)), seq_nth by exact Hj. reflexivity.
Qed.

Lemma tolerance_exists n pts tol : dims n pts -> (0 < n)%nat -> pts <> [] ->
  exists d, tolerance n pts tol d /\ match tol with Some t => d = t | None => 0 <= d end.
Proof.
  intros D Hn Ne. destruct tol as [t|]; [exists t; split; reflexivity|].
  assert (Sh : shape (length pts) n pts) by (split; [reflexivity|exact D]).
  destruct (singular_exists _ _ _ Sh) as (s & Sv).
  assert (N : s <> []).
  { intros E. destruct Sv as [L _]. rewrite E in L. cbn in L. assert (length pts <> 0)%nat by (destruct pts; [contradiction|cbn; lia]). lia. }
  pose proof (extension_singular _ _ _ _ Sh Sv N) as X.
  exists (nth 0 s 0 * INR (Nat.max (length pts) n) / 2 ^ 52). split; [exists (nth 0 s 0); split; [exact X|reflexivity]|].
  unfold Rdiv. apply Rmult_le_pos; [apply Rmult_le_pos; [apply X|apply pos_INR]|]. left. apply Rinv_0_lt_compat. apply pow_lt. lra.
Qed.

Lemma within_refl n ps d : dims n ps -> within n ps ps d.
Proof.
  intros D. split; [reflexivity|]. split; [exact D|]. intros x Lx.
  assert (Z : along_sq (minus_all ps ps) x = 0).
  { rewrite along_quad, minus_all_msub. clear D. induction ps as [|p ps IH]; [reflexivity|].
    unfold msub. cbn [map2]. rewrite quad_cons. unfold msub in IH. rewrite IH, vdot_sub_l by reflexivity. ring. }
  rewrite Z, inner_vdot. apply Rmult_le_pos; [apply Rle_0_sqr|apply vdot_nonneg].
Qed.

Lemma within_zero n ps qs : dims n ps -> within n ps qs 0 -> qs = ps.
Proof.
  intros D (L & Dq & W). revert qs L Dq W. induction ps as [|p ps IH]; intros [|q qs] L Dq W; try discriminate; [reflexivity|].
  assert (Lp : length p = n) by (apply D; left; reflexivity). assert (Lq : length q = n) by (apply Dq; left; reflexivity).
  assert (W' : forall x, length x = n -> vdot (vsub p q) x = 0 /\ along_sq (minus_all ps qs) x <= 0 * 0 * inner x x).
  { intros x Lx. specialize (W x Lx). rewrite along_quad, minus_all_msub in W |- *. unfold msub in W. cbn [map2] in W. rewrite quad_cons in W.
    pose proof (quad_nonneg (map2 vsub ps qs) x). pose proof (Rle_0_sqr (vdot (vsub p q) x)) as K. unfold Rsqr in K.
    unfold msub. split; [|lra]. assert (Z : vdot (vsub p q) x * vdot (vsub p q) x = 0) by lra.
    apply Rmult_integral in Z. tauto. }
  f_equal.
  - assert (Ls : length (vsub p q) = n) by (rewrite vsub_length; congruence).
    destruct (W' (vsub p q) Ls) as [Z _]. apply vdot_eq0 in Z. apply vec_ext; [congruence|]. intros i.
    apply (f_equal (fun v => nth i v 0)) in Z. rewrite nth_vsub, nth_zeros in Z by congruence. lra.
  - apply IH; [intros x Hx; apply D; right; exact Hx|cbn in L; lia|intros x Hx; apply Dq; right; exact Hx|].
    intros x Lx. apply W', Lx.
Qed.

(** Each single error is at most d. *)
Lemma within_each n ps qs d : dims n ps -> within n ps qs d -> 0 <= d ->
  forall i, (i < length ps)%nat -> dist (nth i ps []) (nth i qs []) <= d.
Proof.
  intros D (L & Dq & W) Hd i Hi.
  assert (Lp : length (nth i ps []) = n) by (apply D, nth_In, Hi). assert (Lq : length (nth i qs []) = n) by (apply Dq, nth_In; lia).
  set (e := vsub (nth i ps []) (nth i qs [])). assert (Le : length e = n) by (unfold e; rewrite vsub_length; congruence).
  specialize (W e Le). rewrite along_quad, minus_all_msub, inner_vdot in W.
  assert (K : vdot e e * vdot e e <= quad (msub ps qs) e).
  { unfold quad. set (A := msub ps qs). assert (LA : (i < length A)%nat) by (unfold A, msub; rewrite map2_length; lia).
    assert (E : nth i (mv A e) 0 = vdot e e).
    { rewrite nth_mv by exact LA. unfold A, msub. rewrite (nth_map2 _ _ _ i [] []) by lia. reflexivity. }
    rewrite <- E. generalize (mv A e) as w. intros w. clear. revert i. induction w as [|a w IH]; intros [|i]; try (cbn; lra).
    - rewrite vdot_cons. cbn [nth]. pose proof (vdot_nonneg w). lra.
    - rewrite vdot_cons. cbn [nth]. pose proof (IH i). nra. }
  assert (S2 : vdot e e <= d * d).
  { pose proof (vdot_nonneg e). destruct (Req_dec (vdot e e) 0) as [Z|Z]; [nra|]. apply Rmult_le_reg_r with (vdot e e); lra. }
  rewrite dist_vdist by congruence. unfold vdist.
  assert (V : vdist (nth i ps []) (nth i qs []) * vdist (nth i ps []) (nth i qs []) = vdot e e).
  { unfold vdist. rewrite vnorm_sq. unfold e. reflexivity || (rewrite !vdot_sub_l, !vdot_sub_r by congruence; rewrite (vdot_comm (nth i ps [])); ring). }
  unfold vdist in V. apply Rsqr_incr_0; unfold Rsqr; [|apply vnorm_nonneg|exact Hd]. lra.
Qed.

(** ... and if the squares of the distances sum to at most d^2, the points are
    approximations. *)
Lemma within_sum n ps qs d : dims n ps -> dims n qs -> length qs = length ps ->
  fold_right Rplus 0 (map (fun pq => dist (fst pq) (snd pq) ^ 2) (combine ps qs)) <= d * d -> within n ps qs d.
Proof.
  intros D Dq L H. split; [exact L|]. split; [exact Dq|]. intros x Lx. rewrite along_quad, minus_all_msub, inner_vdot.
  assert (La : all_len n (msub ps qs)).
  { clear H. revert qs Dq L. induction ps as [|p ps IH]; intros [|q qs] Dq L; try discriminate; [intros b []|].
    apply all_len_cons. split.
    - rewrite vsub_length; [apply D; left; reflexivity|]. rewrite (D p (or_introl eq_refl)), (Dq q (or_introl eq_refl)). reflexivity.
    - apply IH; [intros b Hb; apply D; right; exact Hb|intros b Hb; apply Dq; right; exact Hb|cbn in L; lia]. }
  eapply Rle_trans; [apply (quad_frob n); assumption|]. apply Rmult_le_compat_r; [apply vdot_nonneg|].
  assert (E : frob (msub ps qs) = fold_right Rplus 0 (map (fun pq => dist (fst pq) (snd pq) ^ 2) (combine ps qs))); [|rewrite E; exact H].
  clear H La. revert qs Dq L. induction ps as [|p ps IH]; intros [|q qs] Dq L; try discriminate; [reflexivity|].
  unfold msub. cbn [map2 frob combine map fold_right fst snd]. fold (msub ps qs).
  rewrite IH; [|intros b Hb; apply D; right; exact Hb|intros b Hb; apply Dq; right; exact Hb|cbn in L; lia].
  f_equal. assert (Lp : length p = n) by (apply D; left; reflexivity). assert (Lq : length q = n) by (apply Dq; left; reflexivity).
  cbn [pow]. rewrite Rmult_1_r, dist_sq, inner_vdot, minus_vsub.
  rewrite !vdot_sub_l, !vdot_sub_r by congruence. rewrite (vdot_comm q p). ring.
Qed.

(** ** Scaling *)

Lemma times_vscale c p : times c p = vscale p c.
Proof. unfold times, vscale. apply map_ext. intros a. cbn. ring. Qed.
Lemma times_length c p : length (times c p) = length p.
Proof. apply map_length. Qed.
Lemma times_dims n c ps : dims n ps -> dims n (map (times c) ps).
Proof. intros D p Hp. apply in_map_iff in Hp. destruct Hp as (q & <- & Hq). rewrite times_length. apply D, Hq. Qed.
Lemma times_inv c p : c <> 0 -> times (/ c) (times c p) = p.
Proof.
  intros H. unfold times. rewrite map_map. rewrite <- map_id. apply map_ext. intros a. field. exact H.
Qed.
Lemma along_times c ps x : along_sq (map (times c) ps) x = c * c * along_sq ps x.
Proof.
  rewrite !along_quad. induction ps as [|p ps IH]; [unfold quad; cbn; ring|]. cbn [map]. rewrite !quad_cons, IH, times_vscale, vdot_scale_l. ring.
Qed.
Lemma minus_all_times c ps qs : minus_all (map (times c) ps) (map (times c) qs) = map (times c) (minus_all ps qs).
Proof.
  rewrite !minus_all_msub. revert qs. induction ps as [|p ps IH]; intros [|q qs]; try reflexivity.
  unfold msub in *. cbn [map map2]. rewrite IH. f_equal. rewrite !times_vscale.
  revert q. clear. induction p as [|a p IH]; intros [|b q]; try reflexivity. unfold vsub, vscale in *. cbn [map map2]. rewrite IH. f_equal.
  cbn. ring.
Qed.
Lemma within_times n ps qs d c : within n ps qs d -> within n (map (times c) ps) (map (times c) qs) (Rabs c * d).
Proof.
  intros (L & D & W). split; [rewrite !map_length; exact L|]. split; [apply times_dims, D|]. intros x Lx.
  rewrite minus_all_times, along_times. specialize (W x Lx).
  replace (Rabs c * d * (Rabs c * d) * inner x x) with (Rabs c * Rabs c * (d * d * inner x x)) by ring.
  rewrite <- Rabs_mult, (Rabs_right (c * c)) by (apply Rle_ge, Rle_0_sqr). apply Rmult_le_compat_l; [apply Rle_0_sqr|exact W].
Qed.
Lemma line_times n qs c : on_line_through_origin n qs -> on_line_through_origin n (map (times c) qs).
Proof.
  intros (u & Lu & H). exists u. split; [exact Lu|]. intros x Hx. apply in_map_iff in Hx. destruct Hx as (y & <- & Hy).
  destruct (H y Hy) as (t & Ht). exists (c * t). intros i. rewrite times_vscale, nth_vscale, Ht. ring.
Qed.
Lemma plane_times n qs c : in_plane_through_origin n qs -> in_plane_through_origin n (map (times c) qs).
Proof.
  intros (u & v & Lu & Lv & H). exists u, v. split; [exact Lu|]. split; [exact Lv|]. intros x Hx. apply in_map_iff in Hx.
  destruct Hx as (y & <- & Hy). destruct (H y Hy) as (s & t & Ht). exists (c * s), (c * t). intros i.
  rewrite times_vscale, nth_vscale, Ht. ring.
Qed.
Lemma extension_times n ps e c : extension n ps e -> extension n (map (times c) ps) (Rabs c * e).
Proof.
  intros (H0 & H1 & x & Lx & Ux & Ex).
  assert (C2 : Rabs c * Rabs c = c * c) by (rewrite <- Rabs_mult; apply Rabs_right, Rle_ge, Rle_0_sqr).
  split; [apply Rmult_le_pos; [apply Rabs_pos|exact H0]|]. split.
  - intros y Ly. rewrite along_times. replace (Rabs c * e * (Rabs c * e) * inner y y) with (Rabs c * Rabs c * (e * e * inner y y)) by ring.
    rewrite C2. apply Rmult_le_compat_l; [apply Rle_0_sqr|apply H1, Ly].
  - exists x. split; [exact Lx|]. split; [exact Ux|]. rewrite along_times, Ex.
    replace (Rabs c * e * (Rabs c * e)) with (Rabs c * Rabs c * (e * e)) by ring. rewrite C2. reflexivity.
Qed.
Lemma tolerance_times n ps tol d c : tolerance n ps tol d ->
  tolerance n (map (times c) ps) (option_map (Rmult (Rabs c)) tol) (Rabs c * d).
Proof.
  unfold tolerance. destruct tol as [t|]; cbn [option_map].
  - intros ->. reflexivity.
  - intros (e & He & ->). exists (Rabs c * e). split; [apply extension_times, He|]. rewrite map_length. unfold Rdiv. ring.
Qed.

(** ** Linear isometries *)

Section Turn.
  Variables (n m : nat) (g : list R -> list R).
  Hypothesis Iso : isometry n m g.
  Notation L := (vector_of n g).

  Lemma unit_ortho : ortho n (map (unit_vec n) (seq 0 n)).
  Proof.
    split.
    - intros b Hb. apply in_map_iff in Hb. destruct Hb as (k & <- & _). apply unit_vec_length.
    - rewrite map_length, seq_length. intros i j Hi Hj.
      assert (N : forall k, (k < n)%nat -> nth k (map (unit_vec n) (seq 0 n)) [] = unit_vec n k).
      { intros k Hk. rewrite (nth_indep _ [] (unit_vec n 0)) by (rewrite map_length, seq_length; exact Hk).
        rewrite map_nth, seq_nth by exact Hk. reflexivity. }
      rewrite !N by assumption. rewrite vdot_unit_vec by apply unit_vec_length. unfold unit_vec.
      rewrite (nth_indep _ 0 ((fun k => if Nat.eqb k i then 1 else 0) 0%nat)) by (rewrite map_length, seq_length; exact Hj).
      rewrite (map_nth (fun k => if Nat.eqb k i then 1 else 0)), seq_nth by exact Hj. cbn [Nat.add]. rewrite Nat.eqb_sym. reflexivity.
  Qed.

  Lemma L_lincomb cs bs : all_len n bs -> length cs = length bs -> L (lincomb n cs bs) = lincomb m cs (map L bs).
  Proof.
    revert bs. induction cs as [|c cs IH]; intros [|b bs] La Lc; try discriminate; cbn [lincomb map].
    - apply vec_ext; [rewrite (L_length n m g Iso), repeat_length by apply repeat_length; reflexivity|]. intros i. rewrite nth_zeros.
      assert (E : repeat 0 n = vscale (repeat 0 n) 0).
      { apply vec_ext; [rewrite vscale_length; reflexivity|]. intros k. rewrite nth_vscale, nth_zeros. ring. }
      rewrite E, (L_scale n m g Iso) by apply repeat_length. rewrite nth_vscale. ring.
    - apply all_len_cons in La. destruct La as [Lb La]. rewrite (L_add n m g Iso); [|rewrite vscale_length; exact Lb|apply lincomb_length, La].
      rewrite (L_scale n m g Iso) by exact Lb. rewrite IH by (try assumption; cbn in Lc; lia). reflexivity.
  Qed.

  Lemma adj_dot y w : length y = m -> length w = n -> vdot (adj n g y) w = vdot y (L w).
  Proof.
    intros Ly Lw. assert (O := unit_ortho). set (us := map (unit_vec n) (seq 0 n)) in *.
    assert (Lu : length us = n) by (unfold us; rewrite map_length, seq_length; reflexivity).
    rewrite (complete n us w O Lu Lw) at 2.
    rewrite L_lincomb by (try apply O; apply mv_length).
    assert (Lm : all_len m (map L us)).
    { intros b Hb. apply in_map_iff in Hb. destruct Hb as (u & <- & Hu). apply (L_length n m g Iso), O, Hu. }
    rewrite dot_lincomb by exact Lm. rewrite vdot_comm. f_equal.
    - apply vec_ext; [rewrite mv_length; congruence|]. intros i. rewrite nth_mv'.
      destruct (Nat.lt_ge_cases i n) as [Hi|Hi].
      + unfold us. rewrite (nth_indep _ [] (unit_vec n 0)) by (rewrite map_length, seq_length; exact Hi).
        rewrite map_nth, seq_nth by exact Hi. rewrite vdot_comm, vdot_unit_vec by exact Lw. reflexivity.
      + rewrite !nth_overflow by lia. reflexivity.
    - unfold adj, mv, us. rewrite !map_map. apply map_ext. intros k. apply vdot_comm.
  Qed.

  Lemma adj_norm y : length y = m -> vdot (adj n g y) (adj n g y) <= vdot y y.
  Proof.
    intros Ly. assert (La : length (adj n g y) = n) by apply adj_length.
    rewrite (adj_dot y _ Ly La). pose proof (cauchy_schwarz y (L (adj n g y))) as CS.
    rewrite (L_length n m g Iso) in CS by exact La. specialize (CS Ly).
    rewrite (L_sq n m g Iso) in CS by exact La. rewrite <- (adj_dot y _ Ly La) in CS |- *.
    set (a := vdot (adj n g y) (adj n g y)) in *. assert (0 <= a) by apply vdot_nonneg.
    pose proof (vdot_nonneg y). destruct (Req_dec a 0) as [Z|Z]; [lra|]. apply Rmult_le_reg_r with a; lra.
  Qed.

  Lemma along_L ps x : dims n ps -> length x = m -> along_sq (map L ps) x = along_sq ps (adj n g x).
  Proof.
    intros D Lx. rewrite !along_quad. unfold quad. assert (E : mv (map L ps) x = mv ps (adj n g x)); [|rewrite E; reflexivity].
    unfold mv. rewrite map_map. apply map_ext_in. intros p Hp. rewrite (vdot_comm p), adj_dot by (try exact Lx; apply D, Hp). apply vdot_comm.
  Qed.
  Lemma along_adj ps x : dims m ps -> length x = n -> along_sq (map (adj n g) ps) x = along_sq ps (L x).
  Proof.
    intros D Lx. rewrite !along_quad. unfold quad. assert (E : mv (map (adj n g) ps) x = mv ps (L x)); [|rewrite E; reflexivity].
    unfold mv. rewrite map_map. apply map_ext_in. intros p Hp. apply adj_dot; [apply D, Hp|exact Lx].
  Qed.

  Lemma L_dims ps : dims n ps -> dims m (map L ps).
  Proof. intros D p Hp. apply in_map_iff in Hp. destruct Hp as (q & <- & Hq). apply (L_length n m g Iso), D, Hq. Qed.

  Lemma minus_all_dims k ps qs : dims k ps -> dims k qs -> length qs = length ps -> dims k (minus_all ps qs).
  Proof.
    rewrite minus_all_msub. revert qs. induction ps as [|p ps IH]; intros [|q qs] D Dq Le; try discriminate; [intros b []|].
    intros b [<-|Hb].
    - rewrite vsub_length; [apply D; left; reflexivity|]. rewrite (D p (or_introl eq_refl)), (Dq q (or_introl eq_refl)). reflexivity.
    - revert b Hb. apply IH; [intros b Hb; apply D; right; exact Hb|intros b Hb; apply Dq; right; exact Hb|cbn in Le; lia].
  Qed.

  Lemma minus_all_L ps qs : dims n ps -> dims n qs -> minus_all (map L ps) (map L qs) = map L (minus_all ps qs).
  Proof.
    rewrite !minus_all_msub. revert qs. induction ps as [|p ps IH]; intros [|q qs] D Dq; try reflexivity.
    unfold msub in *. cbn [map map2]. rewrite IH by (intros b Hb; first [apply D; right; exact Hb|apply Dq; right; exact Hb]). f_equal.
    rewrite (L_sub n m g Iso) by first [apply D; left; reflexivity|apply Dq; left; reflexivity]. reflexivity.
  Qed.
  Lemma minus_all_adj ps qs : dims n ps -> dims m qs -> minus_all ps (map (adj n g) qs) = map (adj n g) (minus_all (map L ps) qs).
  Proof.
    rewrite !minus_all_msub. revert qs. induction ps as [|p ps IH]; intros [|q qs] D Dq; try reflexivity.
    unfold msub in *. cbn [map map2]. rewrite IH by (intros b Hb; first [apply D; right; exact Hb|apply Dq; right; exact Hb]). f_equal.
    assert (Lp : length p = n) by (apply D; left; reflexivity). assert (Lq : length q = m) by (apply Dq; left; reflexivity).
    assert (LLp : length (L p) = m) by (apply (L_length n m g Iso), Lp).
    apply vec_ext; [rewrite vsub_length; rewrite !adj_length; congruence|]. intros i. rewrite nth_vsub by (rewrite adj_length; congruence).
    rewrite (nth_adj_comb n m g (vsub (L p) q) (L p) q 1 (-1)); [|rewrite vsub_length; congruence|exact LLp|exact Lq|].
    - rewrite (adj_L n m g Iso) by exact Lp. ring.
    - intros k. rewrite nth_vsub by congruence. ring.
  Qed.

  Lemma within_L ps qs d : dims n ps -> within n ps qs d -> within m (map L ps) (map L qs) d.
  Proof.
    intros D (Le & Dq & W). split; [rewrite !map_length; exact Le|]. split; [apply L_dims, Dq|]. intros x Lx.
    rewrite minus_all_L, along_L by (try assumption; apply minus_all_dims; assumption).
    eapply Rle_trans; [apply W, adj_length|]. apply Rmult_le_compat_l; [apply Rle_0_sqr|]. rewrite !inner_vdot. apply adj_norm, Lx.
  Qed.
  Lemma within_adj ps qs d : dims n ps -> within m (map L ps) qs d -> within n ps (map (adj n g) qs) d.
  Proof.
    intros D (Le & Dq & W). rewrite map_length in Le. split; [rewrite map_length; exact Le|].
    split; [intros b Hb; apply in_map_iff in Hb; destruct Hb as (q & <- & _); apply adj_length|]. intros x Lx.
    rewrite minus_all_adj by assumption.
    rewrite along_adj; [|apply minus_all_dims; [apply L_dims, D|exact Dq|rewrite map_length; exact Le]|exact Lx].
    eapply Rle_trans; [apply W, (L_length n m g Iso), Lx|]. rewrite !inner_vdot, (L_sq n m g Iso) by exact Lx. lra.
  Qed.
  Lemma extension_L ps e : dims n ps -> extension n ps e -> extension m (map L ps) e.
  Proof.
    intros D (H0 & H1 & x & Lx & Ux & Ex). split; [exact H0|]. split.
    - intros y Ly. rewrite along_L by assumption. eapply Rle_trans; [apply H1, adj_length|].
      apply Rmult_le_compat_l; [apply Rle_0_sqr|]. rewrite !inner_vdot. apply adj_norm, Ly.
    - exists (L x). split; [apply (L_length n m g Iso), Lx|]. rewrite !inner_vdot in *. split; [rewrite (L_sq n m g Iso) by exact Lx; exact Ux|].
      rewrite along_L by (try assumption; apply (L_length n m g Iso), Lx). rewrite (adj_L n m g Iso) by exact Lx. exact Ex.
  Qed.
  Lemma line_L qs : dims n qs -> on_line_through_origin n qs -> on_line_through_origin m (map L qs).
  Proof.
    intros D (u & Lu & H). exists (L u). split; [apply (L_length n m g Iso), Lu|]. intros x Hx. apply in_map_iff in Hx.
    destruct Hx as (y & <- & Hy). destruct (H y Hy) as (t & Ht). exists t. intros i.
    assert (E : y = vscale u t). { apply vscale_iff; [rewrite Lu; apply D, Hy|exact Ht]. }
    rewrite E, (L_scale n m g Iso), nth_vscale by exact Lu. ring.
  Qed.
  Lemma line_adj qs : dims m qs -> on_line_through_origin m qs -> on_line_through_origin n (map (adj n g) qs).
  Proof.
    intros D (u & Lu & H). exists (adj n g u). split; [apply adj_length|]. intros x Hx. apply in_map_iff in Hx.
    destruct Hx as (y & <- & Hy). destruct (H y Hy) as (t & Ht). exists t. intros i.
    rewrite (nth_adj_comb n m g y u u t 0); [ring|apply D, Hy|exact Lu|exact Lu|]. intros k. rewrite Ht. ring.
  Qed.
  Lemma plane_L qs : dims n qs -> in_plane_through_origin n qs -> in_plane_through_origin m (map L qs).
  Proof.
    intros D (u & v & Lu & Lv & H). exists (L u), (L v). split; [apply (L_length n m g Iso), Lu|]. split; [apply (L_length n m g Iso), Lv|].
    intros x Hx. apply in_map_iff in Hx. destruct Hx as (y & <- & Hy). destruct (H y Hy) as (s & t & Ht). exists s, t. intros i.
    assert (E : y = vadd (vscale u s) (vscale v t)).
    { apply vec_ext; [rewrite vadd_length; rewrite !vscale_length; rewrite ?(D y Hy); congruence|]. intros k.
      rewrite nth_vadd, !nth_vscale by (rewrite !vscale_length; congruence). rewrite Ht. ring. }
    rewrite E, (L_add n m g Iso), !(L_scale n m g Iso) by (rewrite ?vscale_length; assumption).
    rewrite nth_vadd, !nth_vscale by (rewrite !vscale_length, !(L_length n m g Iso); auto). ring.
  Qed.
  Lemma plane_adj qs : dims m qs -> in_plane_through_origin m qs -> in_plane_through_origin n (map (adj n g) qs).
  Proof.
    intros D (u & v & Lu & Lv & H). exists (adj n g u), (adj n g v). split; [apply adj_length|]. split; [apply adj_length|].
    intros x Hx. apply in_map_iff in Hx. destruct Hx as (y & <- & Hy). destruct (H y Hy) as (s & t & Ht). exists s, t. intros i.
    apply (nth_adj_comb n m g y u v s t); [apply D, Hy|exact Lu|exact Lv|exact Ht].
  Qed.
  Lemma tolerance_L ps tol d : dims n ps -> (tol = None -> n = m) -> tolerance n ps tol d -> tolerance m (map L ps) tol d.
  Proof.
    intros D H. unfold tolerance. destruct tol as [t|]; [auto|]. intros (e & He & E). exists e. split; [apply extension_L; assumption|].
    rewrite map_length. rewrite (H eq_refl) in E. exact E.
  Qed.
End Turn.
