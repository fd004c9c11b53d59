(** Piecewise cubic interpolation: proofs over the reals. *)
From Coq Require Import ZArith String List Bool Arith Lia Reals Lra Psatz.
From Verif Require Import Num Py Numeric Curve Vec Geom DiffGeom Intersect Registry Interp Splines Spec GeomSpec.
From Verif Require Import ListFacts VecFacts CurveProofs3 GeomProofs DiffGeomProofs DiffGeomProofs2 InterpProofs InterpProofs2.
Import ListNotations.
Local Open Scope list_scope.
Local Open Scope R_scope.

(** ** One piece *)

Definition hval (h y0 y1 d0 d1 s : R) : R := poly_eval (hermite_coeffs h y0 y1 d0 d1) s.

Lemma hval_eq h y0 y1 d0 d1 s : h <> 0 ->
  hval h y0 y1 d0 d1 s = y0 + d0 * s + ((3 * ((y1 - y0) / h) - 2 * d0 - d1) / h) * (s * s)
                         + ((d0 + d1 - 2 * ((y1 - y0) / h)) / (h * h)) * (s * s * s).
Proof.
  intros H. unfold hval, poly_eval, hermite_coeffs. cbn [n0 n1 nlit nadd nsub nmul ndiv RNum]. field. assumption.
Qed.

Lemma hval_0 h y0 y1 d0 d1 : h <> 0 -> hval h y0 y1 d0 d1 0 = y0.
Proof. intros H. rewrite hval_eq by assumption. field. assumption. Qed.

Lemma hval_h h y0 y1 d0 d1 : h <> 0 -> hval h y0 y1 d0 d1 h = y1.
Proof. intros H. rewrite hval_eq by assumption. field. assumption. Qed.

(** A straight piece stays straight. *)
Lemma hval_linear h a b s : h <> 0 -> hval h a (a + b * h) b b s = a + b * s.
Proof. intros H. rewrite hval_eq by assumption. field. assumption. Qed.

Lemma hval_opp h y0 y1 d0 d1 s : h <> 0 -> hval h (- y0) (- y1) (- d0) (- d1) s = - hval h y0 y1 d0 d1 s.
Proof. intros H. rewrite !hval_eq by assumption. field. assumption. Qed.

(** The four extreme cubics. *)
Lemma smooth_mono a b : 0 <= a -> a <= b -> b <= 1 -> 3 * (a * a) - 2 * (a * a * a) <= 3 * (b * b) - 2 * (b * b * b).
Proof.
  intros H0 H1 H2.
  assert (E : 3 * (b * b) - 2 * (b * b * b) - (3 * (a * a) - 2 * (a * a * a))
              = (b - a) * (3 * (a + b) - 2 * (a * a + a * b + b * b))) by ring.
  assert (0 <= 3 * (a + b) - 2 * (a * a + a * b + b * b)) by nra.
  assert (0 <= (b - a) * (3 * (a + b) - 2 * (a * a + a * b + b * b))) by (apply Rmult_le_pos; lra). lra.
Qed.
Lemma cube_mono a b : a <= b -> a * a * a <= b * b * b.
Proof.
  intros H. assert (E : b * b * b - a * a * a = (b - a) * (a * a + a * b + b * b)) by ring.
  assert (0 <= a * a + a * b + b * b) by nra.
  assert (0 <= (b - a) * (a * a + a * b + b * b)) by (apply Rmult_le_pos; lra). lra.
Qed.

Lemma hval_corners h y0 m a b s : h <> 0 ->
  hval h y0 (y0 + m * h) (3 * m * a) (3 * m * b) s =
  let t := s / h in
  y0 + (m * h) * ((1 - a) * (1 - b) * (3 * (t * t) - 2 * (t * t * t))
                  + a * (1 - b) * (1 - (1 - t) * (1 - t) * (1 - t))
                  + (1 - a) * b * (t * t * t)
                  + a * b * (((2 * t - 1) * (2 * t - 1) * (2 * t - 1) + 1) / 2)).
Proof. intros H. rewrite hval_eq by assumption. cbv zeta. field. assumption. Qed.

(** Slopes at the ends between 0 and three times the slope of the chord: the
    piece is monotone (Fritsch and Carlson). *)
Lemma hval_mono h y0 y1 d0 d1 s1 s2 : 0 < h -> y0 <= y1 ->
  0 <= d0 <= 3 * ((y1 - y0) / h) -> 0 <= d1 <= 3 * ((y1 - y0) / h) ->
  0 <= s1 -> s1 <= s2 -> s2 <= h -> hval h y0 y1 d0 d1 s1 <= hval h y0 y1 d0 d1 s2.
Proof.
  intros Hh Hy Hd0 Hd1 H1 H12 H2.
  set (m := (y1 - y0) / h) in *.
  assert (E : y1 = y0 + m * h) by (unfold m; field; lra).
  destruct (Rle_lt_or_eq_dec 0 m) as [Hm|Hm].
  { unfold m. apply Rmult_le_pos; [lra|]. apply Rlt_le, Rinv_0_lt_compat. assumption. }
  - set (a := d0 / (3 * m)). set (b := d1 / (3 * m)).
    assert (Ea : d0 = 3 * m * a) by (unfold a; field; lra).
    assert (Eb : d1 = 3 * m * b) by (unfold b; field; lra).
    assert (Ha : 0 <= a <= 1).
    { split; [apply Rmult_le_reg_l with (3 * m)|apply Rmult_le_reg_l with (3 * m)]; lra. }
    assert (Hb : 0 <= b <= 1).
    { split; [apply Rmult_le_reg_l with (3 * m)|apply Rmult_le_reg_l with (3 * m)]; lra. }
    rewrite E, Ea, Eb, !hval_corners by lra. cbv zeta.
    assert (T1 : 0 <= s1 / h) by (apply Rmult_le_pos; [lra|apply Rlt_le, Rinv_0_lt_compat; lra]).
    assert (T12 : s1 / h <= s2 / h) by (apply Rmult_le_compat_r; [apply Rlt_le, Rinv_0_lt_compat; lra|lra]).
    assert (T2 : s2 / h <= 1) by (apply Rmult_le_reg_r with h; [lra|]; unfold Rdiv; rewrite Rmult_assoc, Rinv_l by lra; lra).
    set (t1 := s1 / h) in *. set (t2 := s2 / h) in *. clearbody t1 t2. clear Ea Eb. clearbody a b.
    apply Rplus_le_compat_l. apply Rmult_le_compat_l; [apply Rmult_le_pos; lra|].
    pose proof (smooth_mono t1 t2 T1 T12 T2) as S1.
    pose proof (cube_mono t1 t2 T12) as S2.
    pose proof (cube_mono (2 * t1 - 1) (2 * t2 - 1) ltac:(lra)) as S3.
    pose proof (cube_mono (1 - t2) (1 - t1) ltac:(lra)) as S4.
    repeat apply Rplus_le_compat; (apply Rmult_le_compat_l; [apply Rmult_le_pos; lra|lra]).
  - assert (d0 = 0) by lra. assert (d1 = 0) by lra. subst d0 d1.
    assert (Ey : y1 = y0) by (rewrite E, <- Hm; ring). rewrite !hval_eq, Ey by lra.
    replace ((y0 - y0) / h) with 0 by (field; lra).
    assert (Z1 : (3 * 0 - 2 * 0 - 0) / h = 0) by (field; lra).
    assert (Z2 : (0 + 0 - 2 * 0) / (h * h) = 0) by (field; lra). rewrite Z1, Z2. lra.
Qed.

(** Between 0 and three times [m], on the side of [m]. *)
Definition tame (d m : R) : Prop := (0 <= m /\ 0 <= d <= 3 * m) \/ (m <= 0 /\ 3 * m <= d <= 0).

Lemma tame_opp d m : tame d m -> tame (- d) (- m).
Proof. intros [H|H]; [right|left]; lra. Qed.

Lemma hval_between h y0 y1 d0 d1 s : 0 < h -> tame d0 ((y1 - y0) / h) -> tame d1 ((y1 - y0) / h) ->
  0 <= s <= h -> Rmin y0 y1 <= hval h y0 y1 d0 d1 s <= Rmax y0 y1.
Proof.
  intros Hh T0 T1 Hs.
  assert (Hc : forall y0 y1 d0 d1, y0 <= y1 -> tame d0 ((y1 - y0) / h) -> tame d1 ((y1 - y0) / h) ->
    y0 <= hval h y0 y1 d0 d1 s <= y1).
  { clear - Hh Hs. intros y0 y1 d0 d1 Hy T0 T1.
    assert (Hm : 0 <= (y1 - y0) / h) by (apply Rmult_le_pos; [lra|apply Rlt_le, Rinv_0_lt_compat; lra]).
    assert (H0 : 0 <= d0 <= 3 * ((y1 - y0) / h)) by (destruct T0; lra).
    assert (H1 : 0 <= d1 <= 3 * ((y1 - y0) / h)) by (destruct T1; lra).
    pose proof (hval_mono h y0 y1 d0 d1 0 s Hh Hy H0 H1 ltac:(lra) ltac:(lra) ltac:(lra)) as A.
    pose proof (hval_mono h y0 y1 d0 d1 s h Hh Hy H0 H1 ltac:(lra) ltac:(lra) ltac:(lra)) as B.
    rewrite hval_0 in A by lra. rewrite hval_h in B by lra. lra. }
  destruct (Rle_dec y0 y1) as [L|L].
  - rewrite Rmin_left, Rmax_right by assumption. apply Hc; assumption.
  - rewrite Rmin_right, Rmax_left by lra.
    pose proof (Hc (- y0) (- y1) (- d0) (- d1) ltac:(lra)) as A.
    replace ((- y1 - - y0) / h) with (- ((y1 - y0) / h)) in A by (field; lra).
    specialize (A (tame_opp _ _ T0) (tame_opp _ _ T1)). rewrite hval_opp in A by lra. lra.
Qed.

(** ** The PCHIP derivatives are tame *)

Lemma Rltb_spec a b : Rltb a b = true <-> a < b.
Proof. unfold Rltb. destruct (Rlt_dec a b); split; intros; (assumption || discriminate || reflexivity || contradiction). Qed.
Lemma Reqb_spec a b : Reqb a b = true <-> a = b.
Proof. unfold Reqb. destruct (Req_EM_T a b); split; intros; (assumption || discriminate || reflexivity || contradiction). Qed.

Lemma same_sign_iff (a b : R) : same_sign a b = true <-> (0 < a /\ 0 < b) \/ (a < 0 /\ b < 0) \/ (a = 0 /\ b = 0).
Proof.
  unfold same_sign. cbn [nltb neqb n0 RNum]. rewrite !orb_true_iff, !andb_true_iff, !Rltb_spec, !Reqb_spec. tauto.
Qed.
Lemma same_sign_opp (a b : R) : same_sign (- a) (- b) = same_sign a b.
Proof. apply eq_iff_eq_true. rewrite !same_sign_iff. split; intros; lra. Qed.

Lemma pchip_inner_opp h0 h1 m0 m1 : pchip_inner h0 h1 (- m0) (- m1) = - (pchip_inner h0 h1 m0 m1 : R).
Proof.
  unfold pchip_inner. rewrite same_sign_opp. cbn [n0 n1 nlit nadd nsub nmul ndiv neqb RNum].
  assert (E : forall m, Reqb (- m) 0 = Reqb m 0) by (intros m; apply eq_iff_eq_true; rewrite !Reqb_spec; lra).
  rewrite !E. destruct (negb (same_sign m1 m0) || Reqb m1 0 || Reqb m0 0) eqn:C; [lra|].
  apply orb_false_iff in C. destruct C as [C C3]. apply orb_false_iff in C. destruct C as [C1 C2].
  assert (m1 <> 0) by (intros ->; rewrite (proj2 (Reqb_spec 0 0) eq_refl) in C2; discriminate).
  assert (m0 <> 0) by (intros ->; rewrite (proj2 (Reqb_spec 0 0) eq_refl) in C3; discriminate).
  set (w1 := _ + h0). set (w2 := h1 + _).
  replace (w1 / - m0 + w2 / - m1) with (- (w1 / m0 + w2 / m1)) by (field; split; assumption).
  unfold Rdiv. rewrite <- Ropp_mult_distr_l, Rinv_opp. ring.
Qed.

Lemma pchip_inner_pos h0 h1 m0 m1 : 0 < h0 -> 0 < h1 -> 0 < m0 -> 0 < m1 ->
  0 < (pchip_inner h0 h1 m0 m1 : R) <= 3 * m0 /\ pchip_inner h0 h1 m0 m1 <= 3 * m1.
Proof.
  intros H0 H1 M0 M1. unfold pchip_inner. rewrite (proj2 (same_sign_iff m1 m0)) by lra.
  cbn [n0 n1 nlit nadd nsub nmul ndiv neqb RNum negb].
  assert (E : forall m, 0 < m -> Reqb m 0 = false) by (intros m Hm; apply not_true_iff_false; rewrite Reqb_spec; lra).
  rewrite !E by assumption. cbn [orb].
  set (w1 := 2 / 1 * h1 + h0). set (w2 := h1 + 2 / 1 * h0).
  assert (W1 : 0 < w1) by (unfold w1; lra). assert (W2 : 0 < w2) by (unfold w2; lra).
  assert (P : 0 < w1 * m1 + w2 * m0) by (pose proof (Rmult_lt_0_compat w1 m1); pose proof (Rmult_lt_0_compat w2 m0); lra).
  assert (Eq : 1 / ((w1 / m0 + w2 / m1) / (w1 + w2)) = (w1 + w2) * (m0 * m1) / (w1 * m1 + w2 * m0)).
  { field. repeat split; try lra. }
  rewrite Eq. assert (PM : 0 < m0 * m1) by (apply Rmult_lt_0_compat; assumption).
  assert (Hq : forall x, 3 * x * (w1 * m1 + w2 * m0) - (w1 + w2) * (m0 * m1) >= 0 ->
     (w1 + w2) * (m0 * m1) / (w1 * m1 + w2 * m0) <= 3 * x).
  { intros x Hx. apply Rmult_le_reg_r with (w1 * m1 + w2 * m0); [assumption|].
    unfold Rdiv. rewrite Rmult_assoc, Rinv_l by lra. lra. }
  split; [split|].
  - apply Rmult_lt_0_compat; [apply Rmult_lt_0_compat; lra|]. apply Rinv_0_lt_compat. assumption.
  - apply Hq. assert (w1 + w2 <= 3 * w1) by (unfold w1, w2; lra).
    assert (0 < w2 * (m0 * m0)) by (apply Rmult_lt_0_compat; [assumption|apply Rmult_lt_0_compat; assumption]).
    assert ((w1 + w2) * (m0 * m1) <= 3 * w1 * (m0 * m1)) by (apply Rmult_le_compat_r; lra).
    replace (3 * m0 * (w1 * m1 + w2 * m0)) with (3 * w1 * (m0 * m1) + 3 * (w2 * (m0 * m0))) by ring. lra.
  - apply Hq. assert (w1 + w2 <= 3 * w2) by (unfold w1, w2; lra).
    assert (0 < w1 * (m1 * m1)) by (apply Rmult_lt_0_compat; [assumption|apply Rmult_lt_0_compat; assumption]).
    assert ((w1 + w2) * (m0 * m1) <= 3 * w2 * (m0 * m1)) by (apply Rmult_le_compat_r; lra).
    replace (3 * m1 * (w1 * m1 + w2 * m0)) with (3 * w2 * (m0 * m1) + 3 * (w1 * (m1 * m1))) by ring. lra.
Qed.

Lemma pchip_inner_zero h0 h1 m0 m1 : ~ (0 < m0 /\ 0 < m1) -> ~ (m0 < 0 /\ m1 < 0) -> (pchip_inner h0 h1 m0 m1 : R) = 0.
Proof.
  intros P N. unfold pchip_inner. destruct (negb (same_sign m1 m0) || (neqb m1 n0) || (neqb m0 n0)) eqn:C; [reflexivity|].
  exfalso. apply orb_false_iff in C. destruct C as [C C3]. apply orb_false_iff in C. destruct C as [C1 C2].
  apply negb_false_iff, same_sign_iff in C1. cbn [neqb n0 RNum] in C2, C3.
  destruct C1 as [C1|[C1|[C1 _]]]; [lra|lra|]. rewrite (proj2 (Reqb_spec m1 0) C1) in C2. discriminate.
Qed.

Lemma pchip_inner_tame h0 h1 m0 m1 : 0 < h0 -> 0 < h1 ->
  tame (pchip_inner h0 h1 m0 m1) m0 /\ tame (pchip_inner h0 h1 m0 m1) m1.
Proof.
  intros H0 H1.
  destruct (Rlt_dec 0 m0) as [P0|P0]; [destruct (Rlt_dec 0 m1) as [P1|P1]|].
  - pose proof (pchip_inner_pos h0 h1 m0 m1 H0 H1 P0 P1). split; left; lra.
  - rewrite pchip_inner_zero by lra. split; [left|right]; lra.
  - destruct (Rlt_dec m0 0) as [N0|N0]; [destruct (Rlt_dec m1 0) as [N1|N1]|].
    + pose proof (pchip_inner_pos h0 h1 (- m0) (- m1) H0 H1 ltac:(lra) ltac:(lra)) as Q. rewrite pchip_inner_opp in Q.
      split; right; lra.
    + rewrite pchip_inner_zero by lra. split; [right|left]; lra.
    + rewrite pchip_inner_zero by lra. assert (m0 = 0) by lra. split; [left; lra|].
      destruct (Rle_dec 0 m1); [left|right]; lra.
Qed.

Lemma pchip_edge_tame h0 h1 m0 m1 : 0 < h0 -> 0 < h1 -> tame (pchip_edge h0 h1 m0 m1) m0.
Proof.
  intros H0 H1. unfold pchip_edge. cbn [n0 n1 nlit nadd nsub nmul ndiv nabs nltb RNum].
  set (d := ((2 / 1 * h0 + h1) * m0 - h0 * m1) / (h0 + h1)).
  assert (Ed : d * (h0 + h1) = (2 * h0 + h1) * m0 - h0 * m1) by (unfold d; field; lra).
  destruct (same_sign d m0) eqn:S; cbn [negb].
  - apply same_sign_iff in S.
    destruct (negb (same_sign m0 m1) && Rltb (3 / 1 * Rabs m0) (Rabs d)) eqn:C.
    + destruct (Rle_dec 0 m0); [left|right]; lra.
    + assert (B : same_sign m0 m1 = true \/ Rabs d <= 3 * Rabs m0).
      { apply andb_false_iff in C. destruct C as [C|C]; [left; apply negb_false_iff; assumption|right].
        apply not_true_iff_false in C. rewrite Rltb_spec in C. lra. }
      destruct S as [S|[S|S]].
      * left. split; [lra|]. destruct B as [B|B].
        -- apply same_sign_iff in B. destruct B as [B|[B|B]]; [|lra|lra].
           assert (0 < h0 * m1) by (apply Rmult_lt_0_compat; lra).
           split; [lra|]. apply Rmult_le_reg_r with (h0 + h1); [lra|]. rewrite Ed.
           assert (0 < h0 * m0) by (apply Rmult_lt_0_compat; lra).
           assert (0 < h1 * m0) by (apply Rmult_lt_0_compat; lra). lra.
        -- rewrite !Rabs_pos_eq in B by lra. lra.
      * right. split; [lra|]. destruct B as [B|B].
        -- apply same_sign_iff in B. destruct B as [B|[B|B]]; [lra| |lra].
           assert (0 < h0 * (- m1)) by (apply Rmult_lt_0_compat; lra).
           split; [|lra]. apply Rmult_le_reg_r with (h0 + h1); [lra|]. rewrite Ed.
           assert (0 < h0 * (- m0)) by (apply Rmult_lt_0_compat; lra).
           assert (0 < h1 * (- m0)) by (apply Rmult_lt_0_compat; lra). lra.
        -- rewrite !Rabs_left in B by lra. lra.
      * left. lra.
  - destruct (Rle_dec 0 m0); [left|right]; lra.
Qed.

Lemma pchip_inner_equal h0 h1 m : 0 < h0 -> 0 < h1 -> (pchip_inner h0 h1 m m : R) = m.
Proof.
  intros H0 H1. destruct (Req_EM_T m 0) as [->|N]; [apply pchip_inner_zero; lra|].
  unfold pchip_inner. assert (S : same_sign m m = true) by (apply same_sign_iff; lra). rewrite S.
  cbn [n0 n1 nlit nadd nsub nmul ndiv neqb RNum negb].
  assert (E : Reqb m 0 = false) by (apply not_true_iff_false; rewrite Reqb_spec; assumption). rewrite E. cbn [orb].
  field. repeat split; try lra. 
Qed.

Lemma pchip_edge_equal h0 h1 m : 0 < h0 -> 0 < h1 -> (pchip_edge h0 h1 m m : R) = m.
Proof.
  intros H0 H1. unfold pchip_edge. cbn [n0 n1 nlit nadd nsub nmul ndiv nabs nltb RNum].
  replace (((2 / 1 * h0 + h1) * m - h0 * m) / (h0 + h1)) with m by (field; lra).
  assert (S : same_sign m m = true) by (apply same_sign_iff; lra). rewrite S. reflexivity.
Qed.

(** ** The piece used for an abscissa *)

Lemma filter_le_count (xs : list R) v k : increasing xs -> (k <= length xs)%nat ->
  (forall i, (i < k)%nat -> nth i xs 0 <= v) -> (forall i, (k <= i < length xs)%nat -> v < nth i xs 0) ->
  length (filter (fun x => nleb x v) xs) = k.
Proof.
  revert k. induction xs as [|x xs IH]; intros k I Hk H1 H2.
  - cbn in Hk. cbn. lia.
  - cbn [filter]. destruct k as [|k].
    + assert (A : v < x) by (apply (H2 0%nat); cbn; lia).
      cbn [nleb RNum]. unfold Rleb at 1. destruct (Rle_dec x v); [lra|].
      apply IH; [exact (increasing_tail _ _ I)|lia|intros; lia|].
      intros i Hi. apply (H2 (S i)). cbn [length]. lia.
    + assert (A : x <= v) by (apply (H1 0%nat); lia).
      cbn [nleb RNum]. unfold Rleb at 1. destruct (Rle_dec x v); [|lra]. cbn [length]. f_equal.
      apply IH; [exact (increasing_tail _ _ I)|cbn in Hk; lia| |].
      * intros i Hi. apply (H1 (S i)). lia.
      * intros i Hi. apply (H2 (S i)). cbn [length]. lia.
Qed.

Lemma piece_of_in (xs : list R) v k : increasing xs -> (S k < length xs)%nat ->
  (k = 0%nat \/ nth k xs 0 <= v) -> (S (S k) = length xs \/ v < nth (S k) xs 0) -> piece_of xs v = k.
Proof.
  intros I Hk Hl Hr. unfold piece_of.
  assert (Hcut : exists c, (c <= length xs)%nat /\ (forall i, (i < c)%nat -> nth i xs 0 <= v) /\
                           (forall i, (c <= i < length xs)%nat -> v < nth i xs 0)).
  { clear - I. induction xs as [|x xs IH].
    - exists 0%nat. cbn. repeat split; intros; lia.
    - destruct (Rlt_dec v x) as [L|L].
      + exists 0%nat. cbn [length]. split; [lia|]. split; [intros; lia|].
        intros i Hi. apply Rlt_le_trans with x; [assumption|].
        exact (increasing_le _ I 0 i ltac:(cbn [length]; lia)).
      + destruct (IH (increasing_tail _ _ I)) as (c & C1 & C2 & C3). exists (S c). cbn [length]. split; [lia|].
        split; intros [|i] Hi; cbn [nth]; try lra; try lia; [apply C2|apply C3]; lia. }
  destruct Hcut as (c & C1 & C2 & C3). rewrite (filter_le_count xs v c I C1 C2 C3).
  destruct (Nat.lt_ge_cases k (c - 1)) as [L|L].
  - destruct Hr as [Hr|Hr]; [lia|]. pose proof (C2 (S k) ltac:(lia)). lra.
  - destruct (Nat.lt_ge_cases (c - 1) k) as [L2|L2]; [|lia].
    destruct Hl as [Hl|Hl]; [lia|]. pose proof (C3 k ltac:(lia)). lra.
Qed.

(** ** The spline *)

Definition inside (xs : list R) (v : R) : Prop := nth 0 xs 0 <= v <= nth (length xs - 1) xs 0.

Section Spline.
  Variables (qnan : R) (ex : bool) (xs : list R) (ys ds : list (list R)) (n : nat).
  Hypothesis I : increasing xs.
  Hypothesis H2 : (2 <= length xs)%nat.

  Lemma hermite_at_length v : length (hermite_at qnan ex xs ys ds n v) = n.
  Proof. unfold hermite_at. rewrite map_length, seq_length. reflexivity. Qed.

  Lemma undefined_iff (v : R) : undefined_at ex xs v = true <-> ex = false /\ ~ inside xs v.
  Proof.
    unfold undefined_at, inside. cbn [nisnan nltb n0 RNum orb]. rewrite andb_true_iff, orb_true_iff, !Rltb_spec, negb_true_iff.
    split; intros [A B]; split; try assumption; lra.
  Qed.

  Lemma hermite_at_outside v j : ex = false -> ~ inside xs v -> (j < n)%nat ->
    nth j (hermite_at qnan ex xs ys ds n v) 0 = qnan.
  Proof.
    intros E Hv Hj. unfold hermite_at. rewrite (proj2 (undefined_iff v)) by (split; assumption).
    set (f := fun _ => _). rewrite (nth_indep _ 0 (f 0%nat)) by (rewrite map_length, seq_length; assumption).
    rewrite map_nth. reflexivity.
  Qed.

  Lemma hermite_at_eq v k j : (S k < length xs)%nat -> (j < n)%nat -> (ex = true \/ inside xs v) ->
    (k = 0%nat \/ nth k xs 0 <= v) -> (S (S k) = length xs \/ v <= nth (S k) xs 0) ->
    nth j (hermite_at qnan ex xs ys ds n v) 0
    = hval (nth (S k) xs 0 - nth k xs 0) (nth j (nth k ys []) 0) (nth j (nth (S k) ys []) 0)
           (nth j (nth k ds []) 0) (nth j (nth (S k) ds []) 0) (v - nth k xs 0).
  Proof.
    intros Hk Hj Hex Hl Hr.
    assert (D : undefined_at ex xs v = false).
    { apply not_true_iff_false. rewrite undefined_iff. intros [A B]. destruct Hex; [congruence|contradiction]. }
    assert (G : forall i, piece_of xs v = i -> nth j (hermite_at qnan ex xs ys ds n v) 0
      = hval (nth (S i) xs 0 - nth i xs 0) (nth j (nth i ys []) 0) (nth j (nth (S i) ys []) 0)
           (nth j (nth i ds []) 0) (nth j (nth (S i) ds []) 0) (v - nth i xs 0)).
    { intros i Hi. unfold hermite_at. rewrite Hi, D. cbv zeta. set (f := fun _ => _).
      rewrite (nth_indep _ 0 (f 0%nat)) by (rewrite map_length, seq_length; assumption).
      rewrite map_nth, seq_nth by assumption. reflexivity. }
    assert (P : forall i, (S i < length xs)%nat -> nth (S i) xs 0 - nth i xs 0 <> 0) by (intros i Hi; pose proof (I i Hi); lra).
    destruct Hr as [Hr|Hr].
    - apply G. apply piece_of_in; try assumption. left. assumption.
    - destruct (Rle_lt_or_eq_dec _ _ Hr) as [L|E].
      + apply G. apply piece_of_in; try assumption. right. assumption.
      + destruct (Nat.eq_dec (S (S k)) (length xs)) as [El|Nl].
        * apply G. apply piece_of_in; try assumption. left. assumption.
        * rewrite (G (S k)).
          -- rewrite E. replace (nth (S k) xs 0 - nth (S k) xs 0) with 0 by lra.
             rewrite hval_0 by (apply P; lia). rewrite hval_h by (apply P; lia). reflexivity.
          -- apply piece_of_in; [assumption|lia|right; lra|]. right. rewrite E. apply I. lia.
  Qed.

  Lemma hermite_at_node k : length ys = length xs -> dims n ys -> (k < length xs)%nat ->
    hermite_at qnan ex xs ys ds n (nth k xs 0) = nth k ys [].
  Proof.
    intros L D Hk. apply vec_ext.
    - rewrite hermite_at_length. symmetry. apply D, nth_In. lia.
    - intros j. destruct (Nat.lt_ge_cases j n) as [Hj|Hj].
      2:{ rewrite !nth_overflow; [reflexivity| |rewrite hermite_at_length; assumption].
          rewrite (D (nth k ys [])) by (apply nth_In; lia). assumption. }
      assert (Hin : inside xs (nth k xs 0)).
      { split; [apply increasing_le; [assumption|lia]|apply increasing_le; [assumption|lia]]. }
      destruct (Nat.eq_dec (S k) (length xs)) as [E|E].
      + destruct k as [|k]; [lia|].
        rewrite (hermite_at_eq _ k j) by (first [lia|assumption|right; assumption|right; apply increasing_le; [assumption|lia]|left; lia]).
        rewrite hval_h; [reflexivity|]. pose proof (I k Hk). lra.
      + rewrite (hermite_at_eq _ k j); [|lia|assumption|right; assumption|right; lra|right; apply increasing_le; [assumption|lia]].
        replace (nth k xs 0 - nth k xs 0) with 0 by lra. rewrite hval_0; [reflexivity|].
        pose proof (I k ltac:(lia)). lra.
  Qed.
End Spline.

(** ** Validation *)

Lemma forallb_finite (l : list R) : forallb isfinite l = true.
Proof. induction l as [|x l IH]; [reflexivity|]. cbn [forallb]. rewrite IH. reflexivity. Qed.
Lemma forallb_finite_rows (l : list (list R)) : forallb (forallb isfinite) l = true.
Proof. induction l as [|x l IH]; [reflexivity|]. cbn [forallb]. rewrite forallb_finite, IH. reflexivity. Qed.

Lemma diff_positive_iff (xs : list R) : existsb (fun d => nleb d n0) (diff xs) = false <-> increasing xs.
Proof.
  rewrite <- not_true_iff_false, existsb_exists. split.
  - intros H i Hi. destruct (Rlt_dec (nth i xs 0) (nth (S i) xs 0)) as [L|L]; [assumption|]. exfalso. apply H.
    exists (nth i (diff xs) 0). split; [apply nth_In; rewrite diff_length; lia|].
    rewrite diff_nth by assumption. cbn [nleb n0 RNum]. unfold Rleb. destruct (Rle_dec _ 0); [reflexivity|lra].
  - intros H (d & Hd & E). destruct (In_nth _ _ 0 Hd) as (i & Hi & Ed). rewrite diff_length in Hi.
    rewrite diff_nth in Ed by lia. specialize (H i ltac:(lia)). subst d.
    cbn [nleb n0 RNum] in E. unfold Rleb in E. destruct (Rle_dec _ 0); [lra|discriminate].
Qed.

Lemma prepare_ok_iff (xs : list R) (ys : list (list R)) :
  prepare_ok xs ys = true <-> (2 <= length xs)%nat /\ length ys = length xs /\ increasing xs.
Proof.
  unfold prepare_ok. rewrite forallb_finite, forallb_finite_rows, !andb_true_r, !andb_true_iff, negb_true_iff.
  rewrite diff_positive_iff, Nat.leb_le, Nat.eqb_eq. intuition.
Qed.
