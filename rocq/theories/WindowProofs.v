(** The values of the windows. *)
From Coq Require Import ZArith List Bool Arith Lia Reals Lra Psatz.
From Verif Require Import Num Py Interp Windows WindowSpec VecFacts InterpProofs.
Import ListNotations.
Local Open Scope list_scope.
Local Open Scope R_scope.

Lemma INR_1_pos m : (2 <= m)%nat -> 1 <= INR m - 1.
Proof. intros H. apply le_INR in H. cbn in H. lra. Qed.

Lemma nth_map_f {A} (f : A -> R) l k d : (k < length l)%nat -> nth k (map f l) 0 = f (nth k l d).
Proof. intros H. rewrite (nth_indep _ 0 (f d)) by (rewrite map_length; assumption). apply map_nth. Qed.
Lemma nth_map_0 (f : nat -> R) m a k : (k < m)%nat -> nth k (map f (seq a m)) 0 = f (a + k)%nat.
Proof. intros H. rewrite (nth_map_f f _ k 0%nat) by (rewrite seq_length; assumption). rewrite seq_nth by assumption. reflexivity. Qed.
Lemma arange_nth m k : (k < m)%nat -> nth k (arange m) 0 = INR k.
Proof. intros H. unfold arange. rewrite nth_map_0 by assumption. reflexivity. Qed.
Lemma arange_length m : length (arange m) = m.
Proof. unfold arange. rewrite map_length. apply seq_length. Qed.

(** ** Centred positions *)

Lemma half_steps_left m k : (2 * k <= m - 1)%nat -> (1 <= m)%nat -> half_steps m k = INR m - 1 - 2 * INR k.
Proof.
  intros H M. unfold half_steps. apply le_INR in H. rewrite mult_INR, minus_INR in H by assumption. cbn [INR] in H.
  rewrite Rabs_left1; lra.
Qed.
Lemma half_steps_right m k : (m - 1 <= 2 * k)%nat -> (1 <= m)%nat -> half_steps m k = 2 * INR k - (INR m - 1).
Proof.
  intros H M. unfold half_steps. apply le_INR in H. rewrite mult_INR, minus_INR in H by assumption. cbn [INR] in H.
  rewrite Rabs_right; lra.
Qed.
Lemma half_steps_mirror m k : (k < m)%nat -> half_steps m (m - 1 - k) = half_steps m k.
Proof.
  intros H. unfold half_steps. rewrite !minus_INR by lia. change (INR 1) with 1.
  rewrite <- Rabs_Ropp. f_equal. lra.
Qed.
Lemma half_steps_range m k : (k < m)%nat -> 0 <= half_steps m k <= INR m - 1.
Proof.
  intros H. split; [apply Rabs_pos|]. unfold half_steps. apply Rabs_le. pose proof (pos_INR k).
  assert (INR k <= INR (m - 1)) by (apply le_INR; lia). rewrite minus_INR in H1 by lia. change (INR 1) with 1 in H1. lra.
Qed.
Lemma half_steps_INR m k : (k < m)%nat -> half_steps m k = INR (if (2 * k <=? m - 1)%nat then m - 1 - 2 * k else 2 * k - (m - 1)).
Proof.
  intros H. destruct (Nat.leb_spec (2 * k) (m - 1)) as [L|L].
  - rewrite half_steps_left by lia. rewrite !minus_INR, mult_INR by lia. cbn. lra.
  - rewrite half_steps_right by lia. rewrite !minus_INR, mult_INR by lia. cbn. lra.
Qed.

Definition ratio (m k : nat) : R := half_steps m k / (INR m - 1).
Lemma ratio_range m k : (2 <= m)%nat -> (k < m)%nat -> 0 <= ratio m k <= 1.
Proof.
  intros M H. pose proof (INR_1_pos m M). pose proof (half_steps_range m k H). unfold ratio. split.
  - apply Rmult_le_pos; [lra|]. left. apply Rinv_0_lt_compat. lra.
  - apply Rmult_le_reg_r with (INR m - 1); [lra|]. unfold Rdiv. rewrite Rmult_assoc, Rinv_l by lra. lra.
Qed.
Lemma ratio_one m k : (2 <= m)%nat -> (k < m)%nat -> (ratio m k = 1 <-> k = 0%nat \/ k = (m - 1)%nat).
Proof.
  intros M H. pose proof (INR_1_pos m M). unfold ratio.
  assert (E : half_steps m k / (INR m - 1) = 1 <-> half_steps m k = INR (m - 1)).
  { rewrite minus_INR by lia. change (INR 1) with 1. split; intros Q.
    - apply (f_equal (fun x => x * (INR m - 1))) in Q. unfold Rdiv in Q. rewrite Rmult_assoc, Rinv_l in Q by lra. lra.
    - rewrite Q. field. lra. }
  rewrite E, half_steps_INR by assumption. clear E. split; intros Q.
  - apply INR_eq in Q. destruct (Nat.leb_spec (2 * k) (m - 1)); lia.
  - f_equal. destruct (Nat.leb_spec (2 * k) (m - 1)); destruct Q; subst; lia.
Qed.

(** The argument of the general cosine window. *)
Lemma linspace_centred b m k : (2 <= m)%nat -> (k < m)%nat ->
  nth k (linspace_nat (- b) b m) 0 = b * ((2 * INR k - (INR m - 1)) / (INR m - 1)).
Proof.
  intros M H. pose proof (INR_1_pos m M). rewrite linspace_nth by assumption. rewrite minus_INR by lia. change (INR 1) with 1. field. lra.
Qed.

Lemma abs_ratio m k : (2 <= m)%nat -> Rabs ((2 * INR k - (INR m - 1)) / (INR m - 1)) = ratio m k.
Proof.
  intros M. pose proof (INR_1_pos m M). unfold ratio, half_steps, Rdiv. rewrite Rabs_mult. f_equal.
  apply Rabs_right. apply Rle_ge. left. apply Rinv_0_lt_compat. lra.
Qed.

Lemma cos_abs x : cos (Rabs x) = cos x.
Proof. unfold Rabs. destruct (Rcase_abs x); [apply cos_neg|reflexivity]. Qed.

Lemma cos_centred m k j : (2 <= m)%nat -> 
  cos (INR j * (PI * ((2 * INR k - (INR m - 1)) / (INR m - 1)))) = cos (INR j * (PI * ratio m k)).
Proof.
  intros M. rewrite <- (cos_abs (INR j * _)). f_equal. rewrite !Rabs_mult, abs_ratio by assumption.
  rewrite (Rabs_right (INR j)) by (apply Rle_ge, pos_INR). rewrite (Rabs_right PI) by (left; apply PI_RGT_0). reflexivity.
Qed.

Lemma fold_left_same {A B} (f g : A -> B -> A) l s : (forall s x, f s x = g s x) -> fold_left f l s = fold_left g l s.
Proof. intros H. revert s. induction l as [|x l IH]; intros s; [reflexivity|]. cbn [fold_left]. rewrite H. apply IH. Qed.

Lemma general_cosine_nth m a k : (2 <= m)%nat -> (k < m)%nat ->
  nth k (general_cosine m a) 0 = fold_left (fun s j => s + nth j a 0 * cos (INR j * (PI * ratio m k))) (seq 0 (length a)) 0.
Proof.
  intros M H. unfold general_cosine. rewrite (nth_map_f _ _ k 0) by (rewrite linspace_length; assumption).
  rewrite linspace_centred by assumption. apply fold_left_same. intros s j. rewrite cos_centred by assumption. reflexivity.
Qed.
Lemma general_cosine_length m a : length (general_cosine m a) = m.
Proof. unfold general_cosine. rewrite map_length. apply linspace_length. Qed.

(** ** Triangles *)

Lemma triang_length m : (1 <= m)%nat -> length (triang m) = m.
Proof.
  intros M. unfold triang. destruct (Nat.even m) eqn:E.
  - apply Nat.even_spec in E as (h & ->). rewrite app_length, rev_length, !map_length, seq_length.
    replace (2 * h + 1)%nat with (1 + h * 2)%nat by lia. rewrite Nat.div_add by lia. cbn. lia.
  - assert (O : Nat.Odd m) by (apply Nat.odd_spec; rewrite <- Nat.negb_even, E; reflexivity). destruct O as (h & ->).
    rewrite app_length. replace (2 * h + 1 + 1)%nat with (0 + (h + 1) * 2)%nat by lia. rewrite Nat.div_add by lia.
    set (w := map _ _). assert (L : length w = (h + 1)%nat) by (unfold w; rewrite !map_length, seq_length; reflexivity).
    assert (T : length (tl (rev w)) = h). { assert (Q := rev_length w). destruct (rev w); cbn in *; lia. } lia.
Qed.

Lemma nth_tl {A} (l : list A) k d : nth k (tl l) d = nth (S k) l d.
Proof. destruct l; [destruct k; reflexivity|reflexivity]. Qed.

Lemma triang_nth m k : (1 <= m)%nat -> (k < m)%nat ->
  nth k (triang m) 0 = if Nat.even m then 1 - half_steps m k / INR m else 1 - half_steps m k / (INR m + 1).
Proof.
  intros M H. assert (P : 0 < INR m) by (apply lt_0_INR; lia). unfold triang. destruct (Nat.even m) eqn:E.
  - apply Nat.even_spec in E as (h & Eh). assert (D : ((m + 1) / 2 = h)%nat).
    { rewrite Eh. replace (2 * h + 1)%nat with (1 + h * 2)%nat by lia. rewrite Nat.div_add by lia. reflexivity. }
    rewrite D, map_map. set (f := fun x => _). assert (L : length (map f (seq 1 h)) = h) by (rewrite map_length; apply seq_length).
    destruct (Nat.lt_ge_cases k h) as [K|K].
    + rewrite app_nth1 by lia. rewrite nth_map_0 by assumption. unfold f. rewrite half_steps_left by lia. rewrite plus_INR. cbn [INR]. field. lra.
    + rewrite app_nth2 by lia. rewrite L, rev_nth by lia. rewrite L, nth_map_0 by lia. unfold f. rewrite half_steps_right by lia.
      replace (1 + (h - S (k - h)))%nat with (m - k)%nat by lia. rewrite minus_INR by lia. field. lra.
  - assert (O : Nat.Odd m) by (apply Nat.odd_spec; rewrite <- Nat.negb_even, E; reflexivity). destruct O as (h & Eh).
    assert (D : ((m + 1) / 2 = h + 1)%nat).
    { rewrite Eh. replace (2 * h + 1 + 1)%nat with (0 + (h + 1) * 2)%nat by lia. rewrite Nat.div_add by lia. reflexivity. }
    rewrite D, map_map. set (f := fun x => _). assert (L : length (map f (seq 1 (h + 1))) = (h + 1)%nat) by (rewrite map_length; apply seq_length).
    destruct (Nat.lt_ge_cases k (h + 1)) as [K|K].
    + rewrite app_nth1 by lia. rewrite nth_map_0 by assumption. unfold f. rewrite half_steps_left by lia. rewrite plus_INR. cbn [INR]. field. lra.
    + rewrite app_nth2 by lia. rewrite L, nth_tl, rev_nth by lia. rewrite L, nth_map_0 by lia. unfold f. rewrite half_steps_right by lia.
      replace (1 + (h + 1 - S (S (k - (h + 1)))))%nat with (m - k)%nat by lia. rewrite minus_INR by lia. field. lra.
Qed.

(** ** Parzen *)

Lemma filter_all {A} (p : A -> bool) l : (forall x, In x l -> p x = true) -> filter p l = l.
Proof.
  induction l as [|x l IH]; intros H; [reflexivity|]. cbn [filter]. rewrite H by (left; reflexivity). f_equal. apply IH. intros y Hy. apply H. right. assumption.
Qed.
Lemma filter_none {A} (p : A -> bool) l : (forall x, In x l -> p x = false) -> filter p l = [].
Proof.
  induction l as [|x l IH]; intros H; [reflexivity|]. cbn [filter]. rewrite H by (left; reflexivity). apply IH. intros y Hy. apply H. right. assumption.
Qed.
Lemma filter_range {A} (f : nat -> A) (p : A -> bool) m a b : (a <= b <= m)%nat ->
  (forall k, (k < m)%nat -> p (f k) = (a <=? k)%nat && (k <? b)%nat) -> filter p (map f (seq 0 m)) = map f (seq a (b - a)).
Proof.
  intros H P. replace m with (a + ((b - a) + (m - b)))%nat by lia. rewrite !seq_app, !map_app, !filter_app. cbn [Nat.add].
  rewrite (filter_none p (map f (seq 0 a))), (filter_all p (map f (seq a _))), (filter_none p (map f (seq _ (m - b)))); [cbn; apply app_nil_r|..].
  - intros x Hx. apply in_map_iff in Hx as (k & <- & Hk). apply in_seq in Hk. rewrite P by lia. destruct (Nat.ltb_spec k b); [lia|]. apply andb_false_r.
  - intros x Hx. apply in_map_iff in Hx as (k & <- & Hk). apply in_seq in Hk. rewrite P by lia. destruct (Nat.leb_spec a k); [|lia]. destruct (Nat.ltb_spec k b); [reflexivity|lia].
  - intros x Hx. apply in_map_iff in Hx as (k & <- & Hk). apply in_seq in Hk. rewrite P by lia. destruct (Nat.leb_spec a k); [lia|]. reflexivity.
Qed.

Lemma Rltb_true x y : Rltb x y = true <-> x < y.
Proof. unfold Rltb. destruct (Rlt_dec x y); split; intros; try assumption; try reflexivity; try discriminate; contradiction. Qed.
Lemma Rleb_true x y : Rleb x y = true <-> x <= y.
Proof. unfold Rleb. destruct (Rle_dec x y); split; intros; try assumption; try reflexivity; try discriminate; contradiction. Qed.

Section ParzenShape.
  Variable m : nat.
  Hypothesis M : (1 <= m)%nat.
  Let a := Nat.div (m + 2) 4.
  Let f k := - (INR m - 1) / 2 + INR k.
  Let q := (INR m - 1) / 4.

  Lemma quarter_spec : (4 * a <= m + 2 < 4 * a + 4)%nat.
  Proof. unfold a. pose proof (Nat.div_mod (m + 2) 4 ltac:(lia)). pose proof (Nat.mod_upper_bound (m + 2) 4 ltac:(lia)). lia. Qed.
  Lemma parzen_abs k : Rabs (f k) = half_steps m k / 2.
  Proof.
    unfold f, half_steps. replace (- (INR m - 1) / 2 + INR k) with ((2 * INR k - (INR m - 1)) * / 2) by field.
    rewrite Rabs_mult, (Rabs_right (/ 2)) by lra. reflexivity.
  Qed.
  Lemma below_quarter k : (k < m)%nat -> Rltb (f k) (- q) = ((0 <=? k) && (k <? a))%nat.
  Proof.
    intros K. pose proof quarter_spec as Q. apply eq_true_iff_eq. rewrite andb_true_iff, Nat.leb_le, Nat.ltb_lt, Rltb_true. unfold f, q.
    assert (E : - (INR m - 1) / 2 + INR k < - ((INR m - 1) / 4) <-> INR (4 * k + 1) < INR m).
    { rewrite plus_INR, mult_INR. cbn [INR]. lra. }
    rewrite E. split; intros H; [apply INR_lt in H; lia|apply lt_INR; lia].
  Qed.
  Lemma inside_half k : (k < m)%nat -> (half_steps m k <= (INR m - 1) / 2 <-> (a <= k < m - a)%nat).
  Proof.
    intros K. pose proof quarter_spec as Q. rewrite half_steps_INR by assumption. set (d := (if (2 * k <=? m - 1)%nat then m - 1 - 2 * k else 2 * k - (m - 1))%nat).
    assert (E : INR d <= (INR m - 1) / 2 <-> INR (2 * d + 1) <= INR m). { rewrite plus_INR, mult_INR. cbn [INR]. lra. }
    rewrite E. unfold d. split; intros H; [apply INR_le in H|apply le_INR]; destruct (Nat.leb_spec (2 * k) (m - 1)); lia.
  Qed.
  Lemma inside_quarter k : (k < m)%nat -> Rleb (Rabs (f k)) q = ((a <=? k) && (k <? m - a))%nat.
  Proof.
    intros K. apply eq_true_iff_eq. rewrite andb_true_iff, Nat.leb_le, Nat.ltb_lt, Rleb_true, parzen_abs.
    rewrite <- (inside_half k K). unfold q. lra.
  Qed.

  Let wa k := 2 * (1 - half_steps m k / INR m) ^ 3.
  Let wb k := 1 - 6 * (half_steps m k / INR m) ^ 2 * (1 - half_steps m k / INR m).

  Lemma parzen_eq : parzen m = map wa (seq 0 a) ++ map wb (seq a (m - a - a)) ++ rev (map wa (seq 0 a)).
  Proof.
    pose proof quarter_spec as Q. assert (P : 0 < INR m) by (apply lt_0_INR; lia).
    unfold parzen. fold f q.
    rewrite (filter_range f (fun x => Rltb x (- q)) m 0 a) by (try lia; apply below_quarter).
    rewrite (filter_range f (fun x => Rleb (Rabs x) q) m a (m - a)) by (try lia; apply inside_quarter).
    rewrite Nat.sub_0_r, !map_map. f_equal; [|f_equal; [|f_equal]]; apply map_ext; intros k; rewrite parzen_abs; unfold wa, wb; field; lra.
  Qed.
  Lemma parzen_length : length (parzen m) = m.
  Proof. pose proof quarter_spec as Q. rewrite parzen_eq, !app_length, rev_length, !map_length, !seq_length. lia. Qed.
  Lemma parzen_nth k : (k < m)%nat -> nth k (parzen m) 0 = taper Parzen m (half_steps m k).
  Proof.
    intros K. pose proof quarter_spec as Q. pose proof (inside_half k K) as I. cbn [taper]. rewrite parzen_eq.
    assert (L1 : length (map wa (seq 0 a)) = a) by (rewrite map_length; apply seq_length).
    assert (L2 : length (map wb (seq a (m - a - a))) = (m - a - a)%nat) by (rewrite map_length; apply seq_length).
    destruct (Rle_dec (half_steps m k) ((INR m - 1) / 2)) as [D|D].
    - apply I in D. rewrite app_nth2 by lia. rewrite app_nth1 by lia. rewrite L1, nth_map_0 by lia. replace (a + (k - a))%nat with k by lia. reflexivity.
    - assert (N : (k < a \/ m - a <= k)%nat) by (destruct (Nat.lt_ge_cases k a); [left; assumption|right; destruct (Nat.lt_ge_cases k (m - a)); [exfalso; apply D, I; lia|assumption]]).
      destruct N as [N|N].
      + rewrite app_nth1 by lia. rewrite nth_map_0 by assumption. reflexivity.
      + rewrite app_nth2 by lia. rewrite app_nth2 by lia. rewrite L1, L2, rev_nth by lia. rewrite L1, nth_map_0 by lia. unfold wa.
        replace (0 + (a - S (k - a - (m - a - a))))%nat with (m - 1 - k)%nat by lia. rewrite half_steps_mirror by assumption. reflexivity.
  Qed.
End ParzenShape.

(** ** Bohman *)

Lemma removelast_length {A} (l : list A) : length (removelast l) = (length l - 1)%nat.
Proof. induction l as [|x [|y l] IH]; [reflexivity|reflexivity|]. cbn [removelast length] in *. rewrite IH. lia. Qed.
Lemma nth_removelast {A} (l : list A) k d : (k < length l - 1)%nat -> nth k (removelast l) d = nth k l d.
Proof.
  revert k. induction l as [|x [|y l] IH]; intros k H; [cbn in H; lia|cbn in H; lia|].
  destruct k; [reflexivity|]. cbn [removelast nth length] in *. apply IH. lia.
Qed.
Lemma tl_length {A} (l : list A) : length (tl l) = (length l - 1)%nat.
Proof. destruct l; cbn; lia. Qed.

Lemma bohman_length m : (2 <= m)%nat -> length (bohman m) = m.
Proof.
  intros M. unfold bohman. rewrite !app_length, !map_length, removelast_length, tl_length, linspace_length. cbn. lia.
Qed.
Lemma bohman_nth m k : (2 <= m)%nat -> (k < m)%nat -> nth k (bohman m) 0 = taper Bohman m (half_steps m k).
Proof.
  intros M K. pose proof PI_RGT_0 as PP. cbn [taper]. fold (ratio m k).
  assert (Z1 : ratio m k = 1 -> (1 - ratio m k) * cos (PI * ratio m k) + sin (PI * ratio m k) / PI = 0).
  { intros ->. rewrite Rmult_1_r, sin_PI. unfold Rdiv. lra. }
  destruct (Nat.eq_dec k 0) as [->|N0]; [rewrite Z1 by (apply ratio_one; lia); reflexivity|].
  unfold bohman. set (fac := map Rabs _). assert (L : length fac = (m - 2)%nat).
  { unfold fac. rewrite map_length, removelast_length, tl_length, linspace_length. lia. }
  rewrite app_nth2 by (cbn; lia). cbn [length]. set (g := fun f => _).
  destruct (Nat.eq_dec k (m - 1)) as [E|N1].
  - rewrite Z1 by (apply ratio_one; [assumption|assumption|right; assumption]). rewrite app_nth2 by (rewrite map_length, L; lia).
    rewrite map_length, L. replace (k - 1 - (m - 2))%nat with 0%nat by lia. reflexivity.
  - rewrite app_nth1 by (rewrite map_length, L; lia). rewrite (nth_map_f g fac _ 0) by lia.
    assert (F : nth (k - 1) fac 0 = ratio m k).
    { unfold fac. rewrite (nth_map_f Rabs _ _ 0) by (rewrite removelast_length, tl_length, linspace_length; lia).
      rewrite nth_removelast by (rewrite tl_length, linspace_length; lia). rewrite nth_tl. replace (S (k - 1)) with k by lia.
      replace (-1) with (- (1)) by lra. rewrite linspace_centred by assumption. rewrite Rmult_1_l. apply abs_ratio. assumption. }
    rewrite F. unfold g. field. lra.
Qed.

(** ** All windows *)

Lemma window_length w m : (2 <= m)%nat -> length (window_values w m) = m.
Proof.
  intros M. destruct w; cbn [window_values]; try apply general_cosine_length.
  - unfold barthann. rewrite map_length. apply arange_length.
  - unfold bartlett. rewrite map_length. apply arange_length.
  - apply bohman_length. assumption.
  - apply repeat_length.
  - unfold cosine. rewrite map_length. apply arange_length.
  - apply parzen_length. lia.
  - apply triang_length. lia.
Qed.

Lemma window_nth w m k : (2 <= m)%nat -> (k < m)%nat -> nth k (window_values w m) 0 = taper w m (half_steps m k).
Proof.
  intros M K. pose proof (INR_1_pos m M) as P. destruct w; cbn [window_values].
  all: try (rewrite general_cosine_nth by assumption; cbn [taper fold_left length seq nth]; fold (ratio m k);
    change (INR 0) with 0; rewrite Rmult_0_l, cos_0; change (INR 1) with 1; rewrite Rmult_1_l;
    replace (INR 2) with 2 by (cbn; lra); replace (INR 3) with 3 by (cbn; lra); replace (INR 4) with 4 by (cbn; lra); lra).
  - unfold barthann. rewrite (nth_map_f _ _ k 0) by (rewrite arange_length; assumption). rewrite arange_nth by assumption. cbn [taper]. fold (ratio m k).
    replace 0.5 with (/ 2) by lra. replace (INR k / (INR m - 1) - / 2) with ((2 * INR k - (INR m - 1)) / (INR m - 1) * / 2) by (field; lra).
    rewrite Rabs_mult, (abs_ratio m k M), (Rabs_right (/ 2)) by lra.
    replace (2 * PI * (ratio m k * / 2)) with (PI * ratio m k) by field. lra.
  - unfold bartlett. rewrite (nth_map_f _ _ k 0) by (rewrite arange_length; assumption). rewrite arange_nth by assumption. cbn [taper]. 
    unfold half_steps. destruct (Rleb (INR k) ((INR m - 1) / 2)) eqn:E.
    + apply Rleb_true in E. rewrite Rabs_left1 by lra. field. lra.
    + assert (N : ~ INR k <= (INR m - 1) / 2) by (intros Q; apply Rleb_true in Q; congruence). rewrite Rabs_right by lra. field. lra.
  - apply bohman_nth; assumption.
  - cbn [taper]. rewrite (nth_indep _ 0 1) by (rewrite repeat_length; assumption). apply nth_repeat.
  - unfold cosine. rewrite (nth_map_f _ _ k 0) by (rewrite arange_length; assumption). rewrite arange_nth by assumption. cbn [taper].
    replace (PI * half_steps m k / (2 * INR m)) with (Rabs (PI * (2 * INR k - (INR m - 1)) / (2 * INR m))).
    + rewrite cos_abs, cos_sin. f_equal. replace 0.5 with (/ 2) by lra. field. lra.
    + unfold half_steps, Rdiv. rewrite !Rabs_mult, (Rabs_right PI) by (left; apply PI_RGT_0). f_equal. apply Rabs_right, Rle_ge. left. apply Rinv_0_lt_compat. lra.
  - apply parzen_nth; [lia|assumption].
  - rewrite triang_nth by lia. reflexivity.
Qed.
