(** Grids, sorted samples and linear interpolation over the reals. *)
From Coq Require Import ZArith String List Bool Arith Lia Reals Lra Psatz.
From Verif Require Import Num Py Numeric Curve Vec Geom DiffGeom Intersect Registry Interp Spec GeomSpec.
From Verif Require Import ListFacts VecFacts CurveProofs3 GeomProofs GeomProofs2 DiffGeomProofs.
Import ListNotations.
Local Open Scope list_scope.
Local Open Scope R_scope.

(** Every element is smaller than the next one. *)
Definition increasing (l : list R) : Prop :=
  forall i, (S i < length l)%nat -> nth i l 0 < nth (S i) l 0.

Lemma increasing_tail x l : increasing (x :: l) -> increasing l.
Proof. intros H i Hi. apply (H (S i)). cbn. lia. Qed.
Lemma increasing_lt l : increasing l -> forall i j, (i < j < length l)%nat -> nth i l 0 < nth j l 0.
Proof.
  intros H i j [Hij Hj]. induction Hij as [|j Hij IH]; [apply H; assumption|].
  eapply Rlt_trans; [apply IH; lia|]. apply H. assumption.
Qed.
Lemma increasing_le l : increasing l -> forall i j, (i <= j < length l)%nat -> nth i l 0 <= nth j l 0.
Proof.
  intros H i j Hij. destruct (Nat.eq_dec i j) as [->|]; [lra|]. apply Rlt_le, increasing_lt; [assumption|lia].
Qed.

Lemma of_nat_R k : (of_nat k : R) = INR k.
Proof. unfold of_nat. cbn [nlit RNum]. rewrite <- INR_IZR_INZ. lra. Qed.

(** ** linspace *)

Lemma linspace_length (a b : R) n : length (linspace_nat a b n) = n.
Proof.
  destruct n as [|[|n]]; [reflexivity|reflexivity|].
  unfold linspace_nat. cbv zeta. rewrite app_length, map_length, seq_length. cbn. lia.
Qed.

Lemma linspace_nth (a b : R) n i : (2 <= n)%nat -> (i < n)%nat ->
  nth i (linspace_nat a b n) 0 = a + INR i * ((b - a) / INR (n - 1)).
Proof.
  intros Hn Hi. assert (P : 0 < INR (n - 1)) by (apply lt_0_INR; lia).
  destruct n as [|[|n]]; [lia|lia|].
  unfold linspace_nat. cbv zeta. set (m := (S (S n) - 1)%nat) in *.
  set (y := fun k : nat => _).
  assert (Y : forall k, y k = a + INR k * ((b - a) / INR m)).
  { intros k. unfold y. rewrite !of_nat_R. rnum. destruct (Reqb ((b - a) / INR m) 0);
    field; lra. }
  destruct (Nat.eq_dec i m) as [->|Ne].
  - rewrite app_nth2 by (rewrite map_length, seq_length; lia). rewrite map_length, seq_length, Nat.sub_diag. cbn [nth].
    field. lra.
  - rewrite app_nth1 by (rewrite map_length, seq_length; lia).
    rewrite (nth_indep _ 0 (y 0%nat)) by (rewrite map_length, seq_length; lia).
    rewrite map_nth, seq_nth by lia. apply Y.
Qed.

Lemma linspace_one (a b : R) : linspace_nat a b 1 = [a].
Proof. cbn. f_equal. lra. Qed.

Lemma linspace_last (a b : R) n : (2 <= n)%nat -> nth (n - 1) (linspace_nat a b n) 0 = b.
Proof.
  intros H. rewrite linspace_nth by lia. assert (0 < INR (n - 1)) by (apply lt_0_INR; lia). field. lra.
Qed.
Lemma linspace_first (a b : R) n : (1 <= n)%nat -> nth 0 (linspace_nat a b n) 0 = a.
Proof.
  intros H. destruct (Nat.eq_dec n 1) as [->|]; [rewrite linspace_one; reflexivity|].
  rewrite linspace_nth by lia. cbn. lra.
Qed.

(** ** diff and mean *)

Lemma diff_length (l : list R) : length (diff l) = (length l - 1)%nat.
Proof. induction l as [|a [|b l] IH]; [reflexivity|reflexivity|]. cbn [diff length] in *. rewrite IH. lia. Qed.
Lemma diff_nth (l : list R) : forall i, (S i < length l)%nat -> nth i (diff l) 0 = nth (S i) l 0 - nth i l 0.
Proof.
  induction l as [|a [|b l] IH]; intros i Hi; cbn [length] in Hi; try lia.
  destruct i as [|i]; [reflexivity|]. change (diff (a :: b :: l)) with ((b - a) :: diff (b :: l)).
  cbn [nth]. rewrite IH by (cbn; lia). reflexivity.
Qed.
Lemma diff_sum (l : list R) : l <> [] -> vsum (diff l) = nth (length l - 1) l 0 - nth 0 l 0.
Proof.
  induction l as [|a [|b l] IH]; intros N; [contradiction|cbn; lra|].
  change (vsum (diff (a :: b :: l))) with ((b - a) + vsum (diff (b :: l))). rewrite IH by discriminate.
  cbn [length nth Nat.sub]. rewrite Nat.sub_0_r. lra.
Qed.
Lemma mean_diff (l : list R) : (2 <= length l)%nat ->
  mean (diff l) = (nth (length l - 1) l 0 - nth 0 l 0) / INR (length l - 1).
Proof.
  intros H. unfold mean. rewrite diff_sum, of_nat_R, diff_length by (destruct l; [cbn in H; lia|discriminate]). reflexivity.
Qed.

Lemma np_get_first {A} (l : list A) d : l <> [] -> np_get l 0 = Ok (nth 0 l d).
Proof. intros N. destruct l as [|x l]; [contradiction|]. apply (np_get_nat (x :: l) 0). reflexivity. Qed.
Lemma np_get_last {A} (l : list A) d : l <> [] -> np_get l (-1) = Ok (nth (length l - 1) l d).
Proof.
  intros N. apply np_get_ok. exists (length l - 1)%nat.
  assert (0 < length l)%nat by (destruct l; [contradiction|cbn; lia]). split; [split; [lia|right; lia]|].
  apply nth_error_nth'. lia.
Qed.

(** ** Sorting samples *)

Lemma lt_nan_R (a b : R) : lt_nan a b = Rltb a b.
Proof. unfold lt_nan. rnum. rewrite orb_false_r. reflexivity. Qed.

Lemma insert_sample_last {Y} (p : R * Y) l : (forall q, In q l -> fst q <= fst p) -> insert_sample p l = l ++ [p].
Proof.
  induction l as [|q l IH]; intros H; [reflexivity|]. cbn [insert_sample app]. rewrite lt_nan_R.
  destruct (Rltb (fst p) (fst q)) eqn:E.
  - apply Rltb_iff in E. specialize (H q (or_introl eq_refl)). lra.
  - rewrite IH; [reflexivity|]. intros q' Hq. apply H. right. assumption.
Qed.
Lemma insert_sample_first {Y} (p : R * Y) l : (forall q, In q l -> fst p < fst q) -> insert_sample p l = p :: l.
Proof.
  destruct l as [|q l]; intros H; [reflexivity|]. cbn [insert_sample]. rewrite lt_nan_R.
  rewrite (proj2 (Rltb_iff _ _)); [reflexivity|]. apply H. left. reflexivity.
Qed.

Lemma sort_increasing {Y} (l acc : list (R * Y)) : increasing (map fst (acc ++ l)) ->
  fold_left (fun acc p => insert_sample p acc) l acc = acc ++ l.
Proof.
  revert acc. induction l as [|p l IH]; intros acc H; cbn [fold_left]; [rewrite app_nil_r; reflexivity|].
  rewrite insert_sample_last.
  - rewrite IH; rewrite <- app_assoc; [reflexivity|assumption].
  - intros q Hq. apply (In_nth _ _ p) in Hq as (i & Hi & E).
    pose proof (increasing_lt _ H i (length acc)) as K.
    rewrite map_length, app_length in K. cbn [length] in K. specialize (K ltac:(lia)).
    rewrite (nth_indep _ 0 (fst p)) in K by (rewrite map_length, app_length; lia).
    rewrite (nth_indep (map fst (acc ++ p :: l)) 0 (fst p)) in K by (rewrite map_length, app_length; cbn; lia).
    rewrite !map_nth in K. rewrite app_nth1, E in K by assumption. rewrite app_nth2, Nat.sub_diag in K by lia. cbn [nth] in K. lra.
Qed.
Lemma sort_samples_increasing {Y} (l : list (R * Y)) : increasing (map fst l) -> sort_samples l = l.
Proof. intros H. unfold sort_samples. apply (sort_increasing l []). assumption. Qed.

Lemma sort_decreasing {Y} (l acc : list (R * Y)) : increasing (map fst (rev l ++ acc)) ->
  fold_left (fun acc p => insert_sample p acc) l acc = rev l ++ acc.
Proof.
  revert acc. induction l as [|p l IH]; intros acc H; cbn [fold_left rev]; [reflexivity|].
  cbn [rev] in H. rewrite <- app_assoc in H. cbn [app] in H.
  rewrite insert_sample_first.
  - rewrite IH by assumption. rewrite <- app_assoc. reflexivity.
  - intros q Hq. apply (In_nth _ _ p) in Hq as (i & Hi & E).
    pose proof (increasing_lt _ H (length (rev l)) (length (rev l) + S i)) as K.
    rewrite map_length, app_length in K. cbn [length] in K. specialize (K ltac:(lia)).
    rewrite !(nth_indep (map fst (rev l ++ p :: acc)) 0 (fst p)) in K by (rewrite map_length, app_length; cbn; lia).
    rewrite !map_nth in K. rewrite app_nth2, Nat.sub_diag in K by lia. cbn [nth] in K.
    rewrite app_nth2 in K by lia. replace (length (rev l) + S i - length (rev l))%nat with (S i) in K by lia.
    cbn [nth] in K. rewrite E in K. assumption.
Qed.
Lemma sort_samples_rev {Y} (l : list (R * Y)) : increasing (map fst l) -> sort_samples (rev l) = l.
Proof.
  intros H. unfold sort_samples. rewrite (sort_decreasing (rev l) []); rewrite app_nil_r, rev_involutive; [reflexivity|assumption].
Qed.

(** ** Search and evaluation *)

Lemma searchsorted_spec (xs : list R) v : increasing xs ->
  let k := searchsorted xs v in
  (k <= length xs)%nat /\ (forall i, (i < k)%nat -> nth i xs 0 < v) /\ (forall i, (k <= i < length xs)%nat -> v <= nth i xs 0).
Proof.
  induction xs as [|x xs IH]; intros H; cbv zeta.
  - cbn. repeat split; intros; lia.
  - specialize (IH (increasing_tail _ _ H)). cbv zeta in IH. unfold searchsorted in *. cbn [filter]. rewrite lt_nan_R.
    destruct (Rltb x v) eqn:E.
    + apply Rltb_iff in E. cbn [length]. destruct IH as (I1 & I2 & I3). split; [lia|]. split.
      * intros [|i] Hi; [assumption|]. apply I2. lia.
      * intros [|i] Hi; [lia|]. apply I3. lia.
    + apply Rltb_false in E.
      assert (Z : filter (fun y => lt_nan y v) xs = []).
      { destruct (filter (fun y => lt_nan y v) xs) as [|y l] eqn:F; [reflexivity|].
        assert (I : In y (filter (fun y => lt_nan y v) xs)) by (rewrite F; left; reflexivity).
        apply filter_In in I as [I G]. rewrite lt_nan_R in G. apply Rltb_iff in G.
        apply (In_nth _ _ 0) in I as (i & Hi & Ei).
        pose proof (increasing_lt _ H 0 (S i) ltac:(cbn; lia)) as K. cbn [nth] in K. lra. }
      rewrite Z. cbn [length]. split; [lia|]. split; [intros; lia|].
      intros i Hi. pose proof (increasing_le _ H 0 i ltac:(cbn; lia)) as K. change (nth 0 (x :: xs) 0) with x in K. lra.
Qed.

(** The value of the piecewise linear function on the piece between samples k
    and k+1; the first and the last piece extend to infinity. *)
Lemma interp_at_piece n (xs : list R) (ys : list (list R)) v k :
  increasing xs -> length ys = length xs -> dims n ys -> (S k < length xs)%nat ->
  (k = 0%nat \/ nth k xs 0 <= v) -> (S (S k) = length xs \/ v <= nth (S k) xs 0) ->
  affine_at (nth k ys []) (nth (S k) ys []) ((v - nth k xs 0) / (nth (S k) xs 0 - nth k xs 0)) (interp_at xs ys v).
Proof.
  intros I L D Hk Hl Hr.
  assert (W : forall j, (j < length xs)%nat -> length (nth j ys []) = n) by (intros j Hj; apply D, nth_In; lia).
  assert (A : forall j, (S j < length xs)%nat -> (v = nth k xs 0 /\ S j = k \/ j = k) ->
     affine_at (nth k ys []) (nth (S k) ys []) ((v - nth k xs 0) / (nth (S k) xs 0 - nth k xs 0))
       (map2 (fun yl yh => ndiv (nsub yh yl) (nsub (nth (S j) xs n0) (nth j xs n0)) * (v - nth j xs n0) + yl) (nth j ys []) (nth (S j) ys []))).
  { intros j Hj C. pose proof (W k ltac:(lia)) as Wk. pose proof (W (S k) Hk) as Wk'. pose proof (W j ltac:(lia)) as Wj. pose proof (W (S j) Hj) as Wj'.
    split; [rewrite map2_length; lia|]. intros i. destruct (Nat.lt_ge_cases i n) as [Hi|Hi].
    - rewrite (nth_map2 _ _ _ i 0 0) by lia. rnum. pose proof (I j Hj). pose proof (I k Hk). destruct C as [[Ev Ej]|Ej].
      + subst k. rewrite Ev. field. split; lra.
      + subst j. field. lra.
    - rewrite (nth_overflow (map2 _ _ _)) by (rewrite map2_length; lia). rewrite (nth_overflow (nth k ys [])), (nth_overflow (nth (S k) ys [])) by lia. ring. }
  unfold interp_at. destruct (searchsorted_spec xs v I) as (S1 & S2 & S3). cbv zeta in S1, S2, S3.
  set (s := searchsorted xs v) in *. set (hi := Nat.max 1 (Nat.min s (length xs - 1))). cbv zeta.
  assert (Hhi : (1 <= hi < length xs)%nat) by (unfold hi; lia).
  replace (nth hi xs n0) with (nth (S (hi - 1)) xs (n0 : R)) by (f_equal; lia).
  replace (nth hi ys []) with (nth (S (hi - 1)) ys []) by (f_equal; lia).
  apply A; [lia|].
  destruct (Nat.lt_trichotomy hi (S k)) as [C|[C|C]]; [left|right; lia|exfalso].
  - assert (s <= k)%nat by (unfold hi in C; lia). assert (Vk : v <= nth k xs 0) by (apply S3; lia).
    destruct Hl as [->|Hl]; [lia|]. assert (v = nth k xs 0) by lra. split; [assumption|].
    assert (k - 1 < s)%nat. { destruct (Nat.lt_ge_cases (k - 1) s); [assumption|]. pose proof (S3 (k - 1)%nat ltac:(lia)).
      pose proof (increasing_lt xs I (k - 1) k ltac:(lia)). lra. }
    unfold hi in *. lia.
  - assert (S (S k) <= s)%nat by (unfold hi in C; lia). destruct Hr as [Hr|Hr]; [unfold hi in C; lia|].
    pose proof (S2 (S k) ltac:(lia)). lra.
Qed.

Lemma affine_length p q t x : affine_at p q t x -> length x = length p.
Proof. intros [H _]. exact H. Qed.

(** Every abscissa lies in some piece. *)
Lemma piece_exists (xs : list R) v : increasing xs -> (2 <= length xs)%nat ->
  exists k, (S k < length xs)%nat /\ (k = 0%nat \/ nth k xs 0 <= v) /\ (S (S k) = length xs \/ v <= nth (S k) xs 0).
Proof.
  intros I L. destruct (searchsorted_spec xs v I) as (S1 & S2 & S3). cbv zeta in S1, S2, S3. set (s := searchsorted xs v) in *.
  destruct (Nat.eq_dec s 0) as [Z|Z].
  - exists 0%nat. split; [lia|]. split; [auto|]. right. apply S3. lia.
  - destruct (Nat.eq_dec s (length xs)) as [F|F].
    + exists (length xs - 2)%nat. split; [lia|]. split; [|left; lia]. right. apply Rlt_le, S2. lia.
    + exists (s - 1)%nat. split; [lia|]. split; [right; apply Rlt_le, S2; lia|]. right. apply S3. lia.
Qed.

Lemma interp_at_length n (xs : list R) ys v : increasing xs -> length ys = length xs -> dims n ys -> (2 <= length xs)%nat ->
  length (interp_at xs ys v) = n.
Proof.
  intros I L D H. destruct (piece_exists xs v I H) as (k & Hk & Hl & Hr).
  rewrite (affine_length _ _ _ _ (interp_at_piece n xs ys v k I L D Hk Hl Hr)). apply D, nth_In. lia.
Qed.

Lemma interp_at_node n (xs : list R) ys k : increasing xs -> length ys = length xs -> dims n ys -> (2 <= length xs)%nat -> (k < length xs)%nat ->
  interp_at xs ys (nth k xs 0) = nth k ys [].
Proof.
  intros I L D H Hk. destruct (Nat.eq_dec (S k) (length xs)) as [E|E].
  - destruct k as [|k]; [lia|].
    pose proof (interp_at_piece n xs ys (nth (S k) xs 0) k I L D Hk (or_intror (increasing_le xs I k (S k) ltac:(lia))) (or_intror (Rle_refl _))) as A.
    destruct A as [A1 A2]. pose proof (I k Hk).
    apply vec_ext; [rewrite A1, !(D (nth _ ys [])) by (apply nth_In; lia); reflexivity|]. intros i. rewrite A2. field. lra.
  - pose proof (interp_at_piece n xs ys (nth k xs 0) k I L D ltac:(lia) (or_intror (Rle_refl _)) (or_intror (increasing_le xs I k (S k) ltac:(lia)))) as A.
    destruct A as [A1 A2]. pose proof (I k ltac:(lia)).
    apply vec_ext; [assumption|]. intros i. rewrite A2. field. lra.
Qed.

Lemma rseq_map_ok {A B} (f : A -> B) (l : list A) : rseq (map (fun x => Ok (f x)) l) = Ok (map f l).
Proof. apply rseq_ok_iff. rewrite map_map. reflexivity. Qed.

Lemma combine_fst {A B} (u : list A) (v : list B) : length u = length v -> map fst (combine u v) = u.
Proof. revert v. induction u as [|a u IH]; intros [|b v] H; cbn in *; try lia; [reflexivity|]. rewrite IH; [reflexivity|lia]. Qed.
Lemma combine_snd {A B} (u : list A) (v : list B) : length u = length v -> map snd (combine u v) = v.
Proof. revert v. induction u as [|a u IH]; intros [|b v] H; cbn in *; try lia; [reflexivity|]. rewrite IH; [reflexivity|lia]. Qed.
Lemma combine_app' {A B} (u u' : list A) (v v' : list B) : length u = length v -> combine (u ++ u') (v ++ v') = combine u v ++ combine u' v'.
Proof. revert v. induction u as [|a u IH]; intros [|b v] H; cbn in *; try lia; [reflexivity|]. rewrite IH; [reflexivity|lia]. Qed.
Lemma combine_rev {A B} (u : list A) (v : list B) : length u = length v -> combine (rev u) (rev v) = rev (combine u v).
Proof.
  revert v. induction u as [|a u IH]; intros [|b v] H; cbn in *; try lia; [reflexivity|].
  rewrite combine_app' by (rewrite !rev_length; lia). rewrite IH by lia. reflexivity.
Qed.

Lemma interp1d_increasing few (xs : list R) ys : increasing xs -> length ys = length xs -> (2 <= length xs)%nat ->
  interp1d few xs ys = Ok (fun v => Ok (interp_at xs ys v)).
Proof.
  intros I L H. unfold interp1d. rewrite L, Nat.eqb_refl. cbn [negb]. destruct (Nat.ltb_spec (length xs) 2); [lia|].
  rewrite sort_samples_increasing by (rewrite combine_fst by congruence; assumption).
  rewrite combine_fst, combine_snd by congruence. reflexivity.
Qed.
Lemma interp1d_decreasing few (xs : list R) ys : increasing xs -> length ys = length xs -> (2 <= length xs)%nat ->
  interp1d few (rev xs) (rev ys) = Ok (fun v => Ok (interp_at xs ys v)).
Proof.
  intros I L H. unfold interp1d. rewrite !rev_length, L, Nat.eqb_refl. cbn [negb]. destruct (Nat.ltb_spec (length xs) 2); [lia|].
  rewrite combine_rev by congruence.
  rewrite sort_samples_rev by (rewrite combine_fst by congruence; assumption).
  rewrite combine_fst, combine_snd by congruence. reflexivity.
Qed.

(** ** Minimum and maximum of a sorted list *)

Lemma fold_min_ge (l : list R) a : (forall x, In x l -> a <= x) -> fold_left npmin l a = a.
Proof.
  induction l as [|x l IH]; intros H; [reflexivity|]. cbn [fold_left]. rewrite npmin_R, Rmin_left by (apply H; left; reflexivity).
  apply IH. intros y Hy. apply H. right. assumption.
Qed.
Lemma fold_max_nondecreasing (l : list R) a : (forall i, (S i < length (a :: l))%nat -> nth i (a :: l) 0 <= nth (S i) (a :: l) 0) ->
  fold_left npmax l a = nth (length l) (a :: l) 0.
Proof.
  revert a. induction l as [|x l IH]; intros a H; [reflexivity|]. cbn [fold_left].
  pose proof (H 0%nat ltac:(cbn; lia)) as H0. cbn [nth] in H0. rewrite npmax_R, Rmax_right by assumption.
  rewrite IH; [reflexivity|]. intros i Hi. apply (H (S i)). cbn in *. lia.
Qed.
Lemma nondecreasing_le (l : list R) : (forall i, (S i < length l)%nat -> nth i l 0 <= nth (S i) l 0) ->
  forall i j, (i <= j < length l)%nat -> nth i l 0 <= nth j l 0.
Proof.
  intros H i j [Hij Hj]. induction Hij as [|j Hij IH]; [lra|]. eapply Rle_trans; [apply IH; lia|]. apply H. assumption.
Qed.
Lemma np_minmax_nondecreasing (l : list R) : l <> [] -> (forall i, (S i < length l)%nat -> nth i l 0 <= nth (S i) l 0) ->
  np_min l = Ok (nth 0 l 0) /\ np_max l = Ok (nth (length l - 1) l 0).
Proof.
  intros N H. destruct l as [|a l]; [contradiction|]. cbn [np_min np_max]. split; f_equal.
  - cbn [nth]. apply fold_min_ge. intros x Hx. apply (In_nth _ _ 0) in Hx as (i & Hi & <-).
    apply (nondecreasing_le _ H 0 (S i)). cbn. lia.
  - cbn [length Nat.sub]. rewrite Nat.sub_0_r. apply fold_max_nondecreasing. assumption.
Qed.
