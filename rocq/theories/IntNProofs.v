(** Lemmas for C94. *)
From Coq Require Import PrimFloat FloatOps SpecFloat FloatAxioms.
From Coq Require Import ZArith List Bool Arith Reals Lra Lia.
From Flocq Require Import Core.
From Verif Require Import Num Py Numeric Curve Spec Vec VecFacts GeomSpec ListFacts CurveProofs CurveProofs2 CurveProofs3 FloatFacts FloatFacts2 Int64 Int64Proofs IntN.
Import ListNotations.
Local Open Scope Z_scope.

(** The numbers of a dtype. *)
Definition in_type (d : ity) (z : Z) : Prop := if i_signed d then - 2 ^ (i_bits d - 1) <= z < 2 ^ (i_bits d - 1) else 0 <= z < 2 ^ i_bits d.
Definition narrow (d : ity) : Prop := 2 <= i_bits d <= 32.

Lemma pow_split b : 1 <= b -> 2 ^ b = 2 * 2 ^ (b - 1).
Proof. intros H. replace b with (1 + (b - 1)) at 1 by lia. rewrite Z.pow_add_r by lia. reflexivity. Qed.
Lemma iwrap_range d z : 1 <= i_bits d -> in_type d (iwrap d z).
Proof.
  intros H. unfold in_type, iwrap. pose proof (pow_split _ H) as E. assert (0 < 2 ^ (i_bits d - 1)) by (apply Z.pow_pos_nonneg; lia).
  destruct (i_signed d).
  - pose proof (Z.mod_pos_bound (z + 2 ^ (i_bits d - 1)) (2 ^ i_bits d) ltac:(lia)). lia.
  - apply Z.mod_pos_bound. lia.
Qed.
Lemma iwrap_cong d z : 1 <= i_bits d -> exists k, iwrap d z = z + k * 2 ^ i_bits d.
Proof.
  intros H. unfold iwrap. assert (0 < 2 ^ i_bits d) by (apply Z.pow_pos_nonneg; lia). destruct (i_signed d).
  - exists (- ((z + 2 ^ (i_bits d - 1)) / 2 ^ i_bits d)). pose proof (Z.div_mod (z + 2 ^ (i_bits d - 1)) (2 ^ i_bits d) ltac:(lia)). lia.
  - exists (- (z / 2 ^ i_bits d)). pose proof (Z.div_mod z (2 ^ i_bits d) ltac:(lia)). lia.
Qed.
Lemma in_type_unique d x y k : 1 <= i_bits d -> in_type d x -> in_type d y -> x = y + k * 2 ^ i_bits d -> x = y.
Proof.
  intros H X Y E. pose proof (pow_split _ H) as P. assert (0 < 2 ^ (i_bits d - 1)) by (apply Z.pow_pos_nonneg; lia). unfold in_type in X, Y.
  assert (k = 0); [|subst k; lia]. destruct (i_signed d); nia.
Qed.
Lemma iwrap_eq d x y k : 1 <= i_bits d -> x = y + k * 2 ^ i_bits d -> iwrap d x = iwrap d y.
Proof.
  intros H E. destruct (iwrap_cong d x H) as (a & A). destruct (iwrap_cong d y H) as (b & B).
  apply (in_type_unique d _ _ (a + k - b) H (iwrap_range d x H) (iwrap_range d y H)). lia.
Qed.
Lemma iwrap_id d z : 1 <= i_bits d -> in_type d z -> iwrap d z = z.
Proof. intros H I. destruct (iwrap_cong d z H) as (k & K). exact (in_type_unique d _ _ k H (iwrap_range d z H) I K). Qed.
Lemma iwrap_sq_diff d z : 1 <= i_bits d -> iwrap d (iwrap d z * iwrap d z) = iwrap d (z * z).
Proof. intros H. destruct (iwrap_cong d z H) as (k & ->). apply (iwrap_eq d _ _ (2 * k * z + k * k * 2 ^ i_bits d) H). ring. Qed.

(** The squared differences as stored. *)
Fixpoint squares (d : ity) (p q : list Z) : list Z :=
  match p, q with a :: p', b :: q' => iwrap d ((b - a) * (b - a)) :: squares d p' q' | _, _ => [] end.
Lemma squares_eq d p q : 1 <= i_bits d -> map (fun x => iwrap d (x * x)) (idiff d p q) = squares d p q.
Proof. intros H. revert q. induction p as [|a p IH]; intros [|b q]; try reflexivity. cbn [idiff map squares]. rewrite IH, iwrap_sq_diff by exact H. reflexivity. Qed.
Lemma squares_length d p q : length p = length q -> length (squares d p q) = length p.
Proof. revert q. induction p as [|a p IH]; intros [|b q] L; cbn in L |- *; try lia. rewrite (IH q) by lia. reflexivity. Qed.
Lemma squares_nth d p q k : length p = length q -> (k < length p)%nat -> nth k (squares d p q) 0 = iwrap d ((nth k q 0 - nth k p 0) * (nth k q 0 - nth k p 0)).
Proof. revert q k. induction p as [|a p IH]; intros [|b q] k L H; cbn in L, H; try lia. destruct k as [|k]; cbn [squares nth]; [reflexivity|]. apply IH; lia. Qed.
Definition zsum (l : list Z) : Z := fold_right Z.add 0 l.

Lemma narrow_abs d z : narrow d -> in_type d z -> (if i_signed d then - 2 ^ 31 else 0) <= z < 2 ^ 32.
Proof.
  intros (B1 & B2) I. unfold in_type in I. destruct (i_signed d).
  - assert (2 ^ (i_bits d - 1) <= 2 ^ 31) by (apply Z.pow_le_mono_r; lia). lia.
  - assert (2 ^ i_bits d <= 2 ^ 32) by (apply Z.pow_le_mono_r; lia). lia.
Qed.
Lemma zsum_bound d l : narrow d -> (forall x, In x l -> in_type d x) -> Z.of_nat (length l) <= 2 ^ 30 ->
  (if i_signed d then - 2 ^ 61 else 0) <= zsum l < 2 ^ 62 + 1 /\ (l <> [] -> zsum l < Z.of_nat (length l) * 2 ^ 32).
Proof.
  intros N I L. assert (H : (if i_signed d then - (Z.of_nat (length l) * 2 ^ 31) else 0) <= zsum l <= Z.of_nat (length l) * (2 ^ 32 - 1)).
  { clear L. induction l as [|x l IH]; [destruct (i_signed d); cbn; lia|]. specialize (IH (fun y Hy => I y (or_intror Hy))).
    pose proof (narrow_abs d x N (I x (or_introl eq_refl))). change (zsum (x :: l)) with (x + zsum l). cbn [length]. destruct (i_signed d); lia. }
  split; [destruct (i_signed d); lia|]. intros Ne. destruct l; [congruence|]. cbn [length] in *. lia.
Qed.
Lemma isum_eq d l : narrow d -> (forall x, In x l -> in_type d x) -> Z.of_nat (length l) <= 2 ^ 30 -> isum d l = zsum l.
Proof.
  intros N I L. induction l as [|x l IH]; [reflexivity|]. cbn [isum fold_right]. change (fold_right _ 0 l) with (isum d l).
  rewrite IH; [|intros y Hy; apply I; right; exact Hy|cbn [length] in L; lia].
  destruct (zsum_bound d (x :: l) N I L) as (B & _). change (zsum (x :: l)) with (x + zsum l) in *. apply iwrap_id; [cbn; lia|].
  unfold in_type, sum_type. cbn [i_signed i_bits]. change (64 - 1) with 63. destruct (i_signed d); lia.
Qed.
Lemma squares_type d p q x : 1 <= i_bits d -> In x (squares d p q) -> in_type d x.
Proof.
  intros H. revert q. induction p as [|a p IH]; intros [|b q] I; cbn in I; try contradiction.
  destruct I as [<-|I]; [apply iwrap_range; exact H|exact (IH q I)].
Qed.

Local Open Scope R_scope.
Lemma ichord_spec d p q : narrow d -> length p = length q -> (Z.of_nat (length p) <= 2 ^ 30)%Z -> let s := zsum (squares d p q) in
  ((0 <= s)%Z -> ffin (ichord d p q) /\ within 2 (FR (ichord d p q)) (sqrt (IZR s)) /\ (s = 0%Z -> FR (ichord d p q) = 0) /\ ((1 <= s)%Z -> 1 <= FR (ichord d p q))) /\
  ((s < 0)%Z -> PrimFloat.is_nan (ichord d p q) = true).
Proof.
  intros N L H s. unfold ichord. assert (B1 : (1 <= i_bits d)%Z) by (destruct N; lia). rewrite squares_eq by exact B1.
  assert (HL : (Z.of_nat (length (squares d p q)) <= 2 ^ 30)%Z) by (rewrite squares_length by exact L; exact H).
  pose proof (fun x => squares_type d p q x B1) as T. rewrite (isum_eq d _ N T HL). fold s.
  destruct (zsum_bound d _ N T HL) as (B & _). fold s in B. assert (B' : (- 2 ^ 61 <= s < 2 ^ 63)%Z) by (destruct (i_signed d); lia). clear B. split.
  - intros S0. apply sqrt_of_Z. lia.
  - intros S0. apply sqrt_neg; [apply of_Z_fin; lia|]. rewrite of_Z_rnd by lia.
    assert (H0 : IZR s <= Ropp 1) by (pose proof (IZR_le s (-1) ltac:(lia)); lra). apply rnd_le in H0. rewrite (rnd_opp 1), rnd_1 in H0. lra.
Qed.
Lemma isclose_zero x : ffin x -> (FR x = 0 \/ 1 <= FR x) -> (isclose x PrimFloat.zero = true <-> FR x = 0).
Proof.
  intros F C. unfold isclose, isclose_tol, isfinite.
  change (nisnan x) with (PrimFloat.is_nan x). change (nisinf x) with (PrimFloat.is_infinity x).
  change (nisnan PrimFloat.zero) with false. change (nisinf PrimFloat.zero) with false. destruct (ffin_flags x F) as [-> ->]. cbn [negb andb].
  set (c := PrimFloat.add (fq 1 100000000) (PrimFloat.mul (fq 1 100000) PrimFloat.zero)).
  change (PrimFloat.leb (PrimFloat.abs (PrimFloat.sub x PrimFloat.zero)) c = true <-> FR x = 0).
  assert (Fc : ffin c) by reflexivity.
  assert (C0 : 0 <= FR c) by (apply (proj1 (leb_R PrimFloat.zero c ffin_0 Fc)); reflexivity).
  assert (C1 : FR c < 1) by (rewrite <- FR_1; apply (proj1 (ltb_R c PrimFloat.one Fc ffin_1)); reflexivity).
  pose proof (sub_rounded x PrimFloat.zero F ffin_0) as S. rewrite FR_0, Rminus_0_r in S.
  destruct (rounded_exact x _ F S) as (Fs & Es).
  rewrite leb_R by (try exact Fc; apply ffin_abs, Fs). rewrite FR_abs, Es. split.
  - intros H. destruct C as [E|G]; [exact E|]. rewrite Rabs_right in H by lra. lra.
  - intros ->. rewrite Rabs_R0. exact C0.
Qed.
Lemma isclose_nan x : PrimFloat.is_nan x = true -> isclose x PrimFloat.zero = false.
Proof.
  intros N. unfold isclose, isclose_tol, isfinite.
  change (nisnan x) with (PrimFloat.is_nan x). rewrite N. cbn [negb andb]. change (PrimFloat.eqb x PrimFloat.zero = false).
  apply not_true_is_false. intros E. apply eqb_num in E. destruct E as [E _]. unfold fnum in E. rewrite N in E. discriminate.
Qed.
Lemma isclose_ichord d p q : narrow d -> length p = length q -> (Z.of_nat (length p) <= 2 ^ 30)%Z ->
  (isclose (ichord d p q) PrimFloat.zero = true <-> zsum (squares d p q) = 0%Z).
Proof.
  intros N L H. destruct (ichord_spec d p q N L H) as (A & B). destruct (Z.lt_ge_cases (zsum (squares d p q)) 0) as [S|S].
  - rewrite (isclose_nan _ (B S)). split; [discriminate|lia].
  - destruct (A S) as (F & _ & A0 & A1). destruct (Z.eq_dec (zsum (squares d p q)) 0) as [E|E].
    + rewrite isclose_zero by (try exact F; left; apply A0, E). split; auto.
    + rewrite isclose_zero by (try exact F; right; apply A1; lia). specialize (A1 ltac:(lia)). split; intros; [lra|lia].
Qed.

(** *** Right or too small *)
Local Open Scope Z_scope.
(** All squares of differences are numbers of the dtype. *)
Definition fit_squares (d : ity) (p q : list Z) : Prop := forall k, (k < length p)%nat -> in_type d ((nth k q 0 - nth k p 0) * (nth k q 0 - nth k p 0)).
Lemma squares_fit d p q : narrow d -> length p = length q -> fit_squares d p q -> zsum (squares d p q) = gap p q.
Proof.
  intros N. revert q. induction p as [|a p IH]; intros [|b q] L F; cbn in L; try lia; [reflexivity|].
  cbn [squares gap]. change (zsum (?x :: ?l)) with (x + zsum l). rewrite (IH q); [|lia|intros k Hk; exact (F (S k) (proj1 (Nat.succ_lt_mono _ _) Hk))].
  rewrite iwrap_id; [reflexivity|destruct N; lia|]. exact (F 0%nat (Nat.lt_0_succ _)).
Qed.
Lemma sq_drop d z : narrow d -> iwrap d (z * z) <= z * z /\ (~ in_type d (z * z) -> iwrap d (z * z) <= z * z - 2 ^ i_bits d).
Proof.
  intros N. assert (B1 : 1 <= i_bits d) by (destruct N; lia). destruct (iwrap_cong d (z * z) B1) as (k & K). pose proof (iwrap_range d (z * z) B1) as R.
  pose proof (pow_split _ B1) as P. assert (0 < 2 ^ (i_bits d - 1)) by (apply Z.pow_pos_nonneg; lia). assert (0 <= z * z) by nia.
  assert (k <= 0) by (unfold in_type in R; destruct (i_signed d); nia).
  split; [nia|]. intros NI. assert (k <> 0) by (intros ->; apply NI; rewrite K in R; replace (z * z + 0 * 2 ^ i_bits d) with (z * z) in R by lia; exact R). nia.
Qed.
Lemma squares_le d p q : narrow d -> length p = length q -> zsum (squares d p q) <= gap p q.
Proof.
  intros N. revert q. induction p as [|a p IH]; intros [|b q] L; cbn in L; try lia; [cbn; lia|]. cbn [squares gap]. change (zsum (?x :: ?l)) with (x + zsum l).
  specialize (IH q ltac:(lia)). destruct (sq_drop d (b - a) N). lia.
Qed.
Lemma squares_drop d p q k : narrow d -> length p = length q -> (k < length p)%nat -> ~ in_type d ((nth k q 0 - nth k p 0) * (nth k q 0 - nth k p 0)) ->
  zsum (squares d p q) <= gap p q - 2 ^ i_bits d.
Proof.
  intros N. revert q k. induction p as [|a p IH]; intros [|b q] k L H F; cbn in L, H; try lia. cbn [squares gap]. change (zsum (?x :: ?l)) with (x + zsum l).
  destruct (sq_drop d (b - a) N) as (S1 & S2). destruct k as [|k].
  - specialize (S2 F). pose proof (squares_le d p q N ltac:(lia)). lia.
  - specialize (IH q k ltac:(lia) ltac:(lia) F). lia.
Qed.
Lemma squares_small d p q : narrow d -> length p = length q -> zsum (squares d p q) <= Z.of_nat (length p) * 2 ^ i_bits d.
Proof.
  intros N. revert q. induction p as [|a p IH]; intros [|b q] L; cbn in L; try lia; [cbn; lia|]. cbn [squares length]. change (zsum (?x :: ?l)) with (x + zsum l).
  specialize (IH q ltac:(lia)). assert (B1 : 1 <= i_bits d) by (destruct N; lia). pose proof (iwrap_range d ((b - a) * (b - a)) B1) as R. pose proof (pow_split _ B1) as P. assert (0 < 2 ^ (i_bits d - 1)) by (apply Z.pow_pos_nonneg; lia).
  unfold in_type in R. destruct (i_signed d); nia.
Qed.

(** Unsigned: the sum is 0 iff every difference is a multiple of 2^(bits/2). *)
Lemma sq_divide m z : 0 <= m -> (2 ^ (2 * m) | z * z) <-> (2 ^ m | z).
Proof.
  intros Hm. split.
  - revert z. pattern m. apply natlike_ind; [|clear m Hm; intros m Hm IH z H|exact Hm].
    + intros z _. exists z. cbn. lia.
    + replace (2 * Z.succ m) with (2 + 2 * m) in H by lia. rewrite Z.pow_add_r in H by lia. change (2 ^ 2) with 4 in H. destruct H as (k & K).
      assert (E : exists y, z = 2 * y).
      { exists (z / 2). pose proof (Z.div_mod z 2 ltac:(lia)) as D. pose proof (Z.mod_pos_bound z 2 ltac:(lia)). assert (z mod 2 <> 1); [|lia]. intros O.
        rewrite O in D. assert (z * z = 2 * (2 * (z / 2) * (z / 2) + 2 * (z / 2)) + 1) by nia. assert (z * z = 2 * (2 * (k * 2 ^ (2 * m)))) by lia. lia. }
      destruct E as (y & ->). destruct (IH y) as (j & J); [exists k; nia|]. exists j. rewrite Z.pow_succ_r by lia. lia.
  - intros (k & ->). exists (k * k). replace (2 * m) with (m + m) by lia. rewrite Z.pow_add_r by lia. ring.
Qed.
Lemma squares_zero d p q m : narrow d -> i_signed d = false -> i_bits d = 2 * m -> length p = length q ->
  (zsum (squares d p q) = 0 <-> forall k, (k < length p)%nat -> (2 ^ m | nth k q 0 - nth k p 0)).
Proof.
  intros N U E. assert (B1 : 1 <= i_bits d) by (destruct N; lia). revert q. induction p as [|a p IH]; intros [|b q] L; cbn in L; try lia.
  - cbn. split; [intros _ k Hk; lia|reflexivity].
  - cbn [squares]. change (zsum (?x :: ?l)) with (x + zsum l). pose proof (iwrap_range d ((b - a) * (b - a)) B1) as R.
    assert (P : 0 <= zsum (squares d p q)).
    { clear -U B1. revert q. induction p as [|a p IH]; intros [|b q]; try (cbn; lia). cbn [squares]. change (zsum (?x :: ?l)) with (x + zsum l).
      pose proof (iwrap_range d ((b - a) * (b - a)) B1) as R. unfold in_type in R. rewrite U in R. specialize (IH q). lia. }
    assert (W : iwrap d ((b - a) * (b - a)) = 0 <-> (2 ^ m | b - a)).
    { rewrite <- sq_divide by lia. unfold iwrap. rewrite U, E. apply Z.mod_divide. apply Z.pow_nonzero; lia. }
    unfold in_type in R. rewrite U in R. specialize (IH q ltac:(lia)). split.
    + intros S k Hk. destruct k as [|k]; cbn [nth]; [apply W; lia|]. apply IH; [lia|]. cbn in Hk. lia.
    + intros D. pose proof (proj2 W (D 0%nat (Nat.lt_0_succ _))). assert (zsum (squares d p q) = 0); [|lia].
      apply IH. intros k Hk. exact (D (S k) (proj1 (Nat.succ_lt_mono _ _) Hk)).
Qed.

(** Lists of chords *)
Lemma ichordlen_length d rows : length (ichordlen d rows) = (length rows - 1)%nat.
Proof. induction rows as [|p [|q rows] IH]; [reflexivity|reflexivity|]. change (S (length (ichordlen d (q :: rows))) = S (length rows)). rewrite IH. cbn. lia. Qed.
Lemma ichordlen_nth d rows i x : (S i < length rows)%nat -> nth i (ichordlen d rows) x = ichord d (nth i rows []) (nth (S i) rows []).
Proof.
  revert i. induction rows as [|p [|q rows] IH]; intros i H; cbn [length] in H; try lia.
  change (ichordlen d (p :: q :: rows)) with (ichord d p q :: ichordlen d (q :: rows)). destruct i as [|i]; [reflexivity|].
  cbn [nth]. rewrite IH by (cbn [length]; lia). reflexivity.
Qed.
Lemma ichordlen_eq d rows : ichordlen d rows = map (fun i => ichord d (nth i rows []) (nth (S i) rows [])) (seq 0 (length rows - 1)).
Proof.
  apply (nth_ext _ _ PrimFloat.zero PrimFloat.zero); [rewrite map_length, seq_length; apply ichordlen_length|].
  intros i H. rewrite ichordlen_length in H. rewrite ichordlen_nth by lia.
  rewrite (nth_indep (map _ _) _ ((fun i => ichord d (nth i rows []) (nth (S i) rows [])) 0%nat)) by (rewrite map_length, seq_length; lia).
  rewrite (map_nth (fun i => ichord d (nth i rows []) (nth (S i) rows []))), seq_nth by lia. reflexivity.
Qed.
Lemma inonsingular_spec d (c : curve Z) : wf c -> c_rows c <> [] ->
  exists c' ks, inonsingular d c = Ok c' /\ selects c ks c' /\ ascending ks /\ wf c' /\
    forall k, In k ks <-> (k < c_size c)%nat /\ (k = 0%nat \/ isclose (ichord d (nth (k - 1) (c_rows c) []) (nth k (c_rows c) [])) PrimFloat.zero = false).
Proof.
  intros W Ne. unfold inonsingular. assert (Hb : c_bool c = true).
  { unfold c_bool, c_size. destruct W as (Hn & _ & _). destruct (c_rows c); [contradiction|]. cbn. destruct (c_ndim c); [lia|reflexivity]. }
  rewrite Hb. cbn [negb]. set (m := fun rows => map (fun l => isclose l PrimFloat.zero) (PrimFloat.one :: ichordlen d rows)).
  destruct (c_drop_mask c (fun rows => DropMask (m rows)) (m (c_rows c)) W eq_refl) as (c' & H & Sel & W').
  { unfold m, c_size. rewrite map_length. cbn [length]. rewrite ichordlen_length. destruct (c_rows c); [contradiction|]. cbn. lia. }
  eexists c', _. split; [exact H|]. split; [exact Sel|]. split; [apply ascending_sorted, filter_sorted, seq_sorted|].
  split; [assumption|]. intros k. unfold positions. rewrite filter_In, in_seq, negb_true_iff. unfold m. split.
  - intros [Hk E]. split; [lia|]. destruct k as [|k]; [left; reflexivity|right]. unfold c_size in Hk.
    change (map ?f (?x :: ?l)) with (f x :: map f l) in E. cbn [nth] in E.
    rewrite (nth_indep (map _ _) _ (isclose PrimFloat.one PrimFloat.zero)) in E by (rewrite map_length, ichordlen_length; lia).
    rewrite (map_nth (fun l => isclose l PrimFloat.zero)) in E. rewrite ichordlen_nth in E by lia. replace (S k - 1)%nat with k by lia. exact E.
  - intros (Hk & Q). split; [lia|]. destruct k as [|k]; [vm_compute; reflexivity|]. destruct Q as [Q|Q]; [lia|]. unfold c_size in Hk.
    change (map ?f (?x :: ?l)) with (f x :: map f l). cbn [nth].
    rewrite (nth_indep (map _ _) _ (isclose PrimFloat.one PrimFloat.zero)) by (rewrite map_length, ichordlen_length; lia).
    rewrite (map_nth (fun l => isclose l PrimFloat.zero)). rewrite ichordlen_nth by lia. replace (S k - 1)%nat with k in Q by lia. exact Q.
Qed.
