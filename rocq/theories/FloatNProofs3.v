(** binary32 data computed in binary64; nonsingular of binary32 curves; the general
    format against Coq's primitive floats. *)
From Coq Require Import PrimFloat FloatOps FloatAxioms SpecFloat.
From Coq Require Import ZArith List Bool Arith Lia Reals Lra Psatz Permutation.
From Flocq Require Import Core BinarySingleNaN Relative.
From Flocq Require Import IEEE754.PrimFloat.
From Verif Require Import Num Py Numeric Curve Vec DiffGeom Spec GeomSpec ListFacts VecFacts CurveProofs CurveProofs2 CurveProofs3 DiffGeomProofs.
From Verif Require Import FloatN FloatNFacts FloatNProofs FloatNProofs2 FloatFacts FloatFacts2 FloatFacts3 FloatProofs FloatProofs2 FloatProofs3.
Import ListNotations.
Local Open Scope R_scope.
Local Notation float := PrimFloat.float.

(** ** Sums of bounded numbers stay finite *)

Lemma pow_uro_le N : INR N * uro <= / 2 -> (1 + uro) ^ N <= 2.
Proof.
  pose proof uro_pos as U. assert (G : forall N, INR N * uro <= / 2 -> (1 - INR N * uro) * (1 + uro) ^ N <= 1).
  { clear N. induction N as [|N IH]; intros H; [cbn; lra|]. rewrite S_INR in *. cbn [pow]. specialize (IH ltac:(lra)).
    pose proof (pow_hi_pos N) as P. pose proof (pos_INR N) as PN.
    replace ((1 - (INR N + 1) * uro) * ((1 + uro) * (1 + uro) ^ N)) with ((1 - INR N * uro) * (1 + uro) ^ N - (INR N + 1) * uro * uro * (1 + uro) ^ N) by ring.
    assert (0 <= (INR N + 1) * uro * uro * (1 + uro) ^ N) by (repeat apply Rmult_le_pos; lra). lra. }
  intros H. specialize (G N H). pose proof (pow_hi_pos N) as P. nra.
Qed.
Lemma sums_bounded B N l s : 0 <= B -> INR N * B * (1 + uro) ^ N < bpow radix2 1023 -> sums_to l s -> (length l <= N)%nat ->
  (forall x, In x l -> ffin x /\ 0 <= FR x <= B) -> ffin s /\ 0 <= FR s <= INR (length l) * B * (1 + uro) ^ length l.
Proof.
  intros HB HN S. pose proof uro_pos as U. induction S as [|x|l l1 l2 a b P S1 IH1 S2 IH2]; intros L H.
  - split; [reflexivity|]. rewrite FR_0. cbn [length INR pow]. lra.
  - destruct (H x (or_introl eq_refl)) as (F & X). split; [exact F|]. cbn [length INR pow]. nra.
  - pose proof (Permutation_length P) as Lp. rewrite app_length in Lp.
    assert (I1 : forall x, In x l1 -> In x l) by (intros x I; apply (Permutation_in x (Permutation_sym P)); apply in_or_app; auto).
    assert (I2 : forall x, In x l2 -> In x l) by (intros x I; apply (Permutation_in x (Permutation_sym P)); apply in_or_app; auto).
    destruct (IH1 ltac:(lia) (fun x I => H x (I1 x I))) as (Fa & A0 & A1). destruct (IH2 ltac:(lia) (fun x I => H x (I2 x I))) as (Fb & B0 & B1).
    assert (Mono : forall m, (m <= N)%nat -> INR m * B * (1 + uro) ^ m <= INR N * B * (1 + uro) ^ N).
    { intros m Hm. apply Rmult_le_compat; [apply Rmult_le_pos; [apply pos_INR|lra]|pose proof (pow_hi_pos m); lra|apply Rmult_le_compat_r; [lra|apply le_INR; exact Hm]|apply Rle_pow; [lra|exact Hm]]. }
    assert (Key : rnd (FR a + FR b) <= INR (length l) * B * (1 + uro) ^ length l).
    { destruct (Nat.eq_dec (length l1) 0) as [Z1|Z1].
      { rewrite Z1 in A1. cbn [INR pow] in A1. replace (FR a + FR b) with (FR b) by lra. rewrite rnd_FR. replace (length l) with (length l2) by lia. exact B1. }
      destruct (Nat.eq_dec (length l2) 0) as [Z2|Z2].
      { rewrite Z2 in B1. cbn [INR pow] in B1. replace (FR a + FR b) with (FR a) by lra. rewrite rnd_FR. replace (length l) with (length l1) by lia. exact A1. }
      destruct (rnd_add_rel a b) as (e & He & ->). apply FloatFacts3.Rabs_bounds in He. rewrite Lp.
      destruct (Nat.eq_dec (length l1 + length l2) 0) as [?|_]; [lia|].
      replace (length l1 + length l2)%nat with (S (length l1 + length l2 - 1)) at 2 by lia. cbn [pow]. set (M := (length l1 + length l2 - 1)%nat).
      assert (P1 : (1 + uro) ^ length l1 <= (1 + uro) ^ M) by (apply Rle_pow; [lra|unfold M; lia]).
      assert (P2 : (1 + uro) ^ length l2 <= (1 + uro) ^ M) by (apply Rle_pow; [lra|unfold M; lia]).
      assert (Q1 : INR (length l1) * B * (1 + uro) ^ length l1 <= INR (length l1) * B * (1 + uro) ^ M) by (apply Rmult_le_compat_l; [apply Rmult_le_pos; [apply pos_INR|lra]|exact P1]).
      assert (Q2 : INR (length l2) * B * (1 + uro) ^ length l2 <= INR (length l2) * B * (1 + uro) ^ M) by (apply Rmult_le_compat_l; [apply Rmult_le_pos; [apply pos_INR|lra]|exact P2]).
      rewrite plus_INR. apply Rle_trans with ((FR a + FR b) * (1 + uro)); [apply Rmult_le_compat_l; lra|].
      replace ((INR (length l1) + INR (length l2)) * B * ((1 + uro) * (1 + uro) ^ M)) with ((INR (length l1) * B * (1 + uro) ^ M + INR (length l2) * B * (1 + uro) ^ M) * (1 + uro)) by ring.
      apply Rmult_le_compat_r; lra. }
    assert (Key0 : 0 <= rnd (FR a + FR b)) by (rewrite <- rnd_0; apply rnd_le; lra).
    pose proof (add_rounded a b Fa Fb) as R. pose proof (Mono (length l) L) as MN.
    assert (Bg : bpow radix2 1023 < big) by (apply bpow_lt; reflexivity).
    destruct R as [(F & E & _)|[(_ & E)|(_ & E)]]; [rewrite E; split; [exact F|lra]|exfalso; lra|exfalso; lra].
Qed.

(** ** binary32 coordinates in binary64 *)

Definition fin32 (p : list f32) : Prop := forall x, In x p -> is_finite x = true.
Lemma widen_point p : fin32 p -> fin_point (map widen p).
Proof. intros H x I. apply in_map_iff in I as (y & <- & I). exact (proj1 (widen_fin y (H y I))). Qed.
Lemma widen_R p : fin32 p -> map FR (map widen p) = map B2R p.
Proof. intros H. rewrite map_map. apply map_ext_in. intros x I. exact (proj2 (widen_fin x (H x I))). Qed.
(** A nonzero difference of two binary32 numbers is at least 2^-149. *)
Lemma B2R_multiple (x : f32) : is_finite x = true -> exists z, B2R x = IZR z * bpow radix2 (-149).
Proof.
  destruct x as [s|s| |s m e B]; intros F; try discriminate; [exists 0%Z; cbn; lra|].
  assert (He : (-149 <= e)%Z).
  { pose proof B as B'. unfold SpecFloat.bounded in B'. apply andb_prop in B' as (B1 & _). unfold SpecFloat.canonical_mantissa in B1. apply Zeq_bool_eq in B1.
    unfold SpecFloat.fexp, SpecFloat.emin in B1. lia. }
  exists (cond_Zopp s (Z.pos m) * 2 ^ (e + 149))%Z. cbn [B2R]. unfold F2R. cbn [Fnum Fexp]. rewrite mult_IZR, Rmult_assoc. f_equal.
  change 2%Z with (radix_val radix2). rewrite IZR_Zpower by lia. rewrite <- bpow_plus. f_equal. lia.
Qed.
Lemma widen_gap (a b : f32) : is_finite a = true -> is_finite b = true -> B2R b - B2R a = 0 \/ bpow radix2 (-149) <= Rabs (B2R b - B2R a).
Proof.
  intros Fa Fb. destruct (B2R_multiple a Fa) as (za & ->). destruct (B2R_multiple b Fb) as (zb & ->).
  rewrite <- Rmult_minus_distr_r, <- minus_IZR. destruct (Z.eq_dec (zb - za) 0) as [-> |N]; [left; ring|right].
  rewrite Rabs_mult, (Rabs_pos_eq (bpow radix2 (-149))) by apply bpow_ge_0. rewrite <- abs_IZR.
  pose proof (bpow_gt_0 radix2 (-149)). assert (1 <= IZR (Z.abs (zb - za))) by (apply IZR_le; lia). nra.
Qed.
Lemma combine_map2 {A B C D} (f : A -> C) (g : B -> D) l : forall l', combine (map f l) (map g l') = map (fun ab => (f (fst ab), g (snd ab))) (combine l l').
Proof. induction l as [|x l IH]; intros [|y l']; cbn; try reflexivity. rewrite IH. reflexivity. Qed.
Lemma widen_scaled p q : fin32 p -> fin32 q -> scaled (map widen p) (map widen q).
Proof.
  intros P Q a b I. rewrite combine_map2 in I. apply in_map_iff in I as ((x, y) & E & I). cbn [fst snd] in E. injection E as <- <-.
  pose proof (P x (in_combine_l _ _ _ _ I)) as Fx. pose proof (Q y (in_combine_r _ _ _ _ I)) as Fy.
  rewrite (proj2 (widen_fin x Fx)), (proj2 (widen_fin y Fy)). destruct (widen_gap x y Fx Fy) as [Z|L]; [left; exact Z|right].
  eapply Rle_trans; [|exact L]. apply bpow_le. lia.
Qed.
Lemma rnd_bpow_le z e : (-1000 <= e <= 1000)%Z -> Rabs z <= bpow radix2 e -> Rabs (rnd z) <= bpow radix2 e.
Proof.
  intros He H. assert (G : rnd (bpow radix2 e) = bpow radix2 e).
  { apply round_generic; [exact rnd_ok|]. apply generic_format_bpow. unfold SpecFloat.fexp, SpecFloat.emin. change FloatOps.prec with 53%Z. change FloatOps.emax with 1024%Z. lia. }
  apply FloatFacts3.Rabs_bounds in H. apply FloatFacts3.Rabs_of. split.
  - rewrite <- G, <- rnd_opp. apply rnd_le. apply H.
  - rewrite <- G. apply rnd_le. apply H.
Qed.
Lemma rounded_bpow z r e : (-1000 <= e <= 1000)%Z -> Rabs z <= bpow radix2 e -> rounded z r -> ffin r /\ Rabs (FR r) <= bpow radix2 e.
Proof.
  intros He H R. pose proof (rnd_bpow_le z e He H) as L. assert (Bg : bpow radix2 e < big) by (apply bpow_lt; change FloatOps.emax with 1024%Z; lia).
  apply FloatFacts3.Rabs_bounds in L. destruct R as [(F & E & _)|[(_ & E)|(_ & E)]]; [|exfalso; lra|exfalso; lra]. rewrite E. split; [exact F|]. apply FloatFacts3.Rabs_of. exact L.
Qed.
Lemma widen_square (a b : f32) : is_finite a = true -> is_finite b = true -> let d := PrimFloat.sub (widen b) (widen a) in
  ffin (PrimFloat.mul d d) /\ 0 <= FR (PrimFloat.mul d d) <= bpow radix2 258.
Proof.
  intros Fa Fb d. destruct (widen_fin a Fa) as (Wa & Ea). destruct (widen_fin b Fb) as (Wb & Eb).
  pose proof (abs_B2R_lt_emax _ _ a) as La. pose proof (abs_B2R_lt_emax _ _ b) as Lb. rewrite <- Ea in La. rewrite <- Eb in Lb.
  apply Rabs_def2 in La. apply Rabs_def2 in Lb.
  assert (L : Rabs (FR (widen b) - FR (widen a)) <= bpow radix2 129).
  { apply FloatFacts3.Rabs_of. change 129%Z with (1 + 128)%Z. rewrite bpow_plus. change (bpow radix2 1) with 2. lra. }
  destruct (rounded_bpow _ _ 129 ltac:(lia) L (sub_rounded _ _ Wb Wa)) as (Fd & Ld). fold d in Fd, Ld.
  assert (L2 : Rabs (FR d * FR d) <= bpow radix2 258).
  { rewrite Rabs_mult. change 258%Z with (129 + 129)%Z. rewrite bpow_plus. apply Rmult_le_compat; try apply Rabs_pos; exact Ld. }
  pose proof (mul_rounded d d Fd Fd) as R. destruct (rounded_bpow _ _ 258 ltac:(lia) L2 R) as (F & L3). split; [exact F|].
  rewrite (rounded_fin _ _ R F) in *. split; [rewrite <- rnd_0; apply rnd_le; apply Rle_0_sqr|]. apply FloatFacts3.Rabs_bounds in L3. apply L3.
Qed.
(** No distance of binary32 points overflows in binary64. *)
Lemma small_half n : (Z.of_nat n <= 2 ^ 52)%Z -> INR n * uro <= / 2 /\ INR n <= bpow radix2 52.
Proof.
  intros H. assert (E : INR n <= bpow radix2 52).
  { rewrite INR_IZR_INZ. change (bpow radix2 52) with (IZR (2 ^ 52)). apply IZR_le. exact H. }
  split; [|exact E]. unfold uro. change (bpow radix2 52) with (IZR 4503599627370496) in E. lra.
Qed.
Lemma widen_chord_fin p q r : fin32 p -> fin32 q -> (Z.of_nat (length p) <= 2 ^ 52)%Z -> chord_value (map widen p) (map widen q) r ->
  ffin r /\ 0 <= FR r <= bpow radix2 156.
Proof.
  intros P Q L (s & S & ->). set (l := map _ (combine _ _)) in S.
  assert (Ll : (length l <= length p)%nat) by (unfold l; rewrite map_length, combine_length, !map_length; lia).
  destruct (small_half (length p) L) as (H1 & H2). pose proof (pow_uro_le _ H1) as Pw. pose proof (pow_hi_pos (length p)) as Ph.
  assert (Mx : INR (length p) * bpow radix2 258 * (1 + uro) ^ length p <= bpow radix2 311).
  { change 311%Z with (52 + 258 + 1)%Z. rewrite bpow_plus, bpow_plus. change (bpow radix2 1) with 2.
    apply Rmult_le_compat; [apply Rmult_le_pos; [apply pos_INR|apply bpow_ge_0]|lra|apply Rmult_le_compat_r; [apply bpow_ge_0|exact H2]|exact Pw]. }
  destruct (sums_bounded (bpow radix2 258) (length p) l s (bpow_ge_0 _ _)) as (Fs & S0 & S1); [|exact S|exact Ll| |].
  - eapply Rle_lt_trans; [exact Mx|]. apply bpow_lt. reflexivity.
  - intros x I. unfold l in I. rewrite combine_map2, map_map in I. apply in_map_iff in I as ((a, b) & <- & I). cbn [fst snd].
    apply widen_square; [apply P; exact (in_combine_l _ _ _ _ I)|apply Q; exact (in_combine_r _ _ _ _ I)].
  - assert (S2 : FR s <= bpow radix2 312).
    { eapply Rle_trans; [exact S1|]. eapply Rle_trans; [|apply bpow_le with (e1 := 311%Z); lia]. eapply Rle_trans; [|exact Mx].
      apply Rmult_le_compat; [apply Rmult_le_pos; [apply pos_INR|apply bpow_ge_0]|pose proof (pow_hi_pos (length l)); lra|apply Rmult_le_compat_r; [apply bpow_ge_0|apply le_INR; exact Ll]|].
      apply Rle_pow; [pose proof uro_pos; lra|exact Ll]. }
    destruct (sqrt_fin s Fs S0) as (F & E). split; [exact F|]. rewrite E. split; [rewrite <- rnd_0; apply rnd_le; apply sqrt_pos|].
    assert (Sq : Rabs (sqrt (FR s)) <= bpow radix2 156).
    { rewrite Rabs_pos_eq by apply sqrt_pos. rewrite <- (sqrt_bpow radix2 156). apply sqrt_le_1_alt. exact S2. }
    pose proof (rnd_bpow_le _ 156 ltac:(lia) Sq) as B. apply FloatFacts3.Rabs_bounds in B. apply B.
Qed.
Lemma widen_chord_error n k p q r : length p = n -> length q = n -> (1 <= n)%nat -> (n + 4 <= 2 * k)%nat -> (Z.of_nat n <= 2 ^ 52)%Z -> fin32 p -> fin32 q ->
  chord_value (map widen p) (map widen q) r -> ffin r /\ within k (FR r) (dist (map B2R p) (map B2R q)).
Proof.
  intros Lp Lq Hn Hk Hb P Q C. assert (Hb' : (Z.of_nat (length p) <= 2 ^ 52)%Z) by (rewrite Lp; exact Hb). destruct (widen_chord_fin p q r P Q Hb' C) as (F & _). split; [exact F|].
  rewrite <- (widen_R p P), <- (widen_R q Q). apply (chord_error n k _ _ r); try (rewrite map_length; assumption); try assumption; try (apply widen_point; assumption).
  apply widen_scaled; assumption.
Qed.
Lemma widen_length_error n k rows cs L : (1 <= n)%nat -> (n + 4 <= 2 * k)%nat -> (Z.of_nat n <= 2 ^ 52)%Z -> (2 <= length rows)%nat -> (Z.of_nat (length rows) <= 2 ^ 52)%Z ->
  (forall p, In p rows -> length p = n /\ fin32 p) -> chord_values (map (map widen) rows) cs -> sums_to cs L ->
  ffin L /\ within (k + (length rows - 2)) (FR L) (polyline (map (map B2R) rows)).
Proof.
  intros Hn Hk Hb Hr Hrb H C S.
  assert (Cf : (length cs <= length rows)%nat /\ forall x, In x cs -> ffin x /\ 0 <= FR x <= bpow radix2 156).
  { clear S Hr Hrb. revert cs C. induction rows as [|a [|b r] IH]; intros cs C; [cbn in C; subst; split; [cbn; lia|intros x []]|cbn in C; subst; split; [cbn; lia|intros x []]|].
    cbn [map] in C. destruct cs as [|c cs]; [destruct C|]. destruct C as (C & Cs). destruct (IH (fun p I => H p (or_intror I)) cs Cs) as (I1 & I2).
    split; [cbn [length] in *; lia|]. intros x [<-|I]; [|exact (I2 x I)]. destruct (H a (or_introl eq_refl)) as (La & Fa). destruct (H b ltac:(cbn; auto)) as (Lb & Fb).
    apply (widen_chord_fin a b); [exact Fa|exact Fb|rewrite La; exact Hb|exact C]. }
  destruct Cf as (Lc & Cf). destruct (small_half (length rows) Hrb) as (H1 & H2). pose proof (pow_uro_le _ H1) as Pw. pose proof (pow_hi_pos (length rows)) as Ph.
  destruct (sums_bounded (bpow radix2 156) (length rows) cs L (bpow_ge_0 _ _)) as (F & _); [|exact S|exact Lc|exact Cf|].
  { apply Rle_lt_trans with (bpow radix2 (52 + 156 + 1)); [|apply bpow_lt; reflexivity]. rewrite bpow_plus, bpow_plus. change (bpow radix2 1) with 2.
    apply Rmult_le_compat; [apply Rmult_le_pos; [apply pos_INR|apply bpow_ge_0]|lra|apply Rmult_le_compat_r; [apply bpow_ge_0|exact H2]|exact Pw]. }
  split; [exact F|]. replace (map (map B2R) rows) with (map (map FR) (map (map widen) rows)).
  2:{ rewrite map_map. apply map_ext_in. intros p I. apply widen_R. apply (H p I). }
  replace (length rows) with (length (map (map widen) rows)) by apply map_length.
  apply (length_error n k _ cs L Hn Hk); [rewrite map_length; exact Hr| | |exact C|exact S|exact F].
  - intros p I. apply in_map_iff in I as (p' & <- & I). destruct (H p' I) as (Lp & Fp). split; [rewrite map_length; exact Lp|apply widen_point; exact Fp].
  - rewrite map_length. intros i Hi. 
    change (@nil float) with (map widen []). rewrite !(map_nth (map widen)). apply widen_scaled; [apply (H (nth i rows []))|apply (H (nth (Datatypes.S i) rows []))]; apply nth_In; lia.
Qed.

(** ** nonsingular *)

Lemma singular_mask32_length rows : rows <> [] -> length (singular_mask32 rows) = length rows.
Proof.
  intros H. unfold singular_mask32. rewrite map_length, combine_length. cbn [length]. rewrite map_length, CurveProofs3.chordlen_rows_length. destruct rows; [contradiction|]. cbn. lia.
Qed.
Lemma singular_mask32_nth rows k r : nth_error rows k = Some r ->
  (nth k (singular_mask32 rows) true = false <-> finite_point r /\ (k = 0%nat \/ exists p, nth_error rows (k - 1) = Some p /\ isclose (widen (chord p r)) PrimFloat.zero = false)).
Proof.
  intros Hr. unfold singular_mask32. assert (Hk : (k < length rows)%nat) by (apply nth_error_Some; congruence). destruct k as [|k].
  - rewrite (nth_error_nth _ _ _ (x := existsb (fun x => nisnan x || nisinf x) r || isclose PrimFloat.one PrimFloat.zero)).
    + change (isclose PrimFloat.one PrimFloat.zero) with false. rewrite orb_false_r, not_finite_exists. intuition.
    + rewrite nth_error_map. rewrite (nth_error_combine _ _ _ r PrimFloat.one); [reflexivity|assumption|reflexivity].
  - destruct (nth_error_ex rows k) as [p Hpp]; [lia|].
    rewrite (nth_error_nth _ _ _ (x := existsb (fun x => nisnan x || nisinf x) r || isclose (widen (chord p r)) PrimFloat.zero)).
    + rewrite orb_false_iff, not_finite_exists. replace (S k - 1)%nat with k by lia. split.
      * intros [H1 H2]. split; [assumption|]. right. eauto.
      * intros [H1 [H2|(p' & H2 & H3)]]; [discriminate|]. split; [assumption|]. congruence.
    + rewrite nth_error_map. rewrite (nth_error_combine _ _ _ r (widen (chord p r))); [reflexivity|assumption|].
      cbn [nth_error]. rewrite nth_error_map, (CurveProofs3.chordlen_rows_nth rows k p r) by assumption. reflexivity.
Qed.
Lemma nonsingular32_spec (c : curve f32) : wf c -> c_rows c <> [] ->
  exists c' ks, nonsingular32 c = Ok c' /\ selects c ks c' /\ ascending ks /\ wf c' /\
    forall k, In k ks <-> exists r, nth_error (c_rows c) k = Some r /\ finite_point r /\
      (k = 0%nat \/ exists p, nth_error (c_rows c) (k - 1) = Some p /\ isclose (widen (chord p r)) PrimFloat.zero = false).
Proof.
  intros Hwf Hne. unfold nonsingular32. assert (Hb : c_bool c = true).
  { unfold c_bool, c_size. destruct Hwf as (Hn & _ & _). destruct (c_rows c); [contradiction|]. cbn. destruct (c_ndim c); [lia|reflexivity]. }
  rewrite Hb. cbn [negb].
  destruct (c_drop_mask c (fun rows => DropMask (singular_mask32 rows)) (singular_mask32 (c_rows c)) Hwf eq_refl) as (c' & H & Sel & W).
  { apply singular_mask32_length. assumption. }
  eexists c', _. split; [exact H|]. split; [exact Sel|]. split; [apply ascending_sorted, filter_sorted, seq_sorted|].
  split; [assumption|]. intros k. unfold positions. rewrite filter_In, in_seq, negb_true_iff. split.
  - intros [Hk E]. destruct (nth_error_ex (c_rows c) k) as [r Hr]; [unfold c_size in Hk; lia|]. exists r. split; [assumption|]. apply singular_mask32_nth; assumption.
  - intros (r & Hr & Hf). split.
    + assert (k < length (c_rows c))%nat by (apply nth_error_Some; congruence). unfold c_size. lia.
    + eapply singular_mask32_nth; eassumption.
Qed.

(** ** binary64 is the format 53, 1024 *)

Notation B64 := (binary_float 53 1024).
Lemma prim_vsum (l : list float) : Prim2B (vsum l) = @vsum B64 (BNum 53 1024 Hprec Hmax) (map Prim2B l).
Proof. induction l as [|x l IH]; [reflexivity|]. change (vsum (x :: l)) with (PrimFloat.add x (vsum l)). rewrite add_equiv, IH. reflexivity. Qed.
Lemma prim_row_diff (p q : list float) : map Prim2B (row_diff p q) = @row_diff B64 (BNum 53 1024 Hprec Hmax) (map Prim2B p) (map Prim2B q).
Proof. revert q. induction p as [|a p IH]; intros [|b q]; try reflexivity. cbn [row_diff map]. rewrite IH. f_equal. apply sub_equiv. Qed.
Lemma prim_chordlen (rows : list (list float)) :
  map Prim2B (chordlen_rows rows) = @chordlen_rows B64 (BNum 53 1024 Hprec Hmax) (BSqrt 53 1024 Hprec Hmax) (map (map Prim2B) rows).
Proof.
  induction rows as [|a [|b r] IH]; [reflexivity|reflexivity|]. cbn [map] in *.
  change (chordlen_rows (a :: b :: r)) with (PrimFloat.sqrt (vsum (map (fun x => PrimFloat.mul x x) (row_diff a b))) :: chordlen_rows (b :: r)).
  cbn [map]. rewrite IH, sqrt_equiv, prim_vsum, map_map.
  replace (map (fun x => Prim2B (PrimFloat.mul x x)) (row_diff a b)) with (map (fun x => @Bmult 53 1024 Hprec Hmax mode_NE x x) (map Prim2B (row_diff a b))) by (rewrite map_map; apply map_ext; intros x; rewrite mul_equiv; reflexivity).
  rewrite prim_row_diff. reflexivity.
Qed.
Lemma prim_cumsum_from (l : list float) : forall a, map Prim2B (cumsum_from a l) = @cumsum_from B64 (BNum 53 1024 Hprec Hmax) (Prim2B a) (map Prim2B l).
Proof. induction l as [|x l IH]; intros a; [reflexivity|]. cbn [cumsum_from map]. rewrite IH. change (nadd a x) with (PrimFloat.add a x). rewrite add_equiv. reflexivity. Qed.
Lemma prim_cumsum (l : list float) : map Prim2B (cumsum l) = @cumsum B64 (BNum 53 1024 Hprec Hmax) (map Prim2B l).
Proof. destruct l as [|x l]; [reflexivity|]. cbn [cumsum map]. rewrite prim_cumsum_from. reflexivity. Qed.
