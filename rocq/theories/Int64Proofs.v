(** Lemmas about the arithmetic of 64-bit integers (C92). *)
From Coq Require Import PrimFloat FloatOps SpecFloat FloatAxioms.
From Coq Require Import ZArith List Bool Arith Reals Lra Lia.
From Flocq Require Import Core.Core IEEE754.BinarySingleNaN IEEE754.PrimFloat.
From Verif Require Import Num Py Numeric Curve Vec FloatFacts FloatFacts2 Int64.
Import ListNotations.
Local Open Scope Z_scope.

(** *** wrap *)
Lemma wrap_mod z : wrap z mod 2 ^ 64 = z mod 2 ^ 64.
Proof. unfold wrap. rewrite Zminus_mod_idemp_l. f_equal. lia. Qed.
Lemma wrap_eq a b : a mod 2 ^ 64 = b mod 2 ^ 64 -> wrap a = wrap b.
Proof. intros H. unfold wrap. rewrite <- (Zplus_mod_idemp_l a), <- (Zplus_mod_idemp_l b), H. reflexivity. Qed.
Lemma wrap_range z : - 2 ^ 63 <= wrap z < 2 ^ 63.
Proof. unfold wrap. pose proof (Z.mod_pos_bound (z + 2 ^ 63) (2 ^ 64) ltac:(lia)). lia. Qed.
Lemma wrap_id z : - 2 ^ 63 <= z < 2 ^ 63 -> wrap z = z.
Proof. intros H. unfold wrap. rewrite Z.mod_small; lia. Qed.
Lemma wrap_cases z : (z mod 2 ^ 64 < 2 ^ 63 /\ wrap z = z mod 2 ^ 64) \/ (2 ^ 63 <= z mod 2 ^ 64 /\ wrap z = z mod 2 ^ 64 - 2 ^ 64).
Proof.
  pose proof (Z.mod_pos_bound z (2 ^ 64) ltac:(lia)). pose proof (wrap_range z). pose proof (wrap_mod z) as M.
  rewrite (Z.mod_eq (wrap z)) in M by lia. set (q := wrap z / 2 ^ 64) in *. nia.
Qed.
Lemma wrap_add_r a b : wrap (a + wrap b) = wrap (a + b).
Proof. apply wrap_eq. rewrite <- Zplus_mod_idemp_r, wrap_mod, Zplus_mod_idemp_r. reflexivity. Qed.
Lemma wrap_add_l a b : wrap (wrap a + b) = wrap (a + b).
Proof. apply wrap_eq. rewrite <- Zplus_mod_idemp_l, wrap_mod, Zplus_mod_idemp_l. reflexivity. Qed.
Lemma wrap_sub a b : wrap (wrap a - wrap b) = wrap (a - b).
Proof. apply wrap_eq. rewrite Zminus_mod, !wrap_mod, <- Zminus_mod. reflexivity. Qed.
Lemma wrap_mul a b : wrap (wrap a * wrap b) = wrap (a * b).
Proof. apply wrap_eq. rewrite Zmult_mod, !wrap_mod, <- Zmult_mod. reflexivity. Qed.
Lemma wrap_wrap a : wrap (wrap a) = wrap a.
Proof. apply wrap_eq, wrap_mod. Qed.

(** *** The squared distance of two integer points *)
Fixpoint gap (p q : list Z) : Z :=
  match p, q with a :: p', b :: q' => (b - a) * (b - a) + gap p' q' | _, _ => 0 end.
Lemma gap_nonneg p q : 0 <= gap p q.
Proof. revert q. induction p as [|a p IH]; intros [|b q]; cbn [gap]; try apply Z.le_refl. specialize (IH q). pose proof (Z.square_nonneg (b - a)). lia. Qed.
Lemma gap_sym p q : gap p q = gap q p.
Proof. revert q. induction p as [|a p IH]; intros [|b q]; cbn [gap]; try reflexivity. rewrite (IH q). ring. Qed.
Lemma gap_zero p q : length p = length q -> gap p q = 0 -> p = q.
Proof.
  revert q. induction p as [|a p IH]; intros [|b q] L H; cbn in L, H; try lia; [reflexivity|].
  pose proof (gap_nonneg p q). pose proof (Z.square_nonneg (b - a)). assert (gap p q = 0) by lia. rewrite (IH q) by lia. f_equal. assert ((b - a) * (b - a) = 0) by lia. nia.
Qed.
Lemma gap_refl p : gap p p = 0.
Proof. induction p as [|a p IH]; cbn [gap]; [reflexivity|]. rewrite IH. ring. Qed.
Lemma gap_bound B p q : 0 <= B -> (forall x, In x p -> Z.abs x <= B) -> (forall x, In x q -> Z.abs x <= B) ->
  gap p q <= 4 * Z.of_nat (length p) * (B * B).
Proof.
  intros HB. revert q. induction p as [|a p IH]; intros [|b q] Hp Hq; cbn [gap length]; try lia.
  specialize (IH q ltac:(intros; apply Hp; right; assumption) ltac:(intros; apply Hq; right; assumption)).
  pose proof (Hp a (or_introl eq_refl)). pose proof (Hq b (or_introl eq_refl)).
  assert ((b - a) * (b - a) <= 4 * (B * B)) by nia. rewrite Nat2Z.inj_succ. lia.
Qed.

(** *** Vectors of integers *)
Lemma vsum_NI l : vsum (map NI l) = NI (wrap (fold_right Z.add 0 l)).
Proof.
  induction l as [|a l IH]; [reflexivity|]. unfold vsum in *. cbn [map fold_right]. rewrite IH.
  change (NI (wrap (a + wrap (fold_right Z.add 0 l))) = NI (wrap (a + fold_right Z.add 0 l))). rewrite wrap_add_r. reflexivity.
Qed.
Lemma row_diff_NI p q : exists l, row_diff (map NI p) (map NI q) = map NI l /\ vsum (map (fun x => nmul x x) (map NI l)) = NI (wrap (gap p q)).
Proof.
  revert q. induction p as [|a p IH]; intros [|b q]; try (exists []; split; reflexivity).
  destruct (IH q) as (l & E & S). exists (wrap (b - a) :: l). split; [cbn [map row_diff]; rewrite E; reflexivity|].
  unfold vsum in *. cbn [map fold_right]. rewrite S. cbn [gap].
  change (NI (wrap (wrap (wrap (b - a) * wrap (b - a)) + wrap (gap p q))) = NI (wrap ((b - a) * (b - a) + gap p q))).
  f_equal. rewrite wrap_add_r, wrap_add_l. rewrite <- wrap_add_l, wrap_mul, wrap_add_l. reflexivity.
Qed.
(** The length the code computes for the side from [p] to [q]. *)
Definition chord64 (p q : list Z) : PrimFloat.float := PrimFloat.sqrt (f_of_Z (wrap (gap p q))).
Lemma chord_pair p q : nsqrt (vsum (map (fun x => nmul x x) (row_diff (map NI p) (map NI q)))) = NF (chord64 p q).
Proof. destruct (row_diff_NI p q) as (l & -> & ->). reflexivity. Qed.
Lemma chordlen_cons p q rows : chordlen_rows (map (map NI) (p :: q :: rows)) = NF (chord64 p q) :: chordlen_rows (map (map NI) (q :: rows)).
Proof. unfold chordlen_rows at 1. cbn [map diff_rows]. rewrite chord_pair. reflexivity. Qed.
Lemma chordlen_length rows : length (chordlen_rows (map (map NI) rows)) = (length rows - 1)%nat.
Proof.
  destruct rows as [|p rows]; [reflexivity|]. revert p. induction rows as [|q rows IH]; intros p; [reflexivity|].
  rewrite chordlen_cons. cbn [length]. rewrite IH. cbn. lia.
Qed.
Lemma chordlen_nth rows i d : (S i < length rows)%nat ->
  nth i (chordlen_rows (map (map NI) rows)) d = NF (chord64 (nth i rows []) (nth (S i) rows [])).
Proof.
  destruct rows as [|p rows]; [cbn; lia|]. revert p i. induction rows as [|q rows IH]; intros p i H; [cbn in H; lia|].
  rewrite chordlen_cons. destruct i as [|i]; [reflexivity|]. cbn [nth]. rewrite (IH q i) by (cbn in H |- *; lia). reflexivity.
Qed.
Lemma chordlen_eq rows : chordlen_rows (map (map NI) rows) = map NF (map (fun i => chord64 (nth i rows []) (nth (S i) rows [])) (seq 0 (length rows - 1))).
Proof.
  apply (nth_ext _ _ (NI 0) (NI 0)); [rewrite chordlen_length, !map_length, seq_length; reflexivity|].
  intros i Hi. rewrite chordlen_length in Hi. rewrite chordlen_nth by lia.
  rewrite (nth_indep _ _ (NF (chord64 (nth 0 rows []) (nth 1 rows [])))) by (rewrite !map_length, seq_length; lia).
  rewrite map_nth, (map_nth (fun i => chord64 (nth i rows []) (nth (S i) rows [])) (seq 0 (length rows - 1)) 0%nat i).
  rewrite seq_nth by lia. reflexivity.
Qed.

(** *** Conversion to binary64 *)
Local Open Scope R_scope.
Lemma f63 : ffin 0x1p63%float /\ FR 0x1p63%float = IZR (2 ^ 63).
Proof. split; [reflexivity|]. rewrite FR_SF. change (Prim2SF 0x1p63%float) with (S754_finite false 4503599627370496 11). cbn. unfold F2R. cbn. lra. Qed.
Lemma of_Z_fin z : (- 2 ^ 63 <= z <= 2 ^ 63)%Z -> ffin (f_of_Z z).
Proof.
  intros [L U]. apply IZR_le in L, U. destruct f63 as [F E].
  apply (rounded_between (PrimFloat.opp 0x1p63%float) 0x1p63%float (IZR z)); [apply ffin_opp; exact F|exact F|apply f_of_Z_rounded|].
  rewrite FR_opp, E. rewrite <- opp_IZR. split; assumption.
Qed.
Lemma of_Z_rnd z : (- 2 ^ 63 <= z <= 2 ^ 63)%Z -> FR (f_of_Z z) = rnd (IZR z).
Proof. intros H. apply rounded_fin; [apply f_of_Z_rounded|apply of_Z_fin; exact H]. Qed.
Lemma sqrt_neg x : ffin x -> FR x < 0 -> PrimFloat.is_nan (PrimFloat.sqrt x) = true.
Proof.
  intros F N. destruct (SF_cases x) as [(_ & E)|[(s & _ & E)|[(s & E & _ & Z)|(s & m & e & E)]]].
  - apply ffin_num in F. unfold fnum in F. congruence.
  - destruct s; subst x; [destruct (ninf_not_fin F)|destruct (inf_not_fin F)].
  - lra.
  - destruct (FR_finite x s m e E) as (_ & V & _). assert (0 < IZR (Z.pos m)) by (apply IZR_lt; lia). pose proof (bpow_gt_0 radix2 e).
    destruct s; [|nra]. rewrite fnan_B. assert (Q : Prim2SF (PrimFloat.sqrt x) = S754_nan) by (rewrite sqrt_spec, E; reflexivity).
    rewrite <- B2SF_Prim2B in Q. destruct (Prim2B (PrimFloat.sqrt x)); try discriminate. reflexivity.
Qed.
Lemma tiny_lt_1 : tiny <= 1.
Proof. unfold tiny. change 1 with (bpow radix2 0). apply bpow_le. lia. Qed.
Lemma rnd_1 : rnd 1 = 1.
Proof. rewrite <- FR_1. apply rnd_FR. Qed.

(** The square root of a whole number, converted to binary64 before. *)
Lemma sqrt_of_Z z : (0 <= z < 2 ^ 63)%Z -> let x := PrimFloat.sqrt (f_of_Z z) in
  ffin x /\ within 2 (FR x) (sqrt (IZR z)) /\ (z = 0%Z -> FR x = 0) /\ ((1 <= z)%Z -> 1 <= FR x).
Proof.
  intros H x. assert (F : ffin (f_of_Z z)) by (apply of_Z_fin; lia). pose proof (of_Z_rnd z ltac:(lia)) as E.
  assert (Z0 : 0 <= IZR z) by (apply IZR_le; lia).
  assert (N : 0 <= FR (f_of_Z z)) by (rewrite E, <- rnd_0; apply rnd_le; exact Z0).
  destruct (sqrt_fin _ F N) as (Fx & Ex). fold x in Fx, Ex. split; [exact Fx|].
  destruct (Z.eq_dec z 0) as [->|NZ].
  - assert (X0 : FR x = 0) by (rewrite Ex, E, rnd_0, sqrt_0, rnd_0; reflexivity).
    split; [rewrite X0, sqrt_0; unfold within; lra|]. split; [auto|lia].
  - assert (P : 1 <= IZR z) by (apply IZR_le; lia).
    assert (Q : 1 <= FR (f_of_Z z)) by (rewrite E, <- rnd_1; apply rnd_le; exact P).
    assert (S1 : 1 <= sqrt (FR (f_of_Z z))) by (rewrite <- sqrt_1; apply sqrt_le_1; lra).
    split; [|split; [lia|intros _; rewrite Ex, <- rnd_1; apply rnd_le; exact S1]].
    pose proof tiny_lt_1. destruct (rnd_rel (IZR z)) as (e1 & He1 & R1); [rewrite Rabs_right; lra|].
    destruct (rnd_rel (sqrt (FR (f_of_Z z)))) as (e2 & He2 & R2); [rewrite Rabs_right; lra|].
    rewrite Ex, R2. apply within_step; [apply sqrt_pos| |exact He2].
    apply within_sqrt; [exact Z0|]. rewrite E, R1. apply (within_weaken 1); [exact Z0|lia|].
    apply within_step; [exact Z0|apply within_refl|exact He1].
Qed.

(** *** Lengths *)
Lemma chord64_spec p q : let r := (gap p q mod 2 ^ 64)%Z in
  ((r < 2 ^ 63)%Z -> ffin (chord64 p q) /\ within 2 (FR (chord64 p q)) (sqrt (IZR r)) /\ (r = 0%Z -> FR (chord64 p q) = 0) /\ ((1 <= r)%Z -> 1 <= FR (chord64 p q))) /\
  ((2 ^ 63 <= r)%Z -> PrimFloat.is_nan (chord64 p q) = true).
Proof.
  intros r. assert (B : (0 <= r < 2 ^ 64)%Z) by (apply Z.mod_pos_bound; lia). unfold chord64.
  destruct (wrap_cases (gap p q)) as [(L & ->)|(L & ->)]; fold r in L |- *; (split; intros H; [|]); try lia.
  - apply sqrt_of_Z. lia.
  - apply sqrt_neg; [apply of_Z_fin; lia|]. rewrite of_Z_rnd by lia.
    assert (H0 : IZR (r - 2 ^ 64) <= Ropp 1) by (pose proof (IZR_le (r - 2 ^ 64) (-1) ltac:(lia)); lra). apply rnd_le in H0. rewrite (rnd_opp 1), rnd_1 in H0. lra.
Qed.
Lemma ffin_flags x : ffin x -> PrimFloat.is_nan x = false /\ PrimFloat.is_infinity x = false.
Proof. unfold ffin, PrimFloat.is_finite. intros H. apply negb_true_iff, orb_false_iff in H. exact H. Qed.
Lemma isclose64 p q : isclose (NF (chord64 p q)) (n0 (T:=npnum)) = true <-> (gap p q mod 2 ^ 64 = 0)%Z.
Proof.
  destruct (chord64_spec p q) as (A & N). set (r := (gap p q mod 2 ^ 64)%Z) in *. assert (B : (0 <= r < 2 ^ 64)%Z) by (apply Z.mod_pos_bound; lia).
  set (x := chord64 p q) in *. unfold isclose, isclose_tol, isfinite.
  change (nisnan (NF x)) with (PrimFloat.is_nan x). change (nisinf (NF x)) with (PrimFloat.is_infinity x).
  change (nisnan (n0 (T:=npnum))) with false. change (nisinf (n0 (T:=npnum))) with false. cbn [negb andb]. rewrite !andb_true_r.
  destruct (Z.lt_ge_cases r (2 ^ 63)) as [L|L].
  - destruct (A L) as (F & _ & A0 & A1). destruct (ffin_flags x F) as [-> ->]. cbn [negb andb].
    set (c := PrimFloat.add (fq 1 100000000) (PrimFloat.mul (fq 1 100000) (f_of_Z 0))).
    change (PrimFloat.leb (PrimFloat.abs (PrimFloat.sub x (f_of_Z 0))) c = true <-> r = 0%Z).
    assert (Fc : ffin c) by reflexivity.
    assert (C0 : 0 <= FR c) by (apply (proj1 (leb_R PrimFloat.zero c ffin_0 Fc)); reflexivity).
    assert (C1 : FR c < 1) by (rewrite <- FR_1; apply (proj1 (ltb_R c PrimFloat.one Fc ffin_1)); reflexivity).
    assert (Z0 : ffin (f_of_Z 0) /\ FR (f_of_Z 0) = 0) by (apply f_of_Z_exact; lia).
    pose proof (sub_rounded x (f_of_Z 0) F (proj1 Z0)) as S. rewrite (proj2 Z0), Rminus_0_r in S.
    destruct (rounded_exact x _ F S) as (Fs & Es).
    rewrite leb_R by (try exact Fc; apply ffin_abs, Fs). rewrite FR_abs, Es. split.
    + intros H. destruct (Z.eq_dec r 0) as [E|E]; [exact E|]. specialize (A1 ltac:(lia)). rewrite Rabs_right in H by lra. lra.
    + intros E. rewrite (A0 E), Rabs_R0. exact C0.
  - rewrite (N L). cbn [negb andb]. change (PrimFloat.eqb x (f_of_Z 0) = true <-> r = 0%Z). split; [|lia].
    intros E. apply eqb_num in E. destruct E as [E _]. unfold fnum in E. rewrite (N L) in E. discriminate.
Qed.

(** An integer that fits into 64 bits. *)
Definition fits (z : Z) : Prop := (- 2 ^ 63 <= z < 2 ^ 63)%Z.
Lemma fits_flags z : fits z -> nisnan (NI z) = false /\ nisinf (NI z) = false.
Proof. intros H. apply (ffin_flags (f_of_Z z)), of_Z_fin. unfold fits in H. lia. Qed.

(** The sum of binary64 numbers in an array. *)
Lemma vsum_NF l : l <> [] -> vsum (map NF l) = NF (fold_right PrimFloat.add PrimFloat.zero l).
Proof.
  unfold vsum. destruct l as [|x l]; [congruence|]. intros _. revert x. induction l as [|y l IH]; intros x; [reflexivity|].
  cbn [map fold_right]. cbn [map fold_right] in IH. rewrite (IH y). reflexivity.
Qed.

(** Points *)
Lemma gap_sq p q : length p = length q -> IZR (gap p q) = fold_right Rplus 0 (map (fun x => x * x) (row_diff (map IZR p) (map IZR q))).
Proof.
  revert q. induction p as [|a p IH]; intros [|b q] L; cbn in L; try lia; [reflexivity|].
  cbn [gap map row_diff fold_right]. rewrite plus_IZR, mult_IZR, minus_IZR, (IH q) by lia. reflexivity.
Qed.
