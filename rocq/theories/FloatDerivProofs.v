(** Derivatives of curves in binary64: rounding errors and exact cases. *)
From Coq Require Import PrimFloat FloatOps FloatAxioms SpecFloat.
From Coq Require Import ZArith List Bool Arith Lia Reals Lra Psatz.
From Flocq Require Import Core BinarySingleNaN Relative.
From Flocq Require Import IEEE754.PrimFloat.
From Verif Require Import Num Py Numeric Curve Vec DiffGeom Spec GeomSpec ListFacts VecFacts DiffGeomProofs DiffGeomProofs2 DiffGeomProofs4 SampleProofs.
From Verif Require Import FloatFacts FloatFacts2 FloatFacts3.
Import ListNotations.
Local Open Scope R_scope.
Local Notation float := PrimFloat.float.

(** ** The difference quotients of sequences of binary64 numbers *)

Definition fslope (m : nat) (f : nat -> float) (i : nat) : float :=
  if Nat.eqb m 2 then PrimFloat.sub (f 1%nat) (f 0%nat)
  else if Nat.eqb i 0 then PrimFloat.add (PrimFloat.add (PrimFloat.mul (f 0%nat) (nlit (-3) 2)) (PrimFloat.mul (f 1%nat) (nlit 2 1))) (PrimFloat.mul (f 2%nat) (nlit (-1) 2))
  else if Nat.eqb i (m - 1) then PrimFloat.add (PrimFloat.add (PrimFloat.mul (f (m - 3)%nat) (nlit 1 2)) (PrimFloat.mul (f (m - 2)%nat) (nlit (-2) 1))) (PrimFloat.mul (f (m - 1)%nat) (nlit 3 2))
  else PrimFloat.div (PrimFloat.sub (f (i + 1)%nat) (f (i - 1)%nat)) (nlit 2 1).

Lemma fslope_ext m f g i : (2 <= m)%nat -> (i < m)%nat -> (forall k, (k < m)%nat -> f k = g k) -> fslope m f i = fslope m g i.
Proof.
  intros Hm Hi H. unfold fslope. destruct (Nat.eqb_spec m 2); [rewrite !H by lia; reflexivity|].
  destruct (Nat.eqb_spec i 0); [rewrite !H by lia; reflexivity|].
  destruct (Nat.eqb_spec i (m - 1)); rewrite !H by lia; reflexivity.
Qed.

Section Generic.
  Context {T : Type} {NT : Num T}.
  Lemma gen_vec_nth (op : T -> T -> T) (u v : list T) n j : length u = n -> length v = n -> (j < n)%nat -> nth j (map2 op u v) n0 = op (nth j u n0) (nth j v n0).
  Proof. intros A B H. apply nth_map2; lia. Qed.
  Lemma gen_scale_nth (u : list T) s j : (j < length u)%nat -> nth j (vscale u s) n0 = nmul (nth j u n0) s.
  Proof. intros H. unfold vscale. rewrite (nth_indep _ n0 (nmul n0 s)) by (rewrite map_length; exact H). apply (map_nth (fun x => nmul x s)). Qed.
  Lemma gen_len2 (op : T -> T -> T) (u v : list T) n : length u = n -> length v = n -> length (map2 op u v) = n.
  Proof. intros A B. rewrite map2_length, A, B. apply Nat.min_id. Qed.
  Lemma gen_len1 (u : list T) s n : length u = n -> length (vscale u s) = n.
  Proof. intros A. unfold vscale. rewrite map_length. exact A. Qed.
End Generic.

Lemma fgradient_len (rows : list (list float)) : length (gradient rows) = length rows.
Proof.
  unfold gradient. destruct rows as [|a [|b [|c r]]]; try reflexivity. cbn [length].
  unfold np_gradient. rewrite map_length, seq_length. reflexivity.
Qed.

Lemma fgradient_nth n (rows : list (list float)) i : (forall p, In p rows -> length p = n) -> (2 <= length rows)%nat -> (i < length rows)%nat ->
  length (nth i (gradient rows) []) = n /\
  forall j, (j < n)%nat -> nth j (nth i (gradient rows) []) 0%float = fslope (length rows) (fun k => nth j (nth k rows []) 0%float) i.
Proof.
  intros D Hm Hi.
  assert (L : forall k, (k < length rows)%nat -> length (nth k rows []) = n) by (intros k Hk; apply D, nth_In, Hk).
  assert (G : gradient rows = np_gradient (negb (Nat.eqb (length rows) 2)) rows).
  { unfold gradient. destruct rows as [|a [|b [|c r]]]; cbn in *; try lia; reflexivity. }
  rewrite G. unfold np_gradient. cbv zeta.
  match goal with |- context[map ?f (seq 0 (length rows))] => rewrite (nth_indep (map f (seq 0 (length rows))) [] (f 0%nat)) by (rewrite map_length, seq_length; assumption);
    rewrite (map_nth f) end.
  rewrite seq_nth by assumption. cbn [Nat.add]. unfold fslope.
  destruct (Nat.eqb_spec (length rows) 2) as [E2|N2]; cbn [negb].
  - rewrite E2. cbn [Nat.sub]. rewrite E2 in L.
    destruct i as [|[|i]]; [| |lia]; cbn [Nat.eqb]; unfold vsub;
      (split; [apply gen_len2; apply L; lia|]); intros j Hj; change 0%float with (@n0 float FNum); rewrite (gen_vec_nth nsub _ _ n) by (try exact Hj; apply L; lia); reflexivity.
  - destruct (Nat.eqb_spec i 0) as [->|N0]; [|destruct (Nat.eqb_spec i (length rows - 1)) as [->|NL]].
    + unfold vadd. split; [repeat apply gen_len2; apply gen_len1, L; lia|]. intros j Hj. change 0%float with (@n0 float FNum).
      rewrite (gen_vec_nth nadd _ _ n) by (try exact Hj; repeat apply gen_len2; apply gen_len1, L; lia).
      rewrite (gen_vec_nth nadd _ _ n) by (try exact Hj; apply gen_len1, L; lia).
      rewrite !gen_scale_nth by (rewrite L by lia; exact Hj). reflexivity.
    + unfold vadd. split; [repeat apply gen_len2; apply gen_len1, L; lia|]. intros j Hj. change 0%float with (@n0 float FNum).
      rewrite (gen_vec_nth nadd _ _ n) by (try exact Hj; repeat apply gen_len2; apply gen_len1, L; lia).
      rewrite (gen_vec_nth nadd _ _ n) by (try exact Hj; apply gen_len1, L; lia).
      rewrite !gen_scale_nth by (rewrite L by lia; exact Hj). reflexivity.
    + unfold vsub. split; [rewrite map_length; apply gen_len2; apply L; lia|]. intros j Hj. change 0%float with (@n0 float FNum).
      rewrite (nth_indep _ _ (ndiv n0 (nlit 2 1))) by (rewrite map_length, (gen_len2 nsub _ _ n); [exact Hj|apply L; lia|apply L; lia]).
      rewrite (map_nth (fun x => ndiv x (nlit 2 1))). rewrite (gen_vec_nth nsub _ _ n) by (try exact Hj; apply L; lia). reflexivity.
Qed.

(** ** The constants *)
Lemma c_m32 : ffin (nlit (T := float) (-3) 2) /\ FR (nlit (T := float) (-3) 2) = - (3 / 2).
Proof. split; [vm_compute; reflexivity|]. rewrite FR_SF. replace (Prim2SF (nlit (-3) 2)) with (S754_finite true 6755399441055744 (-52)) by (vm_compute; reflexivity). cbn. unfold F2R. cbn. lra. Qed.
Lemma c_32 : ffin (nlit (T := float) 3 2) /\ FR (nlit (T := float) 3 2) = 3 / 2.
Proof. split; [vm_compute; reflexivity|]. rewrite FR_SF. replace (Prim2SF (nlit 3 2)) with (S754_finite false 6755399441055744 (-52)) by (vm_compute; reflexivity). cbn. unfold F2R. cbn. lra. Qed.
Lemma c_2 : ffin (nlit (T := float) 2 1) /\ FR (nlit (T := float) 2 1) = 2.
Proof. split; [vm_compute; reflexivity|]. rewrite FR_SF. replace (Prim2SF (nlit 2 1)) with (S754_finite false 4503599627370496 (-51)) by (vm_compute; reflexivity). cbn. unfold F2R. cbn. lra. Qed.
Lemma c_m2 : ffin (nlit (T := float) (-2) 1) /\ FR (nlit (T := float) (-2) 1) = -2.
Proof. split; [vm_compute; reflexivity|]. rewrite FR_SF. replace (Prim2SF (nlit (-2) 1)) with (S754_finite true 4503599627370496 (-51)) by (vm_compute; reflexivity). cbn. unfold F2R. cbn. lra. Qed.
Lemma c_12 : ffin (nlit (T := float) 1 2) /\ FR (nlit (T := float) 1 2) = / 2.
Proof. split; [vm_compute; reflexivity|]. rewrite FR_SF. replace (Prim2SF (nlit 1 2)) with (S754_finite false 4503599627370496 (-53)) by (vm_compute; reflexivity). cbn. unfold F2R. cbn. lra. Qed.
Lemma c_m12 : ffin (nlit (T := float) (-1) 2) /\ FR (nlit (T := float) (-1) 2) = - / 2.
Proof. split; [vm_compute; reflexivity|]. rewrite FR_SF. replace (Prim2SF (nlit (-1) 2)) with (S754_finite true 4503599627370496 (-53)) by (vm_compute; reflexivity). cbn. unfold F2R. cbn. lra. Qed.

(** No overflow below 2^1020. *)
Definition huge : R := bpow radix2 1020.
Lemma huge_float : exists b, ffin b /\ FR b = huge.
Proof.
  exists 0x1p1020%float. split; [vm_compute; reflexivity|]. rewrite FR_SF. replace (Prim2SF 0x1p1020) with (S754_finite false 4503599627370496 968) by (vm_compute; reflexivity).
  cbn [SF2R cond_Zopp]. unfold F2R. cbn [Fnum Fexp]. unfold huge. change 1020%Z with (52 + 968)%Z. rewrite bpow_plus. f_equal.
Qed.
Lemma rounded_huge z r : rounded z r -> Rabs z <= huge -> ffin r.
Proof.
  intros H B. apply Rabs_bounds in B. destruct huge_float as (b & Fb & Eb).
  apply (rounded_between (PrimFloat.opp b) b z r); [apply ffin_opp; exact Fb|exact Fb|exact H|]. rewrite FR_opp, Eb. exact B.
Qed.
Lemma mul_huge x y : ffin x -> ffin y -> Rabs (FR x * FR y) <= huge -> ffin (PrimFloat.mul x y).
Proof. intros A B H. exact (rounded_huge _ _ (mul_rounded _ _ A B) H). Qed.
Lemma add_huge x y : ffin x -> ffin y -> Rabs (FR x + FR y) <= huge -> ffin (PrimFloat.add x y).
Proof. intros A B H. exact (rounded_huge _ _ (add_rounded _ _ A B) H). Qed.
Lemma sub_huge x y : ffin x -> ffin y -> Rabs (FR x - FR y) <= huge -> ffin (PrimFloat.sub x y).
Proof. intros A B H. exact (rounded_huge _ _ (sub_rounded _ _ A B) H). Qed.

(** ** One differentiation *)

(** Half of a binary64 number: the only error is underflow. *)
Lemma half_err (x : float) : Rabs (rnd (FR x / 2) - FR x / 2) <= eta.
Proof.
  destruct (Rlt_or_le (Rabs (FR x / 2)) tiny) as [H|H].
  - unfold rnd. eapply Rle_trans; [apply error_le_half_ulp; [exact fexp_ok|..]|].
    unfold eta. change (-1075)%Z with (-1 + -1074)%Z. rewrite bpow_plus. change (bpow radix2 (-1)) with (/ 2).
    apply Rmult_le_compat_l; [lra|]. change (SpecFloat.fexp prec emax) with (FLT_exp (-1074) 53).
    rewrite ulp_FLT_small; [apply Rle_refl|reflexivity|]. eapply Rlt_le_trans; [exact H|]. unfold tiny. apply bpow_le. lia.
  - replace (rnd (FR x / 2)) with (FR x / 2); [rewrite Rminus_diag_eq by reflexivity; rewrite Rabs_R0; left; apply eta_pos|].
    symmetry. unfold rnd. apply round_generic; [exact rnd_ok|].
    pose proof (FR_format x) as G. change (SpecFloat.fexp prec emax) with (FLT_exp (-1074) 53) in *.
    apply FLT_format_generic in G; [|reflexivity]. destruct G as [f E1 E2 E3]. apply generic_format_FLT.
    exists (Float radix2 (Fnum f) (Fexp f - 1)); cbn [Fnum Fexp]; [|exact E2|].
    + rewrite E1. unfold F2R. cbn [Fnum Fexp]. unfold Z.sub. rewrite bpow_plus. change (bpow radix2 (-(1))) with (/ 2). field.
    + destruct (Z_le_gt_dec (-1073) (Fexp f)) as [Q|Q]; [lia|]. exfalso. apply Rle_not_lt in H. apply H.
      rewrite E1. unfold F2R. replace (Fexp f) with (-1074)%Z by lia. unfold Rdiv. rewrite !Rabs_mult. rewrite (Rabs_pos_eq (/ 2)) by lra. rewrite (Rabs_pos_eq (bpow _ _)) by apply bpow_ge_0.
      rewrite <- abs_IZR. apply Rle_lt_trans with (IZR (2 ^ 53 - 1) * bpow radix2 (-1074) * / 2).
      * apply Rmult_le_compat_r; [lra|]. apply Rmult_le_compat_r; [apply bpow_ge_0|]. apply IZR_le. change (Zpower_exp 2 53) with (2 ^ 53)%Z in E2. change (2 ^ 53)%Z with (radix2 ^ 53)%Z. lia.
      * unfold tiny. change (-1022)%Z with (52 + -1074)%Z. rewrite bpow_plus. pose proof (bpow_gt_0 radix2 (-1074)).
        change (bpow radix2 52) with 4503599627370496. change (IZR (2 ^ 53 - 1)) with 9007199254740991. nra.
Qed.

Lemma inner_err m f i : (0 < i)%nat -> (S i < m)%nat -> ffin (fslope m f i) ->
  Rabs (FR (fslope m f i) - slope m (fun k => FR (f k)) i) <= uro * Rabs (slope m (fun k => FR (f k)) i) + eta.
Proof.
  intros H0 H1. unfold fslope, slope. destruct (Nat.eqb_spec m 2); [lia|]. destruct (Nat.eqb_spec i 0); [lia|]. destruct (Nat.eqb_spec i (m - 1)); [lia|].
  intros F. destruct c_2 as (F2 & E2). destruct (div_fin_inv _ _ F F2) as (Fs & _). rewrite div_R, E2 by assumption.
  pose proof (half_err (PrimFloat.sub (f (i + 1)%nat) (f (i - 1)%nat))) as H. rewrite sub_R in H |- * by exact Fs.
  destruct (rnd_sub_rel (f (i + 1)%nat) (f (i - 1)%nat)) as (e & He & Ee). rewrite Ee in *. set (d := FR (f (i + 1)%nat) - FR (f (i - 1)%nat)) in *.
  replace (rnd (d * (1 + e) / 2) - d / 2) with ((rnd (d * (1 + e) / 2) - d * (1 + e) / 2) + e * (d / 2)) by field.
  eapply Rle_trans; [apply Rabs_triang|]. rewrite Rabs_mult. pose proof (Rmult_le_compat_r _ _ _ (Rabs_pos (d / 2)) He). lra.
Qed.

Lemma mul_err x y : ffin (PrimFloat.mul x y) -> Rabs (FR (PrimFloat.mul x y) - FR x * FR y) <= uro * Rabs (FR x * FR y) + eta.
Proof.
  intros F. rewrite mul_R by exact F. destruct (rnd_err (FR x * FR y)) as (e & t & He & Ht & ->).
  replace (FR x * FR y * (1 + e) + t - FR x * FR y) with (e * (FR x * FR y) + t) by ring.
  eapply Rle_trans; [apply Rabs_triang|]. rewrite Rabs_mult. pose proof (Rmult_le_compat_r _ _ _ (Rabs_pos (FR x * FR y)) He). lra.
Qed.
Lemma add_err x y : ffin (PrimFloat.add x y) -> Rabs (FR (PrimFloat.add x y) - (FR x + FR y)) <= uro * Rabs (FR x + FR y).
Proof.
  intros F. rewrite add_R by exact F. destruct (rnd_add_rel x y) as (e & He & ->).
  replace ((FR x + FR y) * (1 + e) - (FR x + FR y)) with (e * (FR x + FR y)) by ring. rewrite Rabs_mult. apply Rmult_le_compat_r; [apply Rabs_pos|exact He].
Qed.
Lemma sub_err x y : ffin (PrimFloat.sub x y) -> Rabs (FR (PrimFloat.sub x y) - (FR x - FR y)) <= uro * Rabs (FR x - FR y).
Proof.
  intros F. rewrite sub_R by exact F. destruct (rnd_sub_rel x y) as (e & He & ->).
  replace ((FR x - FR y) * (1 + e) - (FR x - FR y)) with (e * (FR x - FR y)) by ring. rewrite Rabs_mult. apply Rmult_le_compat_r; [apply Rabs_pos|exact He].
Qed.
Lemma abs_le_mul x a A c : Rabs x <= A -> Rabs a = c -> Rabs (x * a) <= c * A.
Proof. intros H <-. rewrite Rabs_mult, Rmult_comm. apply Rmult_le_compat_l; [apply Rabs_pos|exact H]. Qed.

Lemma eta_small : eta <= / 1000000. 
Proof. unfold eta. apply Rle_trans with (bpow radix2 (-20)); [apply bpow_le; lia|]. change (bpow radix2 (-20)) with (/ 1048576). lra. Qed.
Lemma huge_big : 1000000 <= huge.
Proof. unfold huge. apply Rle_trans with (bpow radix2 20); [|apply bpow_le; lia]. change (bpow radix2 20) with 1048576. lra. Qed.

(** The three-term formulas used at the two ends. *)
Lemma three_core u e A P Q S p q s w r : 0 <= u <= / 1000000 -> 0 <= e -> 0 <= A -> Rabs P + Rabs Q + Rabs S <= 4 * A ->
  Rabs (p - P) <= u * Rabs P + e -> Rabs (q - Q) <= u * Rabs Q + e -> Rabs (s - S) <= u * Rabs S + e ->
  Rabs (p + q) <= 5 * A + 3 * e /\
  (Rabs (w - (p + q)) <= u * Rabs (p + q) -> Rabs (w + s) <= 5 * A + 4 * e /\
   (Rabs (r - (w + s)) <= u * Rabs (w + s) -> Rabs (r - (P + Q + S)) <= 16 * u * A + 4 * e)).
Proof.
  intros U E A0 T1 H1 H2 H3.
  pose proof (Rabs_pos P) as P0. pose proof (Rabs_pos Q) as Q0. pose proof (Rabs_pos S) as S0.
  assert (T2 : u * Rabs P + u * Rabs Q + u * Rabs S <= u * (4 * A)) by (rewrite <- !Rmult_plus_distr_l; apply Rmult_le_compat_l; lra).
  pose proof (Rmult_le_pos u _ (proj1 U) P0) as P1. pose proof (Rmult_le_pos u _ (proj1 U) Q0) as Q1. pose proof (Rmult_le_pos u _ (proj1 U) S0) as S1.
  assert (T3 : u * (4 * A) <= / 1000000 * (4 * A)) by (apply Rmult_le_compat_r; lra).
  assert (T4 : u * e <= / 1000000 * e) by (apply Rmult_le_compat_r; lra).
  assert (T5 : 0 <= u * A) by (apply Rmult_le_pos; lra). assert (T6 : 0 <= u * e) by (apply Rmult_le_pos; lra).
  assert (BP : - Rabs P <= P <= Rabs P) by (apply Rabs_bounds; lra). assert (BQ : - Rabs Q <= Q <= Rabs Q) by (apply Rabs_bounds; lra). assert (BS : - Rabs S <= S <= Rabs S) by (apply Rabs_bounds; lra).
  set (aP := Rabs P) in *. set (aQ := Rabs Q) in *. set (aS := Rabs S) in *. clearbody aP aQ aS.
  apply Rabs_bounds in H1, H2, H3.
  assert (C1 : Rabs (p + q) <= 5 * A + 3 * e) by (apply Rabs_of; lra). split; [exact C1|]. intros H4.
  assert (V1 : u * Rabs (p + q) <= 5 * (u * A) + 3 * (u * e)).
  { pose proof (Rmult_le_compat_l u _ _ (proj1 U) C1). lra. }
  assert (H4' : Rabs (w - (p + q)) <= 5 * (u * A) + 3 * (u * e)) by lra. apply Rabs_bounds in H4'.
  assert (C2 : Rabs (w + s) <= 5 * A + 4 * e) by (apply Rabs_of; lra). split; [exact C2|]. intros H5.
  assert (V2 : u * Rabs (w + s) <= 5 * (u * A) + 4 * (u * e)).
  { pose proof (Rmult_le_compat_l u _ _ (proj1 U) C2). lra. }
  assert (H5' : Rabs (r - (w + s)) <= 5 * (u * A) + 4 * (u * e)) by lra. apply Rabs_bounds in H5'.
  apply Rabs_of. lra.
Qed.
Lemma three_err x y z a b c A : ffin x -> ffin y -> ffin z -> ffin a -> ffin b -> ffin c ->
  Rabs (FR x) <= A -> Rabs (FR y) <= A -> Rabs (FR z) <= A ->
  Rabs (FR a) + Rabs (FR b) + Rabs (FR c) <= 4 -> 16 * A <= huge ->
  let r := PrimFloat.add (PrimFloat.add (PrimFloat.mul x a) (PrimFloat.mul y b)) (PrimFloat.mul z c) in
  ffin r /\ Rabs (FR r - (FR x * FR a + FR y * FR b + FR z * FR c)) <= 16 * uro * A + 4 * eta.
Proof.
  intros Fx Fy Fz Fa Fb Fc Ax Ay Az Sm Hg r.
  assert (A0 : 0 <= A) by (pose proof (Rabs_pos (FR x)); lra).
  pose proof eta_pos as E0. pose proof eta_small as E1. pose proof huge_big as Hb.
  assert (U : 0 <= uro <= / 1000000) by (unfold uro; lra).
  pose proof (abs_le_mul (FR x) (FR a) A _ Ax eq_refl) as BP.
  pose proof (abs_le_mul (FR y) (FR b) A _ Ay eq_refl) as BQ.
  pose proof (abs_le_mul (FR z) (FR c) A _ Az eq_refl) as BS.
  pose proof (Rabs_pos (FR x * FR a)) as P0. pose proof (Rabs_pos (FR y * FR b)) as Q0. pose proof (Rabs_pos (FR z * FR c)) as S0.
  assert (Tot : Rabs (FR x * FR a) + Rabs (FR y * FR b) + Rabs (FR z * FR c) <= 4 * A).
  { pose proof (Rmult_le_compat_r A _ _ A0 Sm). lra. }
  assert (F1 : ffin (PrimFloat.mul x a)) by (apply mul_huge; [assumption|assumption|lra]).
  assert (F2 : ffin (PrimFloat.mul y b)) by (apply mul_huge; [assumption|assumption|lra]).
  assert (F3 : ffin (PrimFloat.mul z c)) by (apply mul_huge; [assumption|assumption|lra]).
  destruct (three_core uro eta A _ _ _ _ _ _ (FR (PrimFloat.add (PrimFloat.mul x a) (PrimFloat.mul y b))) (FR r) U (Rlt_le _ _ E0) A0 Tot (mul_err x a F1) (mul_err y b F2) (mul_err z c F3)) as (C1 & K1).
  assert (F4 : ffin (PrimFloat.add (PrimFloat.mul x a) (PrimFloat.mul y b))) by (apply add_huge; [assumption|assumption|lra]).
  destruct (K1 (add_err _ _ F4)) as (C2 & K2).
  assert (F5 : ffin r) by (apply add_huge; [assumption|assumption|lra]).
  split; [exact F5|]. exact (K2 (add_err _ _ F5)).
Qed.

Lemma fslope_err m f i A : (2 <= m)%nat -> (i < m)%nat -> (forall k, (k < m)%nat -> ffin (f k) /\ Rabs (FR (f k)) <= A) -> 16 * A <= huge ->
  ffin (fslope m f i) /\ Rabs (FR (fslope m f i) - slope m (fun k => FR (f k)) i) <= 16 * uro * A + 4 * eta /\ Rabs (slope m (fun k => FR (f k)) i) <= 4 * A.
Proof.
  intros Hm Hi H Hg. pose proof eta_pos as E0. pose proof uro_pos as (U0 & _).
  assert (A0 : 0 <= A) by (destruct (H 0%nat ltac:(lia)) as [_ Q]; pose proof (Rabs_pos (FR (f 0%nat))); lra). assert (uA : 0 <= uro * A) by nra.
  assert (Sb : forall k l, (k < m)%nat -> (l < m)%nat -> ffin (PrimFloat.sub (f k) (f l)) /\ Rabs (FR (f k) - FR (f l)) <= 2 * A).
  { intros k l Hk Hl. destruct (H k Hk) as (F1 & B1). destruct (H l Hl) as (F2 & B2). apply Rabs_bounds in B1, B2.
    assert (Q : Rabs (FR (f k) - FR (f l)) <= 2 * A) by (apply Rabs_of; lra). split; [apply sub_huge; [assumption|assumption|lra]|exact Q]. }
  destruct c_m32 as (F1 & V1). destruct c_32 as (F2 & V2). destruct c_2 as (F3 & V3). destruct c_m2 as (F4 & V4). destruct c_12 as (F5 & V5). destruct c_m12 as (F6 & V6).
  destruct (Nat.eq_dec m 2) as [->|N2].
  - unfold fslope, slope. cbn [Nat.eqb]. destruct (Sb 1%nat 0%nat ltac:(lia) ltac:(lia)) as (Fs & B). split; [exact Fs|]. split; [|lra].
    eapply Rle_trans; [apply sub_err, Fs|]. pose proof (Rmult_le_compat_l uro _ _ (Rlt_le _ _ U0) B). lra.
  - destruct (Nat.eq_dec i 0) as [->|N0].
    + unfold fslope, slope. destruct (Nat.eqb_spec m 2); [lia|]. cbn [Nat.eqb]. destruct (H 0%nat ltac:(lia)) as (G0 & B0). destruct (H 1%nat ltac:(lia)) as (G1 & B1). destruct (H 2%nat ltac:(lia)) as (G2 & B2).
      destruct (three_err (f 0%nat) (f 1%nat) (f 2%nat) (nlit (-3) 2) (nlit 2 1) (nlit (-1) 2) A) as (Fr & Er); try assumption.
      { rewrite V1, V3, V6, !Rabs_Ropp, !Rabs_pos_eq by lra. lra. }
      split; [exact Fr|]. rewrite V1, V3, V6 in Er. apply Rabs_bounds in B0, B1, B2. split; [|apply Rabs_of; lra].
      match goal with |- Rabs ?x <= _ => match type of Er with Rabs ?y <= _ => replace x with y; [exact Er|f_equal; field] end end.
    + destruct (Nat.eq_dec i (m - 1)) as [->|NL].
      * unfold fslope, slope. destruct (Nat.eqb_spec m 2); [lia|]. destruct (Nat.eqb_spec (m - 1) 0); [lia|]. rewrite Nat.eqb_refl.
        destruct (H (m - 3)%nat ltac:(lia)) as (G0 & B0). destruct (H (m - 2)%nat ltac:(lia)) as (G1 & B1). destruct (H (m - 1)%nat ltac:(lia)) as (G2 & B2).
        destruct (three_err (f (m - 3)%nat) (f (m - 2)%nat) (f (m - 1)%nat) (nlit 1 2) (nlit (-2) 1) (nlit 3 2) A) as (Fr & Er); try assumption.
        { rewrite V5, V4, V2. replace (-2) with (- (2)) by lra. rewrite !Rabs_Ropp, !Rabs_pos_eq by lra. lra. }
        split; [exact Fr|]. rewrite V5, V4, V2 in Er. apply Rabs_bounds in B0, B1, B2. split; [|apply Rabs_of; lra].
        match goal with |- Rabs ?x <= _ => match type of Er with Rabs ?y <= _ => replace x with y; [exact Er|f_equal; field] end end.
      * assert (Sl : Rabs (slope m (fun k => FR (f k)) i) <= A).
        { unfold slope. destruct (Nat.eqb_spec m 2); [lia|]. destruct (Nat.eqb_spec i 0); [lia|]. destruct (Nat.eqb_spec i (m - 1)); [lia|].
          destruct (Sb (i + 1)%nat (i - 1)%nat ltac:(lia) ltac:(lia)) as (_ & B). apply Rabs_bounds in B. apply Rabs_of. lra. }
        assert (Ff : ffin (fslope m f i)).
        { unfold fslope. destruct (Nat.eqb_spec m 2); [lia|]. destruct (Nat.eqb_spec i 0); [lia|]. destruct (Nat.eqb_spec i (m - 1)); [lia|].
          destruct (Sb (i + 1)%nat (i - 1)%nat ltac:(lia) ltac:(lia)) as (Fs & B). apply rounded_huge with (FR (PrimFloat.sub (f (i + 1)%nat) (f (i - 1)%nat)) / FR (nlit 2 1)); [apply div_rounded; [exact Fs|exact F3|rewrite V3; lra]|].
          rewrite V3. pose proof (sub_err _ _ Fs) as Q. pose proof uro_pos as (_ & U1). pose proof (Rmult_le_compat_r _ _ _ (Rabs_pos (FR (f (i + 1)%nat) - FR (f (i - 1)%nat))) (Rlt_le _ _ U1)) as Q2.
          assert (Q3 : Rabs (FR (PrimFloat.sub (f (i + 1)%nat) (f (i - 1)%nat)) - (FR (f (i + 1)%nat) - FR (f (i - 1)%nat))) <= 2 * A) by lra.
          apply Rabs_bounds in Q3, B. apply Rabs_of. lra. }
        split; [exact Ff|]. split; [|lra]. eapply Rle_trans; [apply inner_err; [lia|lia|exact Ff]|]. pose proof (Rmult_le_compat_l uro _ _ (Rlt_le _ _ U0) Sl). lra.
Qed.

(** ** Exact results: integer multiples of a power of two *)

Definition dyadic (K e : Z) (x : float) : Prop := ffin x /\ exists z, (Z.abs z <= K)%Z /\ FR x = IZR z * bpow radix2 e.

Lemma rnd_dyadic z e : (Z.abs z < 2 ^ 53)%Z -> (-1074 <= e)%Z -> rnd (IZR z * bpow radix2 e) = IZR z * bpow radix2 e.
Proof.
  intros Hz He. unfold rnd. apply round_generic; [exact rnd_ok|]. change (SpecFloat.fexp prec emax) with (FLT_exp (-1074) 53).
  apply generic_format_FLT. exists (Float radix2 z e); [reflexivity|exact Hz|exact He].
Qed.
Lemma dyadic_huge z e : (Z.abs z < 2 ^ 53)%Z -> (e <= 960)%Z -> Rabs (IZR z * bpow radix2 e) <= huge.
Proof.
  intros Hz He. rewrite Rabs_mult, (Rabs_pos_eq (bpow _ _)) by apply bpow_ge_0. rewrite <- abs_IZR.
  apply Rle_trans with (bpow radix2 53 * bpow radix2 960).
  - apply Rmult_le_compat; [apply IZR_le; lia|apply bpow_ge_0| |apply bpow_le; exact He].
    rewrite bpow_pos_Z by lia. apply IZR_le. lia.
  - rewrite <- bpow_plus. unfold huge. apply bpow_le. lia.
Qed.
Lemma exact_of v r w e : rounded v r -> v = IZR w * bpow radix2 e -> (Z.abs w < 2 ^ 53)%Z -> (-1074 <= e <= 960)%Z -> ffin r /\ FR r = IZR w * bpow radix2 e.
Proof.
  intros H E Hw He. rewrite E in H. assert (F : ffin r) by (apply (rounded_huge _ _ H), dyadic_huge; [exact Hw|lia]).
  split; [exact F|]. rewrite (rounded_fin _ _ H F). apply rnd_dyadic; [exact Hw|lia].
Qed.
Lemma bpow_half e : bpow radix2 e = 2 * bpow radix2 (e - 1).
Proof. replace e with (1 + (e - 1))%Z at 1 by lia. rewrite bpow_plus. reflexivity. Qed.

Lemma three_exact x y z a b c ka kb kc K e : dyadic K e x -> dyadic K e y -> dyadic K e z -> ffin a -> ffin b -> ffin c ->
  FR a = IZR ka / 2 -> FR b = IZR kb / 2 -> FR c = IZR kc / 2 -> (Z.abs ka + Z.abs kb + Z.abs kc <= 8)%Z -> (8 * K < 2 ^ 53)%Z -> (-1073 <= e <= 960)%Z ->
  let r := PrimFloat.add (PrimFloat.add (PrimFloat.mul x a) (PrimFloat.mul y b)) (PrimFloat.mul z c) in
  dyadic (8 * K) (e - 1) r /\ FR r = FR x * FR a + FR y * FR b + FR z * FR c.
Proof.
  intros (Fx & zx & Kx & Ex) (Fy & zy & Ky & Ey) (Fz & zz & Kz & Ez) Fa Fb Fc Ea Eb Ec Sm HK He r.
  assert (M : forall k t, (Z.abs k <= 8)%Z -> (Z.abs t <= K)%Z -> (Z.abs (t * k) <= Z.abs k * K)%Z) by (intros k t _ Ht; rewrite Z.abs_mul, Z.mul_comm; apply Z.mul_le_mono_nonneg_l; lia).
  pose proof (M ka zx ltac:(lia) Kx) as Ma. pose proof (M kb zy ltac:(lia) Ky) as Mb. pose proof (M kc zz ltac:(lia) Kz) as Mc. clear M.
  assert (K0 : (0 <= K)%Z) by lia.
  assert (Tot : (Z.abs ka * K + Z.abs kb * K + Z.abs kc * K <= 8 * K)%Z) by (rewrite <- !Z.mul_add_distr_r; apply Z.mul_le_mono_nonneg_r; lia).
  assert (Pa : (0 <= Z.abs ka * K)%Z) by (apply Z.mul_nonneg_nonneg; lia). assert (Pb : (0 <= Z.abs kb * K)%Z) by (apply Z.mul_nonneg_nonneg; lia). assert (Pc : (0 <= Z.abs kc * K)%Z) by (apply Z.mul_nonneg_nonneg; lia).
  assert (B := bpow_half e).
  destruct (exact_of _ _ (zx * ka) (e - 1) (mul_rounded x a Fx Fa)) as (F1 & E1); [rewrite mult_IZR, Ex, Ea, B; field|lia|lia|].
  destruct (exact_of _ _ (zy * kb) (e - 1) (mul_rounded y b Fy Fb)) as (F2 & E2); [rewrite mult_IZR, Ey, Eb, B; field|lia|lia|].
  destruct (exact_of _ _ (zz * kc) (e - 1) (mul_rounded z c Fz Fc)) as (F3 & E3); [rewrite mult_IZR, Ez, Ec, B; field|lia|lia|].
  destruct (exact_of _ _ (zx * ka + zy * kb) (e - 1) (add_rounded _ _ F1 F2)) as (F4 & E4); [rewrite plus_IZR, E1, E2; ring|lia|lia|].
  destruct (exact_of _ _ (zx * ka + zy * kb + zz * kc) (e - 1) (add_rounded _ _ F4 F3)) as (F5 & E5); [rewrite (plus_IZR (zx * ka + zy * kb)), E4, E3; ring|lia|lia|].
  fold r in F5, E5. split.
  - split; [exact F5|]. eexists. split; [|exact E5]. lia.
  - rewrite E5, !plus_IZR, !mult_IZR, Ex, Ey, Ez, Ea, Eb, Ec, B. field.
Qed.

Lemma fslope_exact m f i K e : (2 <= m)%nat -> (i < m)%nat -> (forall k, (k < m)%nat -> dyadic K e (f k)) -> (8 * K < 2 ^ 53)%Z -> (-1073 <= e <= 960)%Z ->
  dyadic (8 * K) (e - 1) (fslope m f i) /\ FR (fslope m f i) = slope m (fun k => FR (f k)) i.
Proof.
  intros Hm Hi H HK He. assert (B := bpow_half e).
  destruct c_m32 as (F1 & V1). destruct c_32 as (F2 & V2). destruct c_2 as (F3 & V3). destruct c_m2 as (F4 & V4). destruct c_12 as (F5 & V5). destruct c_m12 as (F6 & V6).
  assert (Sb : forall k l, (k < m)%nat -> (l < m)%nat -> ffin (PrimFloat.sub (f k) (f l)) /\ FR (PrimFloat.sub (f k) (f l)) = FR (f k) - FR (f l) /\
    exists z, (Z.abs z <= 2 * K)%Z /\ FR (f k) - FR (f l) = IZR z * bpow radix2 e).
  { intros k l Hk Hl. destruct (H k Hk) as (Fk & zk & Kk & Ek). destruct (H l Hl) as (Fl & zl & Kl & El).
    destruct (exact_of _ _ (zk - zl) e (sub_rounded _ _ Fk Fl)) as (Fs & Es); [rewrite minus_IZR, Ek, El; ring|lia|lia|].
    assert (Q : FR (f k) - FR (f l) = IZR (zk - zl) * bpow radix2 e) by (rewrite minus_IZR, Ek, El; ring).
    split; [exact Fs|]. split; [rewrite Es, Q; reflexivity|]. exists (zk - zl)%Z. split; [lia|exact Q]. }
  unfold fslope, slope. destruct (Nat.eqb_spec m 2) as [E2|N2].
  - destruct (Sb 1%nat 0%nat ltac:(lia) ltac:(lia)) as (Fs & Es & z & Kz & Ez). split; [|exact Es]. split; [exact Fs|]. exists (2 * z)%Z. split; [lia|].
    rewrite Es, Ez, mult_IZR, B. ring.
  - destruct (Nat.eqb_spec i 0) as [I0|N0].
    + destruct (three_exact (f 0%nat) (f 1%nat) (f 2%nat) (nlit (-3) 2) (nlit 2 1) (nlit (-1) 2) (-3) 4 (-1) K e) as (D & E); try assumption; try (apply H; lia); try lia; try (rewrite ?V1, ?V3, ?V6; lra).
      split; [exact D|]. rewrite E, V1, V3, V6. ring.
    + destruct (Nat.eqb_spec i (m - 1)) as [IL|NL].
      * destruct (three_exact (f (m - 3)%nat) (f (m - 2)%nat) (f (m - 1)%nat) (nlit 1 2) (nlit (-2) 1) (nlit 3 2) 1 (-4) 3 K e) as (D & E); try assumption; try (apply H; lia); try lia; try (rewrite ?V5, ?V4, ?V2; lra).
        split; [exact D|]. rewrite E, V5, V4, V2. ring.
      * destruct (Sb (i + 1)%nat (i - 1)%nat ltac:(lia) ltac:(lia)) as (Fs & Es & z & Kz & Ez).
        destruct (exact_of _ _ z (e - 1) (div_rounded _ _ Fs F3 ltac:(rewrite V3; lra))) as (Fd & Ed); [rewrite V3, Es, Ez, B; field|lia|lia|].
        split; [split; [exact Fd|exists z; split; [lia|exact Ed]]|]. rewrite Ed, Ez, B. field.
Qed.

(** ** Rows *)

(** The numbers [rows], as real numbers. *)
Definition reals (rows : list (list float)) : list (list R) := map (map FR) rows.

Lemma reals_nth rows i j : nth j (nth i (reals rows) []) 0 = FR (nth j (nth i rows []) 0%float).
Proof. unfold reals. change [] with (map FR []) at 1. rewrite map_nth. rewrite <- FR_0. apply (map_nth FR). Qed.
Lemma reals_dims n rows : (forall p, In p rows -> length p = n) -> dims n (reals rows).
Proof. intros H p I. apply in_map_iff in I as (q & <- & Iq). rewrite map_length. apply H, Iq. Qed.
Lemma fgradient_dims n (rows : list (list float)) : (forall p, In p rows -> length p = n) -> (2 <= length rows)%nat -> forall p, In p (gradient rows) -> length p = n.
Proof. intros D Hm p I. destruct (In_nth _ _ [] I) as (i & Hi & <-). rewrite fgradient_len in Hi. apply (proj1 (fgradient_nth n rows i D Hm Hi)). Qed.

Definition dyadic_rows (K e : Z) (rows : list (list float)) : Prop := forall p x, In p rows -> In x p -> dyadic K e x.

Lemma gradient_exact n rows K e : (forall p, In p rows -> length p = n) -> (2 <= length rows)%nat -> dyadic_rows K e rows -> (8 * K < 2 ^ 53)%Z -> (-1073 <= e <= 960)%Z ->
  dyadic_rows (8 * K) (e - 1) (gradient rows) /\ reals (gradient rows) = gradient (reals rows).
Proof.
  intros D Hm H HK He.
  assert (St : forall i j, (i < length rows)%nat -> (j < n)%nat -> dyadic (8 * K) (e - 1) (nth j (nth i (gradient rows) []) 0%float) /\
    FR (nth j (nth i (gradient rows) []) 0%float) = slope (length rows) (fun k => FR (nth j (nth k rows []) 0%float)) i).
  { intros i j Hi Hj. rewrite (proj2 (fgradient_nth n rows i D Hm Hi) j Hj). apply fslope_exact; try assumption.
    intros k Hk. assert (Ik := nth_In rows [] Hk). apply (H (nth k rows [])); [exact Ik|]. apply nth_In. rewrite (D _ Ik). exact Hj. }
  split.
  - intros p x Ip Ix. assert (Lp := fgradient_dims n rows D Hm p Ip). destruct (In_nth _ _ [] Ip) as (i & Hi & Ei). destruct (In_nth _ _ 0%float Ix) as (j & Hj & Ej).
    rewrite fgradient_len in Hi. rewrite Lp in Hj. destruct (St i j Hi Hj) as (Q & _). rewrite Ei, Ej in Q. exact Q.
  - assert (Lr : length (reals rows) = length rows) by apply map_length.
    apply (nth_ext _ _ [] []); [unfold reals at 1; rewrite map_length, fgradient_len, gradient_length; symmetry; exact Lr|].
    unfold reals at 1. rewrite map_length, fgradient_len. intros i Hi.
    destruct (gradient_nth n (reals rows) i (reals_dims n rows D)) as (Lg & Ng); [lia|lia|].
    assert (Li : length (nth i (reals (gradient rows)) []) = n).
    { unfold reals. change [] with (map FR []). rewrite map_nth, map_length. apply (proj1 (fgradient_nth n rows i D Hm Hi)). }
    apply (nth_ext _ _ 0 0); [congruence|]. rewrite Li. intros j Hj. rewrite reals_nth, Ng, Lr. rewrite (proj2 (St i j Hi Hj)).
    apply slope_ext; [exact Hm|exact Hi|]. intros k Hk. unfold coord. rewrite reals_nth. reflexivity.
Qed.

(** Rounding errors of rows of numbers with coordinates near those of [F]. *)
Definition near_rows (n : nat) (rows : list (list float)) (F : nat -> nat -> R) (e : R) : Prop :=
  (forall p, In p rows -> length p = n) /\
  forall i j, (i < length rows)%nat -> (j < n)%nat -> ffin (nth j (nth i rows []) 0%float) /\ Rabs (FR (nth j (nth i rows []) 0%float) - F j i) <= e.

Lemma slope_close2 m F G e i : (2 <= m)%nat -> (i < m)%nat -> (forall k, (k < m)%nat -> Rabs (F k - G k) <= e) ->
  Rabs (slope m F i - slope m G i) <= 4 * e.
Proof.
  intros Hm Hi H. destruct (Nat.eq_dec m 2) as [->|N]; [|apply slope_close; [lia|assumption|assumption]].
  unfold slope. cbn [Nat.eqb]. pose proof (H 0%nat ltac:(lia)) as A. pose proof (H 1%nat ltac:(lia)) as B. pose proof (Rabs_pos (F 0%nat - G 0%nat)). apply Rabs_bounds in A, B. apply Rabs_of. lra.
Qed.
Lemma slope_bound m F A i : (2 <= m)%nat -> (i < m)%nat -> (forall k, (k < m)%nat -> Rabs (F k) <= A) -> Rabs (slope m F i) <= 4 * A.
Proof.
  intros Hm Hi H. pose proof (slope_close2 m F (fun _ => 0) A i Hm Hi) as Q. rewrite slope_const, Rminus_0_r in Q. apply Q. intros k Hk. rewrite Rminus_0_r. apply H, Hk.
Qed.

Lemma gradient_near n rows F e A : (2 <= length rows)%nat -> near_rows n rows F e -> (forall i j, (i < length rows)%nat -> (j < n)%nat -> Rabs (F j i) <= A) -> 16 * (A + e) <= huge ->
  near_rows n (gradient rows) (fun j => slope (length rows) (F j)) (4 * e + (16 * uro * (A + e) + 4 * eta)).
Proof.
  intros Hm (D & H) B Hg. split; [apply fgradient_dims; assumption|]. rewrite fgradient_len. intros i j Hi Hj.
  rewrite (proj2 (fgradient_nth n rows i D Hm Hi) j Hj).
  destruct (fslope_err (length rows) (fun k => nth j (nth k rows []) 0%float) i (A + e) Hm Hi) as (Ff & Er & _); [|exact Hg|].
  { intros k Hk. destruct (H k j Hk Hj) as (Fk & Ek). split; [exact Fk|]. pose proof (B k j Hk Hj) as Bk. apply Rabs_bounds in Ek, Bk. apply Rabs_of. lra. }
  split; [exact Ff|].
  pose proof (slope_close2 (length rows) (fun k => FR (nth j (nth k rows []) 0%float)) (F j) e i Hm Hi (fun k Hk => proj2 (H k j Hk Hj))) as C.
  apply Rabs_bounds in Er, C. apply Rabs_of. lra.
Qed.
Lemma near_weaken n rows F e e' : e <= e' -> near_rows n rows F e -> near_rows n rows F e'.
Proof. intros L (D & H). split; [exact D|]. intros i j Hi Hj. destruct (H i j Hi Hj) as (Ff & E). split; [exact Ff|lra]. Qed.

(** Three differentiations. *)
Lemma derivs_near n rows A : (2 <= length rows)%nat -> (forall p, In p rows -> length p = n) -> (forall p x, In p rows -> In x p -> ffin x /\ Rabs (FR x) <= A) -> 1000 * A <= huge -> 0 <= A ->
  let m := length rows in let F j k := FR (nth j (nth k rows []) 0%float) in
  near_rows n (deriv1 rows) (fun j => slope m (F j)) (16 * uro * A + 4 * eta) /\
  near_rows n (deriv2 rows) (fun j => slope m (slope m (F j))) (144 * uro * A + 24 * eta) /\
  near_rows n (deriv3 rows) (fun j => slope m (slope m (slope m (F j)))) (848 * uro * A + 104 * eta).
Proof.
  intros Hm D H Hg A0 m F. pose proof eta_pos as E0. pose proof eta_small as E1. pose proof huge_big as Hb.
  assert (U : 0 <= uro <= / 1000000) by (unfold uro; lra).
  assert (uA : 0 <= uro * A) by (apply Rmult_le_pos; lra). assert (uA' : uro * A <= / 1000000 * A) by (apply Rmult_le_compat_r; lra).
  assert (ue : 0 <= uro * eta) by (apply Rmult_le_pos; lra). assert (ue' : uro * eta <= / 1000000 * eta) by (apply Rmult_le_compat_r; lra).
  assert (uuA : uro * (uro * A) <= / 1000000 * (uro * A)) by (apply Rmult_le_compat_r; lra).
  assert (N0 : near_rows n rows F 0).
  { split; [exact D|]. intros i j Hi Hj. assert (Ii := nth_In rows [] Hi). split; [|unfold F; rewrite Rminus_diag_eq by reflexivity; rewrite Rabs_R0; lra].
    apply (H (nth i rows [])); [exact Ii|]. apply nth_In. rewrite (D _ Ii). exact Hj. }
  assert (B0 : forall i j, (i < m)%nat -> (j < n)%nat -> Rabs (F j i) <= A).
  { intros i j Hi Hj. assert (Ii := nth_In rows [] Hi). apply (H (nth i rows [])); [exact Ii|]. apply nth_In. rewrite (D _ Ii). exact Hj. }
  assert (B1 : forall i j, (i < m)%nat -> (j < n)%nat -> Rabs (slope m (F j) i) <= 4 * A) by (intros i j Hi Hj; apply slope_bound; [exact Hm|exact Hi|]; intros k Hk; apply B0; assumption).
  assert (B2 : forall i j, (i < m)%nat -> (j < n)%nat -> Rabs (slope m (slope m (F j)) i) <= 4 * (4 * A)) by (intros i j Hi Hj; apply slope_bound; [exact Hm|exact Hi|]; intros k Hk; apply B1; assumption).
  assert (N1 : near_rows n (deriv1 rows) (fun j => slope m (F j)) (16 * uro * A + 4 * eta)).
  { apply near_weaken with (4 * 0 + (16 * uro * (A + 0) + 4 * eta)); [lra|]. apply gradient_near; [exact Hm|exact N0|exact B0|lra]. }
  assert (L1 : length (deriv1 rows) = m) by apply fgradient_len.
  assert (N2 : near_rows n (deriv2 rows) (fun j => slope m (slope m (F j))) (144 * uro * A + 24 * eta)).
  { apply near_weaken with (4 * (16 * uro * A + 4 * eta) + (16 * uro * (4 * A + (16 * uro * A + 4 * eta)) + 4 * eta)); [lra|]. pose proof (gradient_near n (deriv1 rows) (fun j => slope m (F j)) (16 * uro * A + 4 * eta) (4 * A)) as Q. rewrite L1 in Q. apply Q; [exact Hm|exact N1|exact B1|lra]. }
  assert (L2 : length (deriv2 rows) = m) by (unfold deriv2; rewrite fgradient_len; exact L1).
  split; [exact N1|]. split; [exact N2|].
  apply near_weaken with (4 * (144 * uro * A + 24 * eta) + (16 * uro * (4 * (4 * A) + (144 * uro * A + 24 * eta)) + 4 * eta)); [lra|]. pose proof (gradient_near n (deriv2 rows) (fun j => slope m (slope m (F j))) (144 * uro * A + 24 * eta) (4 * (4 * A))) as Q. rewrite L2 in Q. apply Q; [exact Hm|exact N2|exact B2|lra].
Qed.
