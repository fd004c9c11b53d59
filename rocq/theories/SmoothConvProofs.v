(** Lemmas for C104: Taylor polynomials, least squares fits and averages of samples. *)
From Coq Require Import ZArith String List Bool Arith Lia Reals Lra Psatz.
From Coquelicot Require Import Derive.
From Verif Require Import Num Py Numeric Curve Vec Csaps Registry Smooth Savgol Spec GeomSpec.
From Verif Require Import ListFacts VecFacts SmoothProofs CsapsProofs SavgolProofs SavgolProofs2 SmoothLenProofs SampleProofs.
Import ListNotations.
Local Open Scope list_scope.
Local Open Scope R_scope.

(** ** Taylor polynomials of any degree *)

Definition tsum (D : nat -> R -> R) (p : nat) (x u : R) : R := ns (fun m => u ^ m / INR (fact m) * D m x) (S p).

Lemma fact_pos m : 0 < INR (fact m).
Proof. apply lt_0_INR, lt_O_fact. Qed.
Lemma term_deriv e t k d : derivable_pt_lim (fun t => (e * t) ^ S k / INR (fact (S k)) * d) t (e * ((e * t) ^ k / INR (fact k) * d)).
Proof.
  assert (F := fact_pos k). assert (N : INR (S k) <> 0) by (apply not_0_INR; lia).
  assert (E : INR (fact (S k)) = INR (S k) * INR (fact k)) by (rewrite <- mult_INR; reflexivity).
  replace (e * ((e * t) ^ k / INR (fact k) * d)) with (e ^ S k * d / INR (fact (S k)) * (INR (S k) * t ^ pred (S k))).
  - eapply derivable_pt_lim_ext; [|apply (derivable_pt_lim_scal (fun s => s ^ S k) (e ^ S k * d / INR (fact (S k))) t), derivable_pt_lim_pow].
    intros s. unfold mult_real_fct. rewrite Rpow_mult_distr. unfold Rdiv. ring.
  - cbn [pred]. rewrite E, Rpow_mult_distr. cbn [pow]. field. split; [lra|exact N].
Qed.
Lemma sum_deriv (D : nat -> R -> R) (x e t : R) n : derivable_pt_lim (fun t => ns (fun k => (e * t) ^ S k / INR (fact (S k)) * D (S k) x) n) t
  (e * ns (fun k => (e * t) ^ k / INR (fact k) * D (S k) x) n).
Proof.
  induction n as [|n IH]; cbn [ns].
  - rewrite Rmult_0_r. apply derivable_pt_lim_const.
  - rewrite Rmult_plus_distr_l. apply (derivable_pt_lim_plus (fun t => ns (fun k => (e * t) ^ S k / INR (fact (S k)) * D (S k) x) n)
      (fun t => (e * t) ^ S n / INR (fact (S n)) * D (S n) x)); [exact IH|apply term_deriv].
Qed.
Lemma tsum_0 (D : nat -> R -> R) p x : tsum D p x 0 = D 0%nat x.
Proof.
  unfold tsum. rewrite ns_first. rewrite (ns_ext _ (fun _ => 0)) by (intros k _; cbn [pow]; unfold Rdiv; ring).
  assert (Z : ns (fun _ => 0) p = 0) by (clear; induction p as [|p IH]; cbn [ns]; lra). rewrite Z. cbn [pow fact INR]. field.
Qed.

Lemma taylor_n lo hi x y : lo <= x <= hi -> lo <= y <= hi -> forall p D M, (forall m, (m <= p)%nat -> deriv_on lo hi (D m) (D (S m))) -> bounded_on lo hi (D (S p)) M ->
  Rabs (D 0%nat y - tsum D p x (y - x)) <= M * Rabs (y - x) ^ S p / INR (fact (S p)).
Proof.
  intros X Y p. revert y Y. induction p as [|p IH]; intros y Y D M Hd B.
  - unfold tsum. cbn [ns pow fact INR Nat.mul Nat.add]. rewrite Rmult_1_r.
    pose proof (taylor1 lo hi (D 0%nat) (D 1%nat) M x y (Hd 0%nat ltac:(lia)) B X Y) as T.
    replace (D 0%nat y - (0 + 1 / 1 * D 0%nat x)) with (D 0%nat y - D 0%nat x) by field. lra.
  - destruct (reach lo hi x y X Y) as (e & s & (E2 & Ea) & Hs & -> & -> & Hin).
    pose proof (grow (fun t => D 0%nat (x + e * t) - tsum D (S p) x (e * t)) (fun t => e * D 1%nat (x + e * t) - e * tsum (fun m => D (S m)) p x (e * t)) (M / INR (fact (S p))) (S p) s Hs) as H.
    cbv beta in H. replace (x + e * s - x) with (e * s) by ring.
    assert (F := fact_pos (S p)). assert (N : INR (S (S p)) <> 0) by (apply not_0_INR; lia).
    replace (INR (fact (S (S p)))) with (INR (S (S p)) * INR (fact (S p))) by (rewrite <- mult_INR; reflexivity).
    replace (M * s ^ S (S p) / (INR (S (S p)) * INR (fact (S p)))) with (M / INR (fact (S p)) * s ^ S (S p) / INR (S (S p))) by (field; split; [lra|exact N]).
    apply H.
    + rewrite Rmult_0_r, tsum_0, Rplus_0_r. ring.
    + intros t Ht. apply (derivable_pt_lim_minus (fun t => D 0%nat (x + e * t)) (fun t => tsum D (S p) x (e * t))).
      * apply line_deriv. apply (Hd 0%nat ltac:(lia)), Hin, Ht.
      * unfold tsum. eapply derivable_pt_lim_ext; [intros u; symmetry; apply ns_first|]. cbv beta.
        replace (e * ns (fun m => (e * t) ^ m / INR (fact m) * D (S m) x) (S p)) with (0 + e * ns (fun m => (e * t) ^ m / INR (fact m) * D (S m) x) (S p)) by ring.
        apply (derivable_pt_lim_plus (fun t => (e * t) ^ 0 / INR (fact 0) * D 0%nat x) (fun t => ns (fun k => (e * t) ^ S k / INR (fact (S k)) * D (S k) x) (S p))); [exact (derivable_pt_lim_const (1 / INR (fact 0) * D 0%nat x) t)|apply sum_deriv].
    + intros t Ht. rewrite <- Rmult_minus_distr_l, Rabs_mult, Ea.
      pose proof (IH (x + e * t) (Hin t Ht) (fun m => D (S m)) M ltac:(intros m Hm; apply Hd; lia) B) as K. cbv beta in K.
      replace (x + e * t - x) with (e * t) in K by ring. rewrite (Rabs_mult e t), Ea, (Rabs_right t) in K by lra.
      rewrite Rmult_1_l in K |- *. eapply Rle_trans; [exact K|]. right. field. lra.
Qed.

(** ** Least squares fits of perturbed polynomials *)

Lemma ns_nonneg g n : (forall k, (k < n)%nat -> 0 <= g k) -> 0 <= ns g n.
Proof. induction n as [|n IH]; intros H; cbn [ns]; [lra|]. pose proof (H n ltac:(lia)). specialize (IH ltac:(intros; apply H; lia)). lra. Qed.
Lemma ns_member g n k : (forall k, (k < n)%nat -> 0 <= g k) -> (k < n)%nat -> g k <= ns g n.
Proof.
  induction n as [|n IH]; intros H Hk; [lia|]. cbn [ns]. pose proof (H n ltac:(lia)). assert (0 <= ns g n) by (apply ns_nonneg; intros; apply H; lia).
  destruct (Nat.eq_dec k n) as [->|]; [lra|]. specialize (IH ltac:(intros; apply H; lia) ltac:(lia)). lra.
Qed.
Lemma ns_const c n : ns (fun _ => c) n = INR n * c.
Proof. induction n as [|n IH]; cbn [ns]; [cbn; ring|]. rewrite IH, S_INR. ring. Qed.
Lemma ns_abs g n : Rabs (ns g n) <= ns (fun k => Rabs (g k)) n.
Proof. induction n as [|n IH]; cbn [ns]; [rewrite Rabs_R0; lra|]. eapply Rle_trans; [apply Rabs_triang|]. lra. Qed.
Lemma ns_sub f g n : ns (fun k => f k - g k) n = ns f n - ns g n.
Proof. induction n as [|n IH]; cbn [ns]; [ring|]. rewrite IH. ring. Qed.

Lemma best_value_error f s w p a q i B : bestZ f s w p a -> length q = S p -> (s <= i < s + Z.of_nat w)%Z -> 0 <= B ->
  (forall k, (k < w)%nat -> Rabs (f (s + Z.of_nat k)%Z - polyval q (IZR (s + Z.of_nat k))) <= B) ->
  Rabs (polyval a (IZR i) - polyval q (IZR i)) <= sqrt (INR w) * B.
Proof.
  intros [La Hb] Lq Hi HB H.
  set (E := fun k : nat => polyval a (IZR (s + Z.of_nat k)) - polyval q (IZR (s + Z.of_nat k))).
  set (R0 := fun k : nat => f (s + Z.of_nat k)%Z - polyval q (IZR (s + Z.of_nat k))).
  set (EE := ns (fun k => E k ^ 2) w). set (P := ns (fun k => E k * R0 k) w). set (C := ns (fun k => R0 k ^ 2) w).
  assert (Mi : forall t, ns (fun k => (t * E k - R0 k) ^ 2) w = t ^ 2 * EE - 2 * t * P + C).
  { intros t. unfold EE, P, C. clear. induction w as [|w IH]; cbn [ns]; [ring|]. rewrite IH. ring. }
  assert (Mf : forall t, misfitZ f s w (vadd q (vscale (vsub a q) t)) = t ^ 2 * EE - 2 * t * P + C).
  { intros t. rewrite <- Mi. unfold misfitZ. rewrite vsum_ns. apply ns_ext. intros k _. f_equal. unfold E, R0.
    rewrite polyval_add, polyval_scale, polyval_sub; [ring|congruence|unfold vscale, vsub; rewrite map_length, map2_length; lia]. }
  assert (Ma : misfitZ f s w a = EE - 2 * P + C).
  { replace (EE - 2 * P + C) with (1 ^ 2 * EE - 2 * 1 * P + C) by ring. rewrite <- Mf. f_equal. apply vec_ext.
    - unfold vadd, vscale, vsub. rewrite map2_length, map_length, map2_length. lia.
    - intros k. rewrite nth_vadd by (unfold vscale, vsub; rewrite map_length, map2_length; lia). rewrite nth_vscale, nth_vsub by congruence. ring. }
  assert (Mn : forall t, EE - 2 * P + C <= t ^ 2 * EE - 2 * t * P + C).
  { intros t. rewrite <- Ma, <- Mf. set (b := vadd _ _). destruct (list_eq_dec Req_EM_T b a) as [->|N]; [lra|].
    apply Rlt_le, Hb; [|exact N]. unfold b, vadd, vscale, vsub. rewrite map2_length, map_length, map2_length. lia. }
  assert (EE0 : 0 <= EE) by (apply ns_nonneg; intros; apply pow2_ge_0). assert (C0 : 0 <= C) by (apply ns_nonneg; intros; apply pow2_ge_0).
  assert (EC : EE <= C).
  { destruct EE0 as [Pe|<-]; [|exact C0]. specialize (Mn (P / EE)). replace ((P / EE) ^ 2 * EE - 2 * (P / EE) * P + C) with (C - P ^ 2 / EE) in Mn by (field; lra).
    assert (K : (EE - P) ^ 2 <= 0).
    { assert (K : EE * (EE - 2 * P + C) <= EE * (C - P ^ 2 / EE)) by (apply Rmult_le_compat_l; lra).
      replace (EE * (C - P ^ 2 / EE)) with (EE * C - P ^ 2) in K by (field; lra). nra. }
    assert (P = EE) by nra. assert (Z : 0 <= ns (fun k => (1 * E k - R0 k) ^ 2) w) by (apply ns_nonneg; intros; apply pow2_ge_0). rewrite Mi in Z. lra. }
  assert (CB : C <= INR w * B ^ 2).
  { rewrite <- ns_const. apply ns_le. intros k Hk. apply pow_maj_Rabs. fold (R0 k). apply H, Hk. }
  assert (Ei : E (Z.to_nat (i - s)) ^ 2 <= EE) by (apply (ns_member (fun k => E k ^ 2)); [intros; apply pow2_ge_0|lia]).
  unfold E in Ei. replace (s + Z.of_nat (Z.to_nat (i - s)))%Z with i in Ei by lia.
  rewrite <- sqrt_Rsqr_abs. rewrite <- (sqrt_pow2 B HB) at 1. rewrite <- sqrt_mult by (try apply pos_INR; apply pow2_ge_0). apply sqrt_le_1_alt. rewrite Rsqr_pow2. lra.
Qed.

Lemma best_shift f s w p a : bestZ f s w p a -> bestZ (fun t => f (s + t)%Z) 0 w p (psubst 1 (IZR s) a).
Proof.
  assert (M : forall b, misfitZ (fun t => f (s + t)%Z) 0 w (psubst 1 (IZR s) b) = misfitZ f s w b).
  { intros b. unfold misfitZ. apply (sum_ext (A := nat)). intros k _. rewrite psubst_eval, Z.add_0_l. f_equal. f_equal. f_equal. rewrite plus_IZR. ring. }
  intros [L B]. split; [rewrite psubst_length; exact L|]. intros b Lb N. rewrite M.
  rewrite <- (psubst_back (IZR s) b), M. apply B; [rewrite psubst_length; exact Lb|]. intros E. apply N. rewrite <- E. symmetry. apply psubst_back.
Qed.

Lemma best_error s w p d x : (S p <= w)%nat -> exists C, 0 <= C /\ forall f a q B, bestZ f s w p a -> length q = S p ->
  (forall k, (k < w)%nat -> Rabs (f (s + Z.of_nat k)%Z - polyval q (IZR (s + Z.of_nat k))) <= B) ->
  Rabs (Derive_n (polyval a) d x - Derive_n (polyval q) d x) <= C * B.
Proof.
  intros Hp. destruct (best_weights s w p d x Hp) as (L & HL). exists (ns (fun k => Rabs (L k)) w). split; [apply ns_nonneg; intros; apply Rabs_pos|].
  intros f a q B Ba Lq H. rewrite (HL f a Ba).
  set (g := fun z => polyval q (IZR z)). destruct (best_exists g s w p Hp) as (b & Bb).
  rewrite <- (fit_exact_derive g s w p q b d x ltac:(lia) ltac:(intros; reflexivity) Bb), (HL g b Bb), !vsum_ns, <- ns_sub, <- ns_scale.
  eapply Rle_trans; [apply ns_abs|]. apply ns_le. intros k Hk. rewrite <- Rmult_minus_distr_l, Rabs_mult. apply Rmult_le_compat_l; [apply Rabs_pos|]. apply H, Hk.
Qed.

(** One constant for all places of the window. *)
Lemma fit_constant w p d : (S p <= w)%nat -> exists C, 0 <= C /\ forall f s i a q B, (s <= i < s + Z.of_nat w)%Z -> bestZ f s w p a -> length q = S p ->
  (forall k, (k < w)%nat -> Rabs (f (s + Z.of_nat k)%Z - polyval q (IZR (s + Z.of_nat k))) <= B) ->
  Rabs (Derive_n (polyval a) d (IZR i) - Derive_n (polyval q) d (IZR i)) <= C * B.
Proof.
  intros Hp.
  assert (G : forall m, exists C, 0 <= C /\ forall f r a q B, (0 <= r < Z.of_nat m)%Z -> bestZ f 0 w p a -> length q = S p ->
    (forall k, (k < w)%nat -> Rabs (f (0 + Z.of_nat k)%Z - polyval q (IZR (0 + Z.of_nat k))) <= B) ->
    Rabs (Derive_n (polyval a) d (IZR r) - Derive_n (polyval q) d (IZR r)) <= C * B).
  { induction m as [|m (C & C0 & HC)]; [exists 0; split; [lra|intros; lia]|].
    destruct (best_error 0 w p d (IZR (Z.of_nat m)) Hp) as (C' & C0' & HC'). exists (C + C'). split; [lra|]. intros f r a q B Hr Ba Lq H.
    assert (B0 : 0 <= B) by (pose proof (H 0%nat ltac:(lia)); pose proof (Rabs_pos (f (0 + Z.of_nat 0)%Z - polyval q (IZR (0 + Z.of_nat 0)))); lra).
    destruct (Z.eq_dec r (Z.of_nat m)) as [->|N].
    - pose proof (HC' f a q B Ba Lq H). nra.
    - pose proof (HC f r a q B ltac:(lia) Ba Lq H). nra. }
  destruct (G w) as (C & C0 & HC). exists C. split; [exact C0|]. intros f s i a q B Hi Ba Lq H.
  pose proof (HC (fun t => f (s + t)%Z) (i - s)%Z (psubst 1 (IZR s) a) (psubst 1 (IZR s) q) B ltac:(lia) (best_shift f s w p a Ba) ltac:(rewrite psubst_length; exact Lq)) as K.
  rewrite <- !derive_shift in K. replace (IZR (i - s) + IZR s) with (IZR i) in K by (rewrite minus_IZR; ring). apply K.
  intros k Hk. rewrite psubst_eval, Z.add_0_l. replace (1 * IZR (Z.of_nat k) + IZR s) with (IZR (s + Z.of_nat k)) by (rewrite plus_IZR; ring). apply H, Hk.
Qed.

(** The Taylor polynomial in the index around place i. *)
Definition tpoly (D : nat -> R -> R) (p : nat) (x h i : R) : list R := psubst 1 (- i) (map (fun m => h ^ m / INR (fact m) * D m x) (seq 0 (S p))).
Lemma nth_map_seq (g : nat -> R) n k : (k < n)%nat -> nth k (map g (seq 0 n)) 0 = g k.
Proof. intros H. rewrite (nth_indep _ 0 (g 0%nat)) by (rewrite map_length, seq_length; exact H). rewrite map_nth, seq_nth by exact H. reflexivity. Qed.
Lemma tpoly_length D p x h i : length (tpoly D p x h i) = S p.
Proof. unfold tpoly. rewrite psubst_length, map_length, seq_length. reflexivity. Qed.
Lemma tpoly_value D p x h i t : polyval (tpoly D p x h i) t = tsum D p x (h * (t - i)).
Proof.
  unfold tpoly. rewrite psubst_eval, polyval_sum, map_length, seq_length, vsum_ns. unfold tsum. apply ns_ext. intros k Hk.
  rewrite nth_map_seq by exact Hk. rewrite Rpow_mult_distr. replace (1 * t + - i) with (t - i) by ring. unfold Rdiv. ring.
Qed.
Lemma tpoly_derive D p x h i d : (d <= p)%nat -> Derive_n (polyval (tpoly D p x h i)) d i = h ^ d * D d x.
Proof.
  intros Hd. unfold tpoly. rewrite <- derive_shift. replace (i + - i) with 0 by ring. rewrite polyval_iter, polyval_iter_0, nth_map_seq by lia.
  assert (F := fact_pos d). field. lra.
Qed.

(** ** Averages *)

Section Average.
  Variables (w : list R) (Tw : vsum w <> 0) (Pw : forall x, In x w -> 0 <= x).
  Let v k := nth k w 0 / vsum w.
  Lemma total_pos : 0 < vsum w.
  Proof.
    assert (0 <= vsum w); [|lra]. clear Tw v. induction w as [|x l IH]; [cbn; rnum; lra|]. rewrite vsum_cons.
    pose proof (Pw x (or_introl eq_refl)). specialize (IH (fun y Hy => Pw y (or_intror Hy))). lra.
  Qed.
  Lemma v_nonneg k : 0 <= v k.
  Proof.
    unfold v. apply Rmult_le_pos; [|left; apply Rinv_0_lt_compat, total_pos].
    destruct (Nat.lt_ge_cases k (length w)) as [H|H]; [apply Pw, nth_In, H|rewrite nth_overflow by exact H; lra].
  Qed.
  Lemma v_sum : ns v (length w) = 1.
  Proof. unfold v, Rdiv. rewrite ns_scale, <- vsum_ns, sum_nth. field. exact Tw. Qed.
  Lemma average_first Y y (B : nat -> R) : (forall k, (k < length w)%nat -> Rabs (Y k - y) <= B k) ->
    Rabs (ns (fun k => v k * Y k) (length w) - y) <= ns (fun k => v k * B k) (length w).
  Proof.
    intros H. replace y with (ns (fun k => v k * y) (length w)) by (rewrite ns_scale, v_sum; ring). rewrite <- ns_sub.
    eapply Rle_trans; [apply ns_abs|]. apply ns_le. intros k Hk. rewrite <- Rmult_minus_distr_l, Rabs_mult, (Rabs_right (v k)) by (apply Rle_ge, v_nonneg).
    apply Rmult_le_compat_l; [apply v_nonneg|apply H, Hk].
  Qed.
  Lemma v_sym k : rev w = w -> (k < length w)%nat -> v (length w - 1 - k) = v k.
  Proof. intros Sy Hk. unfold v. f_equal. transitivity (nth k (rev w) 0); [rewrite rev_nth by lia; f_equal; lia|rewrite Sy; reflexivity]. Qed.
  Lemma sym_sum Y : rev w = w -> ns (fun k => v k * Y k) (length w) = ns (fun k => v k * ((Y k + Y (length w - 1 - k)%nat) / 2)) (length w).
  Proof.
    intros Sy. assert (E : ns (fun k => v k * Y k) (length w) = ns (fun k => v k * Y (length w - 1 - k)%nat) (length w)).
    { rewrite ns_rev. apply ns_ext. intros k Hk. rewrite v_sym by assumption. reflexivity. }
    replace (ns (fun k => v k * Y k) (length w)) with ((ns (fun k => v k * Y k) (length w) + ns (fun k => v k * Y (length w - 1 - k)%nat) (length w)) * / 2) by (rewrite <- E; field).
    rewrite <- ns_add, <- ns_scale. apply ns_ext. intros k _. unfold Rdiv. ring.
  Qed.
End Average.

(** ** The boundary modes that stay near *)

Lemma ext_near b n i o q : (b = BReflect \/ b = BNearest \/ b = BMirror) -> (i < n)%nat -> ext_index b n (Z.of_nat i + o) = Some q ->
  (q < n)%nat /\ (Z.abs (Z.of_nat q - Z.of_nat i) <= Z.abs o)%Z.
Proof.
  intros Hb Hi E. split; [exact (ext_index_lt b n _ q ltac:(lia) E)|]. destruct Hb as [->|[->| ->]]; unfold ext_index in E; cbv zeta in E.
  - apply some_inj in E; subst q. assert (Hz0 : (Z.of_nat i < Z.of_nat n)%Z) by lia. set (z := Z.of_nat n) in *. set (j := (Z.of_nat i + o)%Z). assert (Hz : (0 < 2 * z)%Z) by lia.
    pose proof (Z.div_mod j (2 * z) ltac:(lia)) as Dm. pose proof (Z.mod_pos_bound j (2 * z) Hz) as Mb. set (k := (j mod (2 * z))%Z) in *. set (m := (j / (2 * z))%Z) in *.
    assert (Cm : (m = 0 \/ m = -1 \/ 2 * z <= 2 * z * m \/ 2 * z * m <= - 4 * z)%Z).
    { assert (C : (m = 0 \/ m = -1 \/ 1 <= m \/ m <= -2)%Z) by lia. destruct C as [C|[C|[C|C]]]; [auto|auto|right; right; left; nia|right; right; right; nia]. }
    clearbody k m. destruct (Z.ltb_spec k z); unfold j in *; clear j; destruct Cm as [Cm|[Cm|[Cm|Cm]]]; try rewrite Cm in Dm; lia.
  - apply some_inj in E; subst q. lia.
  - destruct (Nat.eqb_spec n 1) as [->|N]; [apply some_inj in E; subst q; lia|]. apply some_inj in E; subst q. assert (Hz0 : (Z.of_nat i < Z.of_nat n)%Z) by lia. set (z := Z.of_nat n) in *. set (j := (Z.of_nat i + o)%Z). assert (Hz : (0 < 2 * (z - 1))%Z) by lia.
    pose proof (Z.div_mod j (2 * (z - 1)) ltac:(lia)) as Dm. pose proof (Z.mod_pos_bound j (2 * (z - 1)) Hz) as Mb. set (k := (j mod (2 * (z - 1)))%Z) in *. set (m := (j / (2 * (z - 1)))%Z) in *.
    assert (Cm : (m = 0 \/ m = -1 \/ 2 * (z - 1) <= 2 * (z - 1) * m \/ 2 * (z - 1) * m <= - 4 * (z - 1))%Z).
    { assert (C : (m = 0 \/ m = -1 \/ 1 <= m \/ m <= -2)%Z) by lia. destruct C as [C|[C|[C|C]]]; [auto|auto|right; right; left; nia|right; right; right; nia]. }
    clearbody k m. destruct (Z.ltb_spec k z); unfold j in *; clear j; destruct Cm as [Cm|[Cm|[Cm|Cm]]]; try rewrite Cm in Dm; lia.
Qed.
