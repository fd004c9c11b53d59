(** Savitzky-Golay: exactness, linearity, symmetry, parity. *)
From Coq Require Import ZArith String List Bool Arith Lia Reals Lra Psatz.
From Coquelicot Require Import Hierarchy Derive.
From Verif Require Import Num Py Numeric Curve Vec Csaps Registry Smooth Savgol Spec GeomSpec.
From Verif Require Import ListFacts VecFacts SmoothProofs CsapsProofs CurvesProofs CurveProofs3 SavgolProofs.
Import ListNotations.
Local Open Scope string_scope.
Local Open Scope list_scope.
Local Open Scope R_scope.

(** The extended line and the start of the window of output row i. *)
Definition xrow (m : option bmode) (cval : R) (rows : list (list R)) (ncol : nat) (t : Z) : list R :=
  match m with Some b => ext_row b cval rows ncol t | None => nth (Z.to_nat t) rows [] end.
Definition xstart (m : option bmode) (n h i : nat) : Z :=
  match m with
  | Some _ => Z.of_nat i - Z.of_nat h
  | None => Z.max 0 (Z.min (Z.of_nat i - Z.of_nat h) (Z.of_nat n - (2 * Z.of_nat h + 1)))
  end.

Lemma sg_fit m cval rows ncol h p d delta i j a : (p < 2 * h + 1)%nat -> (m = None -> (2 * h + 1 <= length rows)%nat) ->
  (i < length rows)%nat -> (j < ncol)%nat ->
  bestZ (fun t => nth j (xrow m cval rows ncol t) 0) (xstart m (length rows) h i) (2 * h + 1) p a ->
  nth j (sg_row m cval rows ncol h p d delta i) 0 = Derive_n (polyval a) d (INR i) / delta ^ d.
Proof.
  intros Hp Hn Hi Hj B. destruct m as [b|]; cbn [sg_row xrow xstart] in *; [apply conv_fit; assumption|].
  apply interp_fit; try assumption. apply Hn. reflexivity.
Qed.
Lemma best_exists f s w p : (S p <= w)%nat -> exists a, bestZ f s w p a.
Proof. intros H. eexists. apply asc_best. assumption. Qed.
Lemma misfitZ_nonneg f s w a : 0 <= misfitZ f s w a.
Proof.
  unfold misfitZ. induction (seq 0 w) as [|k l IH]; [unfold vsum; cbn; lra|]. cbn [map]. rewrite vsum_cons. pose proof (pow2_ge_0 (polyval a (IZR (s + Z.of_nat k)) - f (s + Z.of_nat k)%Z)). lra.
Qed.
Lemma misfitZ_ext f g s w a : (forall k, (k < w)%nat -> f (s + Z.of_nat k)%Z = g (s + Z.of_nat k)%Z) -> misfitZ f s w a = misfitZ g s w a.
Proof. intros H. apply sum_ext. intros k Hk. apply in_seq in Hk. rewrite H by lia. reflexivity. Qed.
Lemma bestZ_ext f g s w p a : (forall k, (k < w)%nat -> f (s + Z.of_nat k)%Z = g (s + Z.of_nat k)%Z) -> bestZ f s w p a -> bestZ g s w p a.
Proof. intros H [L B]. split; [assumption|]. intros b Lb N. rewrite <- !(misfitZ_ext f g) by assumption. apply B; assumption. Qed.

(** ** Exactness *)

Lemma polyval_pad (a : list R) k x : polyval (a ++ repeat 0 k) x = polyval a x.
Proof.
  induction a as [|c a IH]; cbn [app polyval]; [|rewrite IH; reflexivity].
  induction k as [|k IH]; [reflexivity|]. cbn [repeat polyval]. rewrite IH. cbn [polyval]. rnum. ring.
Qed.
Lemma fit_exact f s w p q a : (length q <= S p)%nat -> (forall k, (k < w)%nat -> f (s + Z.of_nat k)%Z = polyval q (IZR (s + Z.of_nat k))) ->
  bestZ f s w p a -> forall x, polyval a x = polyval q x.
Proof.
  intros Lq E [La B] x. set (q' := q ++ repeat 0 (S p - length q)).
  destruct (list_eq_dec Req_EM_T q' a) as [<-|N]; [apply polyval_pad|exfalso].
  assert (Z : misfitZ f s w q' = 0).
  { unfold misfitZ. transitivity (vsum (map (fun _ => 0) (seq 0 w))); [|apply sum_zero]. apply sum_ext. intros k Hk. apply in_seq in Hk. unfold q'. rewrite polyval_pad, E by lia. ring. }
  assert (L : length q' = S p) by (unfold q'; rewrite app_length, repeat_length; lia).
  specialize (B q' L N). pose proof (misfitZ_nonneg f s w a). lra.
Qed.
Lemma fit_exact_derive f s w p q a d x : (length q <= S p)%nat -> (forall k, (k < w)%nat -> f (s + Z.of_nat k)%Z = polyval q (IZR (s + Z.of_nat k))) ->
  bestZ f s w p a -> Derive_n (polyval a) d x = Derive_n (polyval q) d x.
Proof. intros Lq E B. apply Derive_n_ext. apply (fit_exact f s w p q a); assumption. Qed.

(** ** Linearity *)

Lemma polyval_iter_lin d x (a : list R) : polyval (Nat.iter d pder a) x
  = bsum (fun m => nth m a 0 * (if Nat.ltb m d then 0 else INR (fact m) / INR (fact (m - d)) * x ^ (m - d))) (length a).
Proof.
  rewrite polyval_bsum, iter_pder_length. destruct (Nat.lt_ge_cases (length a) d) as [H|H].
  - replace (length a - d)%nat with 0%nat by lia. cbn [bsum]. transitivity (bsum (fun _ => 0) (length a)); [symmetry; apply bsum_zero|]. apply bsum_ext. intros m Hm.
    rewrite (proj2 (Nat.ltb_lt m d)) by lia. ring.
  - replace (length a) with (d + (length a - d))%nat at 2 by lia. generalize (length a - d)%nat. intros n. induction n as [|n IH].
    + rewrite Nat.add_0_r. cbn [bsum]. transitivity (bsum (fun _ => 0) d); [symmetry; apply bsum_zero|]. apply bsum_ext. intros m Hm. rewrite (proj2 (Nat.ltb_lt m d)) by lia. ring.
    + rewrite Nat.add_succ_r. cbn [bsum]. rewrite IH. f_equal. rewrite (proj2 (Nat.ltb_ge (d + n) d)) by lia.
      replace (d + n - d)%nat with n by lia. pose proof (iter_pder_nth a d n) as E. rewrite (Nat.add_comm n d) in E.
      assert (P : INR (fact n) <> 0) by (apply not_0_INR, fact_neq_0).
      replace (nth n (Nat.iter d pder a) 0) with (INR (fact (d + n)) * nth (d + n) a 0 / INR (fact n)) by (rewrite <- E; field; assumption).
      field. assumption.
Qed.

Lemma best_weights s w p d x : (S p <= w)%nat -> exists L : nat -> R, forall f a, bestZ f s w p a ->
  Derive_n (polyval a) d x = vsum (map (fun k => L k * f (s + Z.of_nat k)%Z) (seq 0 w)).
Proof.
  intros Hp. set (y := x - IZR s). set (xs := map (fun k => IZR (Z.of_nat k)) (seq 0 w)).
  set (b := fun m => if Nat.ltb m d then 0 else INR (fact m) / INR (fact (m - d)) * y ^ (m - d)).
  assert (D : NoDup xs) by (apply (nodup_map_IZR Z.of_nat); [intros; lia|apply seq_NoDup]).
  assert (N : (S p <= length xs)%nat) by (unfold xs; rewrite map_length, seq_length; assumption).
  exists (fun k => nth k (map (polyval (gauss (S p) (normal_system xs p b))) xs) 0). intros f a B.
  set (ys := map (fun k => f (s + Z.of_nat k)%Z) (seq 0 w)).
  replace x with (y + IZR s) by (unfold y; ring). rewrite (best_derive f s w p d (IZR s) y a (polyfit xs ys p)).
  - rewrite polyval_iter, polyval_iter_lin, fit_length by assumption.
    pose proof (normal_data xs p D N b ys) as E. rewrite (vdot_comm (polyfit xs ys p)), vdot_seq, fit_length, Nat.min_id in E by assumption.
    transitivity (bsum (fun i => b i * nth i (polyfit xs ys p) 0) (S p)); [apply bsum_ext; intros i _; unfold b; ring|]. rewrite <- E.
    assert (Lx : length xs = w) by (unfold xs; rewrite map_length; apply seq_length).
    unfold ys. rewrite vdot_comm, vdot_seq, map_length, Lx, Nat.min_id, vsum_seq.
    apply bsum_ext. intros; ring.
  - pose proof (asc_best f s w p Hp) as A. rewrite offsets_asc in A. exact A.
  - exact B.
Qed.

(** ** Symmetry *)

Lemma derive_reflect a d be x : Derive_n (polyval (psubst (-1) be a)) d x = (-1) ^ d * Derive_n (polyval a) d (be - x).
Proof.
  rewrite <- (Rplus_0_l x) at 1. rewrite derive_shift.
  replace (be - x) with (0 + (be - x)) by ring. rewrite derive_shift, <- derive_flip. apply Derive_n_ext. intros t.
  rewrite !psubst_eval. f_equal. ring.
Qed.
Lemma psubst_reflect2 be a : psubst (-1) be (psubst (-1) be a) = a.
Proof.
  apply (poly_unique _ _ (map (fun k => IZR (Z.of_nat k)) (seq 0 (length a)))).
  - rewrite !psubst_length. reflexivity.
  - apply (nodup_map_IZR Z.of_nat); [intros; lia|apply seq_NoDup].
  - rewrite !psubst_length, map_length, seq_length. lia.
  - intros x _. rewrite !psubst_eval. f_equal. ring.
Qed.
Lemma misfit_reflect f s w e b :
  misfitZ (fun t => f (e - t)%Z) (e - s - Z.of_nat (w - 1)) w b = misfitZ f s w (psubst (-1) (IZR e) b).
Proof.
  unfold misfitZ. rewrite sum_reindex. apply sum_ext. intros k Hk. apply in_seq in Hk.
  replace (e - s - Z.of_nat (w - 1) + Z.of_nat (w - 1 - k))%Z with (e - (s + Z.of_nat k))%Z by lia.
  rewrite psubst_eval. replace (e - (e - (s + Z.of_nat k)))%Z with (s + Z.of_nat k)%Z by lia.
  rewrite minus_IZR. f_equal. f_equal. f_equal. ring.
Qed.
Lemma best_reflect f s w p e a : bestZ f s w p a -> bestZ (fun t => f (e - t)%Z) (e - s - Z.of_nat (w - 1)) w p (psubst (-1) (IZR e) a).
Proof.
  intros [L B]. split; [rewrite psubst_length; assumption|]. intros b Lb N. rewrite !misfit_reflect, psubst_reflect2.
  apply B; [rewrite psubst_length; assumption|]. intros E. apply N. rewrite <- E, psubst_reflect2. reflexivity.
Qed.

Lemma xrow_rev m cval rows ncol t : rows <> [] -> (m = None -> (0 <= t < Z.of_nat (length rows))%Z) ->
  xrow m cval (rev rows) ncol (Z.of_nat (length rows) - 1 - t) = xrow m cval rows ncol t.
Proof.
  intros N H. assert (Hn : (0 < length rows)%nat) by (destruct rows; [contradiction|cbn; lia]).
  destruct m as [b|]; cbn [xrow].
  - unfold ext_row. rewrite rev_length, ext_index_rev by assumption. destruct (ext_index b (length rows) t) as [q|] eqn:E; cbn [option_map]; [|reflexivity].
    pose proof (ext_index_lt _ _ _ _ Hn E). rewrite rev_nth by lia. f_equal. lia.
  - specialize (H eq_refl). rewrite rev_nth by lia. f_equal. lia.
Qed.
Lemma xstart_rev m n h i : (m = None -> (2 * h + 1 <= n)%nat) -> (i < n)%nat ->
  xstart m n h (n - 1 - i) = (Z.of_nat n - 1 - xstart m n h i - Z.of_nat (2 * h + 1 - 1))%Z.
Proof. intros H Hi. destruct m; cbn [xstart]; [lia|]. specialize (H eq_refl). lia. Qed.
Lemma xstart_in m n h i k : m = None -> (2 * h + 1 <= n)%nat -> (k < 2 * h + 1)%nat -> (0 <= xstart m n h i + Z.of_nat k < Z.of_nat n)%Z.
Proof. intros -> H Hk. cbn [xstart]. lia. Qed.

Lemma sg_row_rev m cval rows ncol h p d delta i j : (p < 2 * h + 1)%nat -> (m = None -> (2 * h + 1 <= length rows)%nat) ->
  (i < length rows)%nat -> (j < ncol)%nat ->
  nth j (sg_row m cval (rev rows) ncol h p d delta (length rows - 1 - i)) 0 = (-1) ^ d * nth j (sg_row m cval rows ncol h p d delta i) 0.
Proof.
  intros Hp Hn Hi Hj. assert (N : rows <> []) by (intros ->; cbn in Hi; lia).
  destruct (best_exists (fun t => nth j (xrow m cval rows ncol t) 0) (xstart m (length rows) h i) (2 * h + 1) p ltac:(lia)) as [a B].
  rewrite (sg_fit m cval rows ncol h p d delta i j a) by assumption.
  assert (R := best_reflect _ _ _ _ (Z.of_nat (length rows) - 1) a B). rewrite <- xstart_rev in R by assumption.
  rewrite (sg_fit m cval (rev rows) ncol h p d delta (length rows - 1 - i) j (psubst (-1) (IZR (Z.of_nat (length rows) - 1)) a)).
  - rewrite derive_reflect. replace (IZR (Z.of_nat (length rows) - 1) - INR (length rows - 1 - i)) with (INR i); [unfold Rdiv; ring|].
    rewrite !INR_IZR_INZ, <- minus_IZR. f_equal. lia.
  - assumption.
  - rewrite rev_length. assumption.
  - rewrite rev_length. lia.
  - assumption.
  - rewrite rev_length. eapply bestZ_ext; [|exact R]. intros k Hk. cbn beta. f_equal. rewrite <- (rev_involutive rows) at 1.
    rewrite <- (rev_length rows). apply xrow_rev.
    + intros E. apply (f_equal (@rev _)) in E. rewrite rev_involutive in E. contradiction.
    + intros Em. rewrite rev_length. apply xstart_in; auto.
Qed.
(** ** Parity *)

Lemma map_rev_neg h : map Ropp (rev (offsets (T := R) (2 * h + 1) (Z.of_nat h))) = offsets (2 * h + 1) (Z.of_nat h).
Proof.
  rewrite offsets_desc, map_map. unfold offsets. apply map_ext. intros k. rewrite nlit_R, <- opp_IZR. f_equal. lia.
Qed.
Lemma vdot_rev (u v : list R) : length u = length v -> vdot (rev u) (rev v) = vdot u v.
Proof.
  revert v. induction u as [|a u IH]; intros [|b v] L; try discriminate; [reflexivity|]. cbn [rev].
  assert (A : forall (x y : list R), length x = length y -> vdot (x ++ [a]) (y ++ [b]) = vdot x y + a * b).
  { intros x. induction x as [|c x IHx]; intros [|e y] Lxy; try discriminate; [cbn; ring|]. cbn [app]. rewrite !vdot_cons, IHx by (cbn in Lxy; lia). ring. }
  rewrite A by (rewrite !rev_length; cbn in L; lia). rewrite IH, vdot_cons by (cbn in L; lia). ring.
Qed.
(** Sums over the symmetric nodes. *)
Lemma sym_dot h (f g : R -> R) : let xs := rev (offsets (2 * h + 1) (Z.of_nat h)) in
  vdot (map f xs) (map g xs) = vdot (map (fun x => f (- x)) xs) (map (fun x => g (- x)) xs).
Proof.
  intros xs. rewrite <- (map_map Ropp f), <- (map_map Ropp g). unfold xs. rewrite map_rev_neg, !map_rev. apply vdot_rev. rewrite !map_length. reflexivity.
Qed.

Lemma neg_pow x m : (- x) ^ m = (-1) ^ m * x ^ m.
Proof. replace (- x) with (-1 * x) by ring. apply Rpow_mult_distr. Qed.
Lemma even_sign m : Nat.even m = true -> (-1) ^ m = 1.
Proof. intros H. apply Nat.even_spec in H as (k & ->). apply pow_1_even. Qed.

Lemma weights_parity h p d delta : (p + 1 < 2 * h + 1)%nat -> Nat.even (p + d) = true ->
  weights (2 * h + 1) (S p) d delta = weights (2 * h + 1) p d delta.
Proof.
  intros Hp Ev. unfold weights. apply Nat.even_spec in Ev as (e & Ev).
  destruct (Nat.ltb_spec p d) as [H|H]; [rewrite (proj2 (Nat.ltb_lt (S p) d)) by lia; reflexivity|].
  rewrite (proj2 (Nat.ltb_ge (S p) d)) by lia. unfold savgol_coeffs. rewrite half.
  set (xs := rev (offsets (2 * h + 1) (Z.of_nat h))). set (b := fun m => if Nat.eqb m d then ndiv (nfact d) (npow delta d) else n0).
  assert (D : NoDup xs) by apply desc_nodup.
  assert (Lx : length xs = (2 * h + 1)%nat) by (unfold xs; rewrite offsets_desc, map_length; apply seq_length).
  destruct (normal_ok xs p D ltac:(lia) b) as [Lz Hz]. set (z := gauss (S p) (normal_system xs p b)) in *.
  assert (S1 : forall m, (-1) ^ m * (-1) ^ m = 1) by (intros m; rewrite <- pow_add; apply even_sign; apply Nat.even_spec; exists m; lia).
  (* z has the parity of d *)
  set (z' := vscale (psubst (-1) 0 z) ((-1) ^ d)).
  assert (Vz' : forall x, polyval z' x = (-1) ^ d * polyval z (- x)).
  { intros x. unfold z'. rewrite polyval_scale, psubst_eval. do 2 f_equal. ring. }
  assert (Ez : z' = z).
  { apply (gauss_unique (S p) (normal_system xs p b)).
    - apply normal_length.
    - apply normal_rows; lia.
    - apply normal_pos; [assumption|lia].
    - unfold z'. rewrite vscale_length, psubst_length. assumption.
    - intros r Hr. apply in_map_iff in Hr as (m & <- & Hm). apply in_seq in Hm.
      assert (Lz' : length z' = S p) by (unfold z'; rewrite vscale_length, psubst_length; assumption).
      rewrite vdot_app_one by (rewrite map_length, seq_length; lia). rewrite gram_dot by assumption.
      rewrite app_nth2 by (rewrite map_length, seq_length; lia). rewrite map_length, seq_length, Nat.sub_diag. cbn [nth].
      unfold power_row. unfold xs. rewrite sym_dot. fold xs.
      rewrite (map_ext (fun x => polyval z' (- x)) (fun x => nmul (polyval z x) ((-1) ^ d))) by (intros x; rewrite Vz', Ropp_involutive; apply Rmult_comm).
      rewrite (map_ext (fun x => npow (- x) m) (fun x => nmul (npow x m) ((-1) ^ m))) by (intros x; rewrite !npow_R, neg_pow; apply Rmult_comm).
      rewrite <- (map_map (fun x => npow x m) (fun y => nmul y ((-1) ^ m))), <- (map_map (polyval z) (fun y => nmul y ((-1) ^ d))).
      change (map (fun y => nmul y ((-1) ^ m)) (map (fun x => npow x m) xs)) with (vscale (power_row xs m) ((-1) ^ m)).
      change (map (fun y => nmul y ((-1) ^ d)) (map (polyval z) xs)) with (vscale (map (polyval z) xs) ((-1) ^ d)).
      rewrite vdot_scale_l, vdot_scale_r, Hz by lia. unfold b. destruct (Nat.eqb_spec m d) as [->|]; [|rnum; ring].
      rewrite <- Rmult_assoc, S1. ring. }
  assert (Top : vdot (power_row xs (S p)) (map (polyval z) xs) = 0).
  { assert (E : vdot (power_row xs (S p)) (map (polyval z) xs) = - vdot (power_row xs (S p)) (map (polyval z) xs)); [|lra].
    unfold power_row at 1. unfold xs at 1 2. rewrite sym_dot. fold xs.
    rewrite (map_ext (fun x => polyval z (- x)) (fun x => nmul (polyval z x) ((-1) ^ d))).
    2:{ intros x. rewrite <- Ez at 2. rewrite Vz'. change (polyval z (- x) = (-1) ^ d * polyval z (- x) * (-1) ^ d). rewrite Rmult_comm, <- Rmult_assoc, S1. symmetry. apply Rmult_1_l. }
    rewrite (map_ext (fun x => npow (- x) (S p)) (fun x => nmul (npow x (S p)) ((-1) ^ S p))) by (intros x; rewrite !npow_R, neg_pow; apply Rmult_comm).
    rewrite <- (map_map (fun x => npow x (S p)) (fun y => nmul y ((-1) ^ S p))), <- (map_map (polyval z) (fun y => nmul y ((-1) ^ d))).
    change (map (fun y => nmul y ((-1) ^ S p)) (map (fun x => npow x (S p)) xs)) with (vscale (power_row xs (S p)) ((-1) ^ S p)).
    change (map (fun y => nmul y ((-1) ^ d)) (map (polyval z) xs)) with (vscale (map (polyval z) xs) ((-1) ^ d)).
    rewrite vdot_scale_l, vdot_scale_r, <- Rmult_assoc, <- pow_add. replace (S p + d)%nat with (S (2 * e)) by lia. rewrite pow_1_odd. ring. }
  assert (Epad : z ++ [0] = gauss (S (S p)) (normal_system xs (S p) b)).
  { apply gauss_unique.
    - apply normal_length.
    - apply normal_rows; lia.
    - apply normal_pos; [assumption|lia].
    - rewrite app_length, Lz. cbn [length]. lia.
    - intros r Hr. apply in_map_iff in Hr as (m & <- & Hm). apply in_seq in Hm.
      assert (Lp : length (z ++ [0]) = S (S p)) by (rewrite app_length, Lz; cbn [length]; lia).
      rewrite vdot_app_one by (rewrite map_length, seq_length; lia). rewrite gram_dot by assumption.
      rewrite app_nth2 by (rewrite map_length, seq_length; lia). rewrite map_length, seq_length, Nat.sub_diag. cbn [nth].
      rewrite (map_ext (polyval (z ++ [0])) (polyval z)) by (intros; apply polyval_app0).
      destruct (Nat.eq_dec m (S p)) as [->|]; [|apply Hz; lia]. rewrite Top. unfold b. rewrite (proj2 (Nat.eqb_neq (S p) d)) by lia. reflexivity. }
  rewrite <- Epad. apply map_ext. intros x. rewrite !polyval_vdot by (rewrite ?app_length, ?Lz; cbn [length]; lia). apply polyval_app0.
Qed.

(** ** Averages *)

Lemma best_mean f s w a : (0 < w)%nat -> bestZ f s w 0 a -> a = [vsum (map (fun k => f (s + Z.of_nat k)%Z) (seq 0 w)) / INR w].
Proof.
  intros Hw [La B]. destruct a as [|c [|]]; try discriminate. f_equal.
  set (g := fun k => f (s + Z.of_nat k)%Z). set (mu := vsum (map g (seq 0 w)) / INR w).
  destruct (Req_EM_T c mu) as [|N]; [assumption|exfalso].
  specialize (B [mu] eq_refl ltac:(congruence)). assert (Pw : 0 < INR w) by (apply lt_0_INR; assumption).
  assert (M : forall e, misfitZ f s w [e] = INR w * e ^ 2 - 2 * e * (mu * INR w) + vsum (map (fun k => g k ^ 2) (seq 0 w))).
  { intros e. replace (mu * INR w) with (vsum (map g (seq 0 w))) by (unfold mu; field; lra). unfold misfitZ. rewrite !vsum_seq.
    rewrite (bsum_ext _ (fun k => (e - g k) ^ 2)) by (intros k _; cbn [polyval]; unfold g; rnum; f_equal; ring).
    clear. induction w as [|w IH]; [cbn; ring|]. cbn [bsum]. rewrite IH, S_INR. ring. }
  rewrite !M in B. assert (0 < INR w * (c - mu) ^ 2) by (apply Rmult_lt_0_compat; [assumption|]; assert (c - mu <> 0) by lra; nra). nra.
Qed.
(** ** Interpolation *)

Definition pmul (r : R) (a : list R) : list R := vadd (0 :: a) (vscale a (- r) ++ [0]).
Lemma pmul_length r a : length (pmul r a) = S (length a).
Proof. unfold pmul, vadd. rewrite map2_length, app_length, vscale_length. cbn [length]. lia. Qed.
Lemma pmul_eval r a x : polyval (pmul r a) x = (x - r) * polyval a x.
Proof.
  unfold pmul. rewrite polyval_add by (rewrite app_length, vscale_length; cbn [length]; lia).
  rewrite polyval_app0, polyval_scale. cbn [polyval]. rnum. ring.
Qed.
Definition pprod (xs : list R) : list R := fold_right pmul [1] xs.
Lemma pprod_length xs : length (pprod xs) = S (length xs).
Proof. induction xs as [|x xs IH]; [reflexivity|]. cbn [pprod fold_right length]. rewrite pmul_length. unfold pprod in IH. rewrite IH. reflexivity. Qed.
Lemma pprod_zero xs x : polyval (pprod xs) x = 0 <-> In x xs.
Proof.
  induction xs as [|y xs IH]; cbn [pprod fold_right In].
  - split; [|tauto]. cbn. rnum. lra.
  - rewrite pmul_eval. fold (pprod xs). split.
    + intros H. apply Rmult_integral in H as [H|H]; [left; lra|right; apply IH; assumption].
    + intros [->|H]; [ring|]. apply IH in H. rewrite H. ring.
Qed.
Lemma interpolant xs (f : R -> R) : NoDup xs -> exists q, length q = length xs /\ forall x, In x xs -> polyval q x = f x.
Proof.
  induction xs as [|y xs IH]; intros D; [exists []; split; [reflexivity|intros x []]|]. inversion D as [|? ? N D']. subst.
  destruct (IH D') as (q & Lq & Hq). set (c := (f y - polyval q y) / polyval (pprod xs) y).
  assert (P : polyval (pprod xs) y <> 0) by (intros E; apply pprod_zero in E; contradiction).
  exists (vadd (q ++ [0]) (vscale (pprod xs) c)).
  assert (L : length (q ++ [0]) = length (vscale (pprod xs) c)) by (rewrite app_length, vscale_length, pprod_length; cbn [length]; lia).
  split; [unfold vadd; rewrite map2_length, <- L, app_length; cbn [length]; lia|].
  intros x Hx. rewrite polyval_add, polyval_app0, polyval_scale by assumption. destruct Hx as [<-|Hx].
  - unfold c. field. assumption.
  - rewrite Hq by assumption. rewrite (proj2 (pprod_zero xs x) Hx). ring.
Qed.
Lemma best_interpolates f s p a : bestZ f s (S p) p a -> forall k, (k < S p)%nat -> polyval a (IZR (s + Z.of_nat k)) = f (s + Z.of_nat k)%Z.
Proof.
  intros B k Hk. set (xs := map (fun k => IZR (s + Z.of_nat k)) (seq 0 (S p))).
  destruct (interpolant xs (fun x => f (up x - 1)%Z)) as (q & Lq & Hq); [apply nodup_map_IZR; [intros; lia|apply seq_NoDup]|].
  assert (E : forall z, (up (IZR z) - 1)%Z = z).
  { intros z. assert (U : (z + 1)%Z = up (IZR z)) by (apply tech_up; rewrite plus_IZR; lra). lia. }
  assert (Q : forall k, (k < S p)%nat -> f (s + Z.of_nat k)%Z = polyval q (IZR (s + Z.of_nat k))).
  { intros k' Hk'. rewrite Hq, E; [reflexivity|]. apply in_map_iff. exists k'. split; [reflexivity|]. apply in_seq. lia. }
  rewrite Q by assumption. apply (fit_exact f s (S p) p q); try assumption. unfold xs in Lq. rewrite map_length, seq_length in Lq. lia.
Qed.
