(** Polynomials as lists of coefficients; least squares fits. *)
From Coq Require Import ZArith String List Bool Arith Lia Reals Lra Psatz.
From Coquelicot Require Import Hierarchy Derive.
From Verif Require Import Num Py Numeric Curve Vec Csaps Registry Smooth Savgol Spec GeomSpec.
From Verif Require Import ListFacts VecFacts SmoothProofs CsapsProofs.
From Verif Require Import CurvesProofs CurveProofs3.
Import ListNotations.
Local Open Scope string_scope.
Local Open Scope list_scope.
Local Open Scope R_scope.

(** ** Polynomials *)

Lemma npow_R (x : R) m : npow x m = x ^ m.
Proof. induction m as [|m IH]; [reflexivity|]. cbn [npow pow]. rewrite IH. reflexivity. Qed.
Lemma nlit_R z : @nlit R RNum z 1 = IZR z.
Proof. cbn. field. Qed.

Lemma polyval_sum (a : list R) x : polyval a x = vsum (map (fun m => nth m a 0 * x ^ m) (seq 0 (length a))).
Proof.
  induction a as [|c a IH]; [reflexivity|]. cbn [polyval length seq map]. rewrite vsum_cons, <- seq_shift, map_map, IH. rnum.
  cbn [nth pow]. rewrite <- sum_scale. f_equal; [ring|]. apply sum_ext. intros m _. ring.
Qed.
Lemma polyval_vdot (a : list R) x p : length a = S p -> vdot a (map (npow x) (seq 0 (S p))) = polyval a x.
Proof.
  intros L. rewrite polyval_sum, L, vdot_comm, vdot_seq, vsum_seq. rewrite L, Nat.min_id. apply bsum_ext. intros i _. rewrite npow_R. ring.
Qed.

(** Division by X - r. *)
Fixpoint quot (r : R) (a : list R) : list R :=
  match a with
  | [] => []
  | c :: a' => match a' with [] => [] | _ => polyval a' r :: quot r a' end
  end.
Lemma quot_length r a : length (quot r a) = (length a - 1)%nat.
Proof. induction a as [|c [|d a] IH]; [reflexivity|reflexivity|]. cbn [quot length] in *. rewrite IH. lia. Qed.
Lemma quot_eval r a x : polyval a x - polyval a r = (x - r) * polyval (quot r a) x.
Proof.
  induction a as [|c a IH]; [cbn; ring|]. destruct a as [|d a]; [cbn; ring|].
  change (quot r (c :: d :: a)) with (polyval (d :: a) r :: quot r (d :: a)). cbn [polyval] in *. rnum.
  set (A := d + x * polyval a x) in *. set (B := d + r * polyval a r) in *. set (Q := polyval (quot r (d :: a)) x) in *.
  replace (c + x * A - (c + r * B)) with ((x - r) * B + x * (A - B)) by ring. rewrite IH. ring.
Qed.
Lemma quot_zero r a : (forall i, nth i (quot r a) 0 = 0) -> polyval a r = 0 -> forall i, nth i a 0 = 0.
Proof.
  induction a as [|c a IH]; intros Q E i; [destruct i; reflexivity|].
  destruct a as [|d a].
  - cbn in E. assert (c = 0) by lra. destruct i as [|[|i]]; cbn; auto.
  - assert (E' : polyval (d :: a) r = 0) by (apply (Q 0%nat)).
    assert (Z := IH (fun i => Q (S i)) E'). cbn [polyval] in E. change (polyval (d :: a) r) with (d + r * polyval a r) in E'. rnum.
    destruct i as [|i]; [cbn; nra|exact (Z i)].
Qed.

Lemma poly_roots (a : list R) : forall xs, NoDup xs -> (length a <= length xs)%nat -> (forall x, In x xs -> polyval a x = 0) -> forall i, nth i a 0 = 0.
Proof.
  remember (length a) as n eqn:L. revert a L. induction n as [|n IH]; intros a L xs D H Z i.
  { destruct a; [destruct i; reflexivity|discriminate]. }
  destruct xs as [|r xs]; [cbn in H; lia|]. inversion D as [|? ? N D']. subst.
  assert (Er : polyval a r = 0) by (apply Z; left; reflexivity).
  apply (quot_zero r); [|assumption]. apply (IH (quot r a)) with xs; [rewrite quot_length; lia|assumption|cbn in H; lia|].
  intros x Hx. assert (Q := quot_eval r a x). rewrite Er, (Z x (or_intror Hx)) in Q.
  assert (x - r <> 0). { intros E. apply N. replace r with x by lra. assumption. }
  apply Rmult_eq_reg_l with (x - r); lra.
Qed.

(** Equal values: equal coefficients. *)
Lemma polyval_sub (a b : list R) x : length a = length b -> polyval (vsub a b) x = polyval a x - polyval b x.
Proof.
  revert b. induction a as [|c a IH]; intros [|d b] L; try discriminate; [cbn; ring|].
  unfold vsub. cbn [map2 polyval]. fold (vsub a b). rewrite IH by (cbn in L; lia). rnum. ring.
Qed.
Lemma poly_unique (a b xs : list R) : length a = length b -> NoDup xs -> (length a <= length xs)%nat ->
  (forall x, In x xs -> polyval a x = polyval b x) -> a = b.
Proof.
  intros L D H E. apply vec_ext; [assumption|]. intros i.
  assert (Z := poly_roots (vsub a b) xs D).
  assert (L' : length (vsub a b) = length a) by (unfold vsub; rewrite map2_length; lia).
  specialize (Z ltac:(lia)). assert (E0 : forall x, In x xs -> polyval (vsub a b) x = 0).
  { intros x Hx. rewrite polyval_sub, (E x Hx) by assumption. ring. }
  specialize (Z E0 i). destruct (Nat.lt_ge_cases i (length a)) as [Hi|Hi]; [|rewrite !nth_overflow by lia; reflexivity].
  unfold vsub in Z. rewrite (nth_map2 _ a b i 0 0 0) in Z by lia. rnum. lra.
Qed.

(** Composition with an affine function. *)
Fixpoint psubst (al be : R) (a : list R) : list R :=
  match a with
  | [] => []
  | c :: a' => let q := psubst al be a' in vadd (c :: vscale q al) (vscale q be ++ [0])
  end.
Lemma psubst_length al be a : length (psubst al be a) = length a.
Proof.
  induction a as [|c a IH]; [reflexivity|]. cbn [psubst]. unfold vadd, vscale. rewrite map2_length, app_length. cbn [length].
  rewrite !map_length, IH. lia.
Qed.
Lemma polyval_add (a b : list R) x : length a = length b -> polyval (vadd a b) x = polyval a x + polyval b x.
Proof.
  revert b. induction a as [|c a IH]; intros [|d b] L; try discriminate; [cbn; ring|].
  unfold vadd. cbn [map2 polyval]. fold (vadd a b). rewrite IH by (cbn in L; lia). rnum. ring.
Qed.
Lemma polyval_scale (a : list R) s x : polyval (vscale a s) x = s * polyval a x.
Proof. induction a as [|c a IH]; [cbn; ring|]. unfold vscale in *. cbn [map polyval]. rewrite IH. rnum. ring. Qed.
Lemma polyval_app0 (a : list R) x : polyval (a ++ [0]) x = polyval a x.
Proof. induction a as [|c a IH]; [cbn; ring|]. cbn [app polyval]. rewrite IH. reflexivity. Qed.
Lemma psubst_eval (al be : R) a x : polyval (psubst al be a) x = polyval a (al * x + be).
Proof.
  induction a as [|c a IH]; [reflexivity|]. cbn [psubst]. rewrite polyval_add.
  2:{ unfold vscale. rewrite app_length. cbn [length]. rewrite !map_length. lia. }
  rewrite polyval_app0. cbn [polyval]. rewrite !polyval_scale, IH. rnum. ring.
Qed.

(** ** Derivatives *)

Lemma pder_nth (a : list R) k : nth k (pder a) 0 = INR (S k) * nth (S k) a 0.
Proof.
  destruct a as [|c a]; [destruct k; cbn [pder nth]; rewrite Rmult_0_r; reflexivity|]. cbn [pder nth].
  destruct (Nat.lt_ge_cases k (length a)) as [Hk|Hk].
  - rewrite (nth_map2 _ _ a k 0%nat 0 0) by (rewrite ?seq_length; lia). rewrite seq_nth by lia. cbn [Nat.add].
    rewrite nlit_R, <- INR_IZR_INZ. reflexivity.
  - rewrite !nth_overflow; [ring|lia|]. rewrite map2_length, seq_length. lia.
Qed.
Lemma pder_length (a : list R) : length (pder a) = (length a - 1)%nat.
Proof. destruct a as [|c a]; [reflexivity|]. cbn [pder length]. rewrite map2_length, seq_length. lia. Qed.

Lemma pder_shift (a : list R) x k :
  polyval (map2 (fun k c => nlit (Z.of_nat (S k)) 1 * c) (seq (S k) (length a)) a) x =
  polyval a x + polyval (map2 (fun k c => nlit (Z.of_nat (S k)) 1 * c) (seq k (length a)) a) x.
Proof.
  revert k. induction a as [|c a IH]; intros k; [cbn; ring|]. cbn [length seq map2 polyval]. rewrite IH, !nlit_R, <- !INR_IZR_INZ, (S_INR (S k)). rnum. ring.
Qed.
Lemma pder_eval (c : R) a x : polyval (pder (c :: a)) x = polyval a x + x * polyval (pder a) x.
Proof.
  destruct a as [|d a]; [cbn; ring|]. cbn [pder length seq map2 polyval]. rewrite pder_shift, nlit_R. rnum. cbn [Z.of_nat]. ring.
Qed.
Lemma polyval_pder (a : list R) (x : R) : is_derive (polyval a) x (polyval (pder a) x).
Proof.
  apply is_derive_Reals. induction a as [|c a IH].
  { exact (derivable_pt_lim_const 0 x). }
  rewrite pder_eval. replace (polyval a x + x * polyval (pder a) x) with (0 + (1 * polyval a x + x * polyval (pder a) x)) by ring.
  apply (derivable_pt_lim_plus (fun _ => c) (fun x => x * polyval a x)); [apply derivable_pt_lim_const|].
  apply (derivable_pt_lim_mult (fun x => x) (polyval a)); [apply derivable_pt_lim_id|exact IH].
Qed.

Lemma polyval_iter (a : list R) d x : Derive_n (polyval a) d x = polyval (Nat.iter d pder a) x.
Proof.
  revert x. induction d as [|d IH]; intros x; [reflexivity|]. cbn [Derive_n]. rewrite (Derive_ext _ _ _ IH).
  apply is_derive_unique. apply polyval_pder.
Qed.

Lemma iter_pder_nth (a : list R) d k : nth k (Nat.iter d pder a) 0 * INR (fact k) = INR (fact (k + d)) * nth (k + d) a 0.
Proof.
  revert k. induction d as [|d IH]; intros k; [rewrite Nat.add_0_r; cbn; ring|].
  change (Nat.iter (S d) pder a) with (pder (Nat.iter d pder a)). rewrite pder_nth. replace (k + S d)%nat with (S k + d)%nat by lia. rewrite <- IH.
  rewrite (fact_simpl k), mult_INR. ring.
Qed.
Lemma polyval_0 (a : list R) : polyval a 0 = nth 0 a 0.
Proof. destruct a as [|c a]; [reflexivity|]. cbn. ring. Qed.
Lemma polyval_iter_0 (a : list R) d : polyval (Nat.iter d pder a) 0 = INR (fact d) * nth d a 0.
Proof. rewrite polyval_0. pose proof (iter_pder_nth a d 0) as H. cbn [fact INR Nat.add] in H. lra. Qed.
Lemma nfact_R d : @nfact R RNum d = INR (fact d).
Proof.
  induction d as [|d IH]; [reflexivity|]. cbn [nfact]. rewrite IH, nlit_R, <- INR_IZR_INZ, fact_simpl, mult_INR. reflexivity.
Qed.

Lemma polyval_ex a k x : ex_derive_n (polyval a) k x.
Proof.
  destruct k as [|k]; [exact Logic.I|]. cbn [ex_derive_n]. exists (polyval (pder (Nat.iter k pder a)) x).
  apply (is_derive_ext (polyval (Nat.iter k pder a))); [intros t; symmetry; apply polyval_iter|]. apply polyval_pder.
Qed.

Lemma derive_shift a d be x : Derive_n (polyval a) d (x + be) = Derive_n (polyval (psubst 1 be a)) d x.
Proof.
  rewrite (Derive_n_ext (polyval (psubst 1 be a)) (fun t => polyval a (t + be))).
  - rewrite (Derive_n_comp_trans (polyval a) d x be). reflexivity.
  - intros t. rewrite psubst_eval. f_equal. ring.
Qed.
Lemma nth_app0 (a : list R) d : nth d (a ++ [0]) 0 = nth d a 0.
Proof.
  destruct (Nat.lt_ge_cases d (length a)) as [H|H]; [apply app_nth1; assumption|].
  rewrite app_nth2, (nth_overflow a) by assumption. destruct (d - length a)%nat as [|[|]]; reflexivity.
Qed.
Lemma psubst_scale_nth al a d : nth d (psubst al 0 a) 0 = al ^ d * nth d a 0.
Proof.
  revert d. induction a as [|c a IH]; intros d; [destruct d; cbn; ring|]. cbn [psubst].
  rewrite nth_vadd by (rewrite app_length; cbn [length]; rewrite !vscale_length; lia).
  rewrite nth_app0, nth_vscale. destruct d as [|d]; cbn [nth pow]; [ring|]. rewrite nth_vscale, IH. ring.
Qed.
Lemma derive_flip a d : Derive_n (polyval (psubst (-1) 0 a)) d 0 = (-1) ^ d * Derive_n (polyval a) d 0.
Proof. rewrite !polyval_iter, !polyval_iter_0, psubst_scale_nth. ring. Qed.

(** ** Least squares *)

Definition pairsum (g : R -> R -> R) (xs ys : list R) : R := vsum (map2 g xs ys).
Lemma vdot_map_l f (xs ys : list R) : vdot (map f xs) ys = pairsum (fun x y => f x * y) xs ys.
Proof.
  unfold pairsum. revert ys. induction xs as [|x xs IH]; intros [|y ys]; try reflexivity. cbn [map map2]. rewrite vdot_cons, vsum_cons, IH. reflexivity.
Qed.
Lemma pairsum_ext g h xs ys : (forall x y, g x y = h x y) -> pairsum g xs ys = pairsum h xs ys.
Proof.
  intros H. unfold pairsum. revert ys. induction xs as [|x xs IH]; intros [|y ys]; try reflexivity. cbn [map2]. rewrite !vsum_cons, IH, H. reflexivity.
Qed.
Lemma pairsum_bsum g n xs ys : pairsum (fun x y => bsum (fun m => g m x y) n) xs ys = bsum (fun m => pairsum (g m) xs ys) n.
Proof.
  unfold pairsum. revert ys. induction xs as [|x xs IH]; intros [|y ys]; cbn [map2]; try (rewrite <- (bsum_zero n) at 1; apply bsum_ext; reflexivity).
  rewrite vsum_cons, IH, <- bsum_plus. apply bsum_ext. intros m _. rewrite vsum_cons. reflexivity.
Qed.
Lemma pairsum_scale s g xs ys : pairsum (fun x y => s * g x y) xs ys = s * pairsum g xs ys.
Proof.
  unfold pairsum. revert ys. induction xs as [|x xs IH]; intros [|y ys]; cbn [map2]; try (unfold vsum; cbn; rnum; ring).
  rewrite !vsum_cons, IH. ring.
Qed.
Lemma polyval_bsum (a : list R) x : polyval a x = bsum (fun m => nth m a 0 * x ^ m) (length a).
Proof. rewrite polyval_sum. apply vsum_seq. Qed.

(** The adjoint of evaluation. *)
Lemma values_dot p xs (a : list R) ys : length a = S p ->
  vdot a (map (fun m => vdot (power_row xs m) ys) (seq 0 (S p))) = vdot (map (polyval a) xs) ys.
Proof.
  intros L. rewrite vdot_comm, vdot_seq, L, Nat.min_id, vdot_map_l.
  rewrite (pairsum_ext _ (fun x y => bsum (fun m => nth m a 0 * (x ^ m * y)) (S p))).
  - rewrite pairsum_bsum. apply bsum_ext. intros m _. rewrite pairsum_scale. unfold power_row. rewrite vdot_map_l, Rmult_comm.
    rewrite (pairsum_ext _ (fun x y => x ^ m * y)) by (intros x y; rewrite npow_R; reflexivity). reflexivity.
  - intros x y. rewrite polyval_bsum, L, Rmult_comm, <- bsum_scal. apply bsum_ext. intros m _. ring.
Qed.
Lemma gram_dot p xs (a : list R) m : length a = S p ->
  vdot (map (fun l => vdot (power_row xs m) (power_row xs l)) (seq 0 (S p))) a = vdot (power_row xs m) (map (polyval a) xs).
Proof.
  intros L. rewrite vdot_comm. rewrite (map_ext _ (fun l => vdot (power_row xs l) (power_row xs m))) by (intros; apply vdot_comm).
  rewrite values_dot by assumption. apply vdot_comm.
Qed.

Section Fit.
  Variables (xs : list R) (p : nat).
  Hypotheses (D : NoDup xs) (Hp : (S p <= length xs)%nat).
  Let V a := map (polyval a) xs.

  Lemma values_zero a : length a = S p -> vdot (V a) (V a) = 0 -> forall i, nth i a 0 = 0.
  Proof.
    intros L E. apply (poly_roots a xs D ltac:(lia)). intros x Hx. apply vdot_eq0 in E. unfold V in E.
    apply In_nth with (d := 0) in Hx as (k & Hk & <-). assert (N : nth k (map (polyval a) xs) (polyval a 0) = 0).
    { rewrite E, (nth_indep _ _ 0) by (rewrite repeat_length, map_length; assumption). apply nth_repeat. }
    rewrite map_nth in N. exact N.
  Qed.
  Lemma normal_length b : length (normal_system xs p b) = S p.
  Proof. unfold normal_system. rewrite map_length. apply seq_length. Qed.
  Lemma normal_rows b r : In r (normal_system xs p b) -> length r = S (S p).
  Proof. unfold normal_system. intros H. apply in_map_iff in H as (m & <- & _). rewrite app_length, map_length, seq_length. cbn. lia. Qed.
  Lemma normal_pos b : pos_def (S p) (normal_system xs p b).
  Proof.
    intros a L (i & Hi & N). unfold normal_system. rewrite map_map.
    rewrite (map_ext _ (fun m => vdot (power_row xs m) (V a))).
    2:{ intros m. rewrite vdot_app_one by (rewrite map_length, seq_length; lia). apply gram_dot. assumption. }
    rewrite values_dot by assumption. fold (V a). destruct (Rle_lt_or_eq_dec _ _ (vdot_nonneg (V a))) as [|E]; [assumption|].
    exfalso. apply N. apply values_zero; [assumption|congruence].
  Qed.
  Lemma normal_ok b : let z := gauss (S p) (normal_system xs p b) in
    length z = S p /\ forall m, (m <= p)%nat -> vdot (power_row xs m) (V z) = b m.
  Proof.
    intros z. destruct (gauss_ok (S p) (normal_system xs p b) (normal_length b) (normal_rows b) (normal_pos b)) as [L H]. fold z in L, H.
    split; [assumption|]. intros m Hm.
    set (row := map (fun l => vdot (power_row xs m) (power_row xs l)) (seq 0 (S p)) ++ [b m]).
    assert (I : In row (normal_system xs p b)).
    { unfold normal_system. apply in_map_iff. exists m. split; [reflexivity|]. apply in_seq. lia. }
    specialize (H row I). unfold row in H. rewrite vdot_app_one in H by (rewrite map_length, seq_length; lia).
    rewrite gram_dot in H by assumption. fold (V z) in H. rewrite H.
    rewrite app_nth2 by (rewrite map_length, seq_length; lia). rewrite map_length, seq_length, Nat.sub_diag. reflexivity.
  Qed.

  (** Weights against the values of a polynomial. *)
  Lemma normal_poly b q : length q = S p -> vdot (V (gauss (S p) (normal_system xs p b))) (V q) = vdot q (map b (seq 0 (S p))).
  Proof.
    intros L. destruct (normal_ok b) as [Lz H]. set (z := gauss _ _) in *. rewrite vdot_comm. unfold V at 1.
    rewrite <- (values_dot p) by assumption. f_equal. apply map_ext_in. intros m Hm. apply in_seq in Hm. apply H. lia.
  Qed.
  (** The residual is orthogonal to the polynomials. *)
  Lemma fit_orth ys q : length q = S p -> vdot (V q) (V (polyfit xs ys p)) = vdot (V q) ys.
  Proof.
    intros L. destruct (normal_ok (fun m => vdot (power_row xs m) ys)) as [La H]. fold (polyfit xs ys p) in La, H.
    transitivity (vdot q (map (fun m => vdot (power_row xs m) (V (polyfit xs ys p))) (seq 0 (S p)))); [symmetry; apply values_dot; assumption|].
    transitivity (vdot q (map (fun m => vdot (power_row xs m) ys) (seq 0 (S p)))); [|apply values_dot; assumption].
    f_equal. apply map_ext_in. intros m Hm. apply in_seq in Hm. apply H. lia.
  Qed.
  Lemma fit_length ys : length (polyfit xs ys p) = S p.
  Proof. apply (normal_ok (fun m => vdot (power_row xs m) ys)). Qed.
  (** Weights against data: the functional of the fitted polynomial. *)
  Lemma normal_data b ys :
    vdot (V (gauss (S p) (normal_system xs p b))) ys = vdot (polyfit xs ys p) (map b (seq 0 (S p))).
  Proof. rewrite <- fit_orth by apply normal_ok. apply normal_poly. apply fit_length. Qed.

  Definition misfit_l (ys a : list R) : R := vdot (vsub (V a) ys) (vsub (V a) ys).
  Lemma fit_best ys q : length ys = length xs -> length q = S p -> q <> polyfit xs ys p -> misfit_l ys (polyfit xs ys p) < misfit_l ys q.
  Proof.
    intros Ly L N. set (a := polyfit xs ys p) in *. assert (La : length a = S p) by apply fit_length.
    set (e := vsub q a). assert (Le : length e = S p) by (unfold e, vsub; rewrite map2_length; lia).
    assert (Ve : V q = vadd (V a) (V e)).
    { apply vec_ext; [unfold V, vadd; rewrite map2_length, !map_length; lia|]. intros i. rewrite nth_vadd by (unfold V; rewrite !map_length; reflexivity).
      destruct (Nat.lt_ge_cases i (length xs)) as [Hi|Hi]; [|unfold V; rewrite !nth_overflow by (rewrite map_length; assumption); lra].
      unfold V. rewrite !nth_map_R by assumption. unfold e. rewrite polyval_sub by congruence. ring. }
    assert (O := fit_orth ys e Le). fold a in O.
    assert (P : 0 < vdot (V e) (V e)).
    { destruct (Rle_lt_or_eq_dec _ _ (vdot_nonneg (V e))) as [|E]; [assumption|]. exfalso. apply N. apply vec_ext; [congruence|].
      intros i. assert (Z := values_zero e Le ltac:(congruence) i). unfold e in Z. rewrite nth_vsub in Z by congruence. lra. }
    unfold misfit_l. set (r := vsub (V a) ys). assert (E : vsub (V q) ys = vadd r (V e)).
    { rewrite Ve. unfold r. apply vec_ext; [unfold V, vadd, vsub; rewrite !map2_length, !map_length; lia|].
      intros i. rewrite nth_vsub, !nth_vadd, nth_vsub; unfold V, vadd, vsub; rewrite ?map2_length, ?map_length; try lia. ring. }
    assert (Lr : length r = length (V e)) by (unfold r, V, vsub; rewrite map2_length, !map_length; lia).
    rewrite E, vdot_add_l, !vdot_add_r by congruence. rewrite (vdot_comm r (V e)).
    assert (Z : vdot (V e) r = 0) by (unfold r; rewrite vdot_sub_r by (unfold V; rewrite map_length; lia); lra). lra.
  Qed.
End Fit.
(** ** Windows of integers *)

Lemma nodup_map_IZR {A} (g : A -> Z) l : (forall a b, In a l -> In b l -> g a = g b -> a = b) -> NoDup l -> NoDup (map (fun k => IZR (g k)) l).
Proof.
  intros H D. induction D as [|a l N D IH]; [constructor|]. cbn [map]. constructor.
  - intros I. apply in_map_iff in I as (b & E & Hb). apply eq_IZR in E. apply N. rewrite (H a b); [assumption|left; reflexivity|right; assumption|congruence].
  - apply IH. intros x y Hx Hy. apply H; right; assumption.
Qed.
Lemma psubst_back be a : psubst 1 be (psubst 1 (- be) a) = a.
Proof.
  apply (poly_unique _ _ (map (fun k => IZR (Z.of_nat k)) (seq 0 (length a)))).
  - rewrite !psubst_length. reflexivity.
  - apply (nodup_map_IZR Z.of_nat); [intros; lia|apply seq_NoDup].
  - rewrite !psubst_length, map_length, seq_length. lia.
  - intros x _. rewrite !psubst_eval. f_equal. ring.
Qed.

Definition misfitZ (f : Z -> R) (s : Z) (w : nat) (a : list R) : R :=
  vsum (map (fun k => (polyval a (IZR (s + Z.of_nat k)) - f (s + Z.of_nat k)%Z) ^ 2) (seq 0 w)).
Definition bestZ (f : Z -> R) (s : Z) (w p : nat) (a : list R) : Prop :=
  length a = S p /\ forall b, length b = S p -> b <> a -> misfitZ f s w a < misfitZ f s w b.
Lemma bestZ_unique f s w p a b : bestZ f s w p a -> bestZ f s w p b -> a = b.
Proof.
  intros [La Ha] [Lb Hb]. destruct (list_eq_dec Req_EM_T a b) as [|N]; [assumption|].
  specialize (Ha b Lb ltac:(congruence)). specialize (Hb a La N). lra.
Qed.

Lemma misfit_l_seq u v w a : misfit_l (map u (seq 0 w)) (map v (seq 0 w)) a = vsum (map (fun k => (polyval a (u k) - v k) ^ 2) (seq 0 w)).
Proof.
  unfold misfit_l. generalize (seq 0 w). intros l. induction l as [|k l IH]; [reflexivity|]. unfold vsub in *. cbn [map map2].
  rewrite vdot_cons, vsum_cons, IH. rnum. ring.
Qed.

Lemma shift_best xs ys p be f s w : NoDup xs -> (S p <= length xs)%nat -> length ys = length xs ->
  (forall b, misfitZ f s w b = misfit_l xs ys (psubst 1 be b)) -> bestZ f s w p (psubst 1 (- be) (polyfit xs ys p)).
Proof.
  intros D Hp Ly H. split; [rewrite psubst_length; apply fit_length; assumption|]. intros b Lb N.
  rewrite !H, psubst_back. apply fit_best; try assumption; [rewrite psubst_length; assumption|].
  intros E. apply N. rewrite <- E. rewrite <- (Ropp_involutive be) at 2. rewrite psubst_back. reflexivity.
Qed.
Lemma best_derive f s w p d be x a a0 : bestZ f s w p (psubst 1 (- be) a0) -> bestZ f s w p a ->
  Derive_n (polyval a) d (x + be) = Derive_n (polyval a0) d x.
Proof. intros H Ha. rewrite (bestZ_unique _ _ _ _ _ _ Ha H), derive_shift, psubst_back. reflexivity. Qed.

(** Ascending nodes 0..w-1, data f (s + k). *)
Lemma offsets_asc w : offsets w 0 = map (fun k => IZR (Z.of_nat k)) (seq 0 w).
Proof. unfold offsets. apply map_ext. intros k. rewrite nlit_R. f_equal. lia. Qed.
Lemma asc_best f s w p : (S p <= w)%nat ->
  bestZ f s w p (psubst 1 (- IZR s) (polyfit (offsets w 0) (map (fun k => f (s + Z.of_nat k)%Z) (seq 0 w)) p)).
Proof.
  intros Hp. rewrite offsets_asc. apply shift_best.
  - apply (nodup_map_IZR Z.of_nat); [intros; lia|apply seq_NoDup].
  - rewrite map_length, seq_length. assumption.
  - rewrite !map_length. reflexivity.
  - intros b. rewrite misfit_l_seq. apply sum_ext. intros k _. rewrite psubst_eval, plus_IZR. f_equal. f_equal. f_equal. ring.
Qed.
(** Descending nodes h..-h, data f (i + h - k). *)
Lemma offsets_desc h : rev (offsets (2 * h + 1) (Z.of_nat h)) = map (fun k => IZR (Z.of_nat h - Z.of_nat k)) (seq 0 (2 * h + 1)).
Proof.
  unfold offsets. rewrite <- map_rev, rev_seq_map. apply map_ext_in. intros k Hk. apply in_seq in Hk. rewrite nlit_R. f_equal. lia.
Qed.
Lemma desc_nodup h : NoDup (rev (offsets (T := R) (2 * h + 1) (Z.of_nat h))).
Proof. rewrite offsets_desc. apply (nodup_map_IZR (fun k => Z.of_nat h - Z.of_nat k)%Z); [intros; lia|apply seq_NoDup]. Qed.
Lemma desc_best f i h p : (S p <= 2 * h + 1)%nat ->
  bestZ f (i - Z.of_nat h) (2 * h + 1) p
    (psubst 1 (- IZR i) (polyfit (rev (offsets (2 * h + 1) (Z.of_nat h))) (map (fun k => f (i + Z.of_nat h - Z.of_nat k)%Z) (seq 0 (2 * h + 1))) p)).
Proof.
  intros Hp. apply shift_best.
  - apply desc_nodup.
  - rewrite offsets_desc, map_length, seq_length. assumption.
  - rewrite offsets_desc, !map_length. reflexivity.
  - intros b. rewrite offsets_desc, misfit_l_seq. unfold misfitZ. rewrite sum_reindex. apply sum_ext. intros k Hk. apply in_seq in Hk.
    rewrite psubst_eval. replace (i - Z.of_nat h + Z.of_nat (2 * h + 1 - 1 - k))%Z with (i + Z.of_nat h - Z.of_nat k)%Z by lia.
    f_equal. f_equal. f_equal. rewrite !minus_IZR, plus_IZR. ring.
Qed.

(** ** The filter *)

Lemma iter_pder_length (a : list R) d : length (Nat.iter d pder a) = (length a - d)%nat.
Proof.
  induction d as [|d IH]; [cbn; lia|]. change (Nat.iter (S d) pder a) with (pder (Nat.iter d pder a)). rewrite pder_length, IH. lia.
Qed.
Lemma derive_high (a : list R) d x : (length a <= d)%nat -> Derive_n (polyval a) d x = 0.
Proof.
  intros H. rewrite polyval_iter. assert (L := iter_pder_length a d). destruct (Nat.iter d pder a); [reflexivity|cbn in L; lia].
Qed.
Lemma half h : ((2 * h + 1) / 2)%nat = h.
Proof. replace (2 * h + 1)%nat with (1 + h * 2)%nat by lia. rewrite Nat.div_add by lia. reflexivity. Qed.

(** The weights that the filter uses. *)
Definition weights (w p d : nat) (delta : R) : list R := if Nat.ltb p d then repeat 0 w else savgol_coeffs w p d delta.
Lemma weights_length w p d delta : length (weights w p d delta) = w.
Proof.
  unfold weights. destruct (Nat.ltb p d); [apply repeat_length|]. unfold savgol_coeffs, offsets. rewrite map_length, rev_length, map_length. apply seq_length.
Qed.
Lemma vdot_repeat0 w (ys : list R) : vdot (repeat 0 w) ys = 0.
Proof. apply vdot_zero_l. Qed.
Lemma weights_dot h p d delta ys : (p < 2 * h + 1)%nat -> length ys = (2 * h + 1)%nat ->
  vdot (weights (2 * h + 1) p d delta) ys =
  Derive_n (polyval (polyfit (rev (offsets (2 * h + 1) (Z.of_nat h))) ys p)) d 0 / delta ^ d.
Proof.
  intros Hp Ly. assert (N : (S p <= length (rev (offsets (T := R) (2 * h + 1) (Z.of_nat h))))%nat) by (rewrite offsets_desc, map_length, seq_length; lia).
  unfold weights. destruct (Nat.ltb_spec p d) as [H|H].
  - rewrite vdot_zero_l, derive_high; [unfold Rdiv; ring|]. rewrite fit_length; [lia|apply desc_nodup|assumption].
  - unfold savgol_coeffs. rewrite half. set (xs := rev (offsets (2 * h + 1) (Z.of_nat h))) in *.
    set (b := fun m => if Nat.eqb m d then ndiv (nfact d) (npow delta d) else n0).
    destruct (normal_ok xs p (desc_nodup h) N b) as [Lz _].
    rewrite (map_ext _ (polyval (gauss (S p) (normal_system xs p b)))) by (intros x; apply polyval_vdot; assumption).
    rewrite normal_data by (try apply desc_nodup; assumption). rewrite vdot_comm, vdot_seq, fit_length, Nat.min_id by (try apply desc_nodup; assumption).
    etransitivity; [exact (bsum_one (ndiv (nfact d) (npow delta d)) (fun m => nth m (polyfit xs ys p) 0) d (S p))|].
    rewrite (proj2 (Nat.ltb_lt d (S p))) by lia. rewrite polyval_iter, polyval_iter_0, nfact_R, npow_R. rnum. unfold Rdiv. ring.
Qed.

Lemma conv_fit m cval (rows : list (list R)) n i j h p d delta a : (p < 2 * h + 1)%nat -> (j < n)%nat ->
  bestZ (fun t => nth j (ext_row m cval rows n t) 0) (Z.of_nat i - Z.of_nat h) (2 * h + 1) p a ->
  nth j (conv_row m cval (weights (2 * h + 1) p d delta) rows n i) 0 = Derive_n (polyval a) d (INR i) / delta ^ d.
Proof.
  intros Hp Hj B. rewrite conv_row_comb, comb_nth by assumption. rewrite weights_length, half.
  set (f := fun t => nth j (ext_row m cval rows n t) 0) in *.
  set (ys := map (fun k => f (Z.of_nat i + Z.of_nat h - Z.of_nat k)%Z) (seq 0 (2 * h + 1))).
  transitivity (vdot (weights (2 * h + 1) p d delta) ys).
  { unfold ys. rewrite vdot_comm, vdot_seq, weights_length, Nat.min_id, vsum_seq. apply bsum_ext. intros k _. unfold f. ring. }
  rewrite weights_dot by (unfold ys; rewrite ?map_length, ?seq_length; lia). f_equal.
  rewrite <- (Rplus_0_l (INR i)). symmetry. rewrite INR_IZR_INZ. eapply best_derive; [apply desc_best; lia|exact B].
Qed.
(** ** The edges *)

Lemma skipn_seq' k a n : skipn k (seq a n) = seq (a + k) (n - k).
Proof.
  revert a n. induction k as [|k IH]; intros a n; [rewrite Nat.add_0_r, Nat.sub_0_r; reflexivity|]. destruct n as [|n]; [reflexivity|].
  cbn [seq skipn Nat.sub]. rewrite IH. f_equal. lia.
Qed.
Lemma firstn_seq' k a n : (k <= n)%nat -> firstn k (seq a n) = seq a k.
Proof.
  revert a n. induction k as [|k IH]; intros a n H; [reflexivity|]. destruct n as [|n]; [lia|]. cbn [seq firstn]. rewrite IH by lia. reflexivity.
Qed.
Lemma rows_seq {A} (l : list A) d : map (fun k => nth k l d) (seq 0 (length l)) = l.
Proof.
  apply (nth_ext _ _ d d); [rewrite map_length; apply seq_length|]. intros i Hi. rewrite map_length, seq_length in Hi.
  rewrite (nth_indep _ d (nth 0 l d)) by (rewrite map_length, seq_length; assumption). rewrite (map_nth (fun k => nth k l d)), seq_nth by assumption. reflexivity.
Qed.
Lemma window_seq {A} (l : list A) d s w : (s + w <= length l)%nat -> firstn w (skipn s l) = map (fun k => nth (s + k) l d) (seq 0 w).
Proof.
  intros H. rewrite <- (rows_seq l d) at 1. rewrite skipn_map, skipn_seq', firstn_map, firstn_seq' by lia. cbn [Nat.add].
  rewrite <- (Nat.add_0_r s) at 1. rewrite <- (map_map (fun k => (s + k)%nat) (fun k => nth k l d)). f_equal.
  generalize 0%nat. induction w as [|w IH]; intros a; [reflexivity|]. cbn [seq map]. rewrite Nat.add_succ_r || idtac. f_equal.
  rewrite <- IH; [f_equal; lia|lia].
Qed.

Definition edge_row (rows : list (list R)) (ncol w p d : nat) (delta : R) (start i : nat) : list R :=
  let win := firstn w (skipn start rows) in
  let polys := map (fun col => Nat.iter d pder (polyfit (offsets w 0) (map (fun r => nth col r n0) win) p)) (seq 0 ncol) in
  map (fun a => ndiv (polyval a (nlit (Z.of_nat i - Z.of_nat start) 1)) (npow delta d)) polys.
Lemma fit_edge_rows rows ncol w p d delta start i0 m :
  fit_edge rows ncol w p d delta start i0 m = map (edge_row rows ncol w p d delta start) (seq i0 m).
Proof. reflexivity. Qed.
Lemma edge_row_length rows ncol w p d delta start i : length (edge_row rows ncol w p d delta start i) = ncol.
Proof. unfold edge_row. rewrite !map_length. apply seq_length. Qed.

(** Column j of the data. *)
Definition col (rows : list (list R)) (j : nat) (t : Z) : R := nth j (nth (Z.to_nat t) rows []) 0.

Lemma edge_fit rows ncol w p d delta start i j a : (start + w <= length rows)%nat -> (S p <= w)%nat -> (j < ncol)%nat ->
  bestZ (col rows j) (Z.of_nat start) w p a ->
  nth j (edge_row rows ncol w p d delta start i) 0 = Derive_n (polyval a) d (INR i) / delta ^ d.
Proof.
  intros Hw Hp Hj B. unfold edge_row. rewrite map_map, nth_map_seq by assumption. rnum. rewrite nlit_R, npow_R, <- polyval_iter. f_equal.
  rewrite (window_seq rows [] start w Hw), map_map.
  rewrite (map_ext _ (fun k => col rows j (Z.of_nat start + Z.of_nat k)%Z)).
  2:{ intros k. unfold col. do 2 f_equal. lia. }
  replace (INR i) with (IZR (Z.of_nat i - Z.of_nat start) + IZR (Z.of_nat start)) by (rewrite minus_IZR, INR_IZR_INZ; ring).
  symmetry. eapply best_derive; [apply asc_best; assumption|exact B].
Qed.

(** ** The results of savgol_filter *)

Definition interp_row (rows : list (list R)) (ncol h p d : nat) (delta : R) (i : nat) : list R :=
  if Nat.ltb i h then edge_row rows ncol (2 * h + 1) p d delta 0 i
  else if Nat.ltb i (length rows - h) then conv_row BConstant 0 (weights (2 * h + 1) p d delta) rows ncol i
  else edge_row rows ncol (2 * h + 1) p d delta (length rows - (2 * h + 1)) i.
Definition sg_row (mode : option bmode) (cval : R) (rows : list (list R)) (ncol h p d : nat) (delta : R) (i : nat) : list R :=
  match mode with
  | Some b => conv_row b cval (weights (2 * h + 1) p d delta) rows ncol i
  | None => interp_row rows ncol h p d delta i
  end.
Lemma sg_row_length mode cval rows ncol h p d delta i : length (sg_row mode cval rows ncol h p d delta i) = ncol.
Proof.
  destruct mode; cbn [sg_row]; [rewrite conv_row_comb; apply comb_length|]. unfold interp_row.
  destruct (Nat.ltb _ _); [apply edge_row_length|]. destruct (Nat.ltb _ _); [rewrite conv_row_comb; apply comb_length|apply edge_row_length].
Qed.

Definition sg_mode (s : string) : option (option bmode) :=
  if String.eqb s "mirror" then Some (Some BMirror) else if String.eqb s "constant" then Some (Some BConstant)
  else if String.eqb s "nearest" then Some (Some BNearest) else if String.eqb s "wrap" then Some (Some BWrap)
  else if String.eqb s "interp" then Some None else None.

Lemma npow_nonzero (delta : R) d : delta <> 0 -> npow delta d <> 0.
Proof. intros H. rewrite npow_R. apply pow_nonzero. assumption. Qed.

Lemma savgol_scipy_ok h p d delta mode m cval ncol (rows : list (list R)) :
  (p < 2 * h + 1)%nat -> (delta <> 0 \/ d = 0%nat \/ (p < d)%nat) -> sg_mode mode = Some m -> (m = None -> (2 * h + 1 <= length rows)%nat) ->
  savgol_scipy (2 * Z.of_nat h + 1) (Z.of_nat p) (Z.of_nat d) delta mode cval ncol rows
  = Ok (mkNd [length rows; ncol] (concat (map (sg_row m cval rows ncol h p d delta) (seq 0 (length rows))))).
Proof.
  intros Hp Hd Hm Hn. unfold savgol_scipy.
  assert (Em : existsb (String.eqb mode) savgol_modes = true).
  { unfold sg_mode in Hm. unfold savgol_modes. cbn [existsb].
    destruct (String.eqb mode "mirror"), (String.eqb mode "constant"), (String.eqb mode "nearest"), (String.eqb mode "wrap"), (String.eqb mode "interp"); (reflexivity || discriminate). }
  rewrite Em. cbn [negb].
  rewrite (proj2 (Z.leb_gt (2 * Z.of_nat h + 1) (Z.of_nat p))) by lia.
  assert (E2 : ((2 * Z.of_nat h + 1) mod 2 = 1)%Z) by (replace (2 * Z.of_nat h + 1)%Z with (1 + Z.of_nat h * 2)%Z by lia; rewrite Z.mod_add by lia; reflexivity).
  rewrite E2. change (1 =? 0)%Z with false. rewrite (proj2 (Z.leb_gt (2 * Z.of_nat h + 1) 0)) by lia. cbn [orb].
  replace (Z.to_nat (2 * Z.of_nat h + 1)) with (2 * h + 1)%nat by lia. rewrite !Nat2Z.id.
  assert (C : (if (Z.of_nat p <? Z.of_nat d)%Z then Ok (repeat n0 (2 * h + 1))
               else if (Z.of_nat d <? 0)%Z then Raise ValueError
               else if neqb (npow delta d) n0 then Raise OtherError
               else Ok (savgol_coeffs (2 * h + 1) p d delta)) = Ok (weights (2 * h + 1) p d delta)).
  { unfold weights. destruct (Z.ltb_spec (Z.of_nat p) (Z.of_nat d)) as [H|H].
    - rewrite (proj2 (Nat.ltb_lt p d)) by lia. reflexivity.
    - rewrite (proj2 (Nat.ltb_ge p d)) by lia. rewrite (proj2 (Z.ltb_ge (Z.of_nat d) 0)) by lia.
      replace (neqb (npow delta d) n0) with false; [reflexivity|]. symmetry.
      destruct (neqb (npow delta d) n0) eqn:E; [|reflexivity]. exfalso. apply Reqb_iff in E.
      destruct Hd as [Hd|[->|Hd]]; [revert E; apply npow_nonzero; assumption|cbn in E; lra|lia]. }
  rewrite C. cbn [rbind]. clear C.
  assert (W : exists x l, weights (2 * h + 1) p d delta = x :: l).
  { assert (L := weights_length (2 * h + 1) p d delta). destruct (weights _ _ _ _) as [|x l]; [cbn in L; lia|exists x, l; reflexivity]. }
  assert (CV : forall b s cv, bmode_of s = Ok b -> convolve1d rows ncol DFloat (weights (2 * h + 1) p d delta) s cv =
    Ok (map (conv_row b cv (weights (2 * h + 1) p d delta) rows ncol) (seq 0 (length rows)))).
  { intros b s cv Hb. unfold convolve1d. destruct W as (x & l & ->). rewrite Hb. cbn [rbind]. f_equal. apply map_ext. intros i. apply map_id. }
  destruct (String.eqb_spec mode "interp") as [->|Ni].
  - injection Hm as <-. specialize (Hn eq_refl). rewrite (proj2 (Nat.ltb_ge (length rows) (2 * h + 1))) by lia.
    rewrite (CV BConstant) by reflexivity. cbn [rbind]. rewrite (proj2 (Z.ltb_ge (Z.of_nat p) 0)) by lia. rewrite half.
    assert (SQ : seq 0 (length rows) = seq 0 h ++ seq h (length rows - h - h) ++ seq (length rows - h) h).
    { replace (length rows - h)%nat with (0 + h + (length rows - h - h))%nat at 2 by lia. rewrite <- (seq_app _ _ (0 + h)), <- seq_app. f_equal. lia. }
    do 3 f_equal. rewrite !fit_edge_rows, skipn_map, skipn_seq', firstn_map, firstn_seq' by lia. cbn [Nat.add].
    rewrite SQ, !map_app. cbn [sg_row].
    f_equal; [|f_equal].
    + apply map_ext_in. intros i Hi. apply in_seq in Hi. unfold sg_row, interp_row. rewrite (proj2 (Nat.ltb_lt i h)) by lia. reflexivity.
    + apply map_ext_in. intros i Hi. apply in_seq in Hi. unfold sg_row, interp_row. rewrite (proj2 (Nat.ltb_ge i h)), (proj2 (Nat.ltb_lt i _)) by lia. reflexivity.
    + apply map_ext_in. intros i Hi. apply in_seq in Hi.
      unfold sg_row, interp_row. rewrite (proj2 (Nat.ltb_ge i h)), (proj2 (Nat.ltb_ge i _)) by lia. reflexivity.
  - assert (B : exists b, bmode_of mode = Ok b /\ m = Some b).
    { unfold sg_mode in Hm. destruct (String.eqb_spec mode "mirror") as [->|]; [injection Hm as <-; eexists; split; reflexivity|].
      destruct (String.eqb_spec mode "constant") as [->|]; [injection Hm as <-; eexists; split; reflexivity|].
      destruct (String.eqb_spec mode "nearest") as [->|]; [injection Hm as <-; eexists; split; reflexivity|].
      destruct (String.eqb_spec mode "wrap") as [->|]; [injection Hm as <-; eexists; split; reflexivity|].
      destruct (String.eqb_spec mode "interp"); [contradiction|discriminate]. }
    destruct B as (b & Hb & ->). rewrite (CV b _ _ Hb). reflexivity.
Qed.

Lemma interp_fit rows ncol h p d delta i j a : (p < 2 * h + 1)%nat -> (2 * h + 1 <= length rows)%nat -> (i < length rows)%nat -> (j < ncol)%nat ->
  bestZ (col rows j) (Z.max 0 (Z.min (Z.of_nat i - Z.of_nat h) (Z.of_nat (length rows) - (2 * Z.of_nat h + 1)))) (2 * h + 1) p a ->
  nth j (interp_row rows ncol h p d delta i) 0 = Derive_n (polyval a) d (INR i) / delta ^ d.
Proof.
  intros Hp Hn Hi Hj B. unfold interp_row. destruct (Nat.ltb_spec i h) as [H|H].
  - apply edge_fit; try lia. replace (Z.of_nat 0) with (Z.max 0 (Z.min (Z.of_nat i - Z.of_nat h) (Z.of_nat (length rows) - (2 * Z.of_nat h + 1)))) by lia. exact B.
  - destruct (Nat.ltb_spec i (length rows - h)) as [H2|H2].
    + apply conv_fit; try lia.
      replace (Z.max 0 (Z.min (Z.of_nat i - Z.of_nat h) (Z.of_nat (length rows) - (2 * Z.of_nat h + 1)))) with (Z.of_nat i - Z.of_nat h)%Z in B by lia.
      destruct B as [L B]. split; [exact L|]. intros b Lb Nb. specialize (B b Lb Nb).
      assert (E : forall b, misfitZ (fun t => nth j (ext_row BConstant 0 rows ncol t) 0) (Z.of_nat i - Z.of_nat h) (2 * h + 1) b
        = misfitZ (col rows j) (Z.of_nat i - Z.of_nat h) (2 * h + 1) b).
      { intros c. apply sum_ext. intros k Hk. apply in_seq in Hk. unfold ext_row. rewrite ext_index_in by lia. reflexivity. }
      rewrite !E. exact B.
    + apply edge_fit; try lia.
      replace (Z.of_nat (length rows - (2 * h + 1))) with (Z.max 0 (Z.min (Z.of_nat i - Z.of_nat h) (Z.of_nat (length rows) - (2 * Z.of_nat h + 1)))) by lia. exact B.
Qed.
