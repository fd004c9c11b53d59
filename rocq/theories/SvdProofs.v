(** Every real matrix has a singular value decomposition: a Lipschitz function
    attains its maximum on a cube, so the stretch |Ax|/|x| attains its maximum,
    and the orthogonal complement is treated in the same way. *)
From Coq Require Import ZArith List Bool Arith Lia Reals Lra Psatz.
From Verif Require Import Num Py Numeric Curve Vec Spec.
From Verif Require Import CurveProofs3 VecFacts RankProofs RigidProofs OrthoProofs.
Import ListNotations.
Local Open Scope R_scope.

(** ** The maximum on a cube *)

Definition cube (n : nat) (x : list R) : Prop := length x = n /\ forall a, In a x -> -1 <= a <= 1.

Definition gap1 (x y : list R) : R := fold_right Rplus 0 (map2 (fun a b => Rabs (a - b)) x y).

Lemma gap1_cons a b x y : gap1 (a :: x) (b :: y) = Rabs (a - b) + gap1 x y.
Proof. reflexivity. Qed.
Lemma gap1_nonneg x y : 0 <= gap1 x y.
Proof.
  revert y. induction x as [|a x IH]; intros [|b y]; try (cbn; lra).
  rewrite gap1_cons. pose proof (Rabs_pos (a - b)). pose proof (IH y). lra.
Qed.
Lemma gap1_refl x : gap1 x x = 0.
Proof. induction x as [|a x IH]; [reflexivity|]. rewrite gap1_cons, IH, Rminus_eq_0, Rabs_R0. lra. Qed.

Definition clip (t : R) : R := Rmax (-1) (Rmin 1 t).
Lemma clip_range t : -1 <= clip t <= 1.
Proof. unfold clip, Rmax, Rmin. destruct (Rle_dec 1 t); destruct (Rle_dec (-1) _); lra. Qed.
Lemma clip_id t : -1 <= t <= 1 -> clip t = t.
Proof. unfold clip, Rmax, Rmin. intros H. destruct (Rle_dec 1 t); destruct (Rle_dec (-1) _); lra. Qed.
Lemma clip_gap s t : Rabs (clip s - clip t) <= Rabs (s - t).
Proof.
  unfold clip, Rmax, Rmin. destruct (Rle_dec 1 t), (Rle_dec 1 s); repeat destruct (Rle_dec (-1) _);
    unfold Rabs; repeat destruct (Rcase_abs _); lra.
Qed.

Lemma cube_cons n a x : cube (S n) (a :: x) <-> -1 <= a <= 1 /\ cube n x.
Proof.
  unfold cube. cbn [length In]. split.
  - intros [L H]. split; [apply H; auto|]. split; [lia|auto].
  - intros [Ha [L H]]. split; [lia|]. intros b [<-|Hb]; auto.
Qed.

Lemma lipschitz_continuous (g : R -> R) L : 0 <= L -> (forall s t, Rabs (g s - g t) <= L * Rabs (s - t)) -> continuity g.
Proof.
  intros HL H x e He. exists (e / (L + 1)). split; [apply Rdiv_lt_0_compat; lra|].
  intros y [_ Hy]. cbn in *. unfold R_dist in *. eapply Rle_lt_trans; [apply H|].
  assert (0 <= Rabs (y - x)) by apply Rabs_pos.
  apply Rle_lt_trans with (L * (e / (L + 1))).
  - apply Rmult_le_compat_l; lra.
  - assert (0 < e / (L + 1)) by (apply Rdiv_lt_0_compat; lra).
    replace e with ((L + 1) * (e / (L + 1))) at 2 by (field; lra). lra.
Qed.

Lemma cube_max n : forall (f : list R -> R) L, 0 <= L ->
  (forall x y, cube n x -> cube n y -> Rabs (f x - f y) <= L * gap1 x y) ->
  exists x, cube n x /\ forall y, cube n y -> f y <= f x.
Proof.
  induction n as [|n IH]; intros f L HL Hf.
  - exists []. split; [split; [reflexivity|intros a []]|]. intros [|b y] [Ly _]; [lra|discriminate].
  - assert (MX : forall t, exists y, cube n y /\ forall z, cube n z -> f (clip t :: z) <= f (clip t :: y)).
    { intros t. apply (IH (fun z => f (clip t :: z)) L HL). intros x y Hx Hy.
      eapply Rle_trans; [apply Hf; apply cube_cons; split; auto using clip_range|].
      rewrite gap1_cons, Rminus_eq_0, Rabs_R0. lra. }
    assert (LUB : forall t, { m : R | is_lub (fun r => exists y, cube n y /\ r = f (clip t :: y)) m }).
    { intros t. apply completeness.
      - destruct (MX t) as (y & _ & Hm). exists (f (clip t :: y)). intros r (z & Hz & Er). rewrite Er. apply Hm, Hz.
      - destruct (MX t) as (y & Hy & _). exists (f (clip t :: y)), y. auto. }
    set (g := fun t => proj1_sig (LUB t)).
    assert (G1 : forall t y, cube n y -> f (clip t :: y) <= g t).
    { intros t y Hy. destruct (proj2_sig (LUB t)) as [Hm _]. apply Hm. eauto. }
    assert (G2 : forall t, exists y, cube n y /\ g t = f (clip t :: y)).
    { intros t. destruct (MX t) as (y & Hy & Hm). exists y. split; [exact Hy|]. apply Rle_antisym; [|apply G1, Hy].
      destruct (proj2_sig (LUB t)) as [_ Hl]. apply Hl. intros r (z & Hz & Er). rewrite Er. apply Hm, Hz. }
    assert (HALF : forall s t, g s - g t <= L * Rabs (s - t)).
    { intros s t. destruct (G2 s) as (y & Hy & E). rewrite E. pose proof (G1 t y Hy).
      assert (K : Rabs (f (clip s :: y) - f (clip t :: y)) <= L * gap1 (clip s :: y) (clip t :: y))
        by (apply Hf; apply cube_cons; auto using clip_range).
      rewrite gap1_cons, gap1_refl in K. pose proof (Rle_abs (f (clip s :: y) - f (clip t :: y))).
      assert (L * (Rabs (clip s - clip t) + 0) <= L * Rabs (s - t)).
      { apply Rmult_le_compat_l; [exact HL|]. pose proof (clip_gap s t). lra. }
      lra. }
    assert (C : continuity g).
    { apply (lipschitz_continuous g L HL). intros s t. apply Rabs_le. pose proof (HALF s t). pose proof (HALF t s).
      rewrite (Rabs_minus_sym t s) in *. lra. }
    destruct (continuity_ab_maj g (-1) 1 ltac:(lra) (fun c _ => C c)) as (m & Hm & Rm).
    destruct (G2 m) as (y & Hy & E). exists (m :: y). split; [apply cube_cons; auto|].
    intros [|t z] Hz; [destruct Hz; discriminate|]. apply cube_cons in Hz. destruct Hz as [Ht Hz].
    pose proof (G1 t z Hz) as K1. rewrite clip_id in K1 by exact Ht. pose proof (Hm t Ht) as K2.
    rewrite E, clip_id in K2 by exact Rm. lra.
Qed.

(** ** The direction of largest stretch *)

Definition quad (A : list (list R)) (x : list R) : R := vdot (mv A x) (mv A x).

Lemma quad_nonneg A x : 0 <= quad A x.
Proof. apply vdot_nonneg. Qed.
Lemma quad_scale A x c : quad A (vscale x c) = c * c * quad A x.
Proof. unfold quad. rewrite mv_scale, vdot_scale_l, vdot_scale_r. ring. Qed.

Definition size1 (r : list R) : R := fold_right Rplus 0 (map Rabs r).
Lemma size1_nonneg r : 0 <= size1 r.
Proof. induction r as [|a r IH]; cbn; [lra|]. pose proof (Rabs_pos a). unfold size1 in IH. lra. Qed.

Lemma cube_bound n x : cube n x -> forall i, Rabs (nth i x 0) <= 1.
Proof.
  intros [_ H] i. destruct (nth_in_or_default i x 0) as [K|K]; [|rewrite K, Rabs_R0; lra].
  apply Rabs_le. apply H in K. lra.
Qed.

(** Bounds for inner products with differences and sums of cube points. *)
Lemma dot_diff_bound (r x y : list R) : length r = length x -> length x = length y ->
  Rabs (vdot r x - vdot r y) <= size1 r * gap1 x y.
Proof.
  revert x y. induction r as [|a r IH]; intros [|b x] [|c y] L1 L2; try discriminate.
  - cbn. rewrite Rminus_eq_0, Rabs_R0. lra.
  - rewrite !vdot_cons, gap1_cons. cbn [size1 map fold_right]. fold (size1 r).
    assert (E := IH x y ltac:(cbn in L1; lia) ltac:(cbn in L2; lia)).
    replace (a * b + vdot r x - (a * c + vdot r y)) with (a * (b - c) + (vdot r x - vdot r y)) by ring.
    eapply Rle_trans; [apply Rabs_triang|]. rewrite Rabs_mult.
    pose proof (Rabs_pos a). pose proof (Rabs_pos (b - c)). pose proof (size1_nonneg r). pose proof (gap1_nonneg x y).
    fold (size1 (a :: r)). nra.
Qed.
Lemma dot_bound n (r x : list R) : cube n x -> Rabs (vdot r x) <= size1 r.
Proof.
  revert n x. induction r as [|a r IH]; intros n x C.
  - destruct x; cbn; rewrite Rabs_R0; lra.
  - destruct x as [|b x]; [cbn; rewrite Rabs_R0; pose proof (Rabs_pos a); pose proof (size1_nonneg r); unfold size1 in *; lra|].
    destruct n as [|n]; [destruct C; discriminate|]. apply cube_cons in C. destruct C as [Hb C].
    rewrite vdot_cons. cbn [size1 map fold_right]. fold (size1 r). eapply Rle_trans; [apply Rabs_triang|].
    rewrite Rabs_mult. pose proof (IH n x C). pose proof (Rabs_pos a). assert (Rabs b <= 1) by (apply Rabs_le; lra).
    fold (size1 (a :: r)). nra.
Qed.

Lemma vdot_diff_sq (x y : list R) : length x = length y -> vdot x x - vdot y y = vdot (vsub x y) (vadd x y).
Proof. intros H. rewrite vdot_sub_l by exact H. rewrite !vdot_add_r by exact H. rewrite (vdot_comm y x). ring. Qed.

Lemma norm_lipschitz n x y : cube n x -> cube n y -> Rabs (vdot x x - vdot y y) <= 2 * gap1 x y.
Proof.
  revert x y. induction n as [|n IH]; intros [|a x] [|b y] Cx Cy; try (destruct Cx; discriminate); try (destruct Cy; discriminate).
  - cbn. rewrite Rminus_eq_0, Rabs_R0. lra.
  - apply cube_cons in Cx, Cy. destruct Cx as [Ha Cx], Cy as [Hb Cy]. rewrite !vdot_cons, gap1_cons.
    pose proof (IH x y Cx Cy) as E.
    replace (a * a + vdot x x - (b * b + vdot y y)) with ((a - b) * (a + b) + (vdot x x - vdot y y)) by ring.
    eapply Rle_trans; [apply Rabs_triang|]. rewrite Rabs_mult.
    assert (Rabs (a + b) <= 2) by (apply Rabs_le; lra). pose proof (Rabs_pos (a - b)). nra.
Qed.

Fixpoint lipq (A : list (list R)) : R :=
  match A with [] => 0 | r :: A' => 2 * (size1 r * size1 r) + lipq A' end.
Lemma lipq_nonneg A : 0 <= lipq A.
Proof. induction A as [|r A IH]; cbn; [lra|]. pose proof (size1_nonneg r). nra. Qed.

Lemma quad_cons r A x : quad (r :: A) x = vdot r x * vdot r x + quad A x.
Proof. reflexivity. Qed.

Lemma quad_lipschitz n A x y : all_len n A -> cube n x -> cube n y -> Rabs (quad A x - quad A y) <= lipq A * gap1 x y.
Proof.
  intros L Cx Cy. induction A as [|r A IH].
  - unfold quad. cbn. rewrite Rminus_eq_0, Rabs_R0. lra.
  - apply all_len_cons in L. destruct L as [Lr L]. specialize (IH L). rewrite !quad_cons. cbn [lipq].
    replace (vdot r x * vdot r x + quad A x - (vdot r y * vdot r y + quad A y))
      with ((vdot r x - vdot r y) * (vdot r x + vdot r y) + (quad A x - quad A y)) by ring.
    eapply Rle_trans; [apply Rabs_triang|]. rewrite Rabs_mult.
    assert (D : Rabs (vdot r x - vdot r y) <= size1 r * gap1 x y).
    { apply dot_diff_bound; [rewrite Lr; symmetry; apply Cx|]. transitivity n; [apply Cx|symmetry; apply Cy]. }
    assert (B : Rabs (vdot r x + vdot r y) <= 2 * size1 r).
    { eapply Rle_trans; [apply Rabs_triang|]. pose proof (dot_bound n r x Cx). pose proof (dot_bound n r y Cy). lra. }
    pose proof (Rabs_pos (vdot r x - vdot r y)). pose proof (size1_nonneg r). pose proof (gap1_nonneg x y).
    assert (Rabs (vdot r x - vdot r y) * Rabs (vdot r x + vdot r y) <= (size1 r * gap1 x y) * (2 * size1 r)).
    { apply Rmult_le_compat; try assumption. apply Rabs_pos. }
    nra.
Qed.

(** |Ax|^2 <= (sum of |row|^2) |x|^2. *)
Fixpoint frob (A : list (list R)) : R := match A with [] => 0 | r :: A' => vdot r r + frob A' end.
Lemma frob_nonneg A : 0 <= frob A.
Proof. induction A as [|r A IH]; cbn [frob]; [lra|]. pose proof (vdot_nonneg r). lra. Qed.
Lemma quad_frob n A x : all_len n A -> length x = n -> quad A x <= frob A * vdot x x.
Proof.
  intros L Lx. induction A as [|r A IH].
  - unfold quad. cbn. lra.
  - apply all_len_cons in L. destruct L as [Lr L]. specialize (IH L). rewrite quad_cons. cbn [frob].
    pose proof (cauchy_schwarz r x ltac:(congruence)). lra.
Qed.

Lemma norm_cube n x : length x = n -> vdot x x <= 1 -> cube n x.
Proof.
  intros L H. split; [exact L|]. intros a Ha. apply in_split in Ha. destruct Ha as (p & q & ->).
  assert (K : a * a <= vdot (p ++ a :: q) (p ++ a :: q)).
  { clear. induction p as [|b p IH]; cbn [app]; rewrite vdot_cons; [pose proof (vdot_nonneg q); lra|]. nra. }
  nra.
Qed.

Lemma max_direction n A : (0 < n)%nat -> all_len n A ->
  exists v, length v = n /\ vdot v v = 1 /\ forall y, length y = n -> quad A y <= quad A v * vdot y y.
Proof.
  intros Hn LA.
  destruct (extend n [] ltac:(split; [intros b []|cbn; intros; lia]) Hn) as (e & Le & Ue & _).
  set (K := frob A + 1). assert (HK : 0 < K) by (unfold K; pose proof (frob_nonneg A); lra).
  set (h := fun x => quad A x - K * (vdot x x * vdot x x)).
  assert (NB : forall x, cube n x -> 0 <= vdot x x <= INR n).
  { intros x. split; [apply vdot_nonneg|]. revert x H. clear. induction n as [|n IH]; intros [|a x] C; try (destruct C; discriminate).
    - cbn. lra.
    - apply cube_cons in C. destruct C as [Ha C]. rewrite vdot_cons, S_INR. specialize (IH x C). nra. }
  destruct (cube_max n h (lipq A + 4 * K * INR n)) as (x & Cx & Mx).
  { pose proof (lipq_nonneg A). pose proof (pos_INR n). nra. }
  { intros x y Cx Cy. unfold h.
    replace (quad A x - K * (vdot x x * vdot x x) - (quad A y - K * (vdot y y * vdot y y)))
      with ((quad A x - quad A y) + - (K * ((vdot x x - vdot y y) * (vdot x x + vdot y y)))) by ring.
    eapply Rle_trans; [apply Rabs_triang|]. rewrite Rabs_Ropp, !Rabs_mult, (Rabs_right K) by lra.
    pose proof (quad_lipschitz n A x y LA Cx Cy). pose proof (norm_lipschitz n x y Cx Cy).
    destruct (NB x Cx), (NB y Cy). rewrite (Rabs_right (vdot x x + vdot y y)) by lra.
    pose proof (gap1_nonneg x y). pose proof (Rabs_pos (vdot x x - vdot y y)).
    assert (Rabs (vdot x x - vdot y y) * (vdot x x + vdot y y) <= (2 * gap1 x y) * (2 * INR n)) by (apply Rmult_le_compat; lra).
    nra. }
  (* every direction reaches a height of (quotient)^2 / 4K inside the cube *)
  assert (UP : forall y, length y = n -> vdot y y = 1 -> quad A y * quad A y <= 4 * K * h x).
  { intros y Ly Uy. set (q := quad A y). assert (Q0 : 0 <= q) by apply quad_nonneg.
    assert (Q1 : q <= K). { unfold q, K. pose proof (quad_frob n A y LA Ly). rewrite Uy in *. lra. }
    set (t := sqrt (q / (2 * K))). assert (T : t * t = q / (2 * K)).
    { apply sqrt_sqrt. apply Rmult_le_pos; [exact Q0|]. left. apply Rinv_0_lt_compat. lra. }
    assert (Ct : cube n (vscale y t)).
    { apply norm_cube; [rewrite vscale_length; exact Ly|]. rewrite vdot_scale_l, vdot_scale_r, Uy, Rmult_1_r, T.
      apply Rmult_le_reg_r with (2 * K); [lra|]. unfold Rdiv. rewrite Rmult_assoc, Rinv_l by lra. lra. }
    pose proof (Mx _ Ct) as M. unfold h at 1 in M. rewrite quad_scale, vdot_scale_l, vdot_scale_r, Uy, Rmult_1_r in M.
    fold q in M. rewrite T in M.
    replace (q / (2 * K) * q - K * (q / (2 * K) * (q / (2 * K)))) with (q * q / (4 * K)) in M by (field; lra).
    apply (Rmult_le_compat_l (4 * K)) in M; [|lra]. replace (4 * K * (q * q / (4 * K))) with (q * q) in M by (field; lra). exact M. }
  destruct (Req_dec (vdot x x) 0) as [Z|Z].
  - (* the maximum is at the origin: A is zero *)
    exists e. split; [exact Le|]. split; [exact Ue|]. intros y Ly.
    assert (X0 : h x = 0).
    { unfold h. rewrite Z. assert (Lx : length x = n) by apply Cx. pose proof (quad_frob n A x LA Lx). rewrite Z in *.
      pose proof (quad_nonneg A x). lra. }
    destruct (list_eq_dec Req_EM_T y (repeat 0 n)) as [E|E].
    + rewrite E. unfold quad at 1. rewrite mv_zero, vdot_zero_l, vdot_zero_r. lra.
    + destruct (unit_of y ltac:(rewrite Ly; exact E)) as (P & U).
      pose proof (UP _ ltac:(rewrite vscale_length; exact Ly) U) as K1. rewrite X0 in K1. rewrite quad_scale in K1.
      pose proof (quad_nonneg A y). pose proof (quad_nonneg A e). pose proof (vdot_nonneg y).
      assert (I0 : 0 < / vnorm y * / vnorm y) by (apply Rmult_lt_0_compat; apply Rinv_0_lt_compat; exact P).
      set (i := / vnorm y * / vnorm y) in *. assert (Y0 : i * quad A y = 0) by nra.
      apply Rmult_integral in Y0. destruct Y0 as [Y0|Y0]; [lra|]. rewrite Y0. nra.
  - assert (Lx : length x = n) by apply Cx.
    assert (Nx : x <> repeat 0 (length x)) by (intros E; apply Z, vdot_eq0_iff, E).
    destruct (unit_of x Nx) as (P & U). set (v := vscale x (/ vnorm x)) in *.
    assert (Lv : length v = n) by (unfold v; rewrite vscale_length; exact Lx).
    exists v. split; [exact Lv|]. split; [exact U|].
    assert (XV : x = vscale v (vnorm x)).
    { unfold v. apply vec_ext; [rewrite !vscale_length; reflexivity|]. intros i. rewrite !nth_vscale. field. lra. }
    assert (H1 : 4 * K * h x <= quad A v * quad A v).
    { unfold h. rewrite XV, quad_scale, vdot_scale_l, vdot_scale_r, U, Rmult_1_r.
      set (s := vnorm x * vnorm x). set (q := quad A v). assert (0 <= (q - 2 * K * s) * (q - 2 * K * s)) by (apply Rle_0_sqr). nra. }
    intros y Ly. destruct (list_eq_dec Req_EM_T y (repeat 0 n)) as [E|E].
    + rewrite E. unfold quad at 1. rewrite mv_zero, vdot_zero_l, vdot_zero_r. lra.
    + destruct (unit_of y ltac:(rewrite Ly; exact E)) as (Py & Uy).
      pose proof (UP _ ltac:(rewrite vscale_length; exact Ly) Uy) as K1.
      set (w := vscale y (/ vnorm y)) in *.
      assert (YW : y = vscale w (vnorm y)).
      { unfold w. apply vec_ext; [rewrite !vscale_length; reflexivity|]. intros i. rewrite !nth_vscale. field. lra. }
      assert (QW : quad A w <= quad A v).
      { pose proof (quad_nonneg A w). pose proof (quad_nonneg A v). apply Rsqr_incr_0; unfold Rsqr; lra. }
      rewrite YW, quad_scale, vdot_scale_l, vdot_scale_r, Uy, Rmult_1_r.
      assert (0 <= vnorm y * vnorm y) by (pose proof (vnorm_nonneg y); nra). nra.
Qed.
