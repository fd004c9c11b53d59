(** Property C105: the torsion of points sampled from a smooth curve, compared with the torsion of the curve. *)
From Coq Require Import ZArith String List Bool Arith Lia PrimFloat Reals Lra Psatz.
From Verif Require Import Num Py Numeric Curve Vec Geom DiffGeom Curves Spec GeomSpec.
From Verif Require Import ListFacts VecFacts CurveProofs CurveProofs2 GeomProofs DiffGeomProofs DiffGeomProofs2 DiffGeomProofs3 DiffGeomProofs4 DiffGeomProofs5.
From Verif Require Import SampleProofs SampleProofs2 SampleProofs3 TorsionProofs HelixProofs.
From Verif Require Import Properties_Container Properties_DiffGeom Properties_Curves Properties_Helix Properties_Sampling.
Import ListNotations.
Local Open Scope R_scope.

(** The Gram determinants of two and of three vectors: the squares of the area
    and of the volume that they span, in any dimension. *)
Definition gramian2 (p q : list R) : R := inner p p * inner q q - inner p q * inner p q.
Definition gramian3 (p q r : list R) : R :=
  inner p p * (inner q q * inner r r - inner q r * inner q r) - inner p q * (inner p q * inner r r - inner q r * inner p r)
  + inner p r * (inner p q * inner q r - inner q q * inner p r).

Lemma vnear n u (g : nat -> R -> R) x e : length u = n -> 0 <= e -> (forall j, (j < n)%nat -> Rabs (nth j u 0 - g j x) <= e) -> vnorm (vsub u (vec n g x)) <= sqrt (INR n) * e.
Proof.
  intros L E H. assert (Lv : length (vsub u (vec n g x)) = n) by (rewrite vsub_length; rewrite ?vec_length; congruence).
  pose proof (vnorm_coords (vsub u (vec n g x)) e E) as K. rewrite Lv in K. apply K. intros j Hj. rewrite nth_vsub, vec_nth by (rewrite ?vec_length; congruence || assumption). apply H, Hj.
Qed.
Lemma vtri (a b c : list R) : length a = length b -> length c = length b -> vnorm (vsub a c) <= vnorm (vsub a b) + vnorm (vsub b c).
Proof.
  intros L1 L2. replace (vsub a c) with (vadd (vsub a b) (vsub b c)); [apply vnorm_triangle; vlen|].
  apply vec_ext; [vlen|]. intros i. rewrite nth_vadd, !nth_vsub by vlen. ring.
Qed.
Lemma vcoords n (u : list R) e : length u = n -> 0 <= e -> (forall j, (j < n)%nat -> Rabs (nth j u 0) <= e) -> vnorm u <= sqrt (INR n) * e.
Proof. intros L E H. pose proof (vnorm_coords u e E) as K. rewrite L in K. apply K, H. Qed.

(** ** C105 Torsion of samples *)

(** Away from the ends the torsion converges to sqrt (det Gram (f', f'', f''')) /
    det Gram (f', f''), which is |(f' x f'') . f'''| / |f' x f''|^2 in space. *)
Theorem C105_torsion : forall junk (c : curve R) f f1 f2 f3 f4 a h v w M2 M3 M4 i, wf c -> sampled c f a h ->
  derivs c a h f f1 -> derivs c a h f1 f2 -> derivs c a h f2 f3 -> derivs c a h f3 f4 -> bounds c a h f2 M2 -> bounds c a h f3 M3 -> bounds c a h f4 M4 ->
  (3 <= i)%nat -> (i + 3 < c_size c)%nat ->
  let at_x (g : nat -> R -> R) x := map (fun j => g j x) (seq 0 (c_ndim c)) in let x := a + h * INR i in
  let p := at_x f1 x in let q := at_x f2 x in let s := at_x f3 x in
  let r := sqrt (INR (c_ndim c)) in let W := r * M2 in let A := r * M3 in let B := r * M4 in let G := A + B * h + W * (W / v) in
  0 < v -> (forall x, a <= x <= a + h * INR (c_size c - 1) -> v <= norm (at_x f1 x)) -> 0 < w -> w <= sqrt (gramian2 p q) / norm p -> 8 * h * G <= w ->
  / 50000000 < h * v -> / 50000000 < h ^ 2 * w -> / 100000000 < h ^ 3 * (sqrt (gramian3 p q s) / sqrt (gramian2 p q) - h * (B + G * G / (2 * w))) ->
  exists k, curve_prop junk c PTorsion = Ok (AVec k) /\ length k = c_size c /\
    Rabs (nth i k 0 - sqrt (gramian3 p q s) / gramian2 p q) <= h / v * (4 * (G / w) ^ 2 + 2 * B / w).
Proof.
  intros junk c f f1 f2 f3 f4 a h v w M2 M3 M4 i Wf Sm D0 D1 D2 D3 B2 B3 B4 H3 H4 at_x x p q s r W A B G Hv Bv Hw Hgram Small Tv Tw Tb.
  assert (D := wf_dims c Wf). assert (Hn : (0 < c_ndim c)%nat) by (destruct Wf as (Q & _); lia). assert (Hm : (3 <= c_size c)%nat) by lia.
  pose proof (proj1 Sm) as Hh. set (n := c_ndim c) in *. set (m := c_size c) in *. assert (Em : length (c_rows c) = m) by reflexivity.
  rewrite prop_nonempty by (apply size3_bool; assumption). eexists. split; [reflexivity|]. split.
  { rewrite <- Em. unfold torsion_rows. apply gen_map2_length; [|apply gen_d1]. apply gen_combine_length; [|apply gen_e3]. rewrite gen_gradient_length. apply gen_e2. }
  destruct (C100_derivatives junk c f f1 f2 f3 a h M3 Wf Hm Sm D0 D1 D2 B3) as (d1 & dx & E1 & _ & _ & _ & K1).
  destruct (C100_inner junk c f f1 f2 f3 f4 a h M4 Wf Hm Sm D0 D1 D2 D3 B4) as (d2 & d3 & E2 & E3 & _ & _ & K2).
  rewrite prop_nonempty in E1, E2, E3 by (apply size3_bool; assumption).
  assert (F1 : deriv1 (c_rows c) = d1) by congruence. assert (F2 : deriv2 (c_rows c) = d2) by congruence. assert (F3 : deriv3 (c_rows c) = d3) by congruence. clear E1 E2 E3.
  subst d1 d2 d3. fold n m in K1, K2.
  set (P := fun k => vscale (nth k (deriv1 (c_rows c)) []) (/ h)). set (Q := fun k => vscale (nth k (deriv2 (c_rows c)) []) (/ h ^ 2)). set (Z := vscale (nth i (deriv3 (c_rows c)) []) (/ h ^ 3)).
  assert (G1 : dims n (deriv1 (c_rows c))) by (apply gradient_dims; [exact D|lia]).
  assert (G2 : dims n (deriv2 (c_rows c))) by (apply gradient_dims; [exact G1|rewrite deriv1_length; lia]).
  assert (G3 : dims n (deriv3 (c_rows c))) by (apply gradient_dims; [exact G2|rewrite deriv2_length; lia]).
  assert (LP : forall k, (k < m)%nat -> length (P k) = n) by (intros k Hk; unfold P; rewrite vscale_length; apply G1, nth_In; rewrite deriv1_length; exact Hk).
  assert (LQ : forall k, (k < m)%nat -> length (Q k) = n) by (intros k Hk; unfold Q; rewrite vscale_length; apply G2, nth_In; rewrite deriv2_length; exact Hk).
  assert (LZ : length Z = n) by (unfold Z; rewrite vscale_length; apply G3, nth_In; rewrite deriv3_length, Em; lia).
  assert (hp : forall l, h ^ l <> 0) by (intros l; apply pow_nonzero; lra).
  assert (EP : forall k, nth k (deriv1 (c_rows c)) [] = vscale (P k) h) by (intros k; unfold P; apply vec_ext; [rewrite !vscale_length; reflexivity|]; intros j; rewrite !nth_vscale; field; lra).
  assert (EQ : forall k, nth k (deriv2 (c_rows c)) [] = vscale (Q k) (h ^ 2)) by (intros k; unfold Q; apply vec_ext; [rewrite !vscale_length; reflexivity|]; intros j; rewrite !nth_vscale; field; lra).
  assert (EZ : nth i (deriv3 (c_rows c)) [] = vscale Z (h ^ 3)) by (unfold Z; apply vec_ext; [rewrite !vscale_length; reflexivity|]; intros j; rewrite !nth_vscale; field; lra).
  assert (x_in : forall k, (k < m)%nat -> a <= a + h * INR k <= a + h * INR (m - 1)).
  { intros k Hk. pose proof (pos_INR k). assert (INR k <= INR (m - 1)) by (apply le_INR; lia). split; nra. }
  assert (Xi : a <= x <= a + h * INR (m - 1)) by (apply x_in; lia).
  assert (P2 : 0 <= M2) by (pose proof (B2 0%nat Hn x Xi); pose proof (Rabs_pos (f2 0%nat x)); lra).
  assert (P3 : 0 <= M3) by (pose proof (B3 0%nat Hn x Xi); pose proof (Rabs_pos (f3 0%nat x)); lra).
  assert (P4 : 0 <= M4) by (pose proof (B4 0%nat Hn x Xi); pose proof (Rabs_pos (f4 0%nat x)); lra).
  assert (r0 : 0 <= r) by apply sqrt_pos. assert (A0 : 0 <= A) by (apply Rmult_le_pos; assumption). assert (B0 : 0 <= B) by (apply Rmult_le_pos; assumption).
  assert (h2 : 0 < h ^ 2) by (apply pow_lt; exact Hh). assert (h3 : 0 < h ^ 3) by (apply pow_lt; exact Hh).
  assert (m3 : 0 <= M3 * h ^ 2) by (apply Rmult_le_pos; lra). assert (m4 : 0 <= M4 * h ^ 2) by (apply Rmult_le_pos; lra). assert (m4' : 0 <= M4 * h) by (apply Rmult_le_pos; lra). assert (m3' : 0 <= M3 * h) by (apply Rmult_le_pos; lra). assert (m2' : 0 <= M2 * h) by (apply Rmult_le_pos; lra). assert (m4c : 0 <= M4 * h ^ 3) by (apply Rmult_le_pos; lra).
  (* coordinates *)
  assert (cP : forall k j, (2 <= k)%nat -> (k + 2 < m)%nat -> (j < n)%nat -> Rabs (nth j (P k) 0 - f1 j (a + h * INR k)) <= M3 * h ^ 2 / 6).
  { intros k j Hk Hk' Hj. unfold P. rewrite nth_vscale. destruct (K1 k j ltac:(lia) Hj) as (_ & K & _). apply K; lia. }
  assert (cQ : forall k j, (2 <= k)%nat -> (k + 2 < m)%nat -> (j < n)%nat -> Rabs (nth j (Q k) 0 - f2 j (a + h * INR k)) <= M4 * h ^ 2 / 3).
  { intros k j Hk Hk' Hj. unfold Q. rewrite nth_vscale. destruct (K2 k j Hj) as (K & _). apply K; lia. }
  assert (cZ : forall j, (j < n)%nat -> Rabs (nth j Z 0 - f3 j x) <= 5 / 6 * M4 * h).
  { intros j Hj. unfold Z. rewrite nth_vscale. destruct (K2 i j Hj) as (_ & K). apply K; lia. }
  (* norms *)
  assert (nP : forall k, (2 <= k)%nat -> (k + 2 < m)%nat -> vnorm (vsub (P k) (vec n f1 (a + h * INR k))) <= A * h ^ 2 / 6).
  { intros k Hk Hk'. eapply Rle_trans; [apply (vnear n _ f1 _ (M3 * h ^ 2 / 6)); [apply LP; lia|lra|intros j Hj; apply cP; assumption]|]. right. unfold A, r. field. }
  assert (nQ : forall k, (2 <= k)%nat -> (k + 2 < m)%nat -> vnorm (vsub (Q k) (vec n f2 (a + h * INR k))) <= B * h ^ 2 / 3).
  { intros k Hk Hk'. eapply Rle_trans; [apply (vnear n _ f2 _ (M4 * h ^ 2 / 3)); [apply LQ; lia|lra|intros j Hj; apply cQ; assumption]|]. right. unfold B, r. field. }
  assert (nZ : vnorm (vsub Z s) <= 5 / 6 * B * h).
  { eapply Rle_trans; [apply (vnear n _ f3 x (5 / 6 * M4 * h)); [exact LZ|lra|exact cZ]|]. right. unfold B, r. field. }
  assert (nq : forall y, a <= y <= a + h * INR (m - 1) -> vnorm (vec n f2 y) <= W).
  { intros y Hy. unfold W. apply vcoords; [apply vec_length|exact P2|]. intros j Hj. rewrite vec_nth by exact Hj. apply B2; assumption. }
  assert (ns : vnorm s <= A).
  { unfold A. apply vcoords; [apply vec_length|exact P3|]. intros j Hj. change (nth j s 0) with (nth j (vec n f3 x) 0). rewrite vec_nth by exact Hj. apply B3; assumption. }
  assert (np : forall y, a <= y <= a + h * INR (m - 1) -> v <= vnorm (vec n f1 y)) by (intros y Hy; rewrite <- norm_vnorm; apply Bv, Hy).
  assert (Lp : length p = n) by apply vec_length. assert (Lq : length q = n) by apply vec_length. assert (Ls : length s = n) by apply vec_length.
  assert (p0 : 0 < vnorm p) by (pose proof (np x Xi) as K; change (vec n f1 x) with p in K; lra).
  assert (Eg2 : gramian2 p q = gram2 p q) by (unfold gramian2, gram2; rewrite !inner_vdot; reflexivity).
  assert (Eg3 : gramian3 p q s = gram3 p q s) by (unfold gramian3, gram3; rewrite !inner_vdot; reflexivity).
  rewrite norm_vnorm in Hgram. rewrite Eg2 in *. rewrite Eg3 in *. rewrite <- across_gram in Hgram by (try congruence; exact p0).
  assert (g20 : 0 < gram2 p q).
  { destruct (Rle_lt_dec (gram2 p q) 0) as [N|N]; [|exact N]. rewrite across_gram, (sqrt_neg_0 _ N) in Hgram by (try congruence; exact p0). unfold Rdiv in Hgram. lra. }
  rewrite <- across2_gram in Tb by (try congruence; assumption).
  assert (wW : w <= W).
  { eapply Rle_trans; [exact Hgram|]. eapply Rle_trans; [apply across_norm; [congruence|apply vdot_pos, p0]|]. apply (nq x Xi). }
  (* the neighbours *)
  assert (Side : forall k c1, (2 <= k)%nat -> (k + 2 < m)%nat -> INR k = INR i + c1 -> Rabs c1 <= 1 ->
    v - A * h ^ 2 / 6 <= vnorm (P k) /\ vnorm (Q k) <= W + B * h ^ 2 / 3 /\ vnorm (vsub (P k) p) <= h * W + A * h ^ 2 / 6 /\ vnorm (vsub (Q k) q) <= h * A + B * h ^ 2 / 3 /\
    vnorm (vsub (vsub (P k) (P i)) (vscale (Q i) (c1 * h))) <= h ^ 2 * (5 / 6 * A + B * h / 3) /\ vnorm (vsub (Q k) (Q i)) <= h * (A + 2 / 3 * B * h)).
  { intros k c1 Hk Hk' Ek Hc. set (y := a + h * INR k). assert (Yi : a <= y <= a + h * INR (m - 1)) by (apply x_in; lia).
    assert (Ey : y - x = c1 * h) by (unfold y, x; rewrite Ek; ring). assert (Ay : Rabs (y - x) <= h) by (rewrite Ey, Rabs_mult, (Rabs_right h) by lra; nra).
    assert (Ay0 : 0 <= Rabs (y - x)) by apply Rabs_pos.
    pose proof (nP k Hk Hk') as N1. pose proof (nQ k Hk Hk') as N2. fold y in N1, N2.
    pose proof (LP k ltac:(lia)) as LPk. pose proof (LQ k ltac:(lia)) as LQk. pose proof (LP i ltac:(lia)) as LPi. pose proof (LQ i ltac:(lia)) as LQi.
    pose proof (vec_length n f1 y) as Lv1. pose proof (vec_length n f2 y) as Lv2.
    assert (T1 : vnorm (vsub (vec n f1 y) p) <= h * W).
    { eapply Rle_trans; [apply (vnear n _ f1 x (M2 * h)); [exact Lv1|exact m2'|]|right; unfold W, r; ring]. intros j Hj. rewrite vec_nth by exact Hj.
      eapply Rle_trans; [apply (taylor1 _ _ (f1 j) (f2 j) M2 x y (D1 j Hj) (B2 j Hj) Xi Yi)|]. apply Rmult_le_compat_l; assumption. }
    assert (T2 : vnorm (vsub (vec n f2 y) q) <= h * A).
    { eapply Rle_trans; [apply (vnear n _ f2 x (M3 * h)); [exact Lv2|exact m3'|]|right; unfold A, r; ring]. intros j Hj. rewrite vec_nth by exact Hj.
      eapply Rle_trans; [apply (taylor1 _ _ (f2 j) (f3 j) M3 x y (D2 j Hj) (B3 j Hj) Xi Yi)|]. apply Rmult_le_compat_l; assumption. }
    split. { pose proof (vnorm_close (P k) (vec n f1 y) ltac:(congruence)) as C. apply Rabs_lt_le_inv in C. pose proof (np y Yi). lra. }
    split. { pose proof (vnorm_close (Q k) (vec n f2 y) ltac:(congruence)) as C. apply Rabs_lt_le_inv in C. pose proof (nq y Yi). lra. }
    split. { pose proof (vtri (P k) (vec n f1 y) p ltac:(congruence) ltac:(congruence)). lra. }
    split. { pose proof (vtri (Q k) (vec n f2 y) q ltac:(congruence) ltac:(congruence)). lra. }
    split.
    - eapply Rle_trans; [apply (vcoords n _ (5 / 6 * (M3 * h ^ 2) + M4 * h ^ 3 / 3)); [vlen|lra|]|right; unfold A, B, r; field].
      intros j Hj. rewrite !nth_vsub, nth_vscale by vlen. pose proof (cP k j Hk Hk' Hj) as C1. pose proof (cP i j ltac:(lia) ltac:(lia) Hj) as C2. pose proof (cQ i j ltac:(lia) ltac:(lia) Hj) as C3. fold x y in C1, C2, C3.
      pose proof (taylor2 _ _ (f1 j) (f2 j) (f3 j) M3 x y (D1 j Hj) (D2 j Hj) (B3 j Hj) Xi Yi) as C4. rewrite Ey in C4.
      assert (C5 : Rabs (c1 * h * (nth j (Q i) 0 - f2 j x)) <= h * (M4 * h ^ 2 / 3)).
      { rewrite Rabs_mult. apply Rmult_le_compat; [apply Rabs_pos|apply Rabs_pos|rewrite <- Ey; exact Ay|exact C3]. }
      assert (C6 : M3 * Rabs (c1 * h) ^ 2 / 2 <= M3 * h ^ 2 / 2).
      { rewrite <- Ey. assert (Rabs (y - x) ^ 2 <= h ^ 2) by (apply pow_incr; split; assumption). assert (M3 * Rabs (y - x) ^ 2 <= M3 * h ^ 2) by (apply Rmult_le_compat_l; assumption). lra. }
      apply Rabs_lt_le_inv in C1, C2, C4, C5. apply Rabs_le. lra.
    - eapply Rle_trans; [apply (vcoords n _ (M3 * h + 2 / 3 * (M4 * h ^ 2))); [vlen|lra|]|right; unfold A, B, r; field].
      intros j Hj. rewrite nth_vsub by vlen. pose proof (cQ k j Hk Hk' Hj) as C1. pose proof (cQ i j ltac:(lia) ltac:(lia) Hj) as C2. fold x y in C1, C2.
      pose proof (taylor1 _ _ (f2 j) (f3 j) M3 x y (D2 j Hj) (B3 j Hj) Xi Yi) as C3.
      assert (C4 : M3 * Rabs (y - x) <= M3 * h) by (apply Rmult_le_compat_l; assumption).
      apply Rabs_lt_le_inv in C1, C2, C3. apply Rabs_le. lra. }
  assert (Ip : INR (i + 1) = INR i + 1) by (rewrite plus_INR; cbn; ring). assert (Im : INR (i - 1) = INR i + -1) by (rewrite minus_INR by lia; cbn; ring).
  pose proof (nP i ltac:(lia) ltac:(lia)) as Di1. pose proof (nQ i ltac:(lia) ltac:(lia)) as Di2. change (vec n f1 (a + h * INR i)) with p in Di1. change (vec n f2 (a + h * INR i)) with q in Di2.
  pose proof (np x Xi) as Hp. change (vec n f1 x) with p in Hp. pose proof (nq x Xi) as Hq. change (vec n f2 x) with q in Hq.
  pose proof (LP i ltac:(lia)) as LPi. pose proof (LQ i ltac:(lia)) as LQi.
  assert (close : forall k, k = (i - 1)%nat \/ k = i \/ k = (i + 1)%nat -> exists c1, (2 <= k)%nat /\ (k + 2 < m)%nat /\ INR k = INR i + c1 /\ Rabs c1 <= 1).
  { intros k [E|[E|E]]; subst k; [exists (-1)|exists 0|exists 1]; (split; [lia|]); (split; [lia|]); split; try assumption; try ring; unfold Rabs; destruct (Rcase_abs _); lra. }
  assert (uW : 0 < W / v) by (apply Rdiv_lt_0_compat; lra). assert (hWv : A * h ^ 2 / 6 <= v / 2).
  { assert (0 <= B * h) by (apply Rmult_le_pos; lra). assert (0 < W * (W / v)) by (apply Rmult_lt_0_compat; lra).
    assert (h * A <= h * G) by (apply Rmult_le_compat_l; unfold G; lra). assert (h * (W * (W / v)) <= h * G) by (apply Rmult_le_compat_l; unfold G; lra).
    assert (h * (W / v) <= / 8) by (apply (Rmult_le_reg_r W); lra). assert (h * W <= v / 8) by (replace (h * W) with (h * (W / v) * v) by (field; lra); replace (v / 8) with (/ 8 * v) by field; apply Rmult_le_compat_r; lra).
    assert (h * (h * A) <= h * (W / 8)) by (apply Rmult_le_compat_l; lra). lra. }
  assert (nrm : forall k, k = (i - 1)%nat \/ k = i \/ k = (i + 1)%nat -> 17 / 20 * w <= vnorm (across (Q k) (P k))).
  { intros k Ck. destruct (close k Ck) as (c1 & Hk & Hk' & Ek & Hc). destruct (Side k c1 Hk Hk' Ek Hc) as (S1 & S2 & S3 & S4 & _).
    pose proof (near_norm h v w W A B Hh Hv Hw A0 B0 wW Small (P k) (Q k) p q ltac:(congruence) ltac:(rewrite LP by lia; congruence) ltac:(rewrite LQ by lia; congruence) Hp Hq S1 S2 S3 S4) as C.
    fold G in C. apply Rabs_lt_le_inv in C. lra. }
  pose proof (binormal_close h v w W A B Hh Hv Hw A0 B0 wW Small p q s (P i) (Q i) Z ltac:(congruence) ltac:(congruence) ltac:(congruence) ltac:(congruence) ltac:(congruence) Hp Hq ns Hgram Di1 Di2 nZ) as Cb. fold G in Cb.
  destruct (row_torsion n (c_rows c) h i P Q Z D ltac:(lia) ltac:(lia) Hh) as (e & Le & He & eP & eQ & eZ & ET).
  { intros k Ck. split; [|apply EP]. destruct (close k Ck) as (c1 & Hk & Hk' & _). apply LP. lia. }
  { intros k Ck. split; [|apply EQ]. destruct (close k Ck) as (c1 & Hk & Hk' & _). apply LQ. lia. }
  { split; [exact LZ|exact EZ]. }
  { intros k Ck. destruct (close k Ck) as (c1 & Hk & Hk' & Ek & Hc). destruct (Side k c1 Hk Hk' Ek Hc) as (S1 & _). assert (h * (v / 2) <= h * vnorm (P k)) by (apply Rmult_le_compat_l; lra). lra. }
  { intros k Ck. pose proof (nrm k Ck) as S1. assert (h ^ 2 * (17 / 20 * w) <= h ^ 2 * vnorm (across (Q k) (P k))) by (apply Rmult_le_compat_l; lra). lra. }
  { apply Rabs_lt_le_inv in Cb. eapply Rlt_le_trans; [exact Tb|]. apply Rmult_le_compat_l; lra. }
  rewrite ET. destruct (Side (i + 1)%nat 1 ltac:(lia) ltac:(lia) Ip ltac:(rewrite Rabs_right; lra)) as (S1 & S2 & S3 & S4 & S5 & S6).
  destruct (Side (i - 1)%nat (-1) ltac:(lia) ltac:(lia) Im ltac:(rewrite Rabs_left; lra)) as (R1 & R2 & R3 & R4 & R5 & R6).
  pose proof (LP (i + 1)%nat ltac:(lia)) as LPp. pose proof (LP (i - 1)%nat ltac:(lia)) as LPm. pose proof (LQ (i + 1)%nat ltac:(lia)) as LQp. pose proof (LQ (i - 1)%nat ltac:(lia)) as LQm.
  assert (ER : vsub (Q (i + 1)%nat) (Q (i - 1)%nat) = vscale Z (2 * h)).
  { apply vec_ext; [vlen|]. intros j. rewrite nth_vsub, nth_vscale by congruence. unfold Q, Z. rewrite !nth_vscale. unfold deriv3.
    destruct (gradient_nth n (deriv2 (c_rows c)) i G2 ltac:(rewrite deriv2_length, Em; lia) ltac:(rewrite deriv2_length, Em; lia)) as (_ & Gg).
    rewrite Gg, deriv2_length, Em, slope_inner by lia. unfold coord. field. lra. }
  replace (sqrt (gram3 p q s) / gram2 p q) with (vnorm (across2 s p q) / (vnorm (across q p) * vnorm p)).
  2:{ rewrite across2_gram, across_gram by (try congruence; assumption). assert (sg : 0 < sqrt (gram2 p q)) by (apply sqrt_lt_R0; exact g20).
      pose proof (sqrt_sqrt (gram2 p q) ltac:(lra)) as Esq. set (y := sqrt (gram2 p q)) in *. rewrite <- Esq. field. lra. }
  destruct (side h v w W A B Hh Hv Hw A0 B0 wW Small p q (P i) (Q i) Z e ltac:(congruence) ltac:(congruence) ltac:(congruence) ltac:(congruence) Hp Hq Hgram ltac:(congruence) He eP eQ (P (i + 1)%nat) (Q (i + 1)%nat) (1 * h) ltac:(congruence) ltac:(congruence) S1 S2 S3 S4 S5 S6) as (_ & X1).
  destruct (side h v w W A B Hh Hv Hw A0 B0 wW Small p q (P i) (Q i) Z e ltac:(congruence) ltac:(congruence) ltac:(congruence) ltac:(congruence) Hp Hq Hgram ltac:(congruence) He eP eQ (P (i - 1)%nat) (Q (i - 1)%nat) (-1 * h) ltac:(congruence) ltac:(congruence) R1 R2 R3 R4 R5 R6) as (_ & X2).
  apply (torsion_close h v w W A B Hh Hv Hw A0 B0 wW Small p q s (P i) (Q i) Z e ltac:(congruence) ltac:(congruence) ltac:(congruence) ltac:(congruence) ltac:(congruence) Hp Hq ns Hgram Di1 Di2 nZ) with (5 := X1) (6 := X2); try reflexivity; try congruence; assumption.
Qed.
Print Assumptions C105_torsion.

(** In space: the absolute value of the triple product over the square of the
    cross product, so that a curve and its mirror image have the same limit. *)
Theorem C105_space : forall a b c d e f g h k,
  let det := a * (e * k - f * h) - b * (d * k - f * g) + c * (d * h - e * g) in
  let x := b * f - c * e in let y := c * d - a * f in let z := a * e - b * d in
  sqrt (gramian3 [a; b; c] [d; e; f] [g; h; k]) / gramian2 [a; b; c] [d; e; f] = Rabs det / (x * x + y * y + z * z).
Proof.
  intros a b c d e f g h k. cbv zeta. rewrite <- sqrt_Rsqr_abs. unfold Rsqr. f_equal; [f_equal|f_equal]; unfold gramian3, gramian2, inner; cbn; ring.
Qed.
Print Assumptions C105_space.

(** A fine sampling loses the torsion: the predefined helix with a step between
    1/5000 and 1/500 has torsion 1/2, and every value away from the ends is below
    1e-8, because the binormal is too short for numpy.isclose and is not
    normalised. *)
Theorem C105_fine_refuted : forall junk t0 t1 n cu, (2 <= n)%nat -> helix t0 t1 (Z.of_nat n) 1 1 = Ok cu ->
  / 5000 <= (t1 - t0) / INR (n - 1) <= / 500 ->
  exists k, curve_prop junk cu PTorsion = Ok (AVec k) /\ length k = n /\
    forall i, (2 < i)%nat -> (i < n - 3)%nat -> 0 <= nth i k 0 <= / 100000000.
Proof.
  intros junk t0 t1 n cu Hn E. destruct (helix_rows t0 t1 n 1 1 cu Hn E) as (W & Sz & Nd & D & H). set (h := (t1 - t0) / INR (n - 1)) in *. intros Hh.
  rewrite prop_nonempty by (apply (helix_nonempty t0 t1 n 1 1); assumption). unfold c_size in Sz. eexists. split; [reflexivity|]. split.
  { rewrite <- Sz. unfold torsion_rows. apply gen_map2_length; [|apply gen_d1]. apply gen_combine_length; [|apply gen_e3]. rewrite gen_gradient_length. apply gen_e2. }
  intros i H1 H2. destruct (sin_bounds h ltac:(lra)) as ((s0 & s1) & s2). set (s := sin h) in *.
  assert (h2 : h * h <= / 250000) by nra. assert (s3 : / 5001 <= s) by nra.
  set (N := sqrt (1 * 1 * (s * s) + 1 * 1 * (h * h))). assert (N2 : N * N = s * s + h * h) by (unfold N; rewrite sqrt_sqrt; nra).
  assert (N0 : 0 <= N) by apply sqrt_pos. assert (Nh : h <= N) by (apply Rsqr_incr_0_var; [unfold Rsqr; nra|exact N0]).
  assert (HN : / 100000000 < N) by lra. assert (Ha : / 100000000 < Rabs 1 * (s * s)) by (rewrite Rabs_R1; nra).
  assert (s4 : s * s * s <= / 125000000). { assert (s * s <= / 250000) by nra. nra. }
  rewrite torsion_nth by lia. rewrite (helix_grad_e2 (c_rows cu) t0 h 1 1 D H ltac:(lia) HN Ha i) by lia.
  rewrite (helix_d1 (c_rows cu) t0 h 1 1 D H ltac:(lia) i) by lia. rewrite frenet3_nth, (helix_b (c_rows cu) t0 h 1 1 D H ltac:(lia) HN Ha i) by lia.
  assert (ss : 0 <= s * s * s) by (apply Rmult_le_pos; [apply Rmult_le_pos|]; lra).
  rewrite unit_row_near.
  2:{ rewrite fr_norm. rewrite norm_b by exact HN. fold s N. replace (1 * (s * s * s) * (1 * h)) with (s * s * s * h) by ring. rewrite Rabs_right by (apply Rle_ge, Rmult_le_pos; lra).
      apply (Rmult_le_reg_r N); [lra|]. unfold Rdiv. rewrite Rmult_assoc, Rinv_l by lra. apply Rle_trans with (/ 100000000 * h); [|apply Rmult_le_compat_l; lra].
      rewrite Rmult_1_r. apply Rmult_le_compat_r; lra. }
  rewrite fr_dot, fr_norm, N_d1. fold s N. unfold q. fold s N. unfold sg. rewrite Rabs_R1.
  replace ((0 * 0 + - (1 / 1) * s * (- (1 * (s * s * s) * (1 * h) / (N * N)) * (1 * h)) + 0 * (1 * (s * s * s) * (1 * h) / (N * N) * (1 * s))) / N)
    with (s * s * s * (s * (h * h) / (N * (N * N)))) by (field; lra).
  assert (T : 0 <= s * (h * h) / (N * (N * N)) <= 1).
  { assert (P : 0 < N * (N * N)) by (apply Rmult_lt_0_compat; nra). split; [apply Rmult_le_pos; [nra|left; apply Rinv_0_lt_compat; exact P]|].
    apply (Rmult_le_reg_r (N * (N * N))); [exact P|]. unfold Rdiv. rewrite Rmult_assoc, Rinv_l, Rmult_1_r, Rmult_1_l by lra.
    apply Rmult_le_compat; nra. }
  split; [apply Rmult_le_pos; lra|]. nra.
Qed.
Print Assumptions C105_fine_refuted.

(** ** Examples *)

(** Nine points of a helix with a step of 1/200: torsion 1/2, to within 1/4. *)
Definition hx0 (j : nat) (x : R) : R := match j with 0%nat => cos x | 1%nat => sin x | _ => x end.
Definition hx1 (j : nat) (x : R) : R := match j with 0%nat => - sin x | 1%nat => cos x | _ => 1 end.
Definition coil : curve R := mkCurve (map (fun i => map (fun j => hx0 j (0 + / 200 * INR i)) (seq 0 3)) (seq 0 9)) 3 DFloat None.
Lemma coil_wf : wf coil.
Proof.
  split; [cbn; lia|]. split; [|intros t Q; discriminate Q]. intros r Hr. apply in_map_iff in Hr. destruct Hr as (i & <- & _). rewrite map_length, seq_length. reflexivity.
Qed.
Lemma coil_sampled : sampled coil hx0 0 (/ 200).
Proof.
  split; [lra|]. change (c_size coil) with 9%nat. intros i j Hi Hj. cbn [coil c_rows c_ndim] in *.
  rewrite (SplineProofs2.nth_map_in _ _ i 0%nat) by (rewrite seq_length; exact Hi). rewrite (SplineProofs2.nth_map_in _ _ j 0%nat) by (rewrite seq_length; exact Hj).
  rewrite !seq_nth by assumption. reflexivity.
Qed.
Example C105_torsion_ex : exists k, curve_prop 99 coil PTorsion = Ok (AVec k) /\ Rabs (nth 4 k 0 - / 2) <= / 4.
Proof.
  assert (S3 : 173 / 100 <= sqrt 3 <= 1733 / 1000).
  { split; apply Rsqr_incr_0_var; try (unfold Rsqr; rewrite sqrt_sqrt; lra); try lra; try apply sqrt_pos. }
  assert (E3 : INR (c_ndim coil) = 3) by (cbn; ring).
  assert (Q : forall x, cos x * cos x = 1 - sin x * sin x) by (intros x; pose proof (sin2_cos2 x) as K; unfold Rsqr in K; lra).
  assert (G2 : forall x, gramian2 (map (fun j => hx1 j x) (seq 0 3)) (map (fun j => w2 j x) (seq 0 3)) = 2).
  { intros x. unfold gramian2, inner. cbn. pose proof (Q x) as K. set (c := cos x) in *. set (s := sin x) in *. clearbody c s.
    replace (- s * - s + (c * c + (1 * 1 + 0))) with 2 by lra. replace (- c * - c + (- s * - s + (0 * 0 + 0))) with 1 by lra. ring. }
  assert (G3 : forall x, gramian3 (map (fun j => hx1 j x) (seq 0 3)) (map (fun j => w2 j x) (seq 0 3)) (map (fun j => w3 j x) (seq 0 3)) = 1).
  { intros x. unfold gramian3, inner. cbn. pose proof (Q x) as K. set (c := cos x) in *. set (s := sin x) in *. clearbody c s.
    replace (- s * - s + (c * c + (1 * 1 + 0))) with 2 by lra. replace (- c * - c + (- s * - s + (0 * 0 + 0))) with 1 by lra.
    replace (s * s + (- c * - c + (0 * 0 + 0))) with 1 by lra. replace (- c * s + (- s * - c + (0 * 0 + 0))) with 0 by ring. replace (- s * - c + (c * - s + (1 * 0 + 0))) with 0 by ring.
    replace (- s * s + (c * - c + (1 * 0 + 0))) with (-1) by lra. ring. }
  assert (Nm : forall x, norm (map (fun j => hx1 j x) (seq 0 3)) = sqrt 2).
  { intros x. unfold norm, inner. f_equal. cbn. pose proof (Q x). lra. }
  assert (S2 : 141 / 100 <= sqrt 2 <= 142 / 100) by (split; apply Rsqr_incr_0_var; try (unfold Rsqr; rewrite sqrt_sqrt; lra); try lra; try apply sqrt_pos).
  destruct (C105_torsion 99 coil hx0 hx1 w2 w3 w0 0 (/ 200) (7 / 5) 1 1 1 1 4 coil_wf coil_sampled) as (k & E & _ & H);
    try (intros j _; first [apply wave_deriv|apply wave_bound]); try lra; try (cbn; lia).
  - intros j _ x _. destruct j as [|[|j]]; cbn; [apply derivable_pt_lim_cos|apply derivable_pt_lim_sin|apply derivable_pt_lim_id].
  - intros j _ x _. destruct j as [|[|j]]; cbn; [|apply derivable_pt_lim_cos|apply derivable_pt_lim_const]. apply (derivable_pt_lim_opp sin), derivable_pt_lim_sin.
  - intros x _. change (c_ndim coil) with 3%nat. rewrite Nm. lra.
  - change (c_ndim coil) with 3%nat. rewrite G2, Nm. unfold Rdiv. rewrite Rinv_r; lra.
  - rewrite E3. nra.
  - change (c_ndim coil) with 3%nat. rewrite G2, G3, sqrt_1. change (INR 3) with (INR (c_ndim coil)). rewrite E3. set (r := sqrt 3) in *.
    assert (I2 : 70 / 100 <= 1 / sqrt 2). { apply (Rmult_le_reg_r (sqrt 2)); [lra|]. unfold Rdiv at 2. rewrite Rmult_assoc, Rinv_l by lra. lra. }
    assert (Gb : 0 <= r * 1 + r * 1 * / 200 + r * 1 * (r * 1 / (7 / 5)) <= 39 / 10) by nra. set (g := r * 1 + r * 1 * / 200 + r * 1 * (r * 1 / (7 / 5))) in *. assert (g * g <= 16) by nra. lra.
  - exists k. split; [exact E|]. change (c_ndim coil) with 3%nat in H. rewrite G2, G3, sqrt_1 in H. change (INR 3) with (INR (c_ndim coil)) in H. rewrite E3 in H. set (r := sqrt 3) in *.
    replace (1 / 2) with (/ 2) in H by field. eapply Rle_trans; [exact H|].
    assert (Gb : 0 <= r * 1 + r * 1 * / 200 + r * 1 * (r * 1 / (7 / 5)) <= 39 / 10) by nra. set (g := r * 1 + r * 1 * / 200 + r * 1 * (r * 1 / (7 / 5))) in *. assert (g * g <= 1521 / 100) by nra. nra.
Qed.
(** The same helix in space, left- and right-handed: the limit is 1/2 for both. *)
Example C105_space_ex : sqrt (gramian3 [0; 1; 1] [-1; 0; 0] [0; -1; 0]) / gramian2 [0; 1; 1] [-1; 0; 0] = / 2 /\
  sqrt (gramian3 [0; 1; -1] [-1; 0; 0] [0; -1; 0]) / gramian2 [0; 1; -1] [-1; 0; 0] = / 2.
Proof.
  split; rewrite C105_space; cbv zeta; [replace (Rabs _) with 1|replace (Rabs _) with 1]; try field; symmetry;
    [rewrite Rabs_right; lra|rewrite Rabs_left; lra].
Qed.
(** Ten thousand steps of 1/1000 of the predefined helix. *)
Example C105_fine_ex : exists cu k, helix 0 10 10001 1 1 = Ok cu /\ curve_prop 99 cu PTorsion = Ok (AVec k) /\ 0 <= nth 5000 k 0 <= / 100000000.
Proof.
  set (n := Z.to_nat 10001). assert (En : Z.of_nat n = 10001%Z) by (unfold n; lia). assert (Hn : (2 <= n)%nat) by lia.
  destruct (C60_helix 0 10 n 1 1 ltac:(lia)) as (cu & _ & E & _). exists cu.
  assert (Ei : INR (n - 1) = 10000) by (rewrite INR_IZR_INZ; replace (Z.of_nat (n - 1)) with 10000%Z by lia; reflexivity).
  destruct (C105_fine_refuted 99 0 10 n cu Hn E ltac:(rewrite Ei; lra)) as (k & Ek & _ & H). exists k. rewrite En in E. split; [exact E|]. split; [exact Ek|].
  replace 5000%nat with (Z.to_nat 5000) by reflexivity. apply H; lia.
Qed.
