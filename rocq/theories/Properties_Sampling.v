(** Property C100: the properties of points sampled from a smooth curve, compared with the curve. *)
From Coq Require Import ZArith String List Bool Arith Lia PrimFloat Reals Lra Psatz.
From Verif Require Import Num Py Numeric Curve Vec Geom DiffGeom Registry Interp Spec GeomSpec.
From Verif Require Import ListFacts ArrayProofs VecFacts CurveProofs CurveProofs2 CurveProofs3 GeomProofs DiffGeomProofs DiffGeomProofs2 DiffGeomProofs3 DiffGeomProofs5.
From Verif Require Import InterpProofs InterpProofs2 InterpProofs3 HelixProofs SplineProofs2 SampleProofs SampleProofs2 SampleProofs3.
From Verif Require Import Properties_Container Properties_DiffGeom Properties_Interp.
Import ListNotations.
Local Open Scope string_scope.
Local Open Scope list_scope.
Local Open Scope R_scope.

(** The points of [c] are those of the curve with coordinate functions [f] at
    the parameters a, a + h, a + 2h, ... *)
Definition sampled (c : curve R) (f : nat -> R -> R) (a h : R) : Prop :=
  0 < h /\ forall i j, (i < c_size c)%nat -> (j < c_ndim c)%nat -> nth j (nth i (c_rows c) []) 0 = f j (a + h * INR i).
(** [f1 j] is the derivative of [f j] between the first and the last parameter, for each coordinate. *)
Definition derivs (c : curve R) (a h : R) (f f1 : nat -> R -> R) : Prop :=
  forall j, (j < c_ndim c)%nat -> deriv_on a (a + h * INR (c_size c - 1)) (f j) (f1 j).
Definition bounds (c : curve R) (a h : R) (f : nat -> R -> R) (M : R) : Prop :=
  forall j, (j < c_ndim c)%nat -> bounded_on a (a + h * INR (c_size c - 1)) (f j) M.

Lemma deriv1_slope n rows i j : dims n rows -> (3 <= length rows)%nat -> (i < length rows)%nat ->
  nth j (nth i (deriv1 rows) []) 0 = slope (length rows) (fun k => nth j (nth k rows []) 0) i.
Proof. intros D Hm Hi. unfold deriv1. rewrite (proj2 (gradient_nth n rows i D ltac:(lia) Hi)). reflexivity. Qed.
Lemma deriv2_slope n rows i j : dims n rows -> (3 <= length rows)%nat -> (i < length rows)%nat ->
  nth j (nth i (deriv2 rows) []) 0 = slope (length rows) (slope (length rows) (fun k => nth j (nth k rows []) 0)) i.
Proof.
  intros D Hm Hi. unfold deriv2. assert (D1 : dims n (deriv1 rows)) by (apply gradient_dims; [exact D|lia]).
  rewrite (proj2 (gradient_nth n (deriv1 rows) i D1 ltac:(rewrite deriv1_length; lia) ltac:(rewrite deriv1_length; exact Hi))), deriv1_length.
  apply slope_ext; [lia|exact Hi|]. intros k Hk. unfold coord. apply (deriv1_slope n); assumption.
Qed.
Lemma deriv3_slope n rows i j : dims n rows -> (3 <= length rows)%nat -> (i < length rows)%nat ->
  nth j (nth i (deriv3 rows) []) 0 = slope (length rows) (slope (length rows) (slope (length rows) (fun k => nth j (nth k rows []) 0))) i.
Proof.
  intros D Hm Hi. unfold deriv3. assert (D1 : dims n (deriv1 rows)) by (apply gradient_dims; [exact D|lia]).
  assert (D2 : dims n (deriv2 rows)) by (apply gradient_dims; [exact D1|rewrite deriv1_length; lia]).
  rewrite (proj2 (gradient_nth n (deriv2 rows) i D2 ltac:(rewrite deriv2_length; lia) ltac:(rewrite deriv2_length; exact Hi))), deriv2_length.
  apply slope_ext; [lia|exact Hi|]. intros k Hk. unfold coord. apply (deriv2_slope n); assumption.
Qed.
Lemma size3_bool (c : curve R) : wf c -> (3 <= c_size c)%nat -> c_bool c = true.
Proof. intros W Hm. apply c_bool_wf; [assumption|intros E; unfold c_size in Hm; rewrite E in Hm; cbn in Hm; lia]. Qed.
Lemma sampled_slope (c : curve R) f a h j i : sampled c f a h -> (j < c_ndim c)%nat -> (3 <= c_size c)%nat -> (i < c_size c)%nat ->
  let m := c_size c in let F k := nth j (nth k (c_rows c) []) 0 in let G k := f j (at_ a h k) in
  slope m F i = slope m G i /\ slope m (slope m F) i = slope m (slope m G) i /\ slope m (slope m (slope m F)) i = slope m (slope m (slope m G)) i.
Proof.
  intros (_ & H) Hj Hm Hi m F G.
  assert (E1 : forall k, (k < m)%nat -> slope m F k = slope m G k) by (intros k Hk; apply slope_ext; [unfold m; lia|exact Hk|intros l Hl; apply H; assumption]).
  assert (E2 : forall k, (k < m)%nat -> slope m (slope m F) k = slope m (slope m G) k) by (intros k Hk; apply slope_ext; [unfold m; lia|exact Hk|exact E1]).
  split; [apply E1, Hi|]. split; [apply E2, Hi|]. apply slope_ext; [unfold m; lia|exact Hi|exact E2].
Qed.

(** ** C100 Sampled smooth curves *)

(** First and second derivatives converge at every point, the two ends included. *)
Theorem C100_derivatives : forall junk (c : curve R) f f1 f2 f3 a h M, wf c -> (3 <= c_size c)%nat -> sampled c f a h ->
  derivs c a h f f1 -> derivs c a h f1 f2 -> derivs c a h f2 f3 -> bounds c a h f3 M ->
  exists d1 d2, curve_prop junk c PFirst = Ok (AMat d1) /\ curve_prop junk c PSecond = Ok (AMat d2) /\
    length d1 = c_size c /\ length d2 = c_size c /\
    forall i j, (i < c_size c)%nat -> (j < c_ndim c)%nat -> let x := a + h * INR i in
      Rabs (nth j (nth i d1 []) 0 / h - f1 j x) <= M * h ^ 2 /\
      ((0 < i)%nat -> (S i < c_size c)%nat -> Rabs (nth j (nth i d1 []) 0 / h - f1 j x) <= M * h ^ 2 / 6) /\
      Rabs (nth j (nth i d2 []) 0 / h ^ 2 - f2 j x) <= 6 * M * h.
Proof.
  intros junk c f f1 f2 f3 a h M W Hm Sm D0 D1 D2 B. assert (D := wf_dims c W). assert (Bl := size3_bool c W Hm).
  exists (deriv1 (c_rows c)), (deriv2 (c_rows c)). rewrite !prop_nonempty by exact Bl.
  split; [reflexivity|]. split; [reflexivity|]. split; [apply deriv1_length|]. split; [apply deriv2_length|].
  intros i j Hi Hj x. destruct (sampled_slope c f a h j i Sm Hj Hm Hi) as (E1 & E2 & _). destruct Sm as (Hh & _).
  rewrite (deriv1_slope (c_ndim c)), (deriv2_slope (c_ndim c)) by assumption. fold (c_size c). rewrite E1, E2.
  destruct (slope_d3 a h (c_size c) Hh Hm (f j) (f1 j) (f2 j) (f3 j) M i (D0 j Hj) (D1 j Hj) (D2 j Hj) (B j Hj) Hi) as (A1 & A2).
  pose proof (slope2_d3 a h (c_size c) Hh Hm (f j) (f1 j) (f2 j) (f3 j) M i (D0 j Hj) (D1 j Hj) (D2 j Hj) (B j Hj) Hi) as A3.
  unfold at_ in A1, A2, A3. fold x in A1, A2, A3. cbv beta in *. unfold at_.
  assert (Q : forall (u w e : R) k, (0 < k)%nat -> Rabs (u - h ^ k * w) <= e * h ^ k -> Rabs (u / h ^ k - w) <= e).
  { intros u w e k Hk H. assert (P : 0 < h ^ k) by (apply pow_lt, Hh). replace (u / h ^ k - w) with ((u - h ^ k * w) * / h ^ k) by (field; lra).
    rewrite Rabs_mult, (Rabs_right (/ h ^ k)) by (apply Rle_ge, Rlt_le, Rinv_0_lt_compat, P).
    apply (Rmult_le_reg_r (h ^ k)); [exact P|]. rewrite Rmult_assoc, Rinv_l, Rmult_1_r by lra. exact H. }
  split; [|split].
  - specialize (Q (slope (c_size c) (fun k => f j (a + h * INR k)) i) (f1 j x) (M * h ^ 2) 1%nat ltac:(lia)). rewrite !pow_1 in Q. apply Q. eapply Rle_trans; [exact A1|]. apply Req_le. ring.
  - intros L1 L2. specialize (Q (slope (c_size c) (fun k => f j (a + h * INR k)) i) (f1 j x) (M * h ^ 2 / 6) 1%nat ltac:(lia)). rewrite !pow_1 in Q. apply Q. eapply Rle_trans; [exact (A2 L1 L2)|]. apply Req_le. field.
  - apply Q; [lia|]. eapply Rle_trans; [exact A3|]. apply Req_le. ring.
Qed.
Print Assumptions C100_derivatives.

(** Two points from the ends the second derivative is second order, and three
    points from the ends the third derivative converges. *)
Theorem C100_inner : forall junk (c : curve R) f f1 f2 f3 f4 a h M, wf c -> (3 <= c_size c)%nat -> sampled c f a h ->
  derivs c a h f f1 -> derivs c a h f1 f2 -> derivs c a h f2 f3 -> derivs c a h f3 f4 -> bounds c a h f4 M ->
  exists d2 d3, curve_prop junk c PSecond = Ok (AMat d2) /\ curve_prop junk c PThird = Ok (AMat d3) /\
    length d2 = c_size c /\ length d3 = c_size c /\
    forall i j, (j < c_ndim c)%nat -> let x := a + h * INR i in
      ((2 <= i)%nat -> (i + 2 < c_size c)%nat -> Rabs (nth j (nth i d2 []) 0 / h ^ 2 - f2 j x) <= M * h ^ 2 / 3) /\
      ((3 <= i)%nat -> (i + 3 < c_size c)%nat -> Rabs (nth j (nth i d3 []) 0 / h ^ 3 - f3 j x) <= 5 / 6 * M * h).
Proof.
  intros junk c f f1 f2 f3 f4 a h M W Hm Sm D0 D1 D2 D3 B. assert (D := wf_dims c W). assert (Bl := size3_bool c W Hm).
  exists (deriv2 (c_rows c)), (deriv3 (c_rows c)). rewrite !prop_nonempty by exact Bl.
  split; [reflexivity|]. split; [reflexivity|]. split; [apply deriv2_length|]. split; [apply deriv3_length|].
  intros i j Hj x. pose proof (proj1 Sm) as Hh.
  assert (Q : forall (u w e : R) k, Rabs (u - h ^ k * w) <= e * h ^ k -> Rabs (u / h ^ k - w) <= e).
  { intros u w e k H. assert (P : 0 < h ^ k) by (apply pow_lt, Hh). replace (u / h ^ k - w) with ((u - h ^ k * w) * / h ^ k) by (field; lra).
    rewrite Rabs_mult, (Rabs_right (/ h ^ k)) by (apply Rle_ge, Rlt_le, Rinv_0_lt_compat, P).
    apply (Rmult_le_reg_r (h ^ k)); [exact P|]. rewrite Rmult_assoc, Rinv_l, Rmult_1_r by lra. exact H. }
  split; intros L1 L2; destruct (sampled_slope c f a h j i Sm Hj Hm ltac:(lia)) as (_ & E2 & E3); apply Q.
  - rewrite (deriv2_slope (c_ndim c)) by (assumption || (unfold c_size in *; lia)). fold (c_size c). rewrite E2.
    pose proof (slope2_d4 a h (c_size c) Hh Hm (f j) (f1 j) (f2 j) (f3 j) (f4 j) M i (D0 j Hj) (D1 j Hj) (D2 j Hj) (D3 j Hj) (B j Hj) ltac:(lia) ltac:(lia)) as A.
    unfold at_ in A. fold x in A. eapply Rle_trans; [exact A|]. apply Req_le. field.
  - rewrite (deriv3_slope (c_ndim c)) by (assumption || (unfold c_size in *; lia)). fold (c_size c). rewrite E3.
    pose proof (slope3_d4 a h (c_size c) Hh Hm (f j) (f1 j) (f2 j) (f3 j) (f4 j) M i (D0 j Hj) (D1 j Hj) (D2 j Hj) (D3 j Hj) (B j Hj) ltac:(lia) ltac:(lia)) as A.
    unfold at_ in A. fold x in A. eapply Rle_trans; [exact A|]. apply Req_le. field.
Qed.
Print Assumptions C100_inner.

(** At the three outermost points of each end the third derivative does not
    converge: it is 3/8, 5/8 and 7/8 of the true one on every cubic curve,
    whatever the step. *)
Theorem C100_third_ends : forall junk (c : curve R) (p q u v : nat -> R), wf c -> (8 <= c_size c)%nat ->
  (forall i j, (i < c_size c)%nat -> (j < c_ndim c)%nat ->
     nth j (nth i (c_rows c) []) 0 = p j + q j * INR i + u j * INR i ^ 2 + v j * INR i ^ 3) ->
  exists d3, curve_prop junk c PThird = Ok (AMat d3) /\ length d3 = c_size c /\
    forall i j, (i < c_size c)%nat -> (j < c_ndim c)%nat ->
      nth j (nth i d3 []) 0 = 6 * v j *
        (let e := Nat.min i (c_size c - 1 - i) in if (e =? 0)%nat then 3 / 8 else if (e =? 1)%nat then 5 / 8 else if (e =? 2)%nat then 7 / 8 else 1).
Proof.
  intros junk c p q u v W Hm H. assert (D := wf_dims c W). assert (Bl := size3_bool c W ltac:(lia)).
  exists (deriv3 (c_rows c)). rewrite prop_nonempty by exact Bl. split; [reflexivity|]. split; [apply deriv3_length|].
  intros i j Hi Hj. rewrite (deriv3_slope (c_ndim c)) by (assumption || (unfold c_size in *; lia)). fold (c_size c). set (m := c_size c) in *.
  transitivity (slope m (slope m (slope m (fun k => p j + q j * INR k + u j * INR k ^ 2 + v j * INR k ^ 3))) i).
  { apply slope_ext; [lia|exact Hi|]. intros k Hk. apply slope_ext; [lia|exact Hk|]. intros l Hl. apply slope_ext; [lia|exact Hl|]. intros z Hz. apply H; assumption. }
  rewrite slope3_cubic by assumption. cbv zeta. f_equal.
  destruct (Nat.eqb_spec i 0); cbn [orb]; [subst i; reflexivity|]. destruct (Nat.eqb_spec i (m - 1)).
  { replace (Nat.min i (m - 1 - i)) with 0%nat by lia. reflexivity. }
  destruct (Nat.eqb_spec i 1); cbn [orb]; [replace (Nat.min i (m - 1 - i)) with 1%nat by lia; reflexivity|]. destruct (Nat.eqb_spec i (m - 2)).
  { replace (Nat.min i (m - 1 - i)) with 1%nat by lia. reflexivity. }
  destruct (Nat.eqb_spec i 2); cbn [orb]; [replace (Nat.min i (m - 1 - i)) with 2%nat by lia; reflexivity|]. destruct (Nat.eqb_spec i (m - 3)).
  { replace (Nat.min i (m - 1 - i)) with 2%nat by lia. reflexivity. }
  destruct (Nat.eqb_spec (Nat.min i (m - 1 - i)) 0); [lia|]. destruct (Nat.eqb_spec (Nat.min i (m - 1 - i)) 1); [lia|]. destruct (Nat.eqb_spec (Nat.min i (m - 1 - i)) 2); [lia|]. reflexivity.
Qed.
Print Assumptions C100_third_ends.

(** The signed curvature of a plane curve, up to the ends, with an error
    proportional to the step. *)
Theorem C100_plane_curvature : forall junk (c : curve R) f f1 f2 f3 a h v W M, wf c -> c_ndim c = 2%nat -> (3 <= c_size c)%nat -> sampled c f a h ->
  derivs c a h f f1 -> derivs c a h f1 f2 -> derivs c a h f2 f3 -> bounds c a h f2 W -> bounds c a h f3 M ->
  0 < v -> (forall x, a <= x <= a + h * INR (c_size c - 1) -> v <= sqrt (f1 0%nat x * f1 0%nat x + f1 1%nat x * f1 1%nat x)) -> 4 * M * h ^ 2 <= v ->
  exists k, curve_prop junk c PCurvature = Ok (AVec k) /\ length k = c_size c /\
    forall i, (i < c_size c)%nat -> let x := a + h * INR i in let n := sqrt (f1 0%nat x * f1 0%nat x + f1 1%nat x * f1 1%nat x) in
      Rabs (nth i k 0 - (f2 1%nat x * f1 0%nat x - f2 0%nat x * f1 1%nat x) / (n * n * n)) <= 48 * M * h / v ^ 2 + 72 * M * W * h ^ 2 / v ^ 3.
Proof.
  intros junk c f f1 f2 f3 a h v W M Wf N2 Hm Sm D0 D1 D2 BW B Hv Bv Small. assert (D := wf_dims c Wf). rewrite N2 in D.
  rewrite prop_nonempty by (apply size3_bool; assumption). rewrite N2. cbn [Nat.eqb]. unfold curvature_plane. unfold c_size in Hm.
  destruct (Nat.eqb_spec (length (c_rows c)) 1); [lia|]. cbn [rmap].
  eexists. split; [reflexivity|]. split; [rewrite map2_length, deriv1_length, deriv2_length; apply Nat.min_id|].
  intros i Hi. set (x := a + h * INR i). set (nn := sqrt (f1 0%nat x * f1 0%nat x + f1 1%nat x * f1 1%nat x)).
  assert (P : plane2 (fun k => f 0%nat (at_ a h k)) (fun k => f 1%nat (at_ a h k)) (c_rows c)).
  { split; [exact D|]. intros k Hk. split; apply (proj2 Sm); rewrite ?N2; (exact Hk || lia). }
  destruct (curvature2_plane2 _ _ (c_rows c) i ltac:(lia) P Hi) as (K & _). rewrite K. clear K. pose proof (proj1 Sm) as Hh.
  assert (X : a <= x <= a + h * INR (c_size c - 1)) by (apply (at_in a h (c_size c) Hh Hm i Hi)).
  assert (h2 : 0 < h ^ 2) by (apply pow_lt, Hh).
  assert (A : forall j, (j < 2)%nat -> exists e1 e2, Rabs e1 <= M * h ^ 2 /\ Rabs e2 <= 6 * M * h /\
    slope (length (c_rows c)) (fun k => f j (at_ a h k)) i = h * (f1 j x + e1) /\
    slope (length (c_rows c)) (slope (length (c_rows c)) (fun k => f j (at_ a h k))) i = h ^ 2 * (f2 j x + e2)).
  { intros j Hj. rewrite <- N2 in Hj.
    pose proof (proj1 (slope_d3 a h (c_size c) Hh Hm (f j) (f1 j) (f2 j) (f3 j) M i (D0 j Hj) (D1 j Hj) (D2 j Hj) (B j Hj) Hi)) as A1.
    pose proof (slope2_d3 a h (c_size c) Hh Hm (f j) (f1 j) (f2 j) (f3 j) M i (D0 j Hj) (D1 j Hj) (D2 j Hj) (B j Hj) Hi) as A3.
    fold (c_size c). set (F1 := slope (c_size c) (fun k => f j (at_ a h k)) i) in *. set (F2 := slope (c_size c) (slope (c_size c) (fun k => f j (at_ a h k))) i) in *.
    change (at_ a h i) with x in *. exists (F1 / h - f1 j x), (F2 / h ^ 2 - f2 j x). split; [|split; [|split; field; lra]].
    - replace (F1 / h - f1 j x) with ((F1 - h * f1 j x) * / h) by (field; lra). rewrite Rabs_mult, (Rabs_right (/ h)) by (apply Rle_ge, Rlt_le, Rinv_0_lt_compat, Hh).
      apply (Rmult_le_reg_r h); [exact Hh|]. rewrite Rmult_assoc, Rinv_l, Rmult_1_r by lra. eapply Rle_trans; [exact A1|]. apply Req_le. ring.
    - replace (F2 / h ^ 2 - f2 j x) with ((F2 - h ^ 2 * f2 j x) * / h ^ 2) by (field; lra). rewrite Rabs_mult, (Rabs_right (/ h ^ 2)) by (apply Rle_ge, Rlt_le, Rinv_0_lt_compat, h2).
      apply (Rmult_le_reg_r (h ^ 2)); [exact h2|]. rewrite Rmult_assoc, Rinv_l, Rmult_1_r by lra. eapply Rle_trans; [exact A3|]. apply Req_le. ring. }
  destruct (A 0%nat ltac:(lia)) as (ax & bx & Ax & Bx & -> & ->). destruct (A 1%nat ltac:(lia)) as (ay & by_ & Ay & By & -> & ->).
  destruct (curv_close (f1 0%nat x) (f1 1%nat x) (f2 0%nat x) (f2 1%nat x) ax ay bx by_ (M * h ^ 2) (6 * M * h) W v Hv (Bv x X) Ax Ay Bx By
    (BW 0%nat ltac:(lia) x X) (BW 1%nat ltac:(lia) x X) ltac:(lra)) as (NP & C).
  set (px := f1 0%nat x + ax) in *. set (py := f1 1%nat x + ay) in *. set (N := hyp px py) in *.
  replace (8 * (6 * M * h) / v ^ 2 + 72 * (M * h ^ 2) * W / v ^ 3) with (48 * M * h / v ^ 2 + 72 * M * W * h ^ 2 / v ^ 3) in C by (field; lra).
  change (sqrt (h * px * (h * px) + h * py * (h * py))) with (hyp (h * px) (h * py)). rewrite hyp_scale by lra. fold N.
  replace (h * px * (h * px) + h * py * (h * py)) with (h ^ 2 * (px * px + py * py)) by ring. rewrite <- (hyp_sq px py). fold N.
  change (hyp (f1 0%nat x) (f1 1%nat x)) with nn in C.
  replace ((h ^ 2 * (f2 1%nat x + by_) * (h * px) - h ^ 2 * (f2 0%nat x + bx) * (h * py)) / (h ^ 2 * (N * N) * (h * N)))
    with (((f2 1%nat x + by_) * px - (f2 0%nat x + bx) * py) / (N * N * N)) by (field; split; lra). exact C.
Qed.
Print Assumptions C100_plane_curvature.

(** The curvature in any other number of dimensions (there it is the norm of the
    derivative of the unit tangent over the speed, and numpy.isclose decides
    which tangents are divided by their length, so the step must not be so fine
    that h |f'| reaches 2e-8). *)
Theorem C100_space_curvature : forall junk (c : curve R) f f1 f2 f3 a h v W M, wf c -> c_ndim c <> 2%nat -> (3 <= c_size c)%nat -> sampled c f a h ->
  derivs c a h f f1 -> derivs c a h f1 f2 -> derivs c a h f2 f3 -> bounds c a h f3 M ->
  let at_x (g : nat -> R -> R) x := map (fun j => g j x) (seq 0 (c_ndim c)) in let r := sqrt (INR (c_ndim c)) in
  0 < v -> (forall x, a <= x <= a + h * INR (c_size c - 1) -> v <= norm (at_x f1 x) /\ norm (at_x f2 x) <= W) ->
  4 * W * h + 6 * (r * M) * h ^ 2 <= v -> / 50000000 < h * v ->
  exists k, curve_prop junk c PCurvature = Ok (AVec k) /\ length k = c_size c /\
    forall i, (i < c_size c)%nat -> let x := a + h * INR i in let p := at_x f1 x in let q := at_x f2 x in
      Rabs (nth i k 0 - sqrt (inner p p * inner q q - inner p q * inner p q) / (norm p * norm p * norm p))
      <= 24 * INR (c_ndim c) * M * h / v ^ 2 + 40 * r * h * (2 * W + 3 * (r * M) * h) ^ 2 / v ^ 3 + 2 * W * (r * M) * h ^ 2 / v ^ 3.
Proof.
  intros junk c f f1 f2 f3 a h v W M Wf N2 Hm Sm D0 D1 D2 B at_x r Hv Bb Small Large. assert (D := wf_dims c Wf).
  rewrite prop_nonempty by (apply size3_bool; assumption). destruct (Nat.eqb_spec (c_ndim c) 2); [contradiction|].
  eexists. split; [reflexivity|]. split; [apply curvature_space_length|]. intros i Hi x p q.
  rewrite curvature_space_nth by exact Hi. pose proof (proj1 Sm) as Hh.
  assert (Hn : (0 < c_ndim c)%nat) by (destruct Wf as (Q & _); lia).
  pose proof (space_curv (c_ndim c) (c_size c) a h v W M f f1 f2 f3 (c_rows c) Hn Hm Hh Hv D eq_refl (proj2 Sm) D0 D1 D2 B) as C.
  assert (Bv : forall x, a <= x <= at_ a h (c_size c - 1) -> v <= vnorm (vec (c_ndim c) f1 x)) by (intros z Hz; rewrite <- norm_vnorm; apply Bb, Hz).
  assert (BW : forall x, a <= x <= at_ a h (c_size c - 1) -> vnorm (vec (c_ndim c) f2 x) <= W) by (intros z Hz; rewrite <- norm_vnorm; apply Bb, Hz).
  specialize (C Bv BW). fold r in C. specialize (C ltac:(lra) Large i Hi). cbv zeta in C. change (at_ a h i) with x in C.
  change (vec (c_ndim c) f1 x) with p in C. change (vec (c_ndim c) f2 x) with q in C.
  assert (Lp : length p = length q) by (unfold p, q, at_x; rewrite !map_length; reflexivity).
  assert (P : 0 < vnorm p) by (pose proof (Bv x (at_in a h (c_size c) Hh Hm i Hi)) as Q; change (vec (c_ndim c) f1 x) with p in Q; lra).
  assert (Ea : vnorm (across q p) = sqrt (vdot p p * vdot q q - vdot p q * vdot p q) / vnorm p).
  { assert (Pp : 0 < vdot p p) by (rewrite <- vnorm_sq; nra). rewrite <- (sqrt_square (vnorm p)) at 1 by lra. rewrite vnorm_sq.
    rewrite <- sqrt_div_alt by exact Pp. unfold vnorm at 1. change (nsqrt ?z) with (sqrt z). f_equal. unfold across.
    rewrite vdot_sub_l, !vdot_sub_r, !vdot_scale_l, !vdot_scale_r by (rewrite ?vsub_length, ?vscale_length; congruence). rewrite (vdot_comm q p). field. lra. }
  rewrite Ea in C. rewrite !norm_vnorm, !inner_vdot.
  replace (sqrt (vdot p p * vdot q q - vdot p q * vdot p q) / (vnorm p * vnorm p * vnorm p))
    with (sqrt (vdot p p * vdot q q - vdot p q * vdot p q) / vnorm p / (vnorm p * vnorm p)) by (field; lra).
  replace (24 * INR (c_ndim c) * M * h) with (24 * r * (r * M) * h); [exact C|].
  replace (24 * r * (r * M) * h) with (24 * (r * r) * M * h) by ring. unfold r. rewrite sqrt_sqrt by apply pos_INR. reflexivity.
Qed.
Print Assumptions C100_space_curvature.

Lemma circ_norm s z : 0 <= s -> vnorm [- (s * sin z); s * cos z; 0] = s.
Proof.
  intros H. apply Rsqr_inj; [apply vnorm_nonneg|exact H|]. unfold Rsqr. rewrite vnorm_sq, !vdot_cons.
  replace (vdot [] []) with 0 by reflexivity. pose proof (sin2_cos2 z) as Q. unfold Rsqr in Q.
  transitivity (s * s * (sin z * sin z + cos z * cos z)); [ring|rewrite Q; ring].
Qed.

(** With a step of 1e-8 or less on the unit circle in space every interior value
    is sin h instead of 1: the tangents are too short for numpy.isclose and are
    left as they are. *)
Theorem C100_space_fine_refuted : forall junk (c : curve R) h, wf c -> 0 < h <= / 100000000 -> (5 <= c_size c)%nat ->
  (forall i, (i < c_size c)%nat -> nth i (c_rows c) [] = [cos (h * INR i); sin (h * INR i); 0]) ->
  exists k, curve_prop junk c PCurvature = Ok (AVec k) /\ length k = c_size c /\
    forall i, (2 <= i)%nat -> (i + 2 < c_size c)%nat -> nth i k 0 = sin h /\ sin h <= / 100000000.
Proof.
  intros junk c h Wf Hh Hm H. assert (D := wf_dims c Wf).
  assert (N3 : c_ndim c = 3%nat) by (pose proof (D _ (nth_In (c_rows c) [] (n := 0) ltac:(unfold c_size in Hm; lia))) as Q; rewrite H in Q by lia; cbn in Q; lia).
  rewrite N3 in D. rewrite prop_nonempty by (apply size3_bool; [assumption|lia]). rewrite N3. cbn [Nat.eqb].
  eexists. split; [reflexivity|]. split; [apply curvature_space_length|]. intros i H2 Hi. unfold c_size in *.
  assert (Sh : 0 < sin h <= h).
  { split; [apply sin_gt_0; [lra|]; pose proof PI2_1; lra|]. left. apply sin_lt_x. lra. }
  split; [|lra]. rewrite curvature_space_nth by lia.
  assert (G : forall k, (0 < k)%nat -> (S k < length (c_rows c))%nat ->
    nth k (deriv1 (c_rows c)) [] = [- (sin h * sin (h * INR k)); sin h * cos (h * INR k); 0]).
  { intros k Hk Hk'. unfold deriv1. apply vec_ext; [rewrite (proj1 (gradient_nth 3 (c_rows c) k D ltac:(lia) ltac:(lia))); reflexivity|].
    intros j. rewrite (gradient_inner 3) by assumption. rewrite !H by lia. rewrite minus_INR, S_INR by lia. change (INR 1) with 1.
    replace (h * (INR k + 1)) with (h * INR k + h) by ring. replace (h * (INR k - 1)) with (h * INR k - h) by ring.
    rewrite cos_plus, cos_minus, sin_plus, sin_minus. destruct j as [|[|[|j]]]; cbn [nth]; try field. destruct j; field. }
  assert (Nn : forall k, vnorm [- (sin h * sin (h * INR k)); sin h * cos (h * INR k); 0] = sin h).
  { intros k. apply circ_norm. lra. }
  assert (E : forall k, (0 < k)%nat -> (S k < length (c_rows c))%nat -> nth k (frenet1_rows (c_rows c)) [] = [- (sin h * sin (h * INR k)); sin h * cos (h * INR k); 0]).
  { intros k Hk Hk'. unfold frenet1_rows. rewrite nth_map_unit, G by assumption. apply unit_row_near. rewrite Nn. lra. }
  rewrite G by lia. rewrite Nn.
  assert (D1 : dims 3 (deriv1 (c_rows c))) by (apply gradient_dims; [exact D|lia]).
  assert (DE : dims 3 (frenet1_rows (c_rows c))).
  { intros z Hz. apply in_map_iff in Hz. destruct Hz as (y & <- & Hy). rewrite unit_row_length. apply D1, Hy. }
  assert (LE : length (frenet1_rows (c_rows c)) = length (c_rows c)) by apply frenet1_length.
  replace (nth i (gradient (frenet1_rows (c_rows c))) []) with (vscale [- (sin h * sin (h * (INR i + PI / 2 / h))); sin h * cos (h * (INR i + PI / 2 / h)); 0] (sin h)).
  - rewrite vnorm_scale, Rabs_right by lra.
    assert (N' : vnorm [- (sin h * sin (h * (INR i + PI / 2 / h))); sin h * cos (h * (INR i + PI / 2 / h)); 0] = sin h).
    { apply circ_norm. lra. }
    rewrite N'. field. lra.
  - symmetry. apply vec_ext; [rewrite (proj1 (gradient_nth 3 _ i DE ltac:(lia) ltac:(lia))), vscale_length; reflexivity|].
    intros j. rewrite (gradient_inner 3) by (assumption || lia). rewrite !E by lia. rewrite nth_vscale, minus_INR, S_INR by lia. change (INR 1) with 1.
    replace (h * (INR i + PI / 2 / h)) with (h * INR i + PI / 2) by (field; lra).
    replace (h * (INR i + 1)) with (h * INR i + h) by ring. replace (h * (INR i - 1)) with (h * INR i - h) by ring.
    rewrite cos_plus, cos_minus, sin_plus, sin_minus, (cos_plus (h * INR i) (PI / 2)), (sin_plus (h * INR i) (PI / 2)), cos_PI2, sin_PI2.
    destruct j as [|[|[|j]]]; cbn [nth]; try field. destruct j; field.
Qed.
Print Assumptions C100_space_fine_refuted.

(** Lengths, for any increasing parameters: the polygon is never longer than the
    curve and misses at most W tau times the parameter range, where tau is the
    largest gap and W bounds the second derivative. The length of the curve is
    any function whose derivative is the speed. *)
Theorem C100_length : forall junk (c : curve R) t f f1 f2 len W tau, wf c -> c_rows c <> [] -> length t = c_size c -> increasing t ->
  let lo := nth 0 t 0 in let hi := nth (c_size c - 1) t 0 in let at_x (g : nat -> R -> R) x := map (fun j => g j x) (seq 0 (c_ndim c)) in
  (forall i j, (i < c_size c)%nat -> (j < c_ndim c)%nat -> nth j (nth i (c_rows c) []) 0 = f j (nth i t 0)) ->
  (forall j, (j < c_ndim c)%nat -> deriv_on lo hi (f j) (f1 j) /\ deriv_on lo hi (f1 j) (f2 j)) ->
  deriv_on lo hi len (fun x => norm (at_x f1 x)) -> (forall x, lo <= x <= hi -> norm (at_x f2 x) <= W) ->
  (forall i, (S i < c_size c)%nat -> nth (S i) t 0 - nth i t 0 <= tau) ->
  (forall i, (i < c_size c)%nat -> let k := nth i (c_cumarclen junk c) 0 in
     k <= len (nth i t 0) - len lo <= k + W * tau * (nth i t 0 - lo)) /\
  c_arclen junk c <= len hi - len lo <= c_arclen junk c + W * tau * (hi - lo).
Proof.
  intros junk c t f f1 f2 len W tau Wf N Lt It lo hi at_x Hr Dd Ds BW Gap. assert (D := wf_dims c Wf).
  destruct (C24_cumarclen junk c Wf N) as (_ & Z & St & _ & La).
  assert (S0 : (0 < c_size c)%nat) by (unfold c_size; destruct (c_rows c); [contradiction|cbn; lia]).
  assert (Row : forall i, (i < c_size c)%nat -> nth i (c_rows c) [] = vec (c_ndim c) f (nth i t 0)).
  { intros i Hi. assert (Li : length (nth i (c_rows c) []) = c_ndim c) by (apply D, nth_In, Hi).
    apply vec_ext; [rewrite Li, vec_length; reflexivity|]. intros j. destruct (Nat.lt_ge_cases j (c_ndim c)) as [L|L].
    - rewrite vec_nth by exact L. apply Hr; assumption.
    - rewrite !nth_overflow by (rewrite ?vec_length; lia). reflexivity. }
  assert (Ds' : deriv_on lo hi len (fun x => vnorm (vec (c_ndim c) f1 x))) by (intros x Hx; rewrite <- norm_vnorm; apply (Ds x Hx)).
  assert (BW' : forall x, lo <= x <= hi -> vnorm (vec (c_ndim c) f2 x) <= W) by (intros x Hx; rewrite <- norm_vnorm; apply (BW x Hx)).
  assert (Le : forall i j, (i <= j < c_size c)%nat -> nth i t 0 <= nth j t 0) by (intros i j Hij; apply increasing_le; [exact It|lia]).
  assert (Main : forall i, (i < c_size c)%nat -> let k := nth i (c_cumarclen junk c) 0 in
     k <= len (nth i t 0) - len lo <= k + W * tau * (nth i t 0 - lo)).
  { induction i as [|i IH]; intros Hi k.
    - unfold k. rewrite (nth_indep _ 0 1) by (rewrite (proj1 (C24_cumarclen junk c Wf N)); lia). rewrite Z. fold lo. lra.
    - specialize (IH ltac:(lia)). cbv zeta in IH. unfold k. rewrite St by exact Hi. set (ki := nth i (c_cumarclen junk c) 0) in *.
      rewrite !Row by lia. set (x := nth i t 0) in *. set (y := nth (S i) t 0) in *.
      assert (Hx : lo <= x) by (apply Le; lia). assert (Hy : y <= hi) by (apply Le; lia). assert (Hxy : x < y) by (apply It; lia).
      assert (Et : dist (vec (c_ndim c) f x) (vec (c_ndim c) f y) = vnorm (vsub (vec (c_ndim c) f y) (vec (c_ndim c) f x))).
      { unfold dist. rewrite norm_vnorm, minus_vsub. reflexivity. }
      rewrite Et.
      pose proof (chord_le (c_ndim c) lo hi f f1 len (fun j Hj => proj1 (Dd j Hj)) Ds' x y Hx ltac:(lra) Hy) as C1.
      pose proof (chord_ge (c_ndim c) lo hi W f f1 f2 len (fun j Hj => proj1 (Dd j Hj)) Ds' (fun j Hj => proj2 (Dd j Hj)) BW' x y Hx ltac:(lra) Hy) as C2.
      assert (W0 : 0 <= W) by (pose proof (BW' x ltac:(lra)); pose proof (vnorm_nonneg (vec (c_ndim c) f2 x)); lra).
      pose proof (Gap i Hi) as G. fold x y in G.
      assert (W * (y - x) ^ 2 <= W * tau * (y - x)).
      { replace (W * (y - x) ^ 2) with (W * (y - x) * (y - x)) by ring. apply Rmult_le_compat_r; [lra|]. apply Rmult_le_compat_l; lra. }
      nra. }
  split; [exact Main|]. rewrite <- La. apply (Main (c_size c - 1)%nat). lia.
Qed.
Print Assumptions C100_length.

(** Where a value falls among increasing parameters. *)
Lemma locate (t : list R) v m : increasing t -> length t = S m -> (0 < m)%nat -> nth 0 t 0 <= v <= nth m t 0 ->
  exists k, (k < m)%nat /\ nth k t 0 <= v <= nth (S k) t 0.
Proof.
  intros I L Hm (H0 & H1). assert (G : forall l, (l < m)%nat -> v <= nth (S l) t 0 -> exists k, (k < m)%nat /\ nth k t 0 <= v <= nth (S k) t 0).
  { induction l as [|l IH]; intros Hl H; [exists 0%nat; split; [exact Hl|split; assumption]|].
    destruct (Rle_lt_dec v (nth (S l) t 0)) as [Q|Q]; [apply IH; [lia|exact Q]|]. exists (S l). split; [exact Hl|lra]. }
  apply (G (m - 1)%nat); [lia|]. replace (S (m - 1)) with m by lia. exact H1.
Qed.

(** Linear interpolation of points taken from a smooth curve: every coordinate is
    within M tau^2 / 8 of the curve. *)
Theorem C100_linear : forall junk few (r : registry (icreate R)) name (c : curve R) s g f f1 f2 M tau,
  wf c -> (2 <= c_size c)%nat -> increasing (c_tval junk c) -> c_dtype c = DFloat ->
  reg_find r name = Some (linear junk few) -> get_grid junk few c s = Ok g ->
  let lo := nth 0 (c_tval junk c) 0 in let hi := nth (c_size c - 1) (c_tval junk c) 0 in
  (forall v, In v g -> lo <= v <= hi) ->
  (forall i j, (i < c_size c)%nat -> (j < c_ndim c)%nat -> nth j (nth i (c_rows c) []) 0 = f j (nth i (c_tval junk c) 0)) ->
  (forall j, (j < c_ndim c)%nat -> deriv_on lo hi (f j) (f1 j) /\ deriv_on lo hi (f1 j) (f2 j) /\ bounded_on lo hi (f2 j) M) ->
  (forall i, (S i < c_size c)%nat -> nth (S i) (c_tval junk c) 0 - nth i (c_tval junk c) 0 <= tau) ->
  exists c', interpolate junk few r name c s = Ok c' /\ c_size c' = length g /\
    forall i j, (i < length g)%nat -> (j < c_ndim c)%nat -> Rabs (nth j (nth i (c_rows c') []) 0 - f j (nth i g 0)) <= M * tau ^ 2 / 8.
Proof.
  intros junk few r name c s g f f1 f2 M tau W H I Dt F G lo hi Rg Hr Dd Gap.
  assert (L := tval_length junk c W (size_nonempty c ltac:(lia))).
  destruct (C54_linear junk few r name c s g W H I F G) as (rows & E & Lr & Dr & A).
  eexists. split; [exact E|]. unfold c_size. cbn [c_rows]. rewrite Dt, map_cast_float. split; [exact Lr|].
  intros i j Hi Hj. set (t := c_tval junk c) in *. assert (Gi : lo <= nth i g 0 <= hi) by (apply Rg, nth_In, Hi).
  assert (Sz : c_size c = S (c_size c - 1)) by lia.
  destruct (locate t (nth i g 0) (c_size c - 1) I ltac:(rewrite L; exact Sz) ltac:(lia) Gi) as (k & Hk & Kb).
  destruct (A i k Hi ltac:(lia) ltac:(right; lra) ltac:(right; lra)) as (_ & Av). rewrite Av, !Hr by lia.
  set (x := nth k t 0) in *. set (y := nth (S k) t 0) in *. set (z := nth i g 0) in *.
  assert (Hx : lo <= x) by (apply increasing_le; [exact I|lia]). assert (Hy : y <= hi) by (apply increasing_le; [exact I|lia]).
  assert (Hxy : x < y) by (apply I; lia). destruct (Dd j Hj) as (E0 & E1 & E2).
  eapply Rle_trans; [apply (linear_error lo hi (f j) (f1 j) (f2 j) M x y z E0 E1 E2 Hx Kb Hy Hxy)|].
  pose proof (Gap k ltac:(lia)) as Q. fold x y in Q.
  assert (M0 : 0 <= M) by (pose proof (E2 x ltac:(lra)); pose proof (Rabs_pos (f2 j x)); lra).
  assert ((y - x) ^ 2 <= tau ^ 2) by (apply pow_incr; lra). apply (Rmult_le_compat_l M) in H0; [lra|exact M0].
Qed.
Print Assumptions C100_linear.

(** ** Examples: an arc of the unit circle with a step of 1/1000 *)
Definition w0 (j : nat) (x : R) : R := match j with 0%nat => cos x | 1%nat => sin x | _ => 0 end.
Definition w1 (j : nat) (x : R) : R := match j with 0%nat => - sin x | 1%nat => cos x | _ => 0 end.
Definition w2 (j : nat) (x : R) : R := match j with 0%nat => - cos x | 1%nat => - sin x | _ => 0 end.
Definition w3 (j : nat) (x : R) : R := match j with 0%nat => sin x | 1%nat => - cos x | _ => 0 end.
Definition arc (n : nat) : curve R :=
  mkCurve (map (fun i => map (fun j => w0 j (0 + / 1000 * INR i)) (seq 0 n)) (seq 0 9)) n DFloat None.
Lemma arc_wf n : (2 <= n)%nat -> wf (arc n).
Proof.
  intros H. split; [cbn; lia|]. split; [|intros t Q; discriminate Q].
  intros r Hr. apply in_map_iff in Hr. destruct Hr as (i & <- & _). rewrite map_length, seq_length. reflexivity.
Qed.
Lemma arc_size n : c_size (arc n) = 9%nat. Proof. reflexivity. Qed.
Lemma arc_sampled n : sampled (arc n) w0 0 (/ 1000).
Proof.
  split; [lra|]. rewrite arc_size. intros i j Hi Hj. cbn [arc c_rows c_ndim] in *.
  rewrite (nth_map_in _ _ i 0%nat) by (rewrite seq_length; exact Hi). rewrite (SplineProofs2.nth_map_in _ _ j 0%nat) by (rewrite seq_length; exact Hj).
  rewrite !seq_nth by assumption. reflexivity.
Qed.
Lemma wave_deriv lo hi j : deriv_on lo hi (w0 j) (w1 j) /\ deriv_on lo hi (w1 j) (w2 j) /\ deriv_on lo hi (w2 j) (w3 j) /\ deriv_on lo hi (w3 j) (w0 j).
Proof.
  assert (C : forall x, derivable_pt_lim (fun x => - cos x) x (sin x)) by (intros x; rewrite <- (Ropp_involutive (sin x)); apply (derivable_pt_lim_opp cos), derivable_pt_lim_cos).
  assert (Z : forall x, derivable_pt_lim (fun x => - sin x) x (- cos x)) by (intros x; apply (derivable_pt_lim_opp sin), derivable_pt_lim_sin).
  repeat split; intros x _; destruct j as [|[|j]]; cbn;
    first [apply C|apply Z|apply derivable_pt_lim_sin|apply derivable_pt_lim_cos|apply derivable_pt_lim_const].
Qed.
Lemma wave_bound lo hi j : bounded_on lo hi (w0 j) 1 /\ bounded_on lo hi (w2 j) 1 /\ bounded_on lo hi (w3 j) 1.
Proof.
  assert (B : forall y, -1 <= y <= 1 -> Rabs y <= 1) by (intros y Hy; apply Rabs_le; exact Hy).
  repeat split; intros x _; destruct j as [|[|j]]; cbn; apply B; try lra; pose proof (SIN_bound x); pose proof (COS_bound x); lra.
Qed.
Lemma wave_norm x : norm (map (fun j => w1 j x) (seq 0 3)) = 1 /\ norm (map (fun j => w2 j x) (seq 0 3)) = 1 /\
  norm (map (fun j => w1 j x) (seq 0 2)) = 1 /\ norm (map (fun j => w2 j x) (seq 0 2)) = 1.
Proof.
  pose proof (sin2_cos2 x) as Q. unfold Rsqr in Q.
  assert (K : forall u : list R, vdot u u = 1 -> norm u = 1).
  { intros u H. rewrite norm_vnorm. apply Rsqr_inj; [apply vnorm_nonneg|lra|]. unfold Rsqr. rewrite vnorm_sq, H. ring. }
  repeat split; apply K; cbn [seq map w1 w2]; rewrite !vdot_cons; replace (vdot [] []) with 0 by reflexivity; lra.
Qed.

Example C100_derivatives_ex : wf (arc 2) /\ (3 <= c_size (arc 2))%nat /\ sampled (arc 2) w0 0 (/ 1000) /\
  derivs (arc 2) 0 (/ 1000) w0 w1 /\ derivs (arc 2) 0 (/ 1000) w1 w2 /\ derivs (arc 2) 0 (/ 1000) w2 w3 /\ derivs (arc 2) 0 (/ 1000) w3 w0 /\
  bounds (arc 2) 0 (/ 1000) w3 1 /\ bounds (arc 2) 0 (/ 1000) w2 1 /\ bounds (arc 2) 0 (/ 1000) w0 1.
Proof.
  split; [apply arc_wf; lia|]. split; [rewrite arc_size; lia|]. split; [apply arc_sampled|].
  repeat split; intros j _; first [apply wave_deriv|apply wave_bound].
Qed.
(** The curvature of the arc: within 0.05 of 1 at each of the nine points. *)
Example C100_plane_curvature_ex : exists k, curve_prop 99 (arc 2) PCurvature = Ok (AVec k) /\
  forall i, (i < 9)%nat -> Rabs (nth i k 0 - 1) <= / 20.
Proof.
  destruct C100_derivatives_ex as (W & Sz & Sm & D0 & D1 & D2 & _ & B3 & B2 & _).
  assert (N1 : forall x, w1 0 x * w1 0 x + w1 1 x * w1 1 x = 1) by (intros x; cbn; pose proof (sin2_cos2 x) as Q; unfold Rsqr in Q; lra).
  destruct (C100_plane_curvature 99 (arc 2) w0 w1 w2 w3 0 (/ 1000) 1 1 1 W eq_refl Sz Sm D0 D1 D2 B2 B3 ltac:(lra)) as (k & E & _ & H).
  - intros x _. rewrite N1, sqrt_1. lra.
  - lra.
  - exists k. split; [exact E|]. intros i Hi. specialize (H i ltac:(rewrite arc_size; exact Hi)). cbv zeta in H. rewrite N1, sqrt_1 in H.
    set (x := 0 + / 1000 * INR i) in *. pose proof (sin2_cos2 x) as Q. unfold Rsqr in Q.
    replace ((w2 1 x * w1 0 x - w2 0 x * w1 1 x) / (1 * 1 * 1)) with 1 in H by (cbn [w1 w2]; field_simplify; lra).
    eapply Rle_trans; [exact H|]. lra.
Qed.
(** The same arc in space. *)
Example C100_space_curvature_ex : exists k, curve_prop 99 (arc 3) PCurvature = Ok (AVec k) /\
  forall i, (i < 9)%nat -> Rabs (nth i k 0 - 1) <= / 2.
Proof.
  assert (R3 : 0 <= sqrt 3 <= 2) by (split; [apply sqrt_pos|]; apply Rsqr_incr_0_var; [unfold Rsqr; rewrite sqrt_sqrt; lra|lra]).
  assert (E3 : INR (c_ndim (arc 3)) = 3) by (cbn; ring).
  destruct (C100_space_curvature 99 (arc 3) w0 w1 w2 w3 0 (/ 1000) 1 1 1 (arc_wf 3 ltac:(lia)) ltac:(discriminate) ltac:(rewrite arc_size; lia) (arc_sampled 3))
    as (k & E & _ & H); try (intros j _; first [apply wave_deriv|apply wave_bound]); try lra.
  - intros x _. change (c_ndim (arc 3)) with 3%nat. destruct (wave_norm x) as (-> & -> & _). lra.
  - rewrite E3. nra.
  - exists k. split; [exact E|]. intros i Hi. specialize (H i ltac:(rewrite arc_size; exact Hi)). cbv zeta in H. rewrite E3 in H. change (c_ndim (arc 3)) with 3%nat in H.
    set (x := 0 + / 1000 * INR i) in *. destruct (wave_norm x) as (N1 & N2 & _). rewrite N1 in H.
    pose proof (norm_vnorm (map (fun j => w1 j x) (seq 0 3))) as V1. pose proof (norm_vnorm (map (fun j => w2 j x) (seq 0 3))) as V2. rewrite N1 in V1. rewrite N2 in V2.
    rewrite !inner_vdot in H. rewrite <- (vnorm_sq (map (fun j => w1 j x) (seq 0 3))), <- (vnorm_sq (map (fun j => w2 j x) (seq 0 3))), <- V1, <- V2 in H.
    replace (vdot (map (fun j => w1 j x) (seq 0 3)) (map (fun j => w2 j x) (seq 0 3))) with 0 in H
      by (cbn [seq map w1 w2]; rewrite !vdot_cons; replace (vdot [] []) with 0 by reflexivity; ring).
    replace (1 * 1 * (1 * 1) - 0 * 0) with 1 in H by ring. rewrite sqrt_1 in H. replace (1 / (1 * 1 * 1)) with 1 in H by field.
    eapply Rle_trans; [exact H|]. nra.
Qed.

(** The same nine points: the length of the curve is the parameter itself. *)
Example C100_length_ex : let t := map (fun i => 0 + / 1000 * INR i) (seq 0 9) in
  increasing t /\ (forall i j, (i < 9)%nat -> (j < 2)%nat -> nth j (nth i (c_rows (arc 2)) []) 0 = w0 j (nth i t 0)) /\
  c_arclen 99 (arc 2) <= 8 / 1000 <= c_arclen 99 (arc 2) + / 100000.
Proof.
  intros t. assert (T : forall i, (i < 9)%nat -> nth i t 0 = 0 + / 1000 * INR i).
  { intros i Hi. unfold t. rewrite (nth_map_in _ _ i 0%nat) by (rewrite seq_length; exact Hi). rewrite seq_nth by exact Hi. reflexivity. }
  assert (I : increasing t) by (intros i Hi; unfold t in Hi; rewrite map_length, seq_length in Hi; rewrite !T, S_INR by lia; lra).
  assert (Hr : forall i j, (i < 9)%nat -> (j < 2)%nat -> nth j (nth i (c_rows (arc 2)) []) 0 = w0 j (nth i t 0)).
  { intros i j Hi Hj. rewrite T by exact Hi. apply (proj2 (arc_sampled 2)); assumption. }
  split; [exact I|]. split; [exact Hr|].
  destruct (C100_length 99 (arc 2) t w0 w1 w2 (fun x => x) 1 (/ 1000) (arc_wf 2 ltac:(lia)) ltac:(discriminate) eq_refl I Hr) as (_ & H).
  - intros j _. split; apply wave_deriv.
  - intros x _. change (c_ndim (arc 2)) with 2%nat. destruct (wave_norm x) as (_ & _ & -> & _). apply derivable_pt_lim_id.
  - intros x _. change (c_ndim (arc 2)) with 2%nat. destruct (wave_norm x) as (_ & _ & _ & ->). lra.
  - rewrite arc_size. intros i Hi. rewrite !T, S_INR by lia. lra.
  - rewrite arc_size in H. rewrite !T in H by lia. cbn [Nat.sub] in H. replace (INR 8) with 8 in H by (cbn; ring). change (INR 0) with 0 in H. lra.
Qed.

(** A parabola through seven parameters a quarter apart, interpolated in between. *)
Definition par7 : curve R :=
  mkCurve (map (fun i => [/ 4 * INR i; (/ 4 * INR i) * (/ 4 * INR i)]) (seq 0 7)) 2 DFloat (Some (map (fun i => / 4 * INR i) (seq 0 7))).
Definition sq (j : nat) (x : R) : R := match j with 0%nat => x | _ => x * x end.
Definition sq1 (j : nat) (x : R) : R := match j with 0%nat => 1 | _ => 2 * x end.
Definition sq2 (j : nat) (x : R) : R := match j with 0%nat => 0 | _ => 2 end.
Example C100_linear_ex : wf par7 /\ (2 <= c_size par7)%nat /\ increasing (c_tval 99 par7) /\
  (forall i j, (i < c_size par7)%nat -> (j < c_ndim par7)%nat -> nth j (nth i (c_rows par7) []) 0 = sq j (nth i (c_tval 99 par7) 0)) /\
  (forall lo hi j, deriv_on lo hi (sq j) (sq1 j) /\ deriv_on lo hi (sq1 j) (sq2 j) /\ bounded_on lo hi (sq2 j) 2) /\
  (forall i, (S i < c_size par7)%nat -> nth (S i) (c_tval 99 par7) 0 - nth i (c_tval 99 par7) 0 <= / 4).
Proof.
  assert (T : forall i, (i < 7)%nat -> nth i (c_tval 99 par7) 0 = / 4 * INR i).
  { intros i Hi. change (c_tval 99 par7) with (map (fun i => / 4 * INR i) (seq 0 7)). rewrite (nth_map_in _ _ i 0%nat) by (rewrite seq_length; exact Hi). rewrite seq_nth by exact Hi. reflexivity. }
  split; [|split; [cbn; lia|]]. 
  { split; [cbn; lia|]. split; [|intros t Q; injection Q as <-; reflexivity]. intros r Hr. apply in_map_iff in Hr. destruct Hr as (i & <- & _). reflexivity. }
  split; [|split; [|split]].
  - intros i Hi. change (length (c_tval 99 par7)) with 7%nat in Hi. rewrite !T, S_INR by lia. lra.
  - intros i j Hi Hj. change (c_size par7) with 7%nat in Hi. change (c_ndim par7) with 2%nat in Hj. rewrite T by exact Hi. cbn [c_rows par7]. 
    rewrite (nth_map_in _ _ i 0%nat) by (rewrite seq_length; exact Hi). rewrite seq_nth by exact Hi. destruct j as [|[|]]; [reflexivity|reflexivity|lia].
  - intros lo hi j. split; [|split]; intros x _; destruct j as [|j]; cbn.
    + apply derivable_pt_lim_id.
    + replace (2 * x) with (1 * x + x * 1) by ring. apply (derivable_pt_lim_mult (fun x => x) (fun x => x)); apply derivable_pt_lim_id.
    + apply derivable_pt_lim_const.
    + apply (derivable_pt_lim_ext (fun x => 0 + 2 * x)); [intros y; unfold sq1; ring|apply affine_deriv].
    + rewrite Rabs_R0. lra.
    + rewrite Rabs_right; lra.
  - intros i Hi. change (c_size par7) with 7%nat in Hi. rewrite !T, S_INR by lia. lra.
Qed.

(** Eight points of a cubic with a known third derivative. *)
Definition cub8 : curve float :=
  mkCurve (map (fun i => [fz i; fz (i * i * i)%Z]) [0; 1; 2; 3; 4; 5; 6; 7]%Z) 2 DFloat None.
Example C100_third_ends_ex : exists d3, curve_prop nan cub8 PThird = Ok (AMat d3) /\
  map (fun r => nth 1 r nan) d3 = [fq 9 4; fq 15 4; fq 21 4; fz 6; fz 6; fq 21 4; fq 15 4; fq 9 4].
Proof. eexists. split; [vm_compute; reflexivity|]. vm_compute. reflexivity. Qed.
(** A curve fine enough for the last refutation. *)
Example C100_space_fine_ex : let h := / 1000000000 in
  let c := mkCurve (map (fun i => [cos (h * INR i); sin (h * INR i); 0]) (seq 0 5)) 3 DFloat None in
  wf c /\ 0 < h <= / 100000000 /\ (5 <= c_size c)%nat /\
  forall i, (i < c_size c)%nat -> nth i (c_rows c) [] = [cos (h * INR i); sin (h * INR i); 0].
Proof.
  intros h c. split; [split; [cbn; lia|]; split; [|intros t Q; discriminate Q]|split; [unfold h; lra|split; [cbn; lia|]]].
  - intros r Hr. apply in_map_iff in Hr. destruct Hr as (i & <- & _). reflexivity.
  - intros i Hi. change (c_size c) with 5%nat in Hi. cbn [c c_rows]. rewrite (nth_map_in _ _ i 0%nat) by (rewrite seq_length; exact Hi). rewrite seq_nth by exact Hi. reflexivity.
Qed.
