(** Property C106: the derivatives of curves in binary64. *)
From Coq Require Import PrimFloat FloatOps FloatAxioms SpecFloat.
From Coq Require Import ZArith List Bool Arith Lia Reals Lra Psatz.
From Flocq Require Import Core BinarySingleNaN.
From Flocq Require Import IEEE754.PrimFloat.
From Verif Require Import Num Py Numeric Curve Vec DiffGeom Spec GeomSpec ListFacts VecFacts CurveProofs CurveProofs3 DiffGeomProofs DiffGeomProofs2 DiffGeomProofs3 DiffGeomProofs4 SampleProofs.
From Verif Require Import FloatFacts FloatFacts2 FloatFacts3 FloatDerivProofs Properties_Container.
Import ListNotations.
Local Open Scope R_scope.
Local Notation float := PrimFloat.float.

(** The coordinate [j] of point [i] of a curve in binary64, as a real number. *)
Definition at_pt (rows : list (list float)) (i j : nat) : R := FR (nth j (nth i rows []) 0%float).
(** The curve [c'] of real numbers has the same points as the curve [c] in binary64. *)
Definition same_points (c : curve float) (c' : curve R) : Prop :=
  c_rows c' = map (map FR) (c_rows c) /\ c_ndim c' = c_ndim c /\ wf c'.
(** Finite coordinates of absolute value at most [A]. *)
Definition bounded_points (c : curve float) (A : R) : Prop := forall p x, In p (c_rows c) -> In x p -> PrimFloat.is_finite x = true /\ Rabs (FR x) <= A.

Lemma fsize_bool {T} {NT : Num T} (c : curve T) : wf c -> (2 <= c_size c)%nat -> c_bool c = true.
Proof. intros W Hm. apply c_bool_wf; [assumption|intros E; unfold c_size in Hm; rewrite E in Hm; cbn in Hm; lia]. Qed.
Lemma uro_pow : uro = / 2 ^ 53. Proof. unfold uro. lra. Qed.
Lemma eta_bpow k : eta = bpow radix2 (- 1075 - k) * bpow radix2 k.
Proof. rewrite <- bpow_plus. unfold eta. f_equal. lia. Qed.
Lemma huge_of A : A <= bpow radix2 1000 -> 1000 * A <= huge.
Proof. intros H. unfold huge. change 1020%Z with (20 + 1000)%Z. rewrite bpow_plus. change (bpow radix2 20) with 1048576. pose proof (bpow_gt_0 radix2 1000). lra. Qed.

(** ** C106 Derivatives in binary64 *)

(** At the points between the ends firstderiv is the correctly rounded
    difference of the neighbours, halved: relative error 2^-53, and 2^-1075
    more if the half is not a normal number. *)
Theorem C106_inner : forall junk (c : curve float) i j, wf c -> (0 < i)%nat -> (S i < c_size c)%nat -> (j < c_ndim c)%nat ->
  exists d, curve_prop junk c PFirst = Ok (AMat d) /\ length d = c_size c /\
    let x := at_pt (c_rows c) in let t := (x (i + 1)%nat j - x (i - 1)%nat j) / 2 in
    (PrimFloat.is_finite (nth j (nth i d []) 0%float) = true -> Rabs (at_pt d i j - t) <= / 2 ^ 53 * Rabs t + bpow radix2 (-1075)).
Proof.
  intros junk c i j W H0 H1 Hj. rewrite prop_nonempty by (apply fsize_bool; [exact W|lia]). eexists. split; [reflexivity|]. split; [apply fgradient_len|].
  intros x t F. unfold at_pt. unfold deriv1 in *. unfold c_size in H1.
  assert (D : forall p, In p (c_rows c) -> length p = c_ndim c) by apply W.
  rewrite (proj2 (fgradient_nth (c_ndim c) (c_rows c) i D ltac:(lia) ltac:(lia)) j Hj) in F |- *.
  pose proof (inner_err (length (c_rows c)) _ i H0 ltac:(lia) F) as E. rewrite <- uro_pow. fold eta.
  assert (Q : slope (length (c_rows c)) (fun k => FR (nth j (nth k (c_rows c) []) 0%float)) i = t).
  { unfold slope. destruct (Nat.eqb_spec (length (c_rows c)) 2); [lia|]. destruct (Nat.eqb_spec i 0); [lia|]. destruct (Nat.eqb_spec i (length (c_rows c) - 1)); [lia|]. reflexivity. }
  cbv beta in E. rewrite Q in E. exact E.
Qed.
Print Assumptions C106_inner.

(** All three derivatives of a curve with coordinates up to 2^1000 are finite
    and close to those of the same points in exact arithmetic. *)
Theorem C106_error : forall junk (c : curve float) junk' (c' : curve R) A, wf c -> (2 <= c_size c)%nat -> same_points c c' ->
  bounded_points c A -> 0 <= A <= bpow radix2 1000 ->
  exists d1 d2 d3 e1 e2 e3,
    curve_prop junk c PFirst = Ok (AMat d1) /\ curve_prop junk c PSecond = Ok (AMat d2) /\ curve_prop junk c PThird = Ok (AMat d3) /\
    curve_prop junk' c' PFirst = Ok (AMat e1) /\ curve_prop junk' c' PSecond = Ok (AMat e2) /\ curve_prop junk' c' PThird = Ok (AMat e3) /\
    forall i j, (i < c_size c)%nat -> (j < c_ndim c)%nat ->
      (PrimFloat.is_finite (nth j (nth i d1 []) 0%float) = true /\ Rabs (at_pt d1 i j - nth j (nth i e1 []) 0) <= A / 2 ^ 49 + bpow radix2 (-1073)) /\
      (PrimFloat.is_finite (nth j (nth i d2 []) 0%float) = true /\ Rabs (at_pt d2 i j - nth j (nth i e2 []) 0) <= 9 * A / 2 ^ 49 + 6 * bpow radix2 (-1073)) /\
      (PrimFloat.is_finite (nth j (nth i d3 []) 0%float) = true /\ Rabs (at_pt d3 i j - nth j (nth i e3 []) 0) <= 53 * A / 2 ^ 49 + 26 * bpow radix2 (-1073)).
Proof.
  intros junk c junk' c' A W Hm (Er & En & W') B (A0 & HA).
  assert (D : forall p, In p (c_rows c) -> length p = c_ndim c) by apply W.
  assert (Ls : length (c_rows c') = length (c_rows c)) by (rewrite Er; apply map_length).
  exists (deriv1 (c_rows c)), (deriv2 (c_rows c)), (deriv3 (c_rows c)), (deriv1 (c_rows c')), (deriv2 (c_rows c')), (deriv3 (c_rows c')).
  rewrite !prop_nonempty by (apply fsize_bool; [exact W|lia]). rewrite !prop_nonempty by (apply fsize_bool; [exact W'|unfold c_size; rewrite Ls; exact Hm]).
  do 6 (split; [reflexivity|]). intros i j Hi Hj. unfold c_size in *.
  destruct (derivs_near (c_ndim c) (c_rows c) A Hm D B (huge_of A HA) A0) as ((_ & N1) & (_ & N2) & (_ & N3)).
  assert (G := reals_dims _ _ D). assert (Lr : length (reals (c_rows c)) = length (c_rows c)) by apply map_length.
  assert (L1 : length (deriv1 (c_rows c)) = length (c_rows c)) by apply fgradient_len.
  assert (L2 : length (deriv2 (c_rows c)) = length (c_rows c)) by (unfold deriv2; rewrite fgradient_len; exact L1).
  assert (L3 : length (deriv3 (c_rows c)) = length (c_rows c)) by (unfold deriv3; rewrite fgradient_len; exact L2).
  rewrite L1 in N1. rewrite L2 in N2. rewrite L3 in N3.
  fold (reals (c_rows c)) in Er. rewrite Er.
  assert (M1 : length (deriv1 (reals (c_rows c))) = length (c_rows c)) by (unfold deriv1; rewrite gradient_length; exact Lr).
  assert (M2 : length (deriv2 (reals (c_rows c))) = length (c_rows c)) by (unfold deriv2; rewrite gradient_length; exact M1).
  assert (G1 : dims (c_ndim c) (deriv1 (reals (c_rows c)))) by (apply gradient_dims; [exact G|lia]).
  assert (G2 : dims (c_ndim c) (deriv2 (reals (c_rows c)))) by (apply gradient_dims; [exact G1|lia]).
  set (m := length (c_rows c)) in *.
  assert (S1 : forall k, (k < m)%nat -> nth j (nth k (deriv1 (reals (c_rows c))) []) 0 = slope m (fun k => FR (nth j (nth k (c_rows c) []) 0%float)) k).
  { intros k Hk. unfold deriv1. rewrite (proj2 (gradient_nth (c_ndim c) _ k G ltac:(lia) ltac:(lia))), Lr. apply slope_ext; [exact Hm|exact Hk|]. intros l Hl. apply reals_nth. }
  assert (S2 : forall k, (k < m)%nat -> nth j (nth k (deriv2 (reals (c_rows c))) []) 0 = slope m (slope m (fun k => FR (nth j (nth k (c_rows c) []) 0%float))) k).
  { intros k Hk. unfold deriv2. rewrite (proj2 (gradient_nth (c_ndim c) _ k G1 ltac:(lia) ltac:(lia))), M1. apply slope_ext; [exact Hm|exact Hk|]. exact S1. }
  assert (S3 : forall k, (k < m)%nat -> nth j (nth k (deriv3 (reals (c_rows c))) []) 0 = slope m (slope m (slope m (fun k => FR (nth j (nth k (c_rows c) []) 0%float)))) k).
  { intros k Hk. unfold deriv3. rewrite (proj2 (gradient_nth (c_ndim c) _ k G2 ltac:(lia) ltac:(lia))), M2. apply slope_ext; [exact Hm|exact Hk|]. exact S2. }
  destruct (N1 i j Hi Hj) as (F1 & X1). destruct (N2 i j Hi Hj) as (F2 & X2). destruct (N3 i j Hi Hj) as (F3 & X3).
  rewrite S1, S2, S3 by exact Hi. unfold at_pt.
  assert (Ee : eta = / 4 * bpow radix2 (-1073)) by (rewrite (eta_bpow (-1073)); reflexivity). rewrite Ee in X1, X2, X3.
  assert (Eu : uro = / 16 * / 2 ^ 49) by (unfold uro; lra). rewrite Eu in X1, X2, X3.
  split; [|split]; (split; [assumption|]); (eapply Rle_trans; [eassumption|]); right; field.
Qed.
Print Assumptions C106_error.

(** Integer coordinates (or integers times a power of two): nothing is rounded. *)
Theorem C106_exact : forall junk (c : curve float) junk' (c' : curve R) K e, wf c -> (2 <= c_size c)%nat -> same_points c c' ->
  (forall p x, In p (c_rows c) -> In x p -> PrimFloat.is_finite x = true /\ exists z, (Z.abs z <= K)%Z /\ FR x = IZR z * bpow radix2 e) ->
  (K < 2 ^ 44)%Z -> (-1071 <= e <= 960)%Z ->
  exists d1 d2 d3,
    curve_prop junk c PFirst = Ok (AMat d1) /\ curve_prop junk c PSecond = Ok (AMat d2) /\ curve_prop junk c PThird = Ok (AMat d3) /\
    curve_prop junk' c' PFirst = Ok (AMat (map (map FR) d1)) /\ curve_prop junk' c' PSecond = Ok (AMat (map (map FR) d2)) /\ curve_prop junk' c' PThird = Ok (AMat (map (map FR) d3)) /\
    forall d p x, In d [d1; d2; d3] -> In p d -> In x p -> PrimFloat.is_finite x = true.
Proof.
  intros junk c junk' c' K e W Hm (Er & En & W') H HK He.
  assert (D : forall p, In p (c_rows c) -> length p = c_ndim c) by apply W.
  assert (Ls : length (c_rows c') = length (c_rows c)) by (rewrite Er; apply map_length).
  exists (deriv1 (c_rows c)), (deriv2 (c_rows c)), (deriv3 (c_rows c)).
  rewrite !prop_nonempty by (apply fsize_bool; [exact W|lia]). rewrite !prop_nonempty by (apply fsize_bool; [exact W'|unfold c_size; rewrite Ls; exact Hm]).
  do 3 (split; [reflexivity|]). unfold c_size in *. fold (reals (c_rows c)) in Er. rewrite Er.
  destruct (gradient_exact (c_ndim c) (c_rows c) K e D Hm H ltac:(lia) ltac:(lia)) as (H1 & E1). fold (deriv1 (c_rows c)) in H1, E1.
  assert (L1 : length (deriv1 (c_rows c)) = length (c_rows c)) by apply fgradient_len.
  assert (D1 : forall p, In p (deriv1 (c_rows c)) -> length p = c_ndim c) by (apply fgradient_dims; assumption).
  destruct (gradient_exact (c_ndim c) (deriv1 (c_rows c)) (8 * K) (e - 1) D1 ltac:(lia) H1 ltac:(lia) ltac:(lia)) as (H2 & E2). fold (deriv2 (c_rows c)) in H2, E2.
  assert (L2 : length (deriv2 (c_rows c)) = length (c_rows c)) by (unfold deriv2; rewrite fgradient_len; exact L1).
  assert (D2 : forall p, In p (deriv2 (c_rows c)) -> length p = c_ndim c) by (apply fgradient_dims; [assumption|lia]).
  destruct (gradient_exact (c_ndim c) (deriv2 (c_rows c)) (8 * (8 * K)) (e - 1 - 1) D2 ltac:(lia) H2 ltac:(lia) ltac:(lia)) as (H3 & E3). fold (deriv3 (c_rows c)) in H3, E3.
  fold (reals (deriv1 (c_rows c))) (reals (deriv2 (c_rows c))) (reals (deriv3 (c_rows c))).
  rewrite E3, E2, E1. do 3 (split; [reflexivity|]).
  intros d p x [<-|[<-|[<-|[]]]] Ip Ix; [apply (H1 p x Ip Ix)|apply (H2 p x Ip Ix)|apply (H3 p x Ip Ix)].
Qed.
Print Assumptions C106_exact.

(** On quadratic curves with integer coordinates below 2^44 the first two
    derivatives are right to the last bit at every point, the ends included. *)
Theorem C106_quadratic : forall junk (c : curve float) (a b q : nat -> Z), wf c -> (3 <= c_size c)%nat ->
  (forall i j, (i < c_size c)%nat -> (j < c_ndim c)%nat -> let z := (a j + b j * Z.of_nat i + q j * Z.of_nat i ^ 2)%Z in
     (Z.abs z < 2 ^ 44)%Z /\ nth j (nth i (c_rows c) []) 0%float = f_of_Z z) ->
  exists d1 d2, curve_prop junk c PFirst = Ok (AMat d1) /\ curve_prop junk c PSecond = Ok (AMat d2) /\
    forall i j, (i < c_size c)%nat -> (j < c_ndim c)%nat ->
      PrimFloat.is_finite (nth j (nth i d1 []) 0%float) = true /\ at_pt d1 i j = IZR (b j + 2 * q j * Z.of_nat i) /\
      PrimFloat.is_finite (nth j (nth i d2 []) 0%float) = true /\ at_pt d2 i j = IZR (2 * q j).
Proof.
  intros junk c a b q W Hm H. assert (D : forall p, In p (c_rows c) -> length p = c_ndim c) by apply W.
  assert (Dy : dyadic_rows (2 ^ 44 - 1) 0 (c_rows c)).
  { intros p x Ip Ix. destruct (In_nth _ _ [] Ip) as (i & Hi & Ei). destruct (In_nth _ _ 0%float Ix) as (j & Hj & Ej). rewrite (D p Ip) in Hj.
    destruct (H i j Hi Hj) as (Bz & E). rewrite Ei, Ej in E. destruct (f_of_Z_exact _ (Z.lt_trans _ (2 ^ 44) (2 ^ 53) Bz ltac:(reflexivity))) as (F & V). rewrite <- E in F, V.
    split; [exact F|]. eexists. split; [|rewrite V; cbn [bpow]; symmetry; apply Rmult_1_r]. lia. }
  unfold c_size in *. destruct (gradient_exact (c_ndim c) (c_rows c) _ _ D ltac:(lia) Dy ltac:(reflexivity) ltac:(lia)) as (H1 & E1). fold (deriv1 (c_rows c)) in H1, E1.
  assert (L1 : length (deriv1 (c_rows c)) = length (c_rows c)) by apply fgradient_len.
  assert (D1 : forall p, In p (deriv1 (c_rows c)) -> length p = c_ndim c) by (apply fgradient_dims; [assumption|lia]).
  destruct (gradient_exact (c_ndim c) (deriv1 (c_rows c)) _ _ D1 ltac:(lia) H1 ltac:(reflexivity) ltac:(lia)) as (H2 & E2). fold (deriv2 (c_rows c)) in H2, E2.
  assert (L2 : length (deriv2 (c_rows c)) = length (c_rows c)) by (unfold deriv2; rewrite fgradient_len; exact L1).
  assert (D2 : forall p, In p (deriv2 (c_rows c)) -> length p = c_ndim c) by (apply fgradient_dims; [assumption|lia]).
  exists (deriv1 (c_rows c)), (deriv2 (c_rows c)). rewrite !prop_nonempty by (apply fsize_bool; [exact W|unfold c_size; lia]).
  do 2 (split; [reflexivity|]). intros i j Hi Hj. unfold at_pt.
  assert (G := reals_dims _ _ D). assert (Lr : length (reals (c_rows c)) = length (c_rows c)) by apply map_length.
  assert (V1 : forall k, (k < length (c_rows c))%nat -> FR (nth j (nth k (deriv1 (c_rows c)) []) 0%float) = IZR (b j) + 2 * IZR (q j) * INR k).
  { intros k Hk. rewrite <- reals_nth, E1. rewrite (proj2 (gradient_nth (c_ndim c) _ k G ltac:(lia) ltac:(lia))), Lr.
    rewrite <- (slope_quadratic (length (c_rows c)) (IZR (a j)) (IZR (b j)) (IZR (q j)) k Hm Hk). apply slope_ext; [lia|exact Hk|]. intros l Hl. unfold coord. rewrite reals_nth.
    destruct (H l j Hl Hj) as (Bz & ->). rewrite (proj2 (f_of_Z_exact _ (Z.lt_trans _ (2 ^ 44) (2 ^ 53) Bz ltac:(reflexivity)))). rewrite !plus_IZR, !mult_IZR, <- !INR_IZR_INZ. change (Z.of_nat l ^ 2)%Z with (Z.of_nat l * (Z.of_nat l * 1))%Z. rewrite Z.mul_1_r, mult_IZR, <- !INR_IZR_INZ. ring. }
  assert (Fi : forall K e rows k, dyadic_rows K e rows -> (forall p, In p rows -> length p = c_ndim c) -> (k < length rows)%nat -> PrimFloat.is_finite (nth j (nth k rows []) 0%float) = true).
  { intros K e rows k Hd Dd Hk. assert (Ik := nth_In rows [] Hk). apply (Hd (nth k rows [])); [exact Ik|]. apply nth_In. rewrite (Dd _ Ik). exact Hj. }
  split; [apply (Fi _ _ _ i H1 D1); lia|]. split; [rewrite V1 by exact Hi; rewrite plus_IZR, !mult_IZR, <- INR_IZR_INZ; ring|].
  split; [apply (Fi _ _ _ i H2 D2); lia|].
  rewrite <- reals_nth, E2. assert (Lr1 : length (reals (deriv1 (c_rows c))) = length (c_rows c)) by (unfold reals; rewrite map_length; exact L1).
  rewrite (proj2 (gradient_nth (c_ndim c) _ i (reals_dims _ _ D1) ltac:(lia) ltac:(lia))), Lr1.
  transitivity (2 * IZR (q j) + 2 * 0 * INR i); [|rewrite mult_IZR; ring]. rewrite <- (slope_quadratic (length (c_rows c)) (IZR (b j)) (2 * IZR (q j)) 0 i Hm Hi).
  apply slope_ext; [lia|exact Hi|]. intros l Hl. unfold coord. rewrite reals_nth, V1 by exact Hl. ring.
Qed.
Print Assumptions C106_quadratic.

(** Points within [delta] of those of a smooth curve at equal steps [h]: the
    error of the method falls with h, the effect of the roundings grows. *)
Theorem C106_sampled : forall junk (c : curve float) (f f1 f2 f3 : nat -> R -> R) a h M A delta, wf c -> (3 <= c_size c)%nat -> 0 < h ->
  bounded_points c A -> 0 <= A <= bpow radix2 1000 ->
  (forall i j, (i < c_size c)%nat -> (j < c_ndim c)%nat -> Rabs (at_pt (c_rows c) i j - f j (a + h * INR i)) <= delta) ->
  let hi := a + h * INR (c_size c - 1) in
  (forall j, (j < c_ndim c)%nat -> deriv_on a hi (f j) (f1 j) /\ deriv_on a hi (f1 j) (f2 j) /\ deriv_on a hi (f2 j) (f3 j) /\ bounded_on a hi (f3 j) M) ->
  exists d1 d2, curve_prop junk c PFirst = Ok (AMat d1) /\ curve_prop junk c PSecond = Ok (AMat d2) /\
    forall i j, (i < c_size c)%nat -> (j < c_ndim c)%nat -> let x := a + h * INR i in
      Rabs (at_pt d1 i j / h - f1 j x) <= M * h ^ 2 + (4 * delta + A / 2 ^ 49 + bpow radix2 (-1073)) / h /\
      Rabs (at_pt d2 i j / h ^ 2 - f2 j x) <= 6 * M * h + (16 * delta + 9 * A / 2 ^ 49 + 6 * bpow radix2 (-1073)) / h ^ 2.
Proof.
  intros junk c f f1 f2 f3 a h M A delta W Hm Hh B (A0 & HA) Nr hi Dv.
  assert (D : forall p, In p (c_rows c) -> length p = c_ndim c) by apply W.
  exists (deriv1 (c_rows c)), (deriv2 (c_rows c)). rewrite !prop_nonempty by (apply fsize_bool; [exact W|lia]). do 2 (split; [reflexivity|]).
  intros i j Hi Hj x. unfold c_size in *.
  destruct (derivs_near (c_ndim c) (c_rows c) A ltac:(lia) D B (huge_of A HA) A0) as ((_ & N1) & (_ & N2) & _).
  assert (L1 : length (deriv1 (c_rows c)) = length (c_rows c)) by apply fgradient_len.
  assert (L2 : length (deriv2 (c_rows c)) = length (c_rows c)) by (unfold deriv2; rewrite fgradient_len; exact L1).
  rewrite L1 in N1. rewrite L2 in N2. set (m := length (c_rows c)) in *.
  destruct (N1 i j Hi Hj) as (_ & X1). destruct (N2 i j Hi Hj) as (_ & X2). fold (at_pt (deriv1 (c_rows c)) i j) in X1. fold (at_pt (deriv2 (c_rows c)) i j) in X2.
  destruct (Dv j Hj) as (Q0 & Q1 & Q2 & Q3).
  destruct (slope_d3 a h m Hh Hm (f j) (f1 j) (f2 j) (f3 j) M i Q0 Q1 Q2 Q3 Hi) as (T1 & _).
  pose proof (slope2_d3 a h m Hh Hm (f j) (f1 j) (f2 j) (f3 j) M i Q0 Q1 Q2 Q3 Hi) as T2.
  assert (C0 : forall k, (k < m)%nat -> Rabs (FR (nth j (nth k (c_rows c) []) 0%float) - f j (at_ a h k)) <= delta) by (intros k Hk; apply Nr; assumption).
  assert (C1 : forall k, (k < m)%nat -> Rabs (slope m (fun k => FR (nth j (nth k (c_rows c) []) 0%float)) k - slope m (fun k => f j (at_ a h k)) k) <= 4 * delta) by (intros k Hk; apply slope_close2; [lia|exact Hk|exact C0]).
  pose proof (slope_close2 m _ _ _ i ltac:(lia) Hi C1) as C2. specialize (C1 i Hi).
  assert (Q : forall u w e k, Rabs (u - h ^ k * w) <= e -> Rabs (u / h ^ k - w) <= e / h ^ k).
  { intros u w e k H. assert (P : 0 < h ^ k) by (apply pow_lt, Hh). replace (u / h ^ k - w) with ((u - h ^ k * w) * / h ^ k) by (field; lra).
    rewrite Rabs_mult, (Rabs_right (/ h ^ k)) by (apply Rle_ge, Rlt_le, Rinv_0_lt_compat, P). apply Rmult_le_compat_r; [left; apply Rinv_0_lt_compat, P|exact H]. }
  assert (Ee : eta = / 4 * bpow radix2 (-1073)) by (rewrite (eta_bpow (-1073)); reflexivity). rewrite Ee in X1, X2.
  assert (Eu : uro = / 16 * / 2 ^ 49) by (unfold uro; lra). rewrite Eu in X1, X2.
  change (at_ a h i) with x in T1, T2. set (b := bpow radix2 (-1073)) in *. set (v := / 2 ^ 49) in *.
  split.
  - replace (M * h ^ 2 + (4 * delta + A / 2 ^ 49 + b) / h) with ((M * h ^ 3 + 4 * delta + A * v + b) / h ^ 1) by (unfold v; field; lra).
    replace (at_pt (deriv1 (c_rows c)) i j / h) with (at_pt (deriv1 (c_rows c)) i j / h ^ 1) by (rewrite pow_1; reflexivity).
    apply Q. rewrite pow_1. clearbody b v. apply Rabs_bounds in X1, T1, C1. apply Rabs_of. lra.
  - replace (6 * M * h + (16 * delta + 9 * A / 2 ^ 49 + 6 * b) / h ^ 2) with ((6 * M * h ^ 3 + 16 * delta + 9 * A * v + 6 * b) / h ^ 2) by (unfold v; field; lra).
    apply Q. clearbody b v. apply Rabs_bounds in X2, T2, C2. apply Rabs_of. lra.
Qed.
Print Assumptions C106_sampled.

(** With too small a step nothing is left of the derivative: the correctly
    rounded points of x -> (1 + x, 1 + x) are all (1, 1). *)
Theorem C106_fine_refuted : forall junk (c : curve float) h, wf c -> c_ndim c = 2%nat -> (3 <= c_size c)%nat -> 0 < h -> h * INR (c_size c - 1) <= / 2 ^ 53 ->
  (forall i j, (i < c_size c)%nat -> (j < 2)%nat -> PrimFloat.is_finite (nth j (nth i (c_rows c) []) 0%float) = true /\ at_pt (c_rows c) i j = rnd (1 + h * INR i)) ->
  exists d1, curve_prop junk c PFirst = Ok (AMat d1) /\ forall i j, (i < c_size c)%nat -> (j < 2)%nat -> at_pt d1 i j = 0.
Proof.
  intros junk c h W N2 Hm Hh Sm H. assert (D : forall p, In p (c_rows c) -> length p = 2%nat) by (rewrite <- N2; apply W).
  exists (deriv1 (c_rows c)). rewrite prop_nonempty by (apply fsize_bool; [exact W|lia]). split; [reflexivity|]. intros i j Hi Hj. unfold c_size in *.
  assert (R1 : forall k, (k < length (c_rows c))%nat -> rnd (1 + h * INR k) = 1).
  { intros k Hk. assert (B : 0 <= h * INR k <= / 2 ^ 53).
    { split; [apply Rmult_le_pos; [lra|apply pos_INR]|]. eapply Rle_trans; [|exact Sm]. apply Rmult_le_compat_l; [lra|]. apply le_INR. lia. }
    apply Rle_antisym.
    - apply Rle_trans with (rnd (1 + / 2 ^ 53)); [apply rnd_le; lra|]. right.
      assert (E : 1 + / 2 ^ 53 = FR 1%float + FR 0x1p-53%float).
      { rewrite !FR_SF. replace (Prim2SF 1) with (S754_finite false 4503599627370496 (-52)) by (vm_compute; reflexivity). replace (Prim2SF 0x1p-53) with (S754_finite false 4503599627370496 (-105)) by (vm_compute; reflexivity). cbn. unfold F2R. cbn. lra. }
      rewrite E, <- add_R by (vm_compute; reflexivity). replace (PrimFloat.add 1 0x1p-53) with PrimFloat.one by (vm_compute; reflexivity). exact FR_1.
    - rewrite <- FR_1, <- rnd_FR at 1. apply rnd_le. rewrite FR_1. lra. }
  assert (Dy : dyadic_rows 1 0 (c_rows c)).
  { intros p x Ip Ix. destruct (In_nth _ _ [] Ip) as (k & Hk & Ek). destruct (In_nth _ _ 0%float Ix) as (l & Hl & El). rewrite (D p Ip) in Hl.
    destruct (H k l Hk Hl) as (F & E). unfold at_pt in E. rewrite Ek, El in E. rewrite Ek, El in F. rewrite R1 in E by exact Hk.
    split; [exact F|]. exists 1%Z. split; [lia|]. rewrite E. cbn. lra. }
  destruct (gradient_exact 2 (c_rows c) 1 0 D ltac:(lia) Dy ltac:(reflexivity) ltac:(lia)) as (_ & E1). unfold at_pt, deriv1. rewrite <- reals_nth, E1.
  assert (Lr : length (reals (c_rows c)) = length (c_rows c)) by apply map_length.
  rewrite (proj2 (gradient_nth 2 _ i (reals_dims _ _ D) ltac:(lia) ltac:(lia))), Lr.
  rewrite (slope_ext _ _ (fun _ => 1)); [apply slope_const|lia|exact Hi|]. intros k Hk. unfold coord. rewrite reals_nth. fold (at_pt (c_rows c) k j). rewrite (proj2 (H k j Hk Hj)). apply R1, Hk.
Qed.
Print Assumptions C106_fine_refuted.

(** Reversal: between the ends the first derivative changes its sign exactly. *)
Theorem C106_reverse : forall junk (c c' : curve float) A, wf c -> (3 <= c_size c)%nat -> bounded_points c A -> 0 <= A <= bpow radix2 1000 ->
  c_reverse c = Ok c' ->
  exists d d', curve_prop junk c PFirst = Ok (AMat d) /\ curve_prop junk c' PFirst = Ok (AMat d') /\
    forall i j, (0 < i)%nat -> (S i < c_size c)%nat -> (j < c_ndim c)%nat -> at_pt d' i j = - at_pt d (c_size c - 1 - i) j.
Proof.
  intros junk c c' A W Hm B (A0 & HA) Er. destruct (C07_reverse _ c W) as (c2 & E2 & Rr & _ & _ & En & W'). rewrite Er in E2. injection E2 as <-.
  exists (deriv1 (c_rows c)), (deriv1 (c_rows c')).
  assert (Ls : length (c_rows c') = length (c_rows c)) by (rewrite Rr; apply rev_length).
  rewrite prop_nonempty by (apply fsize_bool; [exact W|lia]). rewrite prop_nonempty by (apply fsize_bool; [exact W'|unfold c_size in *; rewrite Ls; lia]).
  do 2 (split; [reflexivity|]). intros i j H0 Hi Hj. unfold c_size in *.
  assert (D : forall p, In p (c_rows c) -> length p = c_ndim c) by apply W.
  assert (D' : forall p, In p (c_rows c') -> length p = c_ndim c) by (intros p Ip; apply D; rewrite Rr in Ip; apply in_rev; exact Ip).
  unfold at_pt, deriv1. rewrite (proj2 (fgradient_nth (c_ndim c) (c_rows c) (length (c_rows c) - 1 - i) D ltac:(lia) ltac:(lia)) j Hj).
  rewrite (proj2 (fgradient_nth (c_ndim c) (c_rows c') i D' ltac:(lia) ltac:(lia)) j Hj). rewrite Ls.
  assert (Fx : forall k, (k < length (c_rows c))%nat -> ffin (nth j (nth k (c_rows c) []) 0%float) /\ Rabs (FR (nth j (nth k (c_rows c) []) 0%float)) <= A).
  { intros k Hk. assert (Ik := nth_In (c_rows c) [] Hk). apply (B (nth k (c_rows c) [])); [exact Ik|]. apply nth_In. rewrite (D _ Ik). exact Hj. }
  set (m := length (c_rows c)) in *. set (f := fun k => nth j (nth k (c_rows c) []) 0%float) in *.
  assert (Hh := huge_of A HA).
  assert (Ng : forall k, (k < m)%nat -> nth j (nth k (c_rows c') []) 0%float = f (m - 1 - k)%nat).
  { intros k Hk. unfold f. rewrite Rr, rev_nth by exact Hk. fold m. do 2 f_equal. lia. }
  rewrite (fslope_ext m _ (fun k => f (m - 1 - k)%nat)) by (try lia; exact Ng).
  destruct (fslope_err m f (m - 1 - i)%nat A ltac:(lia) ltac:(lia) Fx ltac:(lra)) as (F1 & _).
  destruct (fslope_err m (fun k => f (m - 1 - k)%nat) i A ltac:(lia) ltac:(lia)) as (F2 & _); [intros k Hk; apply Fx; lia|lra|].
  unfold fslope in *. destruct (Nat.eqb_spec m 2); [lia|]. destruct (Nat.eqb_spec (m - 1 - i) 0); [lia|]. destruct (Nat.eqb_spec (m - 1 - i) (m - 1)); [lia|].
  destruct (Nat.eqb_spec i 0); [lia|]. destruct (Nat.eqb_spec i (m - 1)); [lia|].
  replace (m - 1 - (i + 1))%nat with (m - 1 - i - 1)%nat in * by lia. replace (m - 1 - (i - 1))%nat with (m - 1 - i + 1)%nat in * by lia.
  destruct c_2 as (F3 & V3). destruct (div_fin_inv _ _ F1 F3) as (G1 & _). destruct (div_fin_inv _ _ F2 F3) as (G2 & _).
  rewrite !div_R, V3 by assumption. rewrite !sub_R by assumption. rewrite <- rnd_opp.
  f_equal. set (u := FR (f (m - 1 - i + 1)%nat)). set (v := FR (f (m - 1 - i - 1)%nat)). replace (v - u) with (- (u - v)) by ring. rewrite rnd_opp. field.
Qed.
Print Assumptions C106_reverse.

(** At the ends it need not: the three terms are added in another order. The
    derivative of a coordinate that is 0.1 at every point is 0 between the ends
    and at the last point, but -2^-56 at the first point. *)
Definition rev3 : curve float := mkCurve [[0.1; 0]; [0.1; 1]; [0.1; 2]]%float 2 DFloat None.
Lemma unit_bounded x : PrimFloat.is_finite x = true -> PrimFloat.leb (PrimFloat.abs x) 2 = true -> PrimFloat.is_finite x = true /\ Rabs (FR x) <= 2.
Proof.
  intros F L. split; [exact F|]. rewrite <- FR_abs. assert (F2 : ffin 2%float) by (vm_compute; reflexivity).
  replace 2 with (FR 2%float). { apply leb_R; [apply ffin_abs, F|exact F2|exact L]. }
  rewrite FR_SF. replace (Prim2SF 2) with (S754_finite false 4503599627370496 (-51)) by (vm_compute; reflexivity). cbn. unfold F2R. cbn. lra.
Qed.
Theorem C106_reverse_refuted : exists (c c' : curve float) d d', wf c /\ bounded_points c 2 /\ c_reverse c = Ok c' /\
  curve_prop nan c PFirst = Ok (AMat d) /\ curve_prop nan c' PFirst = Ok (AMat d') /\
  (forall i i', (i < 3)%nat -> (i' < 3)%nat -> at_pt (c_rows c) i 0 = at_pt (c_rows c) i' 0) /\
  at_pt d 0 0 <> 0 /\ at_pt d' 2 0 <> - at_pt d 0 0.
Proof.
  exists rev3. do 3 eexists. split; [|split; [|split; [reflexivity|split; [reflexivity|split; [reflexivity|]]]]].
  - split; [cbn; lia|]. split; [|discriminate]. intros p [<-|[<-|[<-|[]]]]; reflexivity.
  - intros p x [<-|[<-|[<-|[]]]] [<-|[<-|[]]]; apply unit_bounded; vm_compute; reflexivity.
  - split; [intros [|[|[|i]]] [|[|[|i']]] H H'; try lia; reflexivity|].
    assert (Q : forall x y, ffin x -> ffin y -> PrimFloat.eqb x y = false -> FR x <> FR y).
    { intros x y Fx Fy E H. apply (eqb_R x y Fx Fy) in H. congruence. }
    unfold at_pt. split.
    + rewrite <- FR_0. apply Q; vm_compute; reflexivity.
    + rewrite <- FR_opp. apply Q; vm_compute; reflexivity.
Qed.
Print Assumptions C106_reverse_refuted.

(** ** Concrete cases *)

(** x = 0, 1, 2, 3; y = x^2: the derivatives in binary64 are 1 and 2x, 0 and 2. *)
Definition par4 : curve float := mkCurve [[0; 0]; [1; 1]; [2; 4]; [3; 9]]%float 2 DFloat None.
Definition par4R : curve R := mkCurve (map (map FR) (c_rows par4)) 2 DFloat None.
Lemma par4_wf : wf par4 /\ same_points par4 par4R.
Proof.
  assert (W : wf par4) by (split; [cbn; lia|split; [intros p [<-|[<-|[<-|[<-|[]]]]]; reflexivity|discriminate]]).
  split; [exact W|]. split; [reflexivity|]. split; [reflexivity|]. split; [cbn; lia|]. split; [|discriminate]. intros p [<-|[<-|[<-|[<-|[]]]]]; reflexivity.
Qed.
Lemma par4_bounded : bounded_points par4 9.
Proof.
  assert (Q : FR 9%float = 9) by (rewrite FR_SF; replace (Prim2SF 9) with (S754_finite false 5066549580791808 (-49)) by (vm_compute; reflexivity); cbn; unfold F2R; cbn; lra).
  intros p x Ip Ix. assert (F : PrimFloat.is_finite x = true /\ PrimFloat.leb (PrimFloat.abs x) 9 = true).
  { destruct Ip as [<-|[<-|[<-|[<-|[]]]]]; destruct Ix as [<-|[<-|[]]]; split; vm_compute; reflexivity. }
  destruct F as (F & L). split; [exact F|]. rewrite <- FR_abs. rewrite <- Q at 1. apply leb_R; [apply ffin_abs, F|vm_compute; reflexivity|exact L].
Qed.
Example C106_quadratic_ex : let a (_ : nat) := 0%Z in let b j := (if j =? 0 then 1 else 0)%nat in
  wf par4 /\ (3 <= c_size par4)%nat /\
  (forall i j, (i < c_size par4)%nat -> (j < c_ndim par4)%nat -> let z := (a j + Z.of_nat (b j) * Z.of_nat i + (1 - Z.of_nat (b j)) * Z.of_nat i ^ 2)%Z in
     (Z.abs z < 2 ^ 44)%Z /\ nth j (nth i (c_rows par4) []) 0%float = f_of_Z z) /\
  curve_prop nan par4 PFirst = Ok (AMat [[1; 0]; [1; 2]; [1; 4]; [1; 6]]%float) /\ curve_prop nan par4 PSecond = Ok (AMat [[0; 2]; [0; 2]; [0; 2]; [0; 2]]%float).
Proof.
  intros a b. split; [exact (proj1 par4_wf)|]. split; [cbn; lia|]. split; [|split; vm_compute; reflexivity].
  intros i j Hi Hj. cbn in Hi, Hj. destruct i as [|[|[|[|i]]]]; try lia; (destruct j as [|[|j]]; [| |lia]); (split; [vm_compute; reflexivity|vm_compute; reflexivity]).
Qed.
Example C106_exact_ex : exists d1 d2 d3,
  curve_prop nan par4 PFirst = Ok (AMat d1) /\ curve_prop nan par4 PSecond = Ok (AMat d2) /\ curve_prop nan par4 PThird = Ok (AMat d3) /\
  curve_prop 7 par4R PFirst = Ok (AMat (map (map FR) d1)) /\ curve_prop 7 par4R PSecond = Ok (AMat (map (map FR) d2)) /\ curve_prop 7 par4R PThird = Ok (AMat (map (map FR) d3)) /\
  forall d p x, In d [d1; d2; d3] -> In p d -> In x p -> PrimFloat.is_finite x = true.
Proof.
  destruct par4_wf as (W & Sp). apply (C106_exact nan par4 7 par4R 9 0 W); [cbn; lia|exact Sp| |reflexivity|lia].
  assert (Q : forall z, (Z.abs z <= 9)%Z -> forall x, x = f_of_Z z -> PrimFloat.is_finite x = true /\ exists z, (Z.abs z <= 9)%Z /\ FR x = IZR z * bpow radix2 0).
  { intros z Hz x ->. destruct (f_of_Z_exact z ltac:(lia)) as (F & E). split; [exact F|]. exists z. split; [exact Hz|]. rewrite E. cbn. lra. }
  intros p x [<-|[<-|[<-|[<-|[]]]]] [<-|[<-|[]]]; [apply (Q 0%Z)|apply (Q 0%Z)|apply (Q 1%Z)|apply (Q 1%Z)|apply (Q 2%Z)|apply (Q 4%Z)|apply (Q 3%Z)|apply (Q 9%Z)]; try lia; vm_compute; reflexivity.
Qed.
Example C106_error_ex : wf par4 /\ (2 <= c_size par4)%nat /\ same_points par4 par4R /\ bounded_points par4 9 /\ 0 <= 9 <= bpow radix2 1000.
Proof.
  split; [exact (proj1 par4_wf)|]. split; [cbn; lia|]. split; [exact (proj2 par4_wf)|]. split; [exact par4_bounded|]. split; [lra|].
  apply Rle_trans with (bpow radix2 4); [change (bpow radix2 4) with 16; lra|apply bpow_le; lia].
Qed.
(** Neighbours 0.1 and 0.3: the exact half difference of the two binary64 numbers is not a binary64 number. *)
Definition three : curve float := mkCurve [[0.1; 0]; [0.7; 1]; [0.3; 2]]%float 2 DFloat None.
Example C106_inner_ex : exists d, curve_prop nan three PFirst = Ok (AMat d) /\ length d = 3%nat /\
  let x := at_pt (c_rows three) in let t := (x 2%nat 0%nat - x 0%nat 0%nat) / 2 in
  nth 0 (nth 1 d []) 0%float = 0x1.9999999999999p-4%float /\ Rabs (at_pt d 1 0 - t) <= / 2 ^ 53 * Rabs t + bpow radix2 (-1075).
Proof.
  assert (W : wf three) by (split; [cbn; lia|split; [intros p [<-|[<-|[<-|[]]]]; reflexivity|discriminate]]).
  destruct (C106_inner nan three 1 0 W ltac:(lia) ltac:(cbn; lia) ltac:(cbn; lia)) as (d & E & L & H). exists d. split; [exact E|]. split; [exact L|]. cbv zeta in *.
  assert (Ed : nth 0 (nth 1 d []) 0%float = 0x1.9999999999999p-4%float).
  { pose proof (prop_nonempty nan three PFirst (fsize_bool three W ltac:(cbn; lia))) as P. rewrite E in P. apply (f_equal (fun r => match r with Ok (AMat d) => nth 0 (nth 1 d []) 0%float | _ => 0%float end)) in P. cbv beta iota in P. rewrite P. vm_compute. reflexivity. }
  split; [exact Ed|]. apply H. rewrite Ed. vm_compute. reflexivity.
Qed.
(** (x, x^2) at x = 0, 1, 2, 3 with delta = 0: a case of the bounds for sampled curves. *)
Example C106_sampled_ex : exists d1 d2, curve_prop nan par4 PFirst = Ok (AMat d1) /\ curve_prop nan par4 PSecond = Ok (AMat d2) /\
  forall i j, (i < c_size par4)%nat -> (j < c_ndim par4)%nat -> let x := 0 + 1 * INR i in
    Rabs (at_pt d1 i j / 1 - (if (j =? 0)%nat then 1 else 2 * x)) <= 0 * 1 ^ 2 + (4 * 0 + 9 / 2 ^ 49 + bpow radix2 (-1073)) / 1 /\
    Rabs (at_pt d2 i j / 1 ^ 2 - (if (j =? 0)%nat then 0 else 2)) <= 6 * 0 * 1 + (16 * 0 + 9 * 9 / 2 ^ 49 + 6 * bpow radix2 (-1073)) / 1 ^ 2.
Proof.
  destruct C106_error_ex as (W & _ & _ & B & HA).
  apply (C106_sampled nan par4 (fun j x => if (j =? 0)%nat then x else x * x) (fun j x => if (j =? 0)%nat then 1 else 2 * x) (fun j x => if (j =? 0)%nat then 0 else 2) (fun _ _ => 0) 0 1 0 9 0); try assumption; try lra; [cbn; lia| |].
  - intros i j Hi Hj. cbn in Hi, Hj. replace (at_pt (c_rows par4) i j) with (if (j =? 0)%nat then 0 + 1 * INR i else (0 + 1 * INR i) * (0 + 1 * INR i)).
    { rewrite Rminus_diag_eq by reflexivity. rewrite Rabs_R0. lra. }
    assert (Q : forall z x, (Z.abs z < 2 ^ 53)%Z -> x = f_of_Z z -> IZR z = FR x) by (intros z x Hz ->; symmetry; apply (f_of_Z_exact z Hz)).
    unfold at_pt. destruct i as [|[|[|[|i]]]]; try lia; (destruct j as [|[|j]]; [| |lia]); cbn [Nat.eqb nth c_rows par4 INR];
      [rewrite <- (Q 0%Z)|rewrite <- (Q 0%Z)|rewrite <- (Q 1%Z)|rewrite <- (Q 1%Z)|rewrite <- (Q 2%Z)|rewrite <- (Q 4%Z)|rewrite <- (Q 3%Z)|rewrite <- (Q 9%Z)]; try reflexivity; try (vm_compute; reflexivity); lra.
  - intros j Hj. cbn in Hj.
    assert (K : forall g g1, (forall x, derivable_pt_lim g x (g1 x)) -> deriv_on 0 (0 + 1 * INR (c_size par4 - 1)) g g1) by (intros g g1 H x _; apply H).
    assert (J : j = 0%nat \/ j = 1%nat) by lia. destruct J as [->| ->]; cbn [Nat.eqb]; (split; [|split; [|split]]); try (apply K; intros x); try (intros x _; rewrite Rabs_R0; lra); try (apply derivable_pt_lim_const); try apply derivable_pt_lim_id.
    + replace (2 * x) with (1 * x + x * 1) by ring. apply (derivable_pt_lim_mult id id); apply derivable_pt_lim_id.
    + pose proof (derivable_pt_lim_scal id 2 x 1 (derivable_pt_lim_id x)) as Q. rewrite Rmult_1_r in Q. exact Q.
Qed.
Definition ones : curve float := mkCurve [[1; 1]; [1; 1]; [1; 1]]%float 2 DFloat None.
Example C106_fine_ex : wf ones /\ (3 <= c_size ones)%nat /\ / 2 ^ 60 * INR (c_size ones - 1) <= / 2 ^ 53 /\
  forall i j, (i < c_size ones)%nat -> (j < 2)%nat -> PrimFloat.is_finite (nth j (nth i (c_rows ones) []) 0%float) = true /\ at_pt (c_rows ones) i j = FR 1%float.
Proof.
  split; [split; [cbn; lia|split; [intros p [<-|[<-|[<-|[]]]]; reflexivity|discriminate]]|]. split; [cbn; lia|]. split; [cbn; lra|].
  intros i j Hi Hj. cbn in Hi. destruct i as [|[|[|i]]]; try lia; (destruct j as [|[|j]]; [| |lia]); split; reflexivity.
Qed.
Example C106_reverse_ex : exists c', c_reverse par4 = Ok c' /\ wf par4 /\ (3 <= c_size par4)%nat /\
  curve_prop nan c' PFirst = Ok (AMat [[-1; -6]; [-1; -4]; [-1; -2]; [-1; 0]]%float).
Proof. eexists. split; [reflexivity|]. split; [exact (proj1 par4_wf)|]. split; [cbn; lia|]. vm_compute. reflexivity. Qed.
