(** Property C107: the speed and the curvature of plane curves in binary64. *)
From Coq Require Import PrimFloat FloatOps FloatAxioms SpecFloat.
From Coq Require Import ZArith List Bool Arith Lia Reals Lra Psatz.
From Flocq Require Import Core BinarySingleNaN.
From Flocq Require Import IEEE754.PrimFloat.
From Verif Require Import Num Py Numeric Curve Vec DiffGeom Spec GeomSpec ListFacts VecFacts CurveProofs CurveProofs3 DiffGeomProofs DiffGeomProofs2 DiffGeomProofs3 DiffGeomProofs4 SampleProofs.
From Verif Require Import FloatFacts FloatFacts2 FloatFacts3 FloatProofs FloatDerivProofs FloatCurvProofs Properties_Container Properties_FloatDeriv.
Import ListNotations.
Local Open Scope R_scope.
Local Notation float := PrimFloat.float.

(** A finite number that is zero or of absolute value between 2^-100 and 2^100. *)
Definition ordinary (x : float) : Prop := PrimFloat.is_finite x = true /\ (FR x = 0 \/ bpow radix2 (-100) <= Rabs (FR x) <= bpow radix2 100).

Lemma fderiv1_len (rows : list (list float)) : length (deriv1 rows) = length rows. Proof. apply fgradient_len. Qed.
Lemma fderiv2_len (rows : list (list float)) : length (deriv2 rows) = length rows. Proof. unfold deriv2. rewrite fgradient_len. apply fgradient_len. Qed.
Lemma fcurv_nth (rows : list (list float)) i : (i < length rows)%nat ->
  nth i (map2 curvature2 (deriv1 rows) (deriv2 rows)) 0%float = curvature2 (nth i (deriv1 rows) []) (nth i (deriv2 rows) []).
Proof. intros H. rewrite (nth_map2_in _ _ _ _ [] []); [reflexivity| |]; rewrite ?fderiv1_len, ?fderiv2_len; assumption. Qed.
(** curvature2 looks at the first two coordinates only. *)
Lemma curvature2_pair (f s : list float) : curvature2 f s = curvature2 [nth 0 f 0%float; nth 1 f 0%float] [nth 0 s 0%float; nth 1 s 0%float].
Proof. reflexivity. Qed.
Lemma fprop_curv junk (c : curve float) : wf c -> (2 <= c_size c)%nat -> c_ndim c = 2%nat ->
  curve_prop junk c PCurvature = Ok (AVec (map2 curvature2 (deriv1 (c_rows c)) (deriv2 (c_rows c)))).
Proof.
  intros W Hm H2. rewrite prop_nonempty by (apply fsize_bool; assumption). rewrite H2. cbn [Nat.eqb]. unfold curvature_plane.
  replace (length (c_rows c) =? 1)%nat with false by (symmetry; apply Nat.eqb_neq; unfold c_size in Hm; lia). reflexivity.
Qed.
Lemma rprop_curv junk (c : curve R) : wf c -> (2 <= c_size c)%nat -> c_ndim c = 2%nat ->
  curve_prop junk c PCurvature = Ok (AVec (map2 curvature2 (deriv1 (c_rows c)) (deriv2 (c_rows c)))).
Proof.
  intros W Hm H2. rewrite prop_nonempty by (apply fsize_bool; assumption). rewrite H2. cbn [Nat.eqb]. unfold curvature_plane.
  replace (length (c_rows c) =? 1)%nat with false by (symmetry; apply Nat.eqb_neq; unfold c_size in Hm; lia). reflexivity.
Qed.

(** ** C107 Speed and curvature in binary64 *)

(** The speed is the norm of the computed derivative up to (n + 2) / 2
    roundings, whatever the number n of dimensions. *)
Theorem C107_speed : forall junk (c : curve float) k, wf c -> (2 <= c_size c)%nat -> (c_ndim c + 2 <= 2 * k)%nat ->
  exists d v, curve_prop junk c PFirst = Ok (AMat d) /\ curve_prop junk c PSpeed = Ok (AVec v) /\ length v = c_size c /\
    forall i, (i < c_size c)%nat ->
      (forall x, In x (nth i d []) -> PrimFloat.is_finite x = true /\ (FR x = 0 \/ bpow radix2 (-511) <= Rabs (FR x))) ->
      PrimFloat.is_finite (nth i v 0%float) = true ->
      let t := norm (map FR (nth i d [])) in t * (1 - / 2 ^ 53) ^ k <= FR (nth i v 0%float) <= t * (1 + / 2 ^ 53) ^ k.
Proof.
  intros junk c k W Hm Hk. exists (deriv1 (c_rows c)), (speed_rows (c_rows c)). rewrite !prop_nonempty by (apply fsize_bool; assumption).
  do 2 (split; [reflexivity|]). unfold c_size in *. unfold speed_rows. split; [rewrite map_length; apply fderiv1_len|].
  intros i Hi H F. assert (D : forall p, In p (c_rows c) -> length p = c_ndim c) by apply W.
  assert (E : nth i (map vnorm (deriv1 (c_rows c))) 0%float = vnorm (nth i (deriv1 (c_rows c)) [])).
  { rewrite (nth_indep _ _ (vnorm [])) by (rewrite map_length, fderiv1_len; exact Hi). apply map_nth. }
  rewrite E in *. rewrite <- uro_pow. apply (vnorm_within (c_ndim c) k); [|destruct W as (W2 & _); lia|exact Hk|exact H|exact F].
  apply (proj1 (fgradient_nth (c_ndim c) (c_rows c) i D Hm Hi)).
Qed.
Print Assumptions C107_speed.

(** The curvature of a plane curve against the formula evaluated exactly on the
    computed derivatives: the error is 10 units of 2^-53 relative to the sum of
    the absolute values of the two products whose difference is taken. *)
Theorem C107_error : forall junk (c : curve float), wf c -> (2 <= c_size c)%nat -> c_ndim c = 2%nat ->
  exists d1 d2 k, curve_prop junk c PFirst = Ok (AMat d1) /\ curve_prop junk c PSecond = Ok (AMat d2) /\ curve_prop junk c PCurvature = Ok (AVec k) /\ length k = c_size c /\
    forall i, (i < c_size c)%nat ->
      let fx := at_pt d1 i 0 in let fy := at_pt d1 i 1 in let sx := at_pt d2 i 0 in let sy := at_pt d2 i 1 in let n := sqrt (fx * fx + fy * fy) in
      (forall j, (j < 2)%nat -> ordinary (nth j (nth i d1 []) 0%float) /\ ordinary (nth j (nth i d2 []) 0%float)) -> 0 < n ->
      PrimFloat.is_finite (nth i k 0%float) = true /\
      Rabs (FR (nth i k 0%float) - (sy * fx - sx * fy) / n ^ 3) <= 10 / 2 ^ 53 * ((Rabs (sy * fx) + Rabs (sx * fy)) / n ^ 3) + bpow radix2 (-1075).
Proof.
  intros junk c W Hm H2. exists (deriv1 (c_rows c)), (deriv2 (c_rows c)), (map2 curvature2 (deriv1 (c_rows c)) (deriv2 (c_rows c))).
  rewrite fprop_curv by assumption. rewrite !prop_nonempty by (apply fsize_bool; assumption). do 3 (split; [reflexivity|]).
  unfold c_size in *. split; [rewrite map2_length, fderiv1_len, fderiv2_len; lia|].
  intros i Hi. cbv zeta. set (fx := at_pt (deriv1 _) i 0). set (fy := at_pt (deriv1 _) i 1). set (sx := at_pt (deriv2 _) i 0). set (sy := at_pt (deriv2 _) i 1). set (n := sqrt _).
  intros H Hn. rewrite fcurv_nth by exact Hi. rewrite curvature2_pair.
  destruct (H 0%nat ltac:(lia)) as ((Fx & Mx) & (Gx & Nx)). destruct (H 1%nat ltac:(lia)) as ((Fy & My) & (Gy & Ny)).
  assert (Hq : 0 < fx * fx + fy * fy).
  { destruct (Rle_or_lt (fx * fx + fy * fy) 0) as [L|L]; [|exact L]. unfold n in Hn. rewrite sqrt_neg_0 in Hn by exact L. lra. }
  destruct (curvature2_computed _ _ _ _ Fx Fy Gx Gy Mx My Nx Ny Hq) as (Fk & Ek). split; [exact Fk|].
  replace (n ^ 3) with ((fx * fx + fy * fy) * sqrt (fx * fx + fy * fy)) by (unfold n; cbn [pow]; rewrite Rmult_1_r, <- Rmult_assoc, sqrt_sqrt by lra; reflexivity).
  eapply Rle_trans; [exact Ek|]. rewrite uro_pow. fold eta. right. unfold fx, fy, sx, sy, at_pt. unfold Rdiv. ring.
Qed.
Print Assumptions C107_error.

(** The curvature never has the sign opposite to that of the cross product of
    the computed derivatives (it can be zero). *)
Theorem C107_sign : forall junk (c : curve float), wf c -> (2 <= c_size c)%nat -> c_ndim c = 2%nat ->
  exists d1 d2 k, curve_prop junk c PFirst = Ok (AMat d1) /\ curve_prop junk c PSecond = Ok (AMat d2) /\ curve_prop junk c PCurvature = Ok (AVec k) /\
    forall i, (i < c_size c)%nat ->
      let fx := at_pt d1 i 0 in let fy := at_pt d1 i 1 in let sx := at_pt d2 i 0 in let sy := at_pt d2 i 1 in
      (forall j, (j < 2)%nat -> ordinary (nth j (nth i d1 []) 0%float)) -> 0 < fx * fx + fy * fy ->
      PrimFloat.is_finite (nth i k 0%float) = true ->
      (0 < FR (nth i k 0%float) -> 0 < sy * fx - sx * fy) /\ (FR (nth i k 0%float) < 0 -> sy * fx - sx * fy < 0) /\
      (sy * fx - sx * fy = 0 -> FR (nth i k 0%float) = 0).
Proof.
  intros junk c W Hm H2. exists (deriv1 (c_rows c)), (deriv2 (c_rows c)), (map2 curvature2 (deriv1 (c_rows c)) (deriv2 (c_rows c))).
  rewrite fprop_curv by assumption. rewrite !prop_nonempty by (apply fsize_bool; assumption). do 3 (split; [reflexivity|]).
  unfold c_size in *. intros i Hi. cbv zeta. intros H Hq F. rewrite fcurv_nth in * by exact Hi. rewrite curvature2_pair in *.
  destruct (H 0%nat ltac:(lia)) as (Fx & Mx). destruct (H 1%nat ltac:(lia)) as (Fy & My).
  destruct (curvature2_sign _ _ _ _ Fx Fy Mx My Hq F) as (P & N). unfold at_pt in *.
  set (k := FR (curvature2 _ _)) in *. set (X := FR (nth 1 (nth i (deriv2 (c_rows c)) []) 0%float) * FR (nth 0 (nth i (deriv1 (c_rows c)) []) 0%float)) in *.
  set (Y := FR (nth 0 (nth i (deriv2 (c_rows c)) []) 0%float) * FR (nth 1 (nth i (deriv1 (c_rows c)) []) 0%float)) in *.
  split; [|split].
  - intros K. destruct (Rle_or_lt X Y) as [L|L]; [specialize (N L)|]; lra.
  - intros K. destruct (Rle_or_lt Y X) as [L|L]; [specialize (P L)|]; lra.
  - intros E. specialize (P ltac:(lra)). specialize (N ltac:(lra)). lra.
Qed.
Print Assumptions C107_sign.

(** Integer coordinates below 2^21: the curvature is that of the exact
    arithmetic up to a relative error of 7 units of 2^-53 (so it is zero, positive or
    negative exactly when the true one is), and NaN where the speed is zero. *)
Theorem C107_integer : forall junk (c : curve float) junk' (c' : curve R), wf c -> (2 <= c_size c)%nat -> c_ndim c = 2%nat -> same_points c c' ->
  (forall p x, In p (c_rows c) -> In x p -> exists z, (Z.abs z < 2 ^ 21)%Z /\ x = f_of_Z z) ->
  exists k k' v', curve_prop junk c PCurvature = Ok (AVec k) /\ curve_prop junk' c' PCurvature = Ok (AVec k') /\ curve_prop junk' c' PSpeed = Ok (AVec v') /\
    forall i, (i < c_size c)%nat ->
      (nth i v' 0 = 0 -> PrimFloat.is_nan (nth i k 0%float) = true) /\
      (nth i v' 0 <> 0 -> PrimFloat.is_finite (nth i k 0%float) = true /\
        Rabs (FR (nth i k 0%float) - nth i k' 0) <= 7 / 2 ^ 53 * Rabs (nth i k' 0) /\
        (nth i k' 0 = 0 <-> FR (nth i k 0%float) = 0) /\ (0 < nth i k' 0 <-> 0 < FR (nth i k 0%float))).
Proof.
  intros junk c junk' c' W Hm H2 (Er & En & W') H.
  assert (D : forall p, In p (c_rows c) -> length p = 2%nat) by (rewrite <- H2; apply W).
  assert (Ls : length (c_rows c') = length (c_rows c)) by (rewrite Er; apply map_length).
  exists (map2 curvature2 (deriv1 (c_rows c)) (deriv2 (c_rows c))), (map2 curvature2 (deriv1 (c_rows c')) (deriv2 (c_rows c'))), (speed_rows (c_rows c')).
  assert (Hm' : (2 <= c_size c')%nat) by (unfold c_size in *; rewrite Ls; exact Hm).
  rewrite fprop_curv, rprop_curv by (assumption || congruence). rewrite prop_nonempty by (apply fsize_bool; assumption).
  do 3 (split; [reflexivity|]). unfold c_size in *.
  assert (Dy : dyadic_rows (2 ^ 21 - 1) 0 (c_rows c)).
  { intros p x Ip Ix. destruct (H p x Ip Ix) as (z & Bz & ->). destruct (f_of_Z_exact _ (Z.lt_trans _ (2 ^ 21) (2 ^ 53) Bz ltac:(reflexivity))) as (F & V).
    split; [exact F|]. exists z. split; [lia|]. rewrite V. cbn [bpow]. symmetry. apply Rmult_1_r. }
  destruct (gradient_exact 2 (c_rows c) _ _ D Hm Dy ltac:(reflexivity) ltac:(lia)) as (H1 & E1). fold (deriv1 (c_rows c)) in H1, E1.
  assert (D1 : forall p, In p (deriv1 (c_rows c)) -> length p = 2%nat) by (apply fgradient_dims; assumption).
  destruct (gradient_exact 2 (deriv1 (c_rows c)) _ _ D1 ltac:(rewrite fderiv1_len; exact Hm) H1 ltac:(reflexivity) ltac:(lia)) as (H3 & E2). fold (deriv2 (c_rows c)) in H3, E2.
  assert (D2 : forall p, In p (deriv2 (c_rows c)) -> length p = 2%nat) by (apply fgradient_dims; [assumption|rewrite fderiv1_len; exact Hm]).
  fold (reals (c_rows c)) in Er. rewrite E1 in E2. fold (deriv1 (reals (c_rows c))) in E1. rewrite <- Er in E1, E2. fold (deriv1 (c_rows c')) in E1, E2. fold (deriv2 (c_rows c')) in E2.
  intros i Hi. rewrite fcurv_nth by exact Hi. rewrite curvature2_nth by (rewrite Ls; exact Hi). rewrite curvature2_R, curvature2_pair.
  assert (I1 : In (nth i (deriv1 (c_rows c)) []) (deriv1 (c_rows c))) by (apply nth_In; rewrite fderiv1_len; exact Hi).
  assert (I2 : In (nth i (deriv2 (c_rows c)) []) (deriv2 (c_rows c))) by (apply nth_In; rewrite fderiv2_len; exact Hi).
  assert (G1 : forall j, (j < 2)%nat -> dyadic (8 * (2 ^ 21 - 1)) (-1) (nth j (nth i (deriv1 (c_rows c)) []) 0%float)).
  { intros j Hj. apply (H1 _ _ I1). apply nth_In. rewrite (D1 _ I1). exact Hj. }
  assert (G2 : forall j, (j < 2)%nat -> dyadic (64 * (2 ^ 21 - 1)) (-2) (nth j (nth i (deriv2 (c_rows c)) []) 0%float)).
  { intros j Hj. apply (H3 _ _ I2). apply nth_In. rewrite (D2 _ I2). exact Hj. }
  destruct (curvature2_dyadic (2 ^ 21 - 1) _ _ _ _ ltac:(reflexivity) (G1 0%nat ltac:(lia)) (G1 1%nat ltac:(lia)) (G2 0%nat ltac:(lia)) (G2 1%nat ltac:(lia))) as (Fi & Na).
  assert (Sp : nth i (speed_rows (c_rows c')) 0 = sqrt (FR (nth 0 (nth i (deriv1 (c_rows c)) []) 0%float) * FR (nth 0 (nth i (deriv1 (c_rows c)) []) 0%float) + FR (nth 1 (nth i (deriv1 (c_rows c)) []) 0%float) * FR (nth 1 (nth i (deriv1 (c_rows c)) []) 0%float))).
  { unfold speed_rows. rewrite (nth_indep _ _ (vnorm [])) by (rewrite map_length; unfold deriv1; rewrite gradient_length, Ls; exact Hi). rewrite map_nth. change (vnorm ?v) with (sqrt (vdot v v)). f_equal.
    rewrite <- E1. rewrite <- !reals_nth. assert (Lp : length (nth i (reals (deriv1 (c_rows c))) []) = 2%nat).
    { unfold reals. change [] with (map FR []). rewrite map_nth, map_length. apply D1, I1. }
    destruct (nth i (reals (deriv1 (c_rows c))) []) as [|a [|b [|? ?]]]; try discriminate. unfold vdot, vsum. cbn [map2 fold_right nth nmul nadd n0 RNum]. ring. }
  rewrite Sp. rewrite <- E2, <- E1, !reals_nth.
  set (fx := nth 0 (nth i (deriv1 (c_rows c)) []) 0%float) in *. set (fy := nth 1 (nth i (deriv1 (c_rows c)) []) 0%float) in *.
  set (q := FR fx * FR fx + FR fy * FR fy) in *. assert (Q0 : 0 <= q) by (unfold q; pose proof (Rle_0_sqr (FR fx)) as S1; pose proof (Rle_0_sqr (FR fy)) as S2; unfold Rsqr in *; lra).
  split.
  - intros Z. apply Na. apply sqrt_eq_0; assumption.
  - intros NZ. destruct Fi as (Fk & Ek); [destruct Q0 as [Q0|Q0]; [exact Q0|rewrite <- Q0, sqrt_0 in NZ; lra]|]. split; [exact Fk|]. rewrite uro_pow in Ek.
    set (kf := FR (curvature2 _ _)) in *. set (kr := (_ - _) / _) in *. assert (L : Rabs (kf - kr) <= 7 / 2 ^ 53 * Rabs kr) by (eapply Rle_trans; [exact Ek|right; unfold Rdiv; ring]).
    split; [exact L|]. clear -L. revert L. unfold Rabs. destruct (Rcase_abs (kf - kr)), (Rcase_abs kr); intros L; split; split; intros; lra.
Qed.
Print Assumptions C107_integer.

(** For larger integers a bend can be lost: the curve below turns at its middle
    point (true curvature positive), and the computed curvature there is zero. *)
Definition turn3 : curve float := mkCurve [[0; 0]; [0x1p30; 1073741823]; [1073741825; 0x1p30]]%float 2 DFloat None.
Definition turn3R : curve R := mkCurve (map (map FR) (c_rows turn3)) 2 DFloat None.
Theorem C107_large_refuted : exists (c : curve float) (c' : curve R) k k', wf c /\ same_points c c' /\ c_size c = 3%nat /\
  (forall p x, In p (c_rows c) -> In x p -> exists z, (Z.abs z < 2 ^ 31)%Z /\ x = f_of_Z z) /\
  curve_prop 0%float c PCurvature = Ok (AVec k) /\ curve_prop 0 c' PCurvature = Ok (AVec k') /\
  nth 1 k 1%float = 0%float /\ 0 < nth 1 k' 0.
Proof.
  assert (W : wf turn3) by (split; [cbn; lia|split; [intros p [<-|[<-|[<-|[]]]]; reflexivity|discriminate]]).
  assert (Sp : same_points turn3 turn3R).
  { split; [reflexivity|]. split; [reflexivity|]. split; [cbn; lia|]. split; [|discriminate]. intros p [<-|[<-|[<-|[]]]]; reflexivity. }
  exists turn3, turn3R. rewrite fprop_curv by (first [exact W|cbn; lia]). rewrite rprop_curv by (first [apply Sp|cbn; lia]).
  do 2 eexists. split; [exact W|]. split; [exact Sp|]. split; [reflexivity|].
  split; [|split; [reflexivity|split; [reflexivity|split; [vm_compute; reflexivity|]]]].
  - intros p x [<-|[<-|[<-|[]]]] [<-|[<-|[]]]; [exists 0%Z|exists 0%Z|exists (2 ^ 30)%Z|exists (2 ^ 30 - 1)%Z|exists (2 ^ 30 + 1)%Z|exists (2 ^ 30)%Z]; (split; [reflexivity|vm_compute; reflexivity]).
  - rewrite curvature2_nth by (cbn; lia). rewrite curvature2_R.
    assert (G : dims 2 (c_rows turn3R)) by (intros p [<-|[<-|[<-|[]]]]; reflexivity).
    assert (G1 : dims 2 (deriv1 (c_rows turn3R))) by (apply gradient_dims; [exact G|cbn; lia]).
    assert (V1 : forall i j, (i < 3)%nat -> nth j (nth i (deriv1 (c_rows turn3R)) []) 0 = slope 3 (fun k => nth j (nth k (c_rows turn3R) []) 0) i).
    { intros i j Hi. unfold deriv1. rewrite (proj2 (gradient_nth 2 _ i G ltac:(cbn; lia) ltac:(cbn; lia))). reflexivity. }
    assert (V2 : forall j, nth j (nth 1 (deriv2 (c_rows turn3R)) []) 0 = slope 3 (slope 3 (fun k => nth j (nth k (c_rows turn3R) []) 0)) 1).
    { intros j. unfold deriv2. rewrite (proj2 (gradient_nth 2 _ 1 G1 ltac:(unfold deriv1; rewrite gradient_length; cbn; lia) ltac:(unfold deriv1; rewrite gradient_length; cbn; lia))).
      unfold deriv1 at 1. rewrite gradient_length. change (length (c_rows turn3R)) with 3%nat. apply slope_ext; [lia|lia|]. intros l Hl. apply V1, Hl. }
    rewrite !V1, !V2 by lia. unfold slope. cbn [Nat.eqb Nat.sub Nat.add]. unfold turn3R, turn3. cbn [c_rows map nth].
    replace (FR 0%float) with 0 by (symmetry; exact FR_0).
    replace (FR 0x1p30%float) with 1073741824 by (rewrite FR_SF; replace (Prim2SF 0x1p30%float) with (S754_finite false 4503599627370496 (-22)) by (vm_compute; reflexivity); cbn; unfold F2R; cbn; lra).
    replace (FR 1073741823%float) with 1073741823 by (rewrite FR_SF; replace (Prim2SF 1073741823%float) with (S754_finite false 9007199246352384 (-23)) by (vm_compute; reflexivity); cbn; unfold F2R; cbn; lra).
    replace (FR 1073741825%float) with 1073741825 by (rewrite FR_SF; replace (Prim2SF 1073741825%float) with (S754_finite false 4503599631564800 (-22)) by (vm_compute; reflexivity); cbn; unfold F2R; cbn; lra).
    apply Rmult_lt_0_compat; [lra|]. apply Rinv_0_lt_compat, Rmult_lt_0_compat; [lra|]. apply sqrt_lt_R0. lra.
Qed.
Print Assumptions C107_large_refuted.

(** Beside them: the parabola of four points, and a curve that stands still. *)
Example C107_speed_ex : exists d v, curve_prop nan par4 PFirst = Ok (AMat d) /\ curve_prop nan par4 PSpeed = Ok (AVec v) /\ length v = c_size par4 /\
  (forall i, (i < 4)%nat -> PrimFloat.is_finite (nth i v 0%float) = true) /\ (c_ndim par4 + 2 <= 2 * 2)%nat /\ map (map FR) d = map (map IZR) [[1; 0]; [1; 2]; [1; 4]; [1; 6]]%Z.
Proof.
  eexists. eexists. split; [vm_compute; reflexivity|]. split; [vm_compute; reflexivity|]. split; [reflexivity|].
  split; [intros [|[|[|[|i]]]] Hi; try lia; vm_compute; reflexivity|]. split; [cbn; lia|].
  assert (V : forall z f, f_of_Z z = f -> (Z.abs z < 2 ^ 53)%Z -> FR f = IZR z) by (intros z f <- B; apply (proj2 (f_of_Z_exact z B))).
  cbn [map]. rewrite (V 0%Z 0%float), (V 1%Z 1%float), (V 2%Z 2%float), (V 4%Z 4%float), (V 6%Z 6%float) by (vm_compute; reflexivity). reflexivity.
Qed.
Example C107_integer_ex : wf par4 /\ same_points par4 par4R /\ c_ndim par4 = 2%nat /\
  (forall p x, In p (c_rows par4) -> In x p -> exists z, (Z.abs z < 2 ^ 21)%Z /\ x = f_of_Z z) /\
  exists k, curve_prop nan par4 PCurvature = Ok (AVec k) /\ nth 0 k 0%float = 2%float.
Proof.
  split; [exact (proj1 par4_wf)|]. split; [exact (proj2 par4_wf)|]. split; [reflexivity|]. split.
  - intros p x [<-|[<-|[<-|[<-|[]]]]] [<-|[<-|[]]]; [exists 0%Z|exists 0%Z|exists 1%Z|exists 1%Z|exists 2%Z|exists 4%Z|exists 3%Z|exists 9%Z]; (split; [reflexivity|vm_compute; reflexivity]).
  - eexists. split; [rewrite fprop_curv by (first [exact (proj1 par4_wf)|cbn; lia]); reflexivity|]. vm_compute. reflexivity.
Qed.
Definition still3 : curve float := mkCurve [[1; 1]; [2; 2]; [1; 1]]%float 2 DFloat None.
Example C107_still_ex : exists k, curve_prop nan still3 PCurvature = Ok (AVec k) /\ PrimFloat.is_nan (nth 1 k 0%float) = true /\ nth 0 k 1%float = 0%float.
Proof. eexists. split; [vm_compute; reflexivity|]. split; vm_compute; reflexivity. Qed.
Example C107_error_ex : exists d1 d2, curve_prop nan par4 PFirst = Ok (AMat d1) /\ curve_prop nan par4 PSecond = Ok (AMat d2) /\
  (forall j, (j < 2)%nat -> ordinary (nth j (nth 1 d1 []) 0%float) /\ ordinary (nth j (nth 1 d2 []) 0%float)) /\
  0 < sqrt (at_pt d1 1 0 * at_pt d1 1 0 + at_pt d1 1 1 * at_pt d1 1 1).
Proof.
  exists [[1; 0]; [1; 2]; [1; 4]; [1; 6]]%float, [[0; 2]; [0; 2]; [0; 2]; [0; 2]]%float. split; [vm_compute; reflexivity|]. split; [vm_compute; reflexivity|].
  assert (V : forall z f, f_of_Z z = f -> (Z.abs z < 2 ^ 53)%Z -> FR f = IZR z) by (intros z f <- B; apply (proj2 (f_of_Z_exact z B))).
  assert (One : bpow radix2 (-100) <= 1) by (change 1 with (bpow radix2 0); apply bpow_le; lia). assert (Two : 2 <= bpow radix2 100) by (change 2 with (bpow radix2 1); apply bpow_le; lia).
  assert (O0 : ordinary 0%float) by (split; [reflexivity|left; exact FR_0]).
  assert (O1 : ordinary 1%float) by (split; [reflexivity|right]; rewrite (V 1%Z 1%float) by (vm_compute; reflexivity); rewrite Rabs_pos_eq; lra).
  assert (O2 : ordinary 2%float) by (split; [reflexivity|right]; rewrite (V 2%Z 2%float) by (vm_compute; reflexivity); rewrite Rabs_pos_eq; lra).
  split; [intros [|[|j]] Hj; [cbn; auto|cbn; auto|lia]|].
  unfold at_pt. cbn [nth]. rewrite (V 1%Z 1%float), (V 2%Z 2%float) by (vm_compute; reflexivity). apply sqrt_lt_R0. lra.
Qed.
