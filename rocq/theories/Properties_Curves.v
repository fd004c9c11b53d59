(** Property C60: the predefined curves satisfy their equations. *)
From Coq Require Import ZArith List Bool Arith Lia Reals Lra Psatz.
From Verif Require Import Num Py Numeric Curve Vec DiffGeom Interp Curves Spec GeomSpec.
From Verif Require Import ListFacts ArrayProofs VecFacts CurveProofs CurveProofs2 CurveProofs3 DiffGeomProofs InterpProofs CurvesProofs.
From Verif Require Import Properties_DiffGeom Properties_Interp.
Import ListNotations.
Local Open Scope R_scope.

(** [cr] is a curve of [n] points in [d] dimensions with float data whose
    parameters are evenly spaced from [t0] to [t1]; [P t p] holds for every
    parameter [t] and the point [p] at it. *)
Definition sampled (t0 t1 : R) (n d : nat) (P : R -> list R -> Prop) (cr : res (curve R)) : Prop :=
  exists c theta, cr = Ok c /\ wf c /\ c_size c = n /\ c_ndim c = d /\ c_dtype c = DFloat /\ c_t c = Some theta /\ evenly t0 t1 n theta /\
    forall i, (i < n)%nat -> P (nth i theta 0) (nth i (c_rows c) []).

Lemma sampled_2 t0 t1 n f g (P : R -> list R -> Prop) : (0 < n)%nat -> (forall t, P t [f t; g t]) ->
  sampled t0 t1 n 2 P (do theta <- linspace t0 t1 (Z.of_nat n) ; from_coords [map f theta; map g theta] theta).
Proof.
  intros Hn H. rewrite linspace_Z. cbn [rbind].
  destruct (from_coords_2 f g (linspace_nat t0 t1 n) (linspace_nonempty _ _ _ Hn)) as (rows & E & L & D & Hr).
  rewrite linspace_length in *. eexists. exists (linspace_nat t0 t1 n). split; [exact E|].
  split; [|split; [exact L|split; [reflexivity|split; [reflexivity|split; [reflexivity|split; [apply linspace_evenly|]]]]]].
  - split; [cbn; lia|]. split; [exact D|]. cbn. intros t Ht. injection Ht as <-. rewrite linspace_length. auto.
  - intros i Hi. cbn [c_rows]. rewrite Hr by assumption. apply H.
Qed.

(** ** C60 *)

(** Points of the circle around (c, c). *)
Theorem C60_arc : forall t0 t1 n r c, (0 < n)%nat ->
  sampled t0 t1 n 2 (fun t p => p = [c + r * cos t; c + r * sin t] /\ dist [c; c] p = Rabs r) (arc t0 t1 (Z.of_nat n) r c).
Proof.
  intros t0 t1 n r c Hn. apply sampled_2; [assumption|]. intros t. split; [f_equal; [ring|f_equal; ring]|].
  unfold dist, norm. cbn [minus inner]. rewrite <- sqrt_Rsqr_abs. f_equal. unfold Rsqr.
  pose proof (sin2_cos2 t) as S. unfold Rsqr in S. 
  replace ((cos t * r + c - c) * (cos t * r + c - c) + ((sin t * r + c - c) * (sin t * r + c - c) + 0)) with (r * r * (sin t * sin t + cos t * cos t)) by ring.
  rewrite S. ring.
Qed.
Print Assumptions C60_arc.

(** (x^2 + y^2)^2 = 2 c^2 (x^2 - y^2). *)
Theorem C60_lemniscate : forall t0 t1 n c, (0 < n)%nat ->
  sampled t0 t1 n 2 (fun t p => exists x y, p = [x; y] /\ (x * x + y * y) * (x * x + y * y) = 2 * c * c * (x * x - y * y) /\ y = x * sin t)
    (lemniscate_of_bernoulli t0 t1 (Z.of_nat n) c).
Proof.
  intros t0 t1 n c Hn. apply sampled_2; [assumption|]. intros t. do 2 eexists. split; [reflexivity|].
  assert (N : sin t * sin t + 1 <> 0) by nra. split; [|field; assumption].
  pose proof (sin2_cos2 t) as S. unfold Rsqr in S. pose proof (sqrt_sqrt 2 ltac:(lra)) as Q.
  set (s := sin t) in *. set (k := cos t) in *. set (q := sqrt 2) in *.
  replace ((c * q * k / (s * s + 1)) * (c * q * k / (s * s + 1)) + (c * q * k * s / (s * s + 1)) * (c * q * k * s / (s * s + 1)))
    with ((q * q) * c * c * (k * k) / (s * s + 1)) by (field; assumption).
  replace ((c * q * k / (s * s + 1)) * (c * q * k / (s * s + 1)) - (c * q * k * s / (s * s + 1)) * (c * q * k * s / (s * s + 1)))
    with ((q * q) * c * c * (k * k) * (1 - s * s) / ((s * s + 1) * (s * s + 1))) by (field; assumption).
  rewrite Q. replace (k * k) with (1 - s * s) by lra. field. assumption.
Qed.
Print Assumptions C60_lemniscate.

(** Polar equation: the point lies at signed distance a + b*theta in direction theta. *)
Theorem C60_archimedean : forall t0 t1 n a b, (0 < n)%nat ->
  sampled t0 t1 n 2 (fun t p => p = [(a + b * t) * cos t; (a + b * t) * sin t] /\ norm p = Rabs (a + b * t))
    (archimedean_spiral t0 t1 (Z.of_nat n) a b).
Proof.
  intros t0 t1 n a b Hn. apply sampled_2; [assumption|]. intros t. split; [reflexivity|].
  unfold norm. cbn [inner]. rewrite <- sqrt_Rsqr_abs. f_equal. unfold Rsqr. pose proof (sin2_cos2 t) as S. unfold Rsqr in S. set (q := a + b * t).
  replace (q * cos t * (q * cos t) + (q * sin t * (q * sin t) + 0)) with (q * q * (sin t * sin t + cos t * cos t)) by ring. rewrite S. ring.
Qed.
Print Assumptions C60_archimedean.

(** Whatever functions S and C scipy supplies: the points are (C t, S t). *)
Theorem C60_euler : forall fresnel t0 t1 n, (0 < n)%nat ->
  sampled t0 t1 n 2 (fun t p => p = [snd (fresnel t); fst (fresnel t)]) (euler_spiral fresnel t0 t1 (Z.of_nat n)).
Proof. intros fresnel t0 t1 n Hn. apply sampled_2; [assumption|]. reflexivity. Qed.
Print Assumptions C60_euler.

Theorem C60_lissajous : forall t0 t1 n A B a b d, (0 < n)%nat ->
  sampled t0 t1 n 2 (fun t p => exists x y, p = [x; y] /\ x = A * sin (a * t + d) /\ y = B * sin (b * t) /\ Rabs x <= Rabs A /\ Rabs y <= Rabs B)
    (lissajous t0 t1 (Z.of_nat n) A B a b d).
Proof.
  intros t0 t1 n A B a b d Hn. apply sampled_2; [assumption|]. intros t. do 2 eexists. split; [reflexivity|]. split; [reflexivity|]. split; [reflexivity|].
  assert (H : forall u v, Rabs (u * sin v) <= Rabs u).
  { intros u v. rewrite Rabs_mult. rewrite <- (Rmult_1_r (Rabs u)) at 2. apply Rmult_le_compat_l; [apply Rabs_pos|].
    apply Rabs_le. pose proof (SIN_bound v). lra. }
  split; apply H.
Qed.
Print Assumptions C60_lissajous.

(** On the cylinder of radius |a|, rising by b per radian. *)
Theorem C60_helix : forall t0 t1 n a b, (0 < n)%nat ->
  sampled t0 t1 n 3 (fun t p => exists x y, p = [x; y; b * t] /\ x * x + y * y = a * a /\ x = a * sin t /\ y = a * cos t)
    (helix t0 t1 (Z.of_nat n) a b).
Proof.
  intros t0 t1 n a b Hn. unfold helix. rewrite linspace_Z. cbn [rbind]. set (th := linspace_nat t0 t1 n).
  assert (Lt : length th = n) by apply linspace_length.
  destruct (from_coords_3 (map (fun t => sin t * a) th) (map (fun t => cos t * a) th) (map (fun t => t * b) th) th (linspace_nonempty _ _ _ Hn)) as (rows & E & L & D & Hr);
    try apply map_length.
  rewrite Lt in *. eexists. exists th. split; [exact E|].
  split; [|split; [exact L|split; [reflexivity|split; [reflexivity|split; [reflexivity|split; [apply linspace_evenly|]]]]]].
  - split; [cbn; lia|]. split; [exact D|]. cbn. intros t Ht. injection Ht as <-. congruence.
  - intros i Hi. cbn [c_rows]. rewrite Hr by assumption. rewrite !nth_map_R by congruence. set (t := nth i th 0).
    exists (a * sin t), (a * cos t). split; [f_equal; [ring|f_equal; [ring|f_equal; ring]]|]. split; [|split; reflexivity].
    pose proof (sin2_cos2 t) as S. unfold Rsqr in S.
    replace (a * sin t * (a * sin t) + a * cos t * (a * cos t)) with (a * a * (sin t * sin t + cos t * cos t)) by ring. rewrite S. ring.
Qed.
Print Assumptions C60_helix.

(** On the surface of revolution r = z^2 + 1; the heights are evenly spaced too. *)
Theorem C60_irregular_helix : forall t0 t1 z0 z1 n, (0 < n)%nat ->
  exists zs, evenly z0 z1 n zs /\
  sampled t0 t1 n 3 (fun t p => exists x y z, p = [x; y; z] /\ In z zs /\ x * x + y * y = (z * z + 1) * (z * z + 1) /\ x = (z * z + 1) * sin t /\ y = (z * z + 1) * cos t)
    (irregular_helix t0 t1 z0 z1 (Z.of_nat n)) /\
  forall c, irregular_helix t0 t1 z0 z1 (Z.of_nat n) = Ok c -> map (fun p => nth 2 p 0) (c_rows c) = zs.
Proof.
  intros t0 t1 z0 z1 n Hn. unfold irregular_helix. rewrite !linspace_Z. cbn [rbind].
  set (th := linspace_nat t0 t1 n). set (zs := linspace_nat z0 z1 n). exists zs. split; [apply linspace_evenly|].
  assert (Lt : length th = n) by apply linspace_length. assert (Lz : length zs = n) by apply linspace_length.
  set (r := map (fun v => v * v + 1) zs). assert (Lr : length r = n) by (unfold r; rewrite map_length; assumption).
  destruct (from_coords_3 (map2 (fun q t => q * sin t) r th) (map2 (fun q t => q * cos t) r th) zs th (linspace_nonempty _ _ _ Hn)) as (rows & E & L & D & Hr);
    try (rewrite map2_length; lia); try congruence.
  rewrite Lt in *. split.
  - eexists. exists th. split; [exact E|].
    split; [|split; [exact L|split; [reflexivity|split; [reflexivity|split; [reflexivity|split; [apply linspace_evenly|]]]]]].
    + split; [cbn; lia|]. split; [exact D|]. cbn. intros t Ht. injection Ht as <-. congruence.
    + intros i Hi. cbn [c_rows]. rewrite Hr by assumption. rewrite !(nth_map2 _ r th i 0 0) by congruence.
      unfold r. rewrite !nth_map_R by congruence. set (t := nth i th 0). set (z := nth i zs 0).
      exists ((z * z + 1) * sin t), ((z * z + 1) * cos t), z. split; [reflexivity|]. split; [apply nth_In; congruence|]. split; [|split; reflexivity].
      pose proof (sin2_cos2 t) as S. unfold Rsqr in S. set (q := z * z + 1).
      replace (q * sin t * (q * sin t) + q * cos t * (q * cos t)) with (q * q * (sin t * sin t + cos t * cos t)) by ring. rewrite S. ring.
  - intros c Ec. rewrite E in Ec. injection Ec as <-. cbn [c_rows]. apply (nth_ext _ _ 0 0); [rewrite map_length; congruence|].
    intros i Hi. rewrite map_length, L in Hi. rewrite (nth_indep _ 0 (nth 2 ([] : list R) 0)) by (rewrite map_length; congruence).
    rewrite (map_nth (fun p => nth 2 p 0)), Hr by assumption. reflexivity.
Qed.
Print Assumptions C60_irregular_helix.

(** A negative count is a ValueError; a count of zero gives an empty curve,
    which is two-dimensional even for the space curves. *)
Theorem C60_counts : forall fresnel t0 t1 a b c d e f g, 
  (forall n, (n < 0)%Z -> arc t0 t1 n a b = Raise ValueError /\ lemniscate_of_bernoulli t0 t1 n a = Raise ValueError /\
     archimedean_spiral t0 t1 n a b = Raise ValueError /\ euler_spiral fresnel t0 t1 n = Raise ValueError /\
     lissajous t0 t1 n c d e f g = Raise ValueError /\ helix t0 t1 n a b = Raise ValueError /\ irregular_helix t0 t1 a b n = Raise ValueError) /\
  let empty := Ok (mkCurve [] 2 DFloat (Some [])) in
  arc t0 t1 0 a b = empty /\ lemniscate_of_bernoulli t0 t1 0 a = empty /\ archimedean_spiral t0 t1 0 a b = empty /\ euler_spiral fresnel t0 t1 0 = empty /\
  lissajous t0 t1 0 c d e f g = empty /\ helix t0 t1 0 a b = empty /\ irregular_helix t0 t1 a b 0 = empty.
Proof.
  intros. split.
  - intros n Hn. unfold arc, lemniscate_of_bernoulli, archimedean_spiral, euler_spiral, lissajous, helix, irregular_helix.
    rewrite !linspace_neg by assumption. repeat split.
  - cbv zeta. unfold arc, lemniscate_of_bernoulli, archimedean_spiral, euler_spiral, lissajous, helix, irregular_helix.
    repeat split; apply from_coords_empty.
Qed.
Print Assumptions C60_counts.

Lemma evenly_step t0 t1 n th i : (2 <= n)%nat -> evenly t0 t1 n th -> (S i < n)%nat ->
  nth (S i) th 0 = nth i th 0 + (t1 - t0) / INR (n - 1).
Proof. intros Hn (_ & _ & H) Hi. destruct (H Hn) as (_ & _ & K). rewrite !K by lia. rewrite S_INR. ring. Qed.

Lemma sum_const m d : fold_right Rplus 0 (map (fun _ : nat => d) (seq 0 m)) = INR m * d.
Proof.
  generalize 0%nat. induction m as [|m IH]; intros s; [cbn; ring|]. cbn [seq map fold_right]. rewrite IH, S_INR. ring.
Qed.

Lemma chord_sq t h : (cos (t + h) - cos t) * (cos (t + h) - cos t) + (sin (t + h) - sin t) * (sin (t + h) - sin t) = 4 * (sin (h / 2) * sin (h / 2)).
Proof.
  pose proof (sin2_cos2 t) as S1. pose proof (sin2_cos2 (t + h)) as S2. pose proof (cos_minus (t + h) t) as C.
  replace (t + h - t) with (2 * (h / 2)) in C by field. rewrite cos_2a_sin in C. unfold Rsqr in *. nra.
Qed.

(** The length of an arc: n - 1 equal chords of a circle. *)
Theorem C60_arc_length : forall junk t0 t1 n r c cu, (2 <= n)%nat -> arc t0 t1 (Z.of_nat n) r c = Ok cu ->
  c_arclen junk cu = 2 * Rabs r * INR (n - 1) * Rabs (sin ((t1 - t0) / INR (n - 1) / 2)).
Proof.
  intros junk t0 t1 n r c cu Hn E. destruct (C60_arc t0 t1 n r c ltac:(lia)) as (cu' & th & E' & W & Sz & _ & _ & _ & Ev & H).
  rewrite E in E'. injection E' as <-.
  assert (Ne : c_rows cu <> []) by (intros Q; unfold c_size in Sz; rewrite Q in Sz; cbn in Sz; lia).
  rewrite C24_arclen by assumption. rewrite Sz. set (h := (t1 - t0) / INR (n - 1)).
  rewrite (map_ext_in _ (fun _ => 2 * Rabs r * Rabs (sin (h / 2)))); [rewrite sum_const; ring|].
  intros i Hi. apply in_seq in Hi. destruct (H i ltac:(lia)) as [-> _]. destruct (H (S i) ltac:(lia)) as [-> _].
  rewrite (evenly_step t0 t1 n th i) by (assumption || lia). fold h. set (t := nth i th 0).
  unfold dist, norm. cbn [minus inner].
  replace (_ + (_ + 0)) with (Rsqr (2 * r * sin (h / 2))).
  - rewrite sqrt_Rsqr_abs, !Rabs_mult. rewrite (Rabs_right 2) by lra. ring.
  - pose proof (chord_sq t h) as Q. unfold Rsqr. nra.
Qed.
Print Assumptions C60_arc_length.

(** The curvature of an arc is exactly 1/r (signed by the direction) away from
    the two points at each end. *)
Theorem C60_arc_curvature : forall junk t0 t1 n r c cu, (2 <= n)%nat -> 0 < r -> arc t0 t1 (Z.of_nat n) r c = Ok cu ->
  let h := (t1 - t0) / INR (n - 1) in sin h <> 0 ->
  exists k, curve_prop junk cu PCurvature = Ok (AVec k) /\ length k = n /\
    forall i, (1 < i)%nat -> (i < n - 2)%nat -> nth i k 0 = (if Rlt_dec 0 (sin h) then / r else - / r).
Proof.
  intros junk t0 t1 n r c cu Hn Hr E h Hh. destruct (C60_arc t0 t1 n r c ltac:(lia)) as (cu' & th & E' & W & Sz & Nd & _ & _ & Ev & H).
  rewrite E in E'. injection E' as <-. rewrite <- Sz. apply (C28_circle junk cu c c r t0 h); try assumption; [|lia].
  rewrite Sz. intros i Hi. destruct (H i Hi) as [-> _]. destruct Ev as (_ & _ & K). destruct (K Hn) as (_ & _ & K'). rewrite K' by assumption.
  fold h. rewrite (Rmult_comm h). reflexivity.
Qed.
Print Assumptions C60_arc_curvature.

(** The default arc (a full turn) is closed: it ends where it starts. *)
Theorem C60_full_turn_closed : forall t0 n r c cu, (2 <= n)%nat -> arc t0 (t0 + 2 * PI) (Z.of_nat n) r c = Ok cu ->
  nth 0 (c_rows cu) [] = nth (n - 1) (c_rows cu) [].
Proof.
  intros t0 n r c cu Hn E. destruct (C60_arc t0 (t0 + 2 * PI) n r c ltac:(lia)) as (cu' & th & E' & W & Sz & Nd & _ & _ & Ev & H).
  rewrite E in E'. injection E' as <-. destruct (H 0%nat ltac:(lia)) as [-> _]. destruct (H (n - 1)%nat ltac:(lia)) as [-> _].
  destruct Ev as (_ & _ & K). destruct (K Hn) as (-> & -> & _).
  pose proof (cos_period t0 1) as C. pose proof (sin_period t0 1) as S. cbn [INR] in C, S. rewrite Rmult_1_r in C, S. rewrite C, S. reflexivity.
Qed.
Print Assumptions C60_full_turn_closed.

(** A half circle of radius 2 around the origin in three points. *)
Example C60_ex : exists c, arc 0 PI 3 2 0 = Ok c /\ c_rows c = [[2; 0]; [0; 2]; [-2; 0]] /\ c_t c = Some [0; PI / 2; PI].
Proof.
  destruct (C60_arc 0 PI 3 2 0 ltac:(lia)) as (c & th & E & W & Sz & Nd & _ & T & (L & _ & Ev) & H). exists c. split; [exact E|].
  destruct (Ev ltac:(lia)) as (_ & _ & K). rewrite T.
  assert (K0 : nth 0 th 0 = 0) by (rewrite K by lia; cbn; field). assert (K1 : nth 1 th 0 = PI / 2) by (rewrite K by lia; cbn; field).
  assert (K2 : nth 2 th 0 = PI) by (rewrite K by lia; cbn; field).
  destruct (H 0%nat ltac:(lia)) as [H0 _]. destruct (H 1%nat ltac:(lia)) as [H1 _]. destruct (H 2%nat ltac:(lia)) as [H2 _].
  rewrite K0, cos_0, sin_0 in H0. rewrite K1, cos_PI2, sin_PI2 in H1. rewrite K2, cos_PI, sin_PI in H2.
  unfold c_size in Sz. destruct (c_rows c) as [|p0 [|p1 [|p2 [|]]]]; try discriminate. cbn [nth] in H0, H1, H2.
  destruct th as [|a0 [|a1 [|a2 [|]]]]; try discriminate. cbn [nth] in K0, K1, K2. subst. split; [|reflexivity].
  repeat match goal with |- _ :: _ = _ :: _ => f_equal end; ring.
Qed.
