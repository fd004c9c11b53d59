(** C98: curves of float32 and of other floating-point formats. *)
From Coq Require Import PrimFloat FloatOps FloatAxioms SpecFloat.
From Coq Require Import ZArith List Bool Arith Lia Reals Lra Psatz Permutation.
From Flocq Require Import Core BinarySingleNaN.
From Flocq Require IEEE754.PrimFloat.
From Verif Require Import Num Py Numeric Curve Vec DiffGeom Spec GeomSpec ListFacts VecFacts GeomProofs CurveProofs3 DiffGeomProofs.
From Verif Require Import FloatN FloatNFacts FloatNProofs FloatNProofs2 FloatNProofs3 FloatFacts FloatFacts2 FloatProofs FloatProofs2.
Import ListNotations.
Local Open Scope R_scope.
Local Notation float := PrimFloat.float.

(** ** C98 Curves of float32, and of any IEEE format

    [binary_float prec emax]: the numbers with [prec] bits and exponents up to [emax]
    (float32: 24, 128), with infinities and NaN; [B2R x] is the value of a finite one.
    [bchords rows cs]: cs are possible lengths of the segments of the polygon when
    every operation rounds to nearest and the squares are added in any order;
    [bsums l s]: s is a possible value of the sum of l, in any order. *)

Definition z32 (z : Z) : f32 := b_of_Z 24 128 Hp32 Hm32 z.

(** What the model computes is one of these. *)
Theorem C98_model : forall prec emax (Hp : Prec_gt_0 prec) (Hm : Prec_lt_emax prec emax) (rows : list (list (binary_float prec emax))),
  let cs := @chordlen_rows _ (BNum prec emax Hp Hm) (BSqrt prec emax Hp Hm) rows in
  bchords (Hp := Hp) (Hm := Hm) rows cs /\ bsums (Hp := Hp) (Hm := Hm) cs (@vsum _ (BNum prec emax Hp Hm) cs) /\
  forall i, (i < length cs)%nat -> bsums (Hp := Hp) (Hm := Hm) (firstn (S i) cs) (nth i (@cumsum _ (BNum prec emax Hp Hm) cs) (B754_zero false)).
Proof.
  intros prec emax Hp Hm rows cs. split; [apply (bchords_model (Hp := Hp) (Hm := Hm))|]. split; [exact (fold_right_bsums (Hp := Hp) (Hm := Hm) cs)|].
  intros i Hi. exact (bcumsum_sums (Hp := Hp) (Hm := Hm) cs i Hi).
Qed.
Print Assumptions C98_model.

(** At 53 bits it is the binary64 model of the other properties. *)
Theorem C98_binary64 : forall rows : list (list float),
  map IEEE754.PrimFloat.Prim2B (chordlen_rows rows) =
    @chordlen_rows _ (BNum 53 1024 IEEE754.PrimFloat.Hprec IEEE754.PrimFloat.Hmax) (BSqrt 53 1024 IEEE754.PrimFloat.Hprec IEEE754.PrimFloat.Hmax) (map (map IEEE754.PrimFloat.Prim2B) rows) /\
  IEEE754.PrimFloat.Prim2B (vsum (chordlen_rows rows)) =
    @vsum _ (BNum 53 1024 IEEE754.PrimFloat.Hprec IEEE754.PrimFloat.Hmax) (map IEEE754.PrimFloat.Prim2B (chordlen_rows rows)) /\
  map IEEE754.PrimFloat.Prim2B (cumsum (chordlen_rows rows)) =
    @cumsum _ (BNum 53 1024 IEEE754.PrimFloat.Hprec IEEE754.PrimFloat.Hmax) (map IEEE754.PrimFloat.Prim2B (chordlen_rows rows)).
Proof. intros rows. split; [apply prim_chordlen|]. split; [apply prim_vsum|apply prim_cumsum]. Qed.
Print Assumptions C98_binary64.

Example C98_model_ex :
  map widen (chordlen_rows [[z32 0; z32 0]; [z32 3; z32 4]; [z32 3; z32 5]]) = [5%float; 1%float] /\
  arclen32 (z32 7) (mkCurve [[z32 0; z32 0]; [z32 3; z32 4]; [z32 3; z32 5]] 2 DFloat None) = 6%float /\
  cumarclen32 (z32 7) (mkCurve [[z32 0; z32 0]; [z32 3; z32 4]; [z32 3; z32 5]] 2 DFloat None) = [0%float; 5%float; 6%float] /\
  widen (chord [z32 0; z32 0] [z32 1; z32 1]) = 0x1.6a09e6p0%float.
Proof. vm_compute. repeat split. Qed.

(** *** What holds in every format *)

(** Lengths of finite points are never NaN and never negative, and none is larger
    than the total. *)
Theorem C98_lengths : forall prec emax (Hp : Prec_gt_0 prec) (Hm : Prec_lt_emax prec emax) (rows : list (list (binary_float prec emax))) cs L,
  (forall p x, In p rows -> In x p -> is_finite x = true) -> bchords (Hp := Hp) (Hm := Hm) rows cs -> bsums (Hp := Hp) (Hm := Hm) cs L ->
  (forall x, In x cs -> is_nan x = false /\ Bleb (B754_zero false) x = true /\ Bleb x L = true) /\ is_nan L = false /\ Bleb (B754_zero false) L = true.
Proof.
  intros prec emax Hp Hm rows cs L F C S. pose proof (bchords_nonneg (Hp := Hp) (Hm := Hm) rows (fun p I x Ix => F p x I Ix) cs C) as N.
  destruct (bsums_nonneg cs L S N) as (NL & M). split.
  - intros x I. split; [exact (proj2 (bleb_num _ _ (N x I)))|]. split; [exact (N x I)|exact (M x I)].
  - split; [exact (proj2 (bleb_num _ _ NL))|exact NL].
Qed.
Print Assumptions C98_lengths.

(** The distance of two points does not depend on their order, the distance of a
    point to itself is 0, and reversing the polygon reverses the lengths. *)
Theorem C98_reverse : forall prec emax (Hp : Prec_gt_0 prec) (Hm : Prec_lt_emax prec emax) (rows : list (list (binary_float prec emax))),
  (forall p q r, bchord (Hp := Hp) (Hm := Hm) p q r <-> bchord (Hp := Hp) (Hm := Hm) q p r) /\
  (forall p r, (forall x, In x p -> is_finite x = true) -> bchord (Hp := Hp) (Hm := Hm) p p r -> r = B754_zero false) /\
  @chordlen_rows _ (BNum prec emax Hp Hm) (BSqrt prec emax Hp Hm) (rev rows) = rev (@chordlen_rows _ (BNum prec emax Hp Hm) (BSqrt prec emax Hp Hm) rows).
Proof.
  intros prec emax Hp Hm rows. split; [intros p q r; apply bchord_swap|]. split; [intros p r F; exact (bchord_self p r F)|apply chordlen_rows_rev_b].
Qed.
Print Assumptions C98_reverse.

(** The rounding error.  If no square underflows (the differences of the coordinates
    are 0 or at least 2^k, with 2k >= 4 - emax: 2^-62 for float32), a finite distance
    of points with n coordinates has relative error at most (1 + 2^-prec)^m - 1,
    m = (n + 4) / 2 rounded up ... *)
Theorem C98_distance_error : forall prec emax (Hp : Prec_gt_0 prec) (Hm : Prec_lt_emax prec emax) k n m (p q : list (binary_float prec emax)) r,
  (4 - emax <= 2 * k)%Z -> length p = n -> length q = n -> (1 <= n)%nat -> (n + 4 <= 2 * m)%nat ->
  (forall x, In x p \/ In x q -> is_finite x = true) ->
  (forall a b, In (a, b) (combine p q) -> B2R b - B2R a = 0 \/ bpow radix2 k <= Rabs (B2R b - B2R a)) ->
  bchord (Hp := Hp) (Hm := Hm) p q r -> is_finite r = true ->
  let d := dist (map B2R p) (map B2R q) in d * (1 - bpow radix2 (- prec)) ^ m <= B2R r <= d * (1 + bpow radix2 (- prec)) ^ m.
Proof.
  intros prec emax Hp Hm k n m p q r Hk Lp Lq Hn Hmm F Sc C Fr d.
  exact (bchord_error (Hp := Hp) (Hm := Hm) k n m p q r Hk Lp Lq Hn Hmm (fun x I => F x (or_introl I)) (fun x I => F x (or_intror I)) Sc C Fr).
Qed.
Print Assumptions C98_distance_error.
(** ... and the length of a polygon of N points one more factor for each further
    segment, whatever the order of the sum. *)
Theorem C98_length_error : forall prec emax (Hp : Prec_gt_0 prec) (Hm : Prec_lt_emax prec emax) k n m (rows : list (list (binary_float prec emax))) cs L,
  (4 - emax <= 2 * k)%Z -> (1 <= n)%nat -> (n + 4 <= 2 * m)%nat -> (2 <= length rows)%nat ->
  (forall p, In p rows -> length p = n /\ forall x, In x p -> is_finite x = true) ->
  (forall i, (S i < length rows)%nat -> forall a b, In (a, b) (combine (nth i rows []) (nth (S i) rows [])) -> B2R b - B2R a = 0 \/ bpow radix2 k <= Rabs (B2R b - B2R a)) ->
  bchords (Hp := Hp) (Hm := Hm) rows cs -> bsums (Hp := Hp) (Hm := Hm) cs L -> is_finite L = true ->
  let e := (m + (length rows - 2))%nat in let len := polyline (map (map B2R) rows) in
  len * (1 - bpow radix2 (- prec)) ^ e <= B2R L <= len * (1 + bpow radix2 (- prec)) ^ e.
Proof.
  intros prec emax Hp Hm k n m rows cs L Hk Hn Hmm Hr F Sc C S FL e len.
  exact (blength_error (Hp := Hp) (Hm := Hm) k n m rows cs L Hk Hn Hmm Hr F Sc C S FL).
Qed.
Print Assumptions C98_length_error.

Lemma z32_fin z : (Z.abs z < 2 ^ 24)%Z -> is_finite (z32 z) = true /\ B2R (z32 z) = IZR z.
Proof.
  intros H. unfold z32, b_of_Z. pose proof (binary_normalize_correct 24 128 Hp32 Hm32 mode_NE z 0 false) as C. cbv zeta in C.
  assert (E : F2R (Defs.Float radix2 z 0) = IZR z) by (unfold F2R; cbn; lra). rewrite E in C.
  rewrite round_generic in C; [|apply valid_rnd_round_mode|].
  - rewrite Rlt_bool_true in C; [destruct C as (C1 & C2 & _); auto|]. rewrite <- abs_IZR. apply Rlt_trans with (IZR (2 ^ 24)); [apply IZR_lt; exact H|].
    change (2 ^ 24)%Z with (Zpower radix2 24). rewrite IZR_Zpower by lia. apply bpow_lt. lia.
  - apply (generic_format_FLT radix2 (3 - 128 - 24) 24). exists (Defs.Float radix2 z 0); [unfold F2R; cbn; lra|exact H|vm_compute; discriminate].
Qed.
(** sqrt 2 in float32: two coordinates, m = 3. *)
Example C98_error_ex : let r := chord [z32 0; z32 0] [z32 1; z32 1] in
  dist [0; 0] [1; 1] * (1 - bpow radix2 (-24)) ^ 3 <= B2R r <= dist [0; 0] [1; 1] * (1 + bpow radix2 (-24)) ^ 3.
Proof.
  intros r. pose proof (z32_fin 0 ltac:(reflexivity)) as (F0 & E0). pose proof (z32_fin 1 ltac:(reflexivity)) as (F1 & E1).
  pose proof (C98_distance_error 24 128 Hp32 Hm32 (-62) 2 3 [z32 0; z32 0] [z32 1; z32 1] r ltac:(discriminate) eq_refl eq_refl ltac:(lia) ltac:(lia)) as H.
  cbn [map] in H. rewrite E0, E1 in H. apply H.
  - intros x [[<-|[<-|[]]]|[<-|[<-|[]]]]; assumption.
  - intros a b [E|[E|[]]]; pose proof (f_equal fst E) as Ea; pose proof (f_equal snd E) as Eb; cbn [fst snd] in Ea, Eb; rewrite <- Ea, <- Eb; right; rewrite E0, E1, Rminus_0_r, Rabs_R1; change 1 with (bpow radix2 0); apply bpow_le; lia.
  - exact (bchord_model (Hp := Hp32) (Hm := Hm32) [z32 0; z32 0] [z32 1; z32 1]).
  - vm_compute. reflexivity.
Qed.

(** cumarclen of a float32 curve starts with 0 and never falls ... *)
Theorem C98_cumulative : forall junk (c : curve f32), c_bool c = true -> (forall p x, In p (c_rows c) -> In x p -> is_finite x = true) ->
  length (cumarclen32 junk c) = c_size c /\ nth 0 (cumarclen32 junk c) PrimFloat.zero = PrimFloat.zero /\
  forall i j, (i <= j)%nat -> (j < c_size c)%nat -> PrimFloat.leb (nth i (cumarclen32 junk c) PrimFloat.zero) (nth j (cumarclen32 junk c) PrimFloat.zero) = true.
Proof.
  intros junk c Hb F. unfold cumarclen32. rewrite (c_chordlen_rows junk c Hb). set (cs := chordlen_rows (c_rows c)).
  assert (N : forall x, In x cs -> Bleb (@B754_zero 24 128 false) x = true).
  { apply (bchords_nonneg (Hp := Hp32) (Hm := Hm32) (c_rows c)); [intros p I x Ix; exact (F p x I Ix)|]. exact (bchords_model (Hp := Hp32) (Hm := Hm32) (c_rows c)). }
  assert (Lc : length (cumsum cs) = length cs) by exact (bcumsum_length (Hp := Hp32) (Hm := Hm32) cs).
  assert (Ls : S (length cs) = c_size c).
  { unfold cs. rewrite CurveProofs3.chordlen_rows_length. unfold c_size. apply c_bool_rows in Hb. destruct (c_rows c); [contradiction|]. cbn. lia. }
  split; [cbn [length]; rewrite map_length, Lc; exact Ls|]. split; [reflexivity|].
  assert (E : forall k, (k < length cs)%nat -> nth (S k) (PrimFloat.zero :: map widen (cumsum cs)) PrimFloat.zero = widen (nth k (cumsum cs) (B754_zero false))).
  { intros k Hk. cbn [nth]. change PrimFloat.zero with (widen (B754_zero false)). apply map_nth. }
  intros i j Hij Hj. destruct i as [|i].
  - destruct j as [|j]; [reflexivity|]. rewrite (E j ltac:(lia)). cbn [nth]. change PrimFloat.zero with (widen (B754_zero false)). rewrite <- widen_leb.
    assert (Hj' : (j < length cs)%nat) by lia. exact (bcumsum_nonneg (Hp := Hp32) (Hm := Hm32) cs N j Hj').
  - destruct j as [|j]; [lia|]. rewrite (E i ltac:(lia)), (E j ltac:(lia)). rewrite <- widen_leb. assert (Hj' : (j < length cs)%nat) by lia. exact (bcumsum_mono (Hp := Hp32) (Hm := Hm32) cs N i j ltac:(lia) Hj').
Qed.
Print Assumptions C98_cumulative.
(** ... but it need not rise where a segment has positive length, because the sums
    are rounded to 24 bits; in binary64 it rises.  So cumarclen of a float32 curve of
    pairwise distinct points is not always a strictly increasing parametrization. *)
Theorem C98_rising_refuted : exists c : curve f32, wf c /\ c_bool c = true /\ rmap (@c_size f32) (nonsingular32 c) = Ok (c_size c) /\
  (forall p x, In p (c_rows c) -> In x p -> is_finite x = true) /\
  map widen (c_chordlen (z32 7) c) = [16777216%float; 1%float] /\
  cumarclen32 (z32 7) c = [0%float; 16777216%float; 16777216%float] /\
  c_cumarclen PrimFloat.zero (to_float64 c) = [0%float; 16777216%float; 16777217%float].
Proof.
  exists (mkCurve [[z32 0; z32 0]; [z32 16777216; z32 0]; [z32 16777216; z32 1]] 2 DFloat None).
  split; [split; [cbn; lia|]; split; [intros p [<-|[<-|[<-|[]]]]; reflexivity|discriminate]|]. split; [reflexivity|].
  split; [vm_compute; reflexivity|]. split; [intros p x [<-|[<-|[<-|[]]]] [<-|[<-|[]]]; vm_compute; reflexivity|].
  split; [vm_compute; reflexivity|]. split; vm_compute; reflexivity.
Qed.
Print Assumptions C98_rising_refuted.
(** A segment at least 2^(1-prec) times as long as the curve before it always raises
    it, in every format. *)
Theorem C98_rising : forall prec emax (Hp : Prec_gt_0 prec) (Hm : Prec_lt_emax prec emax) (rows : list (list (binary_float prec emax))) i,
  let cs := @chordlen_rows _ (BNum prec emax Hp Hm) (BSqrt prec emax Hp Hm) rows in
  let cum := @cumsum _ (BNum prec emax Hp Hm) cs in let z := @B754_zero prec emax false in
  (forall p x, In p rows -> In x p -> is_finite x = true) -> (forall x, In x cum -> is_finite x = true) -> (S i < length cs)%nat ->
  0 < B2R (nth (S i) cs z) -> B2R (nth i cum z) * bpow radix2 (1 - prec) <= B2R (nth (S i) cs z) ->
  B2R (nth i cum z) < B2R (nth (S i) cum z).
Proof.
  intros prec emax Hp Hm rows i cs cum z F Fc Hi P Q.
  apply (bcumsum_rising (Hp := Hp) (Hm := Hm) cs).
  - apply (bchords_nonneg (Hp := Hp) (Hm := Hm) rows); [intros p I x Ix; exact (F p x I Ix)|]. apply (bchords_model (Hp := Hp) (Hm := Hm) rows).
  - intros k Hk. apply Fc. unfold cum. apply nth_In. rewrite (bcumsum_length (Hp := Hp) (Hm := Hm)). exact Hk.
  - exact Hi.
  - exact P.
  - exact Q.
Qed.
Print Assumptions C98_rising.
Example C98_rising_ex : cumarclen32 (z32 7) (mkCurve [[z32 0; z32 0]; [z32 8388608; z32 0]; [z32 8388608; z32 1]] 2 DFloat None) = [0%float; 8388608%float; 8388609%float] /\
  8388608 * bpow radix2 (1 - 24) <= 1.
Proof. split; [vm_compute; reflexivity|]. change (1 - 24)%Z with (-23)%Z. cbn. lra. Qed.

(** *** Squares in float32 *)

(** A distance of distinct float32 points can be 0, because the square underflows,
    and infinite, because it overflows; in binary64 both are exact. *)
Theorem C98_underflow_refuted : exists p q : list f32, (forall x, In x p \/ In x q -> is_finite x = true) /\ p <> q /\
  chord p q = B754_zero false /\ chord (map widen p) (map widen q) = 0x1p-80%float.
Proof.
  exists [z32 0], [narrow 0x1p-80]. split; [intros x [[<-|[]]|[<-|[]]]; vm_compute; reflexivity|].
  split; [intros E; injection E as E; apply (f_equal (fun x => Prim2SF (widen x))) in E; vm_compute in E; discriminate|]. split; vm_compute; reflexivity.
Qed.
Print Assumptions C98_underflow_refuted.
Theorem C98_overflow_refuted : exists p q : list f32, (forall x, In x p \/ In x q -> is_finite x = true) /\
  chord p q = B754_infinity false /\ chord (map widen p) (map widen q) = 0x1p64%float.
Proof.
  exists [z32 0], [narrow 0x1p64]. split; [intros x [[<-|[]]|[<-|[]]]; vm_compute; reflexivity|]. split; vm_compute; reflexivity.
Qed.
Print Assumptions C98_overflow_refuted.

(** In binary64 neither happens for float32 data: the lengths of Curve(c,
    dtype=np.float64) are finite and have the relative error of binary64 whatever the
    coordinates are (up to 2^52 coordinates and points) ... *)
Theorem C98_double : forall n k (rows : list (list f32)) cs L, (1 <= n)%nat -> (n + 4 <= 2 * k)%nat -> (Z.of_nat n <= 2 ^ 52)%Z ->
  (2 <= length rows)%nat -> (Z.of_nat (length rows) <= 2 ^ 52)%Z -> (forall p, In p rows -> length p = n /\ forall x, In x p -> is_finite x = true) ->
  chord_values (map (map widen) rows) cs -> sums_to cs L ->
  let e := (k + (length rows - 2))%nat in let len := polyline (map (map B2R) rows) in
  ffin L /\ len * (1 - / 2 ^ 53) ^ e <= FR L <= len * (1 + / 2 ^ 53) ^ e.
Proof.
  intros n k rows cs L Hn Hk Hb Hr Hrb F C S e len. replace (/ 2 ^ 53) with uro by (unfold uro; lra).
  exact (widen_length_error n k rows cs L Hn Hk Hb Hr Hrb F C S).
Qed.
Print Assumptions C98_double.
(** ... and a distance is 0 only if the points are equal. *)
Theorem C98_double_zero : forall (p q : list f32) r, length p = length q -> (Z.of_nat (length p) <= 2 ^ 52)%Z ->
  (forall x, In x p \/ In x q -> is_finite x = true) -> chord_value (map widen p) (map widen q) r ->
  ffin r /\ (FR r = 0 <-> map B2R p = map B2R q).
Proof.
  intros p q r L Hb F C. assert (P : fin32 p) by (intros x I; apply F; auto). assert (Q : fin32 q) by (intros x I; apply F; auto).
  destruct (widen_chord_fin p q r P Q Hb C) as (Fr & _). split; [exact Fr|].
  destruct p as [|a p].
  - destruct q; [|discriminate]. destruct C as (s & S & ->). split; [reflexivity|]. intros _.
    cbn in S. rewrite (sums_zeros _ _ S) by (intros x []). reflexivity.
  - assert (Hn : (1 <= length (a :: p))%nat) by (cbn; lia).
    destruct (widen_chord_error (length (a :: p)) (length (a :: p) + 4) (a :: p) q r eq_refl (eq_sym L) Hn ltac:(lia) Hb P Q C) as (_ & W). unfold within in W.
    pose proof (pow_lo_pos (length (a :: p) + 4)) as PL. pose proof (pow_hi_pos (length (a :: p) + 4)) as PH.
    pose proof (dist_nonneg (map B2R (a :: p)) (map B2R q)) as D0. split.
    + intros Z. rewrite Z in W. assert (D : dist (map B2R (a :: p)) (map B2R q) = 0) by nra.
      rewrite GeomProofs.dist_vdist in D by (rewrite !map_length; exact L). apply VecFacts.vdist_zero in D; [exact D|rewrite !map_length; exact L].
    + intros E. rewrite E, dist_refl in W. lra.
Qed.
Print Assumptions C98_double_zero.
Example C98_double_ex : c_arclen PrimFloat.zero (to_float64 (mkCurve [[narrow 0x1p-140]; [z32 0]; [narrow 0x1p127]; [narrow (-0x1p127)]] 1 DFloat None)) = 0x1.8p128%float.
Proof. vm_compute. reflexivity. Qed.

(** *** Conversions *)

(** float32 to float64 keeps every value, the order, NaN and the infinities, and can
    be undone. *)
Theorem C98_widen : forall x y : f32,
  (is_finite x = true -> ffin (widen x) /\ FR (widen x) = B2R x) /\ PrimFloat.is_nan (widen x) = is_nan x /\
  (forall s, widen (B754_infinity s) = if s then neg_infinity else infinity) /\
  PrimFloat.leb (widen x) (widen y) = Bleb x y /\ narrow (widen x) = x.
Proof.
  intros x y. split; [apply widen_fin|]. split; [apply widen_is_nan|]. split; [apply widen_inf|]. split; [symmetry; apply widen_leb|apply narrow_widen].
Qed.
Print Assumptions C98_widen.
(** So a float32 curve survives the way to float64 and back. *)
Theorem C98_round_trip : forall c : curve f32, c_dtype c = DFloat -> c_t c = None -> to_float32 (to_float64 c) = c.
Proof.
  intros [rows n d t] D Tn. cbn in D, Tn. subst. unfold to_float32, to_float64. cbn [c_rows c_ndim]. f_equal.
  rewrite map_map. rewrite <- (map_id rows) at 2. apply map_ext. intros p. rewrite map_map. rewrite <- (map_id p) at 2. apply map_ext. apply narrow_widen.
Qed.
Print Assumptions C98_round_trip.
(** The float64 copy is a curve of the same shape and of floating-point type, with the
    values of the float32 curve. *)
Theorem C98_double_copy : forall c : curve f32, wf c ->
  wf (to_float64 c) /\ c_dtype (to_float64 c) = DFloat /\ c_size (to_float64 c) = c_size c /\ c_ndim (to_float64 c) = c_ndim c /\ c_t (to_float64 c) = None /\
  forall i j, (i < c_size c)%nat -> (j < c_ndim c)%nat ->
    nth j (nth i (c_rows (to_float64 c)) []) PrimFloat.zero = widen (nth j (nth i (c_rows c) []) (B754_zero false)).
Proof.
  intros c (W & D & _). unfold to_float64, c_size. cbn [c_rows c_ndim c_dtype c_t]. split; [|split; [reflexivity|split; [apply map_length|split; [reflexivity|split; [reflexivity|]]]]].
  - split; [exact W|]. cbn [c_rows c_ndim c_t]. split; [|discriminate]. intros p Hp. apply in_map_iff in Hp as (r & <- & Hr). rewrite map_length. apply D, Hr.
  - intros i j Hi Hj. change (@nil float) with (map widen []) at 1. rewrite map_nth.
    assert (Lr : length (nth i (c_rows c) []) = c_ndim c) by (apply D, nth_In, Hi).
    rewrite (nth_indep _ PrimFloat.zero (widen (B754_zero false))) by (rewrite map_length, Lr; exact Hj). apply map_nth.
Qed.
Print Assumptions C98_double_copy.
Example C98_double_copy_ex : map (map (PrimFloat.eqb 1)) (c_rows (to_float64 (mkCurve [[n1; z32 1]; [n0; z32 3]] 2 DFloat None))) = [[true; true]; [false; false]].
Proof. vm_compute. reflexivity. Qed.

(** float64 to float32: a number of absolute value up to M moves by at most 2^-24 M
    (M at least 2^-126); numbers up to (2^24 - 1) 2^104 stay finite, those from 2^128
    on do not. *)
Theorem C98_narrow : forall (x : float) M, ffin x ->
  (bpow radix2 (-126) <= M -> Rabs (FR x) <= M -> is_finite (narrow x) = true -> Rabs (B2R (narrow x) - FR x) <= bpow radix2 (-24) * M) /\
  (Rabs (FR x) <= 16777215 * bpow radix2 104 -> is_finite (narrow x) = true) /\ (bpow radix2 128 <= Rabs (FR x) -> is_finite (narrow x) = false).
Proof.
  intros x M F. split; [intros H1 H2 H3; apply narrow_near; assumption|]. split; [intros H; apply narrow_finite; [exact F|exact H]|apply narrow_overflow; exact F].
Qed.
Print Assumptions C98_narrow.
(** Distances and lengths after Curve(c, dtype=np.float32), in exact arithmetic: with n
    coordinates of absolute value up to M, a distance changes by at most
    2 sqrt(n) 2^-24 M, and the length of a curve by that for each segment. *)
Theorem C98_narrow_length : forall n M (rows : list (list float)), bpow radix2 (-126) <= M <= 16777215 * bpow radix2 104 ->
  (forall p, In p rows -> length p = n /\ forall x, In x p -> ffin x /\ Rabs (FR x) <= M) ->
  let d := 2 * (sqrt (INR n) * (bpow radix2 (-24) * M)) in let rows' := map (map narrow) rows in
  (forall p x, In p rows' -> In x p -> is_finite x = true) /\
  (forall p q, In p rows -> In q rows -> Rabs (dist (map B2R (map narrow p)) (map B2R (map narrow q)) - dist (map FR p) (map FR q)) <= d) /\
  Rabs (polyline (map (map B2R) rows') - polyline (map (map FR) rows)) <= INR (length rows - 1) * d.
Proof.
  intros n M rows HM H d rows'. split.
  { intros p x Ip Ix. apply in_map_iff in Ip as (p' & <- & Ip). destruct (H p' Ip) as (L & R). exact (proj1 (narrow_point n M p' HM L R) x Ix). }
  split.
  - intros p q Ip Iq. destruct (H p Ip) as (Lp & Rp). destruct (H q Iq) as (Lq & Rq). exact (narrow_dist n M p q HM Lp Lq Rp Rq).
  - exact (narrow_polyline n M rows HM H).
Qed.
Print Assumptions C98_narrow_length.
Example C98_narrow_ex : map (map widen) (map (map narrow) [[0.1%float; 1e40%float]; [0x1.000001p0%float; 1e-46%float]]) = [[0x1.99999ap-4%float; infinity]; [1%float; 0%float]].
Proof. vm_compute. reflexivity. Qed.
(** Distinct points of a nonsingular float64 curve can coincide in float32, so the
    result is singular and loses a point in nonsingular(). *)
Theorem C98_narrow_refuted : exists c : curve float, wf c /\ c_nonsingular c = Ok c /\ c_size c = 2%nat /\
  map widen (nth 0 (c_rows (to_float32 c)) []) = map widen (nth 1 (c_rows (to_float32 c)) []) /\ rmap (@c_size f32) (nonsingular32 (to_float32 c)) = Ok 1%nat.
Proof.
  exists (mkCurve [[1%float; 2%float]; [0x1.0000008p0%float; 2%float]] 2 DFloat None).
  split; [split; [cbn; lia|]; split; [intros p [<-|[<-|[]]]; reflexivity|discriminate]|].
  split; [vm_compute; reflexivity|]. split; [reflexivity|]. split; vm_compute; reflexivity.
Qed.
Print Assumptions C98_narrow_refuted.

(** *** nonsingular *)

(** It keeps, in order and with their parameters, exactly the points that are finite
    and, but for the first, not within 1e-8 of their predecessor; the distance is the
    float32 one and is compared in float64. *)
Theorem C98_nonsingular : forall c : curve f32, wf c -> c_rows c <> [] ->
  exists c' ks, nonsingular32 c = Ok c' /\ selects c ks c' /\ ascending ks /\ wf c' /\
    forall k, In k ks <-> exists r, nth_error (c_rows c) k = Some r /\ finite_point r /\
      (k = 0%nat \/ exists p, nth_error (c_rows c) (k - 1) = Some p /\ isclose (widen (chord p r)) PrimFloat.zero = false).
Proof. exact nonsingular32_spec. Qed.
Print Assumptions C98_nonsingular.
Example C98_nonsingular_ex :
  rmap (fun c => map (map widen) (c_rows c)) (nonsingular32 (mkCurve [[z32 0; z32 5]; [narrow 0x1p-30; z32 5]; [z32 1; z32 5]; [B754_nan; z32 5]; [z32 1; B754_infinity false]; [z32 1; z32 5]] 2 DFloat None)) =
    Ok [[0%float; 5%float]; [1%float; 5%float]; [1%float; 5%float]] /\
  nonsingular32 (mkCurve [] 2 DFloat None) = Raise ValueError.
Proof. split; vm_compute; reflexivity. Qed.
