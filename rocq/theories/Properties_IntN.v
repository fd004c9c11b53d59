(** C94: what narrower integers do to lengths. *)
From Coq Require Import PrimFloat FloatOps SpecFloat FloatAxioms.
From Coq Require Import ZArith List Bool Arith Reals Lra Lia.
From Verif Require Import Num Py Numeric Curve Spec Vec VecFacts Geom GeomSpec GeomProofs3 DiffGeom DiffGeomProofs CurveProofs3
  FloatFacts FloatFacts2 Int64 Int64Proofs Properties_Int64 IntN IntNProofs.
Import ListNotations.
Local Open Scope R_scope.

(** ** C94 Curves of int8, int16, int32, uint8, uint16 or uint32

    [in_type d z]: z is a number of the dtype d; [narrow d]: d has at most 32 bits.
    [gap p q] is the exact squared distance of two integer points. *)

(** A length is, up to two roundings, the square root of the sum of the squared
    differences modulo 2^bits, and NaN if that sum is negative. *)
Theorem C94_chord : forall d n rows i, narrow d -> (Z.of_nat n <= 2 ^ 30)%Z -> (forall r, In r rows -> length r = n) -> (S i < length rows)%nat ->
  exists rs x, nth_error (ichordlen d rows) i = Some x /\ length rs = n /\
    (forall k, (k < n)%nat -> let z := (nth k (nth (S i) rows []) 0 - nth k (nth i rows []) 0)%Z in
       in_type d (nth k rs 0%Z) /\ exists m, (nth k rs 0 = z * z + m * 2 ^ i_bits d)%Z) /\
    let s := fold_right Z.add 0%Z rs in
    ((0 <= s)%Z -> ffin x /\ sqrt (IZR s) * (1 - / 2 ^ 53) ^ 2 <= FR x <= sqrt (IZR s) * (1 + / 2 ^ 53) ^ 2) /\
    ((s < 0)%Z -> PrimFloat.is_nan x = true).
Proof.
  intros d n rows i N Hn D Hi. set (p := nth i rows []). set (q := nth (S i) rows []).
  assert (Lp : length p = n) by (apply D, nth_In; lia). assert (Lq : length q = n) by (apply D, nth_In; lia). assert (B1 : (1 <= i_bits d)%Z) by (destruct N; lia).
  exists (squares d p q), (ichord d p q). split; [rewrite (nth_error_nth' _ PrimFloat.zero) by (rewrite ichordlen_length; lia); rewrite ichordlen_nth by exact Hi; reflexivity|].
  split; [rewrite squares_length; congruence|]. split.
  - intros k Hk z. rewrite squares_nth by congruence. split; [apply iwrap_range; exact B1|apply iwrap_cong; exact B1].
  - destruct (ichord_spec d p q N ltac:(congruence) ltac:(rewrite Lp; exact Hn)) as (A & B). cbv zeta. split; [|exact B].
    intros S0. destruct (A S0) as (F & W & _). split; [exact F|]. replace (/ 2 ^ 53) with uro by (unfold uro; lra). exact W.
Qed.
Print Assumptions C94_chord.

(** It is right if the square of every difference is a number of the dtype ... *)
Theorem C94_right : forall d n rows i, narrow d -> (Z.of_nat n <= 2 ^ 30)%Z -> (forall r, In r rows -> length r = n) -> (S i < length rows)%nat ->
  (forall k, (k < n)%nat -> let z := (nth k (nth (S i) rows []) 0 - nth k (nth i rows []) 0)%Z in in_type d (z * z)) ->
  let dd := dist (map IZR (nth i rows [])) (map IZR (nth (S i) rows [])) in
  exists x, nth_error (ichordlen d rows) i = Some x /\ ffin x /\ dd * (1 - / 2 ^ 53) ^ 2 <= FR x <= dd * (1 + / 2 ^ 53) ^ 2.
Proof.
  intros d n rows i N Hn D Hi Fit dd. set (p := nth i rows []) in *. set (q := nth (S i) rows []) in *.
  assert (Lp : length p = n) by (apply D, nth_In; lia). assert (Lq : length q = n) by (apply D, nth_In; lia).
  exists (ichord d p q). split; [rewrite (nth_error_nth' _ PrimFloat.zero) by (rewrite ichordlen_length; lia); rewrite ichordlen_nth by exact Hi; reflexivity|].
  destruct (ichord_spec d p q N ltac:(congruence) ltac:(rewrite Lp; exact Hn)) as (A & _).
  rewrite (squares_fit d p q N ltac:(congruence)) in A by (intros k Hk; apply Fit; congruence).
  destruct (A (gap_nonneg p q)) as (F & W & _). split; [exact F|]. unfold dd. rewrite <- gap_dist by congruence. replace (/ 2 ^ 53) with uro by (unfold uro; lra). exact W.
Qed.
Print Assumptions C94_right.

(** ... and otherwise it is NaN or too small. *)
Theorem C94_short : forall d n rows i k, narrow d -> (Z.of_nat n <= 2 ^ 30)%Z -> (forall r, In r rows -> length r = n) -> (S i < length rows)%nat -> (k < n)%nat ->
  (let z := (nth k (nth (S i) rows []) 0 - nth k (nth i rows []) 0)%Z in ~ in_type d (z * z)) ->
  exists x, nth_error (ichordlen d rows) i = Some x /\
    (PrimFloat.is_nan x = true \/ (ffin x /\ FR x < dist (map IZR (nth i rows [])) (map IZR (nth (S i) rows [])))).
Proof.
  intros d n rows i k N Hn D Hi Hk Fit. set (p := nth i rows []) in *. set (q := nth (S i) rows []) in *.
  assert (Lp : length p = n) by (apply D, nth_In; lia). assert (Lq : length q = n) by (apply D, nth_In; lia).
  exists (ichord d p q). split; [rewrite (nth_error_nth' _ PrimFloat.zero) by (rewrite ichordlen_length; lia); rewrite ichordlen_nth by exact Hi; reflexivity|].
  destruct (ichord_spec d p q N ltac:(congruence) ltac:(rewrite Lp; exact Hn)) as (A & B).
  set (s := zsum (squares d p q)) in *. destruct (Z.lt_ge_cases s 0) as [S0|S0]; [left; exact (B S0)|right]. destruct (A S0) as (F & W & _).
  split; [exact F|]. rewrite <- gap_dist by congruence.
  pose proof (squares_drop d p q k N ltac:(congruence) ltac:(congruence) Fit) as G1. pose proof (squares_small d p q N ltac:(congruence)) as G2. fold s in G1, G2. rewrite Lp in G2.
  assert (P : (0 < 2 ^ i_bits d)%Z) by (apply Z.pow_pos_nonneg; destruct N; lia).
  assert (G3 : (s * (2 ^ 30 + 1) <= gap p q * 2 ^ 30)%Z) by nia. assert (G4 : (0 < gap p q)%Z) by lia.
  apply IZR_le in G3. rewrite !mult_IZR in G3. apply IZR_lt in G4. assert (S0' : 0 <= IZR s) by (apply IZR_le; lia).
  eapply Rle_lt_trans; [exact (proj2 W)|]. set (G := IZR (gap p q)) in *. set (Q := IZR s) in *.
  assert (U : (1 + uro) ^ 2 <= 1 + / 2 ^ 40) by (unfold uro; lra). assert (U0 : 0 <= (1 + uro) ^ 2) by (unfold uro; lra).
  apply Rle_lt_trans with (sqrt Q * (1 + / 2 ^ 40)); [apply Rmult_le_compat_l; [apply sqrt_pos|exact U]|].
  replace (1 + / 2 ^ 40) with (sqrt ((1 + / 2 ^ 40) * (1 + / 2 ^ 40))) by (apply sqrt_square; lra).
  rewrite <- sqrt_mult by lra. apply sqrt_lt_1; [nra|lra|].
  assert (V : (1 + / 2 ^ 40) * (1 + / 2 ^ 40) * 1073741824 < 1073741825) by lra.
  change (2 ^ 30 + 1)%Z with 1073741825%Z in G3. change (2 ^ 30)%Z with 1073741824%Z in G3. set (a := (1 + / 2 ^ 40) * (1 + / 2 ^ 40)) in *.
  destruct (Rle_lt_or_eq_dec 0 Q S0') as [QP|QZ]; [|rewrite <- QZ; lra]. pose proof (Rmult_lt_compat_l Q _ _ QP V). lra.
Qed.
Print Assumptions C94_short.

(** nonsingular drops a point iff the stored squares add up to 0: always if all differences
    are multiples of 2^(bits/2), and for unsigned dtypes only then. *)
Theorem C94_nonsingular : forall d n rows t m, narrow d -> i_bits d = (2 * m)%Z -> (2 <= n)%nat -> (Z.of_nat n <= 2 ^ 30)%Z -> rows <> [] -> (forall r, In r rows -> length r = n) ->
  (forall l, t = Some l -> length l = length rows) ->
  let c := mkCurve rows n DInt t in
  let multiple k := forall j, (j < n)%nat -> (2 ^ m | nth j (nth k rows []) 0 - nth j (nth (k - 1) rows []) 0)%Z in
  exists c' ks, inonsingular d c = Ok c' /\ selects c ks c' /\ ascending ks /\ wf c' /\
    (forall k, In k ks -> (k < length rows)%nat /\ (k = 0%nat \/ ~ multiple k)) /\
    (i_signed d = false -> forall k, (k < length rows)%nat -> k = 0%nat \/ ~ multiple k -> In k ks).
Proof.
  intros d n rows t m N Em Hn Hn' Ne D Ht c multiple.
  assert (Wc : wf c) by (split; [exact Hn|]; split; [exact D|exact Ht]).
  destruct (inonsingular_spec d c Wc Ne) as (c' & ks & E & Sel & A & W' & K). exists c', ks.
  split; [exact E|]. split; [exact Sel|]. split; [exact A|]. split; [exact W'|]. change (c_size c) with (length rows) in K. change (c_rows c) with rows in K.
  assert (B1 : (1 <= i_bits d)%Z) by (destruct N; lia).
  split.
  - intros k Hk. apply K in Hk as (Hk & Q). split; [exact Hk|]. destruct (Nat.eq_dec k 0) as [->|Nk]; [left; reflexivity|right]. destruct Q as [Q|Q]; [congruence|].
    intros M. assert (L1 : length (nth (k - 1) rows []) = n) by (apply D, nth_In; lia). assert (L2 : length (nth k rows []) = n) by (apply D, nth_In; lia).
    enough (T : isclose (ichord d (nth (k - 1) rows []) (nth k rows [])) PrimFloat.zero = true) by congruence.
    apply isclose_ichord; [exact N|congruence|congruence|].
    assert (AZ : forall x, In x (squares d (nth (k - 1) rows []) (nth k rows [])) -> x = 0%Z).
    { intros x Hx. apply (In_nth _ _ 0%Z) in Hx as (j & Hj & <-). rewrite squares_length in Hj by congruence. rewrite squares_nth by congruence.
      destruct (M j ltac:(congruence)) as (y & Y). rewrite Y. rewrite (iwrap_eq d _ 0%Z (y * y) B1); [apply iwrap_id; [exact B1|]|].
      - unfold in_type. assert (0 < 2 ^ (i_bits d - 1))%Z by (apply Z.pow_pos_nonneg; lia). assert (0 < 2 ^ i_bits d)%Z by (apply Z.pow_pos_nonneg; lia). destruct (i_signed d); lia.
      - rewrite Em. replace (2 * m)%Z with (m + m)%Z by lia. rewrite Z.pow_add_r by (destruct N; lia). ring. }
    clear - AZ. induction (squares d (nth (k - 1) rows []) (nth k rows [])) as [|x l IH]; [reflexivity|]. change (x + zsum l = 0)%Z. rewrite (AZ x (or_introl eq_refl)), IH; [reflexivity|]. intros y Hy. apply AZ. right. exact Hy.
  - intros U k Hk Q. apply K. split; [exact Hk|]. destruct (Nat.eq_dec k 0) as [->|Nk]; [left; reflexivity|right]. destruct Q as [Q|Q]; [congruence|].
    assert (L1 : length (nth (k - 1) rows []) = n) by (apply D, nth_In; lia). assert (L2 : length (nth k rows []) = n) by (apply D, nth_In; lia).
    apply not_true_is_false. intros T. apply isclose_ichord in T; [|exact N|congruence|congruence]. apply Q. unfold multiple. rewrite <- L1.
    apply (squares_zero d _ _ m N U Em); [congruence|exact T].
Qed.
Print Assumptions C94_nonsingular.

(** Where all squares fit, nonsingular drops exactly the repeated points and the length of
    the curve is right up to as many roundings as it has points. *)
Definition steps_fit (d : ity) (n : nat) (rows : list (list Z)) : Prop :=
  forall i j, (S i < length rows)%nat -> (j < n)%nat -> let z := (nth j (nth (S i) rows []) 0 - nth j (nth i rows []) 0)%Z in in_type d (z * z).
Theorem C94_safe : forall d n rows t, narrow d -> (2 <= n)%nat -> (Z.of_nat n <= 2 ^ 30)%Z -> rows <> [] -> (forall r, In r rows -> length r = n) ->
  (forall l, t = Some l -> length l = length rows) -> steps_fit d n rows ->
  let c := mkCurve rows n DInt t in
  exists c' ks, inonsingular d c = Ok c' /\ selects c ks c' /\ ascending ks /\ wf c' /\
    forall k, In k ks <-> (k < length rows)%nat /\ (k = 0%nat \/ nth (k - 1) rows [] <> nth k rows []).
Proof.
  intros d n rows t N Hn Hn' Ne D Ht Fit c.
  assert (Wc : wf c) by (split; [exact Hn|]; split; [exact D|exact Ht]).
  destruct (inonsingular_spec d c Wc Ne) as (c' & ks & E & Sel & A & W' & K). exists c', ks.
  split; [exact E|]. split; [exact Sel|]. split; [exact A|]. split; [exact W'|]. change (c_size c) with (length rows) in K. change (c_rows c) with rows in K.
  intros k. rewrite K. destruct (Nat.eq_dec k 0) as [->|Nk]; [tauto|].
  assert (T : (k < length rows)%nat -> isclose (ichord d (nth (k - 1) rows []) (nth k rows [])) PrimFloat.zero = true <-> nth (k - 1) rows [] = nth k rows []).
  { intros Hk. assert (L1 : length (nth (k - 1) rows []) = n) by (apply D, nth_In; lia). assert (L2 : length (nth k rows []) = n) by (apply D, nth_In; lia).
    rewrite isclose_ichord by (try exact N; congruence). rewrite squares_fit; [|exact N|congruence|].
    - split; [apply gap_zero; congruence|intros ->; apply gap_refl].
    - intros j Hj. pose proof (Fit (k - 1)%nat j) as F. replace (S (k - 1)) with k in F by lia. apply F; [lia|congruence]. }
  split; intros (Hk & Q); (split; [exact Hk|]); right; (destruct Q as [Q|Q]; [congruence|]).
  - intros C. apply (T Hk) in C. congruence.
  - apply not_true_is_false. intros C. apply (T Hk) in C. congruence.
Qed.
Print Assumptions C94_safe.
Theorem C94_arclen : forall d n rows, narrow d -> (Z.of_nat n <= 2 ^ 30)%Z -> (2 <= length rows)%nat -> (forall r, In r rows -> length r = n) -> steps_fit d n rows ->
  ffin (iarclen d rows) ->
  polyline (map (map IZR) rows) * (1 - / 2 ^ 53) ^ (length rows) <= FR (iarclen d rows) <= polyline (map (map IZR) rows) * (1 + / 2 ^ 53) ^ (length rows).
Proof.
  intros d n rows N Hn L2 D Fit F. unfold iarclen in *. rewrite ichordlen_eq in *. set (cs := map _ (seq 0 (length rows - 1))) in *.
  assert (CN : cs <> []) by (unfold cs; destruct (length rows - 1)%nat eqn:E; [lia|discriminate]).
  replace (/ 2 ^ 53) with uro by (unfold uro; lra).
  set (ds := map (fun i => (ichord d (nth i rows []) (nth (S i) rows []), dist (map IZR (nth i rows [])) (map IZR (nth (S i) rows [])))) (seq 0 (length rows - 1))).
  assert (EC : map fst ds = cs) by (unfold ds, cs; rewrite map_map; reflexivity).
  assert (EP : Rsum (map snd ds) = polyline (map (map IZR) rows)).
  { unfold ds. rewrite map_map. cbn [snd]. clear. destruct rows as [|p rows]; [reflexivity|]. cbn [length]. replace (S (length rows) - 1)%nat with (length rows) by lia.
    revert p. induction rows as [|q rows IH]; intros p; [reflexivity|]. change (polyline (map (map IZR) (p :: q :: rows))) with (dist (map IZR p) (map IZR q) + polyline (map (map IZR) (q :: rows))).
    rewrite <- (IH q). unfold Rsum. cbn [length seq map fold_right].
    rewrite <- seq_shift, map_map. reflexivity. }
  destruct (sums_within 2 ds _ (eq_rect _ (fun l => sums_to l _) (fold_right_sums cs) _ (eq_sym EC)) F) as (_ & W & _).
  - intros x e I _. unfold ds in I. apply in_map_iff in I as (i & E & Hi). injection E as <- <-. apply in_seq in Hi. split; [apply sqrt_pos|].
    assert (P1 : length (nth i rows []) = n) by (apply D, nth_In; lia). assert (P2 : length (nth (S i) rows []) = n) by (apply D, nth_In; lia).
    destruct (ichord_spec d (nth i rows []) (nth (S i) rows []) N ltac:(congruence) ltac:(congruence)) as (A & _).
    rewrite (squares_fit d _ _ N (eq_trans P1 (eq_sym P2))) in A by (intros j Hj; apply Fit; [lia|congruence]).
    destruct (A (gap_nonneg _ _)) as (_ & W & _). rewrite <- gap_dist by congruence. exact W.
  - rewrite EP in W. specialize (W ltac:(intros E; apply CN; rewrite <- EC, E; reflexivity)).
    replace (2 + (length ds - 1))%nat with (length rows) in W by (unfold ds; rewrite map_length, seq_length; lia). exact W.
Qed.
Print Assumptions C94_arclen.

(** Lengths do not change, bit for bit, under a translation modulo 2^bits, nor when
    the points are read backwards. *)
Theorem C94_symmetries : forall d n rows v, narrow d -> (forall r, In r rows -> length r = n) -> length v = n ->
  ichordlen d (map (fun r => map (fun '(x, y) => iwrap d (x + y)) (combine r v)) rows) = ichordlen d rows /\
  ichordlen d (rev rows) = rev (ichordlen d rows).
Proof.
  intros d n rows v N D Lv. assert (B1 : (1 <= i_bits d)%Z) by (destruct N; lia). split.
  - rewrite !ichordlen_eq, map_length. apply map_ext_in. intros i Hi. apply in_seq in Hi.
    set (tr := fun r => map (fun '(x, y) => iwrap d (x + y)) (combine r v)).
    assert (NN : forall k, (k < length rows)%nat -> nth k (map tr rows) [] = tr (nth k rows [])).
    { intros k Hk. rewrite (nth_indep _ [] (tr [])) by (rewrite map_length; exact Hk). apply map_nth. }
    rewrite !NN by lia. unfold ichord. do 3 f_equal. rewrite !squares_eq by exact B1.
    assert (G : forall p q, length p = length v -> length q = length v -> squares d (tr p) (tr q) = squares d p q).
    { clear - B1. unfold tr. induction v as [|z v IH]; intros [|a p] [|b q] Hp Hq; cbn in Hp, Hq; try lia; [reflexivity|].
      cbn [combine map squares]. rewrite (IH p q) by lia. f_equal.
      destruct (iwrap_cong d (a + z) B1) as (j & ->). destruct (iwrap_cong d (b + z) B1) as (k & ->).
      apply (iwrap_eq d _ _ ((k - j) * (2 * (b - a) + (k - j) * 2 ^ i_bits d))%Z B1). ring. }
    apply G; rewrite Lv; apply D, nth_In; lia.
  - apply (nth_ext _ _ PrimFloat.zero PrimFloat.zero); [rewrite rev_length, !ichordlen_length, rev_length; reflexivity|].
    intros i Hi. rewrite ichordlen_length, rev_length in Hi. rewrite rev_nth, ichordlen_length by (rewrite ichordlen_length; exact Hi).
    rewrite !ichordlen_nth by (rewrite ?rev_length; lia). rewrite !rev_nth by lia.
    assert (G : forall p q, ichord d p q = ichord d q p).
    { clear - B1. intros p q. unfold ichord. do 3 f_equal. rewrite !squares_eq by exact B1. revert q. induction p as [|a p IH]; intros [|b q]; try reflexivity.
      cbn [squares]. rewrite (IH q). f_equal. f_equal. ring. }
    rewrite G. replace (length rows - S (S i))%nat with (length rows - 1 - S i)%nat by lia. replace (S (length rows - 1 - S i)) with (length rows - S i)%nat by lia. reflexivity.
Qed.
Print Assumptions C94_symmetries.

(** int16: a step of 256 has length 0 and is dropped, a step of 182 has length NaN;
    uint8: a step of 16 is dropped, a step of 200 has length 8. *)
Definition int16 : ity := mkIty 16 true.
Definition uint8 : ity := mkIty 8 false.
Theorem C94_narrow_refuted :
  (exists rows, (forall r, In r rows -> length r = 2%nat /\ forall x, In x r -> in_type int16 x) /\ NoDup rows /\
     ichordlen int16 rows = [fz 0; nan] /\ exists c', inonsingular int16 (mkCurve rows 2 DInt None) = Ok c' /\ (c_size c' < length rows)%nat) /\
  (exists rows, (forall r, In r rows -> length r = 2%nat /\ forall x, In x r -> in_type uint8 x) /\ NoDup rows /\
     ichordlen uint8 rows = [fz 0; fz 8] /\ exists c', inonsingular uint8 (mkCurve rows 2 DInt None) = Ok c' /\ (c_size c' < length rows)%nat).
Proof.
  split; [exists [[0; 0]; [256; 0]; [256; 182]]%Z|exists [[0; 7]; [16; 7]; [216; 7]]%Z];
    (split; [intros r Hr; cbn in Hr; destruct Hr as [<-|[<-|[<-|[]]]]; (split; [reflexivity|]); intros x Hx; cbn in Hx; destruct Hx as [<-|[<-|[]]]; vm_compute; split; congruence|]);
    (split; [repeat constructor; cbn; intuition discriminate|]); (split; [vm_compute; reflexivity|]); eexists; (split; [vm_compute; reflexivity|cbn; lia]).
Qed.
Print Assumptions C94_narrow_refuted.

(** The hypotheses are met, and runs. *)
Definition steps16 : list (list Z) := [[-30000; 5]; [-29997; 9]; [-29997; 9]; [-29816; 9]]%Z.
Example C94_ex : narrow int16 /\ narrow uint8 /\ i_bits int16 = (2 * 8)%Z /\ i_bits uint8 = (2 * 4)%Z /\ steps_fit int16 2 steps16 /\
  ichordlen int16 steps16 = [fz 5; fz 0; fz 181] /\ iarclen int16 steps16 = fz 186 /\
  inonsingular int16 (mkCurve steps16 2 DInt None) = Ok (mkCurve [[-30000; 5]; [-29997; 9]; [-29816; 9]]%Z 2 DInt None).
Proof.
  split; [unfold narrow; cbn; lia|]. split; [unfold narrow; cbn; lia|]. split; [reflexivity|]. split; [reflexivity|]. split.
  - intros i j Hi Hj. unfold steps16 in *. cbn in Hi. destruct i as [|[|[|i]]]; try lia; destruct j as [|[|j]]; try lia; vm_compute; split; congruence.
  - split; [vm_compute; reflexivity|]. split; vm_compute; reflexivity.
Qed.
Example C94_short_ex : ~ in_type int16 (182 * 182)%Z /\ in_type int16 (181 * 181)%Z.
Proof. unfold in_type. cbn. lia. Qed.

(** nonsingular of a curve without points is refused, as for floating-point curves (C17). *)
Theorem C94_nonsingular_empty : forall d (c : curve Z), c_rows c = [] -> inonsingular d c = Raise ValueError.
Proof. intros d c E. unfold inonsingular, c_bool, c_size. rewrite E. reflexivity. Qed.
Print Assumptions C94_nonsingular_empty.
