(** C92: what 64-bit integers do to lengths and distances. *)
From Coq Require Import PrimFloat FloatOps SpecFloat FloatAxioms.
From Coq Require Import ZArith List Bool Arith Reals Lra Lia.
From Verif Require Import Num Py Numeric Curve Spec Vec VecFacts Geom GeomSpec GeomProofs3 DiffGeom DiffGeomProofs Intersect CurveProofs3
  IntersectProofs3 FloatFacts FloatFacts2 Int64 Int64Proofs Int64Proofs2.
Import ListNotations.
Local Open Scope R_scope.

(** ** C92 Curves of 64-bit integers

    [int_rows NI rows] are the integer points [rows] stored in an int64 array,
    [gap p q] is the exact squared distance of two of them. *)
Definition wide (n : nat) (rows : list (list Z)) : Prop := forall r, In r rows -> length r = n /\ forall x, In x r -> (- 2 ^ 63 <= x < 2 ^ 63)%Z.

Lemma gap_dist p q : length p = length q -> sqrt (IZR (gap p q)) = dist (map IZR p) (map IZR q).
Proof.
  intros L. unfold dist, norm. f_equal. revert q L. induction p as [|a p IH]; intros [|b q] L; cbn in L; try lia; [reflexivity|].
  cbn [gap map minus inner]. rewrite plus_IZR, mult_IZR, minus_IZR, (IH q) by lia. reflexivity.
Qed.

Lemma chord_sq p q : chord (map NI p) (map NI q) = NF (chord64 p q).
Proof.
  rewrite <- chord_pair. pose proof (chordlen_rows_nth [map NI p; map NI q] 0 _ _ eq_refl eq_refl) as H. injection H as H. symmetry. exact (f_equal NF H).
Qed.

(** A length is the square root of the squared distance modulo 2^64, up to two
    roundings, and NaN if that number exceeds 2^63. *)
Theorem C92_chord : forall rows i, (S i < length rows)%nat ->
  let r := (gap (nth i rows []) (nth (S i) rows []) mod 2 ^ 64)%Z in
  exists x, nth_error (chordlen_rows (int_rows NI rows)) i = Some (NF x) /\
    ((r < 2 ^ 63)%Z -> ffin x /\ sqrt (IZR r) * (1 - / 2 ^ 53) ^ 2 <= FR x <= sqrt (IZR r) * (1 + / 2 ^ 53) ^ 2) /\
    ((2 ^ 63 <= r)%Z -> PrimFloat.is_nan x = true).
Proof.
  intros rows i Hi r. exists (chord64 (nth i rows []) (nth (S i) rows [])). split.
  - rewrite (nth_error_nth' _ (NI 0)) by (unfold int_rows; rewrite chordlen_length; lia). f_equal. apply chordlen_nth. exact Hi.
  - destruct (chord64_spec (nth i rows []) (nth (S i) rows [])) as (A & N). fold r in A, N. split; [|exact N].
    intros H. destruct (A H) as (F & W & _). split; [exact F|]. replace (/ 2 ^ 53) with uro by (unfold uro; lra). exact W.
Qed.
Print Assumptions C92_chord.

(** So it is right up to two roundings if the squared distance is below 2^63 ... *)
Theorem C92_length : forall rows i, (S i < length rows)%nat -> length (nth i rows []) = length (nth (S i) rows []) ->
  (gap (nth i rows []) (nth (S i) rows []) < 2 ^ 63)%Z ->
  let d := dist (map IZR (nth i rows [])) (map IZR (nth (S i) rows [])) in
  exists x, nth_error (chordlen_rows (int_rows NI rows)) i = Some (NF x) /\ ffin x /\ d * (1 - / 2 ^ 53) ^ 2 <= FR x <= d * (1 + / 2 ^ 53) ^ 2.
Proof.
  intros rows i Hi L G d. destruct (C92_chord rows i Hi) as (x & E & A & _). exists x. split; [exact E|].
  pose proof (gap_nonneg (nth i rows []) (nth (S i) rows [])). rewrite Z.mod_small in A by lia.
  unfold d. rewrite <- (gap_dist _ _ L). apply A, G.
Qed.
Print Assumptions C92_length.

(** ... and exact if it is a square number below 2^53. *)
Theorem C92_exact : forall rows i k, (S i < length rows)%nat ->
  (gap (nth i rows []) (nth (S i) rows []) = k * k)%Z -> (0 <= k)%Z -> (k * k < 2 ^ 53)%Z ->
  exists x, nth_error (chordlen_rows (int_rows NI rows)) i = Some (NF x) /\ ffin x /\ FR x = IZR k.
Proof.
  intros rows i k Hi G K H. exists (chord64 (nth i rows []) (nth (S i) rows [])). split.
  - rewrite (nth_error_nth' _ (NI 0)) by (unfold int_rows; rewrite chordlen_length; lia). f_equal. apply chordlen_nth. exact Hi.
  - unfold chord64. rewrite G, wrap_id by nia. destruct (f_of_Z_exact (k * k) ltac:(nia)) as (F & E).
    destruct (sqrt_fin _ F) as (Fs & Es); [rewrite E; apply IZR_le; nia|]. split; [exact Fs|]. rewrite Es, E, mult_IZR, sqrt_square by (apply IZR_le; lia).
    destruct (f_of_Z_exact k ltac:(nia)) as (_ & <-). apply rnd_FR.
Qed.
Print Assumptions C92_exact.

(** Lengths do not change, bit for bit, under a translation modulo 2^64, ... *)
Theorem C92_translate : forall n rows v, (forall r, In r rows -> length r = n) -> length v = n ->
  chordlen_rows (int_rows NI (map (fun r => map (fun '(x, y) => wrap (x + y)) (combine r v)) rows)) = chordlen_rows (int_rows NI rows).
Proof.
  intros n rows v D Lv. unfold int_rows. rewrite !chordlen_eq, !map_length. f_equal. apply map_ext_in. intros i Hi. apply in_seq in Hi.
  set (tr := fun r => map (fun '(x, y) => wrap (x + y)) (combine r v)).
  assert (N : forall k, (k < length rows)%nat -> nth k (map tr rows) [] = tr (nth k rows [])).
  { intros k Hk. rewrite (nth_indep _ [] (tr [])) by (rewrite map_length; exact Hk). apply map_nth. }
  rewrite !N by lia. unfold chord64. do 2 f_equal.
  assert (G : forall p q, length p = length v -> length q = length v -> wrap (gap (tr p) (tr q)) = wrap (gap p q)).
  { clear. unfold tr. induction v as [|z v IH]; intros [|a p] [|b q] Hp Hq; cbn in Hp, Hq; try lia; [reflexivity|].
    cbn [combine map gap]. rewrite <- wrap_add_r, (IH p q) by lia. rewrite wrap_add_r.
    rewrite <- wrap_add_l, <- wrap_mul, wrap_sub, wrap_mul, wrap_add_l.
    replace (b + z - (a + z))%Z with (b - a)%Z by lia. reflexivity. }
  apply G; rewrite Lv; apply D, nth_In; lia.
Qed.
Print Assumptions C92_translate.

(** ... and are reversed when the curve is. *)
Theorem C92_reverse : forall rows, chordlen_rows (int_rows NI (rev rows)) = rev (chordlen_rows (int_rows NI rows)).
Proof.
  intros rows. apply (nth_ext _ _ (NI 0) (NI 0)); [unfold int_rows; rewrite rev_length, !chordlen_length, rev_length; reflexivity|].
  unfold int_rows. intros i Hi. rewrite chordlen_length, rev_length in Hi. rewrite rev_nth, chordlen_length by (rewrite chordlen_length; exact Hi).
  rewrite !chordlen_nth by (rewrite ?rev_length; lia). rewrite !rev_nth by lia. unfold chord64. rewrite gap_sym.
  replace (length rows - S (S i))%nat with (length rows - 1 - S i)%nat by lia. replace (S (length rows - 1 - S i)) with (length rows - S i)%nat by lia. reflexivity.
Qed.
Print Assumptions C92_reverse.

(** nonsingular keeps a point iff the squared distance from its predecessor is not a
    multiple of 2^64. *)
Theorem C92_nonsingular : forall n rows t, (2 <= n)%nat -> rows <> [] -> wide n rows -> (forall l, t = Some l -> length l = length rows) ->
  let c := mkCurve (int_rows NI rows) n DInt t in
  exists c' ks, c_nonsingular c = Ok c' /\ selects c ks c' /\ ascending ks /\ wf c' /\
    forall k, In k ks <-> (k < length rows)%nat /\ (k = 0%nat \/ (gap (nth (k - 1) rows []) (nth k rows []) mod 2 ^ 64 <> 0)%Z).
Proof.
  intros n rows t Hn Ne W Ht c.
  assert (Wc : wf c).
  { split; [exact Hn|]. split; [|exact (fun l E => eq_trans (Ht l E) (eq_sym (map_length _ _)))]. intros p Hp. cbn [c c_rows] in Hp. apply in_map_iff in Hp as (r & <- & Hr). rewrite map_length. apply W, Hr. }
  assert (H10 : isclose (n1 : npnum) n0 = false) by (vm_compute; reflexivity).
  destruct (c_nonsingular_spec c H10 Wc) as (c' & ks & E & S & A & W' & K).
  { cbn [c c_rows]. destruct rows; [congruence|discriminate]. }
  exists c', ks. split; [exact E|]. split; [exact S|]. split; [exact A|]. split; [exact W'|].
  assert (NE : forall k, nth_error (c_rows c) k = option_map (map NI) (nth_error rows k)).
  { intros k. cbn [c c_rows]. unfold int_rows. apply nth_error_map. }
  assert (FP : forall r, In r rows -> finite_point (map NI r)).
  { intros r Hr x Hx. apply in_map_iff in Hx as (z & <- & Hz). apply fits_flags. apply (W r Hr). exact Hz. }
  intros k. rewrite K. split.
  - intros (r & Hr & _ & D). rewrite NE in Hr. destruct (nth_error rows k) as [r0|] eqn:Er; [|discriminate]. injection Hr as <-.
    split; [apply nth_error_Some; congruence|]. destruct D as [D|(p & Hp & D)]; [left; exact D|right].
    rewrite NE in Hp. destruct (nth_error rows (k - 1)) as [p0|] eqn:Ep; [|discriminate]. injection Hp as <-.
    rewrite (nth_error_nth _ _ _ Er), (nth_error_nth _ _ _ Ep). intros Z.
    apply isclose64 in Z. rewrite <- chord_sq in Z. congruence.
  - intros (Hk & D). destruct (nth_error rows k) as [r0|] eqn:Er; [|apply nth_error_None in Er; lia].
    exists (map NI r0). rewrite NE, Er. split; [reflexivity|]. split; [apply FP; eapply nth_error_In; exact Er|].
    destruct D as [D|D]; [left; exact D|right]. destruct (nth_error rows (k - 1)) as [p0|] eqn:Ep; [|apply nth_error_None in Ep; lia].
    exists (map NI p0). rewrite NE, Ep. split; [reflexivity|]. rewrite (nth_error_nth _ _ _ Er), (nth_error_nth _ _ _ Ep) in D.
    apply not_true_is_false. intros C. apply D. apply isclose64. rewrite <- chord_sq. exact C.
Qed.
Print Assumptions C92_nonsingular.

(** With coordinates up to B in absolute value, 4 n B^2 < 2^63 (in the plane: up to
    one thousand million), nothing of this happens: lengths are right, nonsingular drops exactly
    the repeated points ... *)
Theorem C92_safe : forall n B rows t, (2 <= n)%nat -> rows <> [] -> (0 <= B)%Z -> (4 * Z.of_nat n * (B * B) < 2 ^ 63)%Z ->
  (forall r, In r rows -> length r = n /\ forall x, In x r -> (Z.abs x <= B)%Z) -> (forall l, t = Some l -> length l = length rows) ->
  let c := mkCurve (int_rows NI rows) n DInt t in
  (forall i, (S i < length rows)%nat -> let d := dist (map IZR (nth i rows [])) (map IZR (nth (S i) rows [])) in
     exists x, nth_error (chordlen_rows (c_rows c)) i = Some (NF x) /\ ffin x /\ d * (1 - / 2 ^ 53) ^ 2 <= FR x <= d * (1 + / 2 ^ 53) ^ 2) /\
  exists c' ks, c_nonsingular c = Ok c' /\ selects c ks c' /\ ascending ks /\ wf c' /\
    forall k, In k ks <-> (k < length rows)%nat /\ (k = 0%nat \/ nth (k - 1) rows [] <> nth k rows []).
Proof.
  intros n B rows t Hn Ne HB HN D Ht c.
  assert (GB : forall p q, In p rows -> In q rows -> (0 <= gap p q < 2 ^ 63)%Z).
  { intros p q Hp Hq. destruct (D p Hp) as [Lp Bp]. destruct (D q Hq) as [Lq Bq]. pose proof (gap_nonneg p q). pose proof (gap_bound B p q HB Bp Bq) as G. rewrite Lp in G. lia. }
  split.
  - intros i Hi d. apply C92_length; [exact Hi| |].
    + destruct (D (nth i rows [])) as [-> _]; [apply nth_In; lia|]. destruct (D (nth (S i) rows [])) as [-> _]; [apply nth_In; lia|]. reflexivity.
    + apply GB; apply nth_In; lia.
  - assert (W : wide n rows). { intros r Hr. destruct (D r Hr) as [L Bx]. split; [exact L|]. intros x Hx. specialize (Bx x Hx). nia. }
    destruct (C92_nonsingular n rows t Hn Ne W Ht) as (c' & ks & E & S & A & W' & K). exists c', ks.
    split; [exact E|]. split; [exact S|]. split; [exact A|]. split; [exact W'|]. intros k. rewrite K. split; intros (Hk & Q); (split; [exact Hk|]); (destruct Q as [Q|Q]; [left; exact Q|right]).
    + intros C. apply Q. rewrite C, gap_refl. reflexivity.
    + intros C. destruct (Nat.eq_dec k 0) as [->|Nk]; [apply Q; reflexivity|].
      assert (P1 : In (nth (k - 1) rows []) rows) by (apply nth_In; lia). assert (P2 : In (nth k rows []) rows) by (apply nth_In; lia).
      rewrite Z.mod_small in C by (pose proof (GB _ _ P1 P2); lia). apply Q. apply gap_zero; [|exact C].
      destruct (D _ P1) as [-> _]. destruct (D _ P2) as [-> _]. reflexivity.
Qed.
Print Assumptions C92_safe.

(** ... and the length of the curve is right up to as many roundings as it has points. *)
Theorem C92_arclen : forall n B rows t junk, (0 < n)%nat -> (2 <= length rows)%nat -> (0 <= B)%Z -> (4 * Z.of_nat n * (B * B) < 2 ^ 63)%Z ->
  (forall r, In r rows -> length r = n /\ forall x, In x r -> (Z.abs x <= B)%Z) ->
  exists x, c_arclen junk (mkCurve (int_rows NI rows) n DInt t) = NF x /\
    (ffin x -> polyline (map (map IZR) rows) * (1 - / 2 ^ 53) ^ (length rows) <= FR x <= polyline (map (map IZR) rows) * (1 + / 2 ^ 53) ^ (length rows)).
Proof.
  intros n B rows t junk Hn L2 HB HN D. unfold c_arclen. rewrite c_chordlen_rows.
  2:{ unfold c_bool, c_size. cbn [c_rows c_ndim]. unfold int_rows. rewrite map_length. destruct (Nat.eqb_spec (length rows) 0); [lia|]. destruct (Nat.eqb_spec n 0); [lia|]. reflexivity. }
  cbn [c_rows]. unfold int_rows. rewrite chordlen_eq. set (cs := map _ (seq 0 (length rows - 1))).
  assert (CN : cs <> []) by (unfold cs; destruct (length rows - 1)%nat eqn:E; [lia|discriminate]).
  rewrite vsum_NF by exact CN. eexists. split; [reflexivity|]. intros F.
  replace (/ 2 ^ 53) with uro by (unfold uro; lra).
  set (ds := map (fun i => (chord64 (nth i rows []) (nth (S i) rows []), dist (map IZR (nth i rows [])) (map IZR (nth (S i) rows [])))) (seq 0 (length rows - 1))).
  assert (EC : map fst ds = cs) by (unfold ds, cs; rewrite map_map; reflexivity).
  assert (EP : Rsum (map snd ds) = polyline (map (map IZR) rows)).
  { unfold ds. rewrite map_map. cbn [snd]. clear. destruct rows as [|p rows]; [reflexivity|]. cbn [length]. replace (S (length rows) - 1)%nat with (length rows) by lia.
    revert p. induction rows as [|q rows IH]; intros p; [reflexivity|]. change (polyline (map (map IZR) (p :: q :: rows))) with (dist (map IZR p) (map IZR q) + polyline (map (map IZR) (q :: rows))).
    rewrite <- (IH q). unfold Rsum. cbn [length seq map fold_right].
    rewrite <- seq_shift, map_map. reflexivity. }
  destruct (sums_within 2 ds _ (eq_rect _ (fun l => sums_to l _) (fold_right_sums cs) _ (eq_sym EC)) F) as (_ & W & _).
  - intros x e I _. unfold ds in I. apply in_map_iff in I as (i & E & Hi). injection E as <- <-. apply in_seq in Hi.
    assert (P1 : In (nth i rows []) rows) by (apply nth_In; lia). assert (P2 : In (nth (S i) rows []) rows) by (apply nth_In; lia).
    destruct (D _ P1) as [L1 B1]. destruct (D _ P2) as [L2' B2]. split; [apply sqrt_pos|].
    pose proof (gap_nonneg (nth i rows []) (nth (S i) rows [])) as G0. pose proof (gap_bound B _ _ HB B1 B2) as G. rewrite L1 in G.
    destruct (chord64_spec (nth i rows []) (nth (S i) rows [])) as (A & _). rewrite Z.mod_small in A by lia. destruct (A ltac:(lia)) as (_ & W & _).
    rewrite <- gap_dist by congruence. exact W.
  - rewrite EP in W. specialize (W ltac:(intros E; apply CN; rewrite <- EC, E; reflexivity)).
    replace (2 + (length ds - 1))%nat with (length rows) in W by (unfold ds; rewrite map_length, seq_length; lia). exact W.
Qed.
Print Assumptions C92_arclen.

(** Outside: distinct points are dropped, lengths are NaN, 0 or too small. *)
Theorem C92_singular_refuted : exists rows c', wide 2 rows /\ NoDup rows /\
  c_nonsingular (mkCurve (int_rows NI rows) 2 DInt None) = Ok c' /\ (c_size c' < length rows)%nat.
Proof.
  exists [[0; 0]; [2 ^ 32; 0]; [2 ^ 32; 1]]%Z. eexists. split.
  - intros r Hr. cbn in Hr. destruct Hr as [<-|[<-|[<-|[]]]]; (split; [reflexivity|]); intros x Hx; cbn in Hx; destruct Hx as [<-|[<-|[]]]; lia.
  - split; [repeat constructor; cbn; intuition discriminate|]. split; [vm_compute; reflexivity|]. cbn. lia.
Qed.
Print Assumptions C92_singular_refuted.
Theorem C92_arclen_refuted :
  (exists rows, wide 1 rows /\ exists x, (forall junk, c_arclen junk (mkCurve (int_rows NI rows) 1 DInt None) = NF x) /\ PrimFloat.is_nan x = true) /\
  (exists rows, wide 2 rows /\ exists x, (forall junk, c_arclen junk (mkCurve (int_rows NI rows) 2 DInt None) = NF x) /\ ffin x /\
     10 * FR x < dist (map IZR (hd [] rows)) (map IZR (last rows []))).
Proof.
  split.
  - exists [[0]; [3037000500]]%Z. split.
    + intros r Hr. cbn in Hr. destruct Hr as [<-|[<-|[]]]; (split; [reflexivity|]); intros x Hx; cbn in Hx; destruct Hx as [<-|[]]; lia.
    + eexists. split; [intros junk; vm_compute; reflexivity|]. vm_compute. reflexivity.
  - exists [[0; 0]; [2 ^ 32; 3]]%Z. split.
    + intros r Hr. cbn in Hr. destruct Hr as [<-|[<-|[]]]; (split; [reflexivity|]); intros x Hx; cbn in Hx; destruct Hx as [<-|[<-|[]]]; lia.
    + assert (G : forall k, (0 <= k)%Z -> (k * k = 9)%Z -> k = 3%Z) by nia.
      exists (f_of_Z 3). split; [intros junk; vm_compute; reflexivity|]. destruct (f_of_Z_exact 3 ltac:(lia)) as (F & E). split; [exact F|]. rewrite E.
      rewrite <- gap_dist by reflexivity. replace (10 * 3) with (sqrt (IZR (30 * 30))) by (rewrite mult_IZR, sqrt_square; lra).
      apply sqrt_lt_1; [apply IZR_le; lia|apply IZR_le; vm_compute; discriminate|apply IZR_lt; vm_compute; reflexivity].
Qed.
Print Assumptions C92_arclen_refuted.

(** The almost method on two integer curves with small coordinates, n B^2 <= 2^24 (in the
    plane: up to 2896), finds the same segments as with exact numbers: C91 applies. *)
Theorem C92_almost_exact : forall n B rows1 rows2 t1 t2 t1' t2' (pr : almost_params npnum) (pr' : almost_params R) order order' same tol,
  (0 <= B)%Z -> (Z.of_nat n * (B * B) <= 2 ^ 24)%Z -> (0 < n)%nat ->
  (forall r, In r (rows1 ++ rows2) -> length r = n /\ forall x, In x r -> (Z.abs x <= B)%Z) ->
  al_dist_tol pr = NF tol -> ffin tol -> 0 < FR tol <= 1 -> al_dist_tol pr' = FR tol ->
  al_remove_extra pr = false -> al_correct_overlap pr = false -> al_remove_extra pr' = false -> al_correct_overlap pr' = false ->
  exists l l',
    almost_curves pr order (mkCurve (int_rows NI rows1) n DInt t1) (mkCurve (int_rows NI rows2) n DInt t2) same = Ok l /\
    almost_curves pr' order' (mkCurve (int_rows IZR rows1) n DInt t1') (mkCurve (int_rows IZR rows2) n DInt t2') same = Ok l' /\
    Forall2 (fun x y => exists i j P Q,
      in_seg1 x = SegOf true (Z.of_nat i) (mkSeg (map NI (nth i rows1 [])) (map NI (nth (S i) rows1 []))) /\
      in_seg2 x = SegOf false (Z.of_nat j) (mkSeg (map NI (nth j rows2 [])) (map NI (nth (S j) rows2 []))) /\
      in_info x = mkInfo (IDSegment (mkSeg (map NI P) (map NI Q))) IAlmost /\
      in_seg1 y = SegOf true (Z.of_nat i) (mkSeg (map IZR (nth i rows1 [])) (map IZR (nth (S i) rows1 []))) /\
      in_seg2 y = SegOf false (Z.of_nat j) (mkSeg (map IZR (nth j rows2 [])) (map IZR (nth (S j) rows2 []))) /\
      in_info y = mkInfo (IDSegment (mkSeg (map IZR P) (map IZR Q))) IAlmost) l l'.
Proof.
  intros n B rows1 rows2 t1 t2 t1' t2' pr pr' order order' same tol HB HN Hn D ET F T ET' R1 C1 R2 C2.
  destruct (almost_agree n B rows1 rows2 t1 t2 t1' t2' pr pr' order order' same tol) as (l & l' & E & E' & S); try assumption.
  - intros r Hr. apply D, in_or_app. left. exact Hr.
  - intros r Hr. apply D, in_or_app. right. exact Hr.
  - rewrite ET'. exact T.
  - exists l, l'. split; [exact E|]. split; [exact E'|]. clear - S. induction S as [|x y l l' (i & j & P & Q & _ & _ & H) S IH]; constructor; [|exact IH].
    exists i, j, P, Q. exact H.
Qed.
Print Assumptions C92_almost_exact.

(** With large ones it reports segments that are far apart. *)
Theorem C92_almost_refuted : exists rows1 rows2 l, wide 2 rows1 /\ wide 2 rows2 /\
  (forall p q, on_segment (map IZR (hd [] rows1)) (map IZR (last rows1 [])) p -> on_segment (map IZR (hd [] rows2)) (map IZR (last rows2 [])) q -> 1000000000 < dist p q) /\
  length rows1 = 2%nat /\ length rows2 = 2%nat /\ l <> [] /\
  forall order, almost_curves (mkAlmost (NF (fq 1 1000)) false (NI 0) false (NI 0)) order
    (mkCurve (int_rows NI rows1) 2 DInt None) (mkCurve (int_rows NI rows2) 2 DInt None) false = Ok l.
Proof.
  exists [[0; 0]; [1; 0]]%Z, [[0; 2 ^ 32]; [1; 2 ^ 32]]%Z. eexists.
  split; [intros r Hr; cbn in Hr; destruct Hr as [<-|[<-|[]]]; (split; [reflexivity|]); intros x Hx; cbn in Hx; destruct Hx as [<-|[<-|[]]]; lia|].
  split; [intros r Hr; cbn in Hr; destruct Hr as [<-|[<-|[]]]; (split; [reflexivity|]); intros x Hx; cbn in Hx; destruct Hx as [<-|[<-|[]]]; lia|].
  split.
  - intros p q (s & Hs & Lp & Ep) (t & Ht & Lq & Eq). cbn [hd last map length] in *.
    destruct p as [|x [|y [|? ?]]]; try discriminate. destruct q as [|x' [|y' [|? ?]]]; try discriminate.
    specialize (Ep 1%nat). specialize (Eq 1%nat). cbn in Ep, Eq. unfold dist, norm. cbn [minus inner].
    assert (EY : y' - y = 4294967296) by lra. rewrite EY. eapply Rlt_le_trans with (sqrt (4294967296 * 4294967296)); [rewrite sqrt_square by lra; lra|].
    apply sqrt_le_1; [lra| |]; pose proof (Rle_0_sqr (x' - x)) as Q; unfold Rsqr in Q; lra.
  - split; [reflexivity|]. split; [reflexivity|]. split; [|intros order; vm_compute; reflexivity]. discriminate.
Qed.
Print Assumptions C92_almost_refuted.

(** The hypotheses are met, and runs: a right-angled triangle, the same far away
    (the coordinates themselves wrap), and the curves of C91. *)
Definition triangle : list (list Z) := [[0; 0]; [3; 4]; [3; 4]; [0; 0]]%Z.
Example C92_chord_ex : chordlen_rows (int_rows NI triangle) = [NF (fz 5); NF (fz 0); NF (fz 5)].
Proof. vm_compute. reflexivity. Qed.
Example C92_translate_ex : map (fun r => map (fun '(x, y) => wrap (x + y)) (combine r [2 ^ 63 - 2; 7]%Z)) triangle =
  [[2 ^ 63 - 2; 7]; [- 2 ^ 63 + 1; 11]; [- 2 ^ 63 + 1; 11]; [2 ^ 63 - 2; 7]]%Z.
Proof. vm_compute. reflexivity. Qed.
Example C92_safe_ex : (4 * Z.of_nat 2 * (1000000000 * 1000000000) < 2 ^ 63)%Z /\
  (forall r, In r triangle -> length r = 2%nat /\ forall x, In x r -> (Z.abs x <= 1000000000)%Z) /\
  c_nonsingular (mkCurve (int_rows NI triangle) 2 DInt None) = Ok (mkCurve (int_rows NI [[0; 0]; [3; 4]; [0; 0]]%Z) 2 DInt None) /\
  c_arclen (NI 0) (mkCurve (int_rows NI triangle) 2 DInt None) = NF (fz 10).
Proof.
  split; [lia|]. split; [|split; vm_compute; reflexivity]. intros r Hr. cbn in Hr.
  destruct Hr as [<-|[<-|[<-|[<-|[]]]]]; (split; [reflexivity|]); intros x Hx; cbn in Hx; destruct Hx as [<-|[<-|[]]]; lia.
Qed.
Example C92_nonsingular_ex : wide 2 triangle.
Proof. intros r Hr. cbn in Hr. destruct Hr as [<-|[<-|[<-|[<-|[]]]]]; (split; [reflexivity|]); intros x Hx; cbn in Hx; destruct Hx as [<-|[<-|[]]]; lia. Qed.
Example C92_almost_ex : (Z.of_nat 2 * (2896 * 2896) <= 2 ^ 24)%Z /\
  exists x, almost_curves (mkAlmost (NF (fq 1 1000)) false (NI 0) false (NI 0)) (fun l => l)
    (mkCurve (int_rows NI [[0; 0]; [2; 2]]%Z) 2 DInt None) (mkCurve (int_rows NI [[4; 0]; [2; 2]]%Z) 2 DInt None) false = Ok [x] /\
    in_info x = mkInfo (IDSegment (mkSeg [NI 2; NI 2] [NI 2; NI 2])) IAlmost.
Proof. split; [lia|]. eexists. split; vm_compute; reflexivity. Qed.
