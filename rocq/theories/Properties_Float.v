(** Properties C70-C74: what survives of the geometry in IEEE binary64.

    [FR x] is the real number a finite binary64 number stands for, [ffin] says
    that a number is neither NaN nor infinite; comparisons are the IEEE ones
    (false as soon as NaN is involved).  [sums_to l s] says that [s] can be
    obtained by adding the numbers of [l] in some order with some grouping, each
    addition rounded: numpy does not promise an order.  [chord_value p q r]: [r]
    is the square root of such a sum of the squares of the coordinate
    differences; [chord_values rows cs]: the same for all sides of a polygon. *)
From Coq Require Import PrimFloat FloatOps FloatAxioms SpecFloat.
From Coq Require Import ZArith List Bool Arith Lia Reals Lra Psatz.
From Flocq Require Import Core.
From Verif Require Import Num Py Numeric Curve Vec Geom DiffGeom Interp Point Spec GeomSpec ListFacts VecFacts CurveProofs DiffGeomProofs InterpProofs.
From Verif Require Import FloatFacts FloatFacts2 FloatProofs FloatProofs2 FloatProofs3 Properties_Container.
Import ListNotations.
Local Open Scope R_scope.
Local Notation float := PrimFloat.float.

(** A curve all of whose coordinates are finite. *)
Definition fin_curve (c : curve float) : Prop := forall p, In p (c_rows c) -> fin_point p.

(** ** C70 Lengths *)

(** In whatever order numpy adds: the sides of a finite polygon are not NaN and
    not negative, so is the sum, and no side is longer than the sum. *)
Theorem C70_chords : forall (rows : list (list float)) cs L, (forall p, In p rows -> fin_point p) ->
  chord_values rows cs -> sums_to cs L ->
  (forall x, In x cs -> PrimFloat.leb 0 x = true /\ PrimFloat.leb x L = true) /\ PrimFloat.leb 0 L = true.
Proof.
  intros rows cs L F C S. pose proof (chord_values_nonneg rows F cs C) as N. destruct (sums_nonneg cs L S N) as (P & Q).
  split; [intros x I; split; [exact (N x I)|exact (Q x I)]|exact P].
Qed.
Print Assumptions C70_chords.

(** The model computes one of these values. *)
Theorem C70_model : forall junk (c : curve float), c_bool c = true ->
  chord_values (c_rows c) (c_chordlen junk c) /\ sums_to (c_chordlen junk c) (c_arclen junk c) /\
  forall i, (i < length (c_chordlen junk c))%nat -> sums_to (firstn (S i) (c_chordlen junk c)) (nth (S i) (c_cumarclen junk c) PrimFloat.zero).
Proof.
  intros junk c B. split; [rewrite c_chordlen_rows by exact B; apply chord_values_model|]. split; [apply fold_right_sums|].
  intros i Hi. cbn [c_cumarclen nth]. apply cumsum_sums. exact Hi.
Qed.
Print Assumptions C70_model.

(** The cumulative length starts at 0 and never decreases. *)
Theorem C70_cumulative : forall junk (c : curve float), c_bool c = true -> fin_curve c ->
  nth 0 (c_cumarclen junk c) PrimFloat.zero = PrimFloat.zero /\
  forall i j, (i <= j)%nat -> (j < c_size c)%nat ->
    PrimFloat.leb (nth i (c_cumarclen junk c) PrimFloat.zero) (nth j (c_cumarclen junk c) PrimFloat.zero) = true.
Proof.
  intros junk c B F. split; [reflexivity|]. intros i j Hij Hj. unfold c_cumarclen. rewrite c_chordlen_rows by exact B. apply cumsum_mono; [|exact Hij|].
  - exact (chord_values_nonneg (c_rows c) F _ (chord_values_model _)).
  - assert (L : forall rows : list (list float), length (diff_rows rows) = (length rows - 1)%nat).
    { clear. induction rows as [|a [|b r] IH]; [reflexivity|reflexivity|]. change (S (length (diff_rows (b :: r))) = S (length r)). rewrite IH. cbn. lia. }
    unfold chordlen_rows. rewrite map_length, L. unfold c_size in Hj. lia.
Qed.
Print Assumptions C70_cumulative.

(** Distances do not depend on the order of the two points, bit for bit. *)
Theorem C70_symmetric : forall (p q : list float),
  vdist p q = vdist q p /\ forall r, chord_value p q r <-> chord_value q p r.
Proof. intros p q. split; [apply vdist_sym|intros r; apply chord_swap]. Qed.
Print Assumptions C70_symmetric.

Lemma chordlen_rows_rev_float (rows : list (list float)) : chordlen_rows (rev rows) = rev (chordlen_rows rows).
Proof.
  assert (C : forall a b r, chordlen_rows (a :: b :: r) = vdist a b :: chordlen_rows (b :: r)) by (intros a b r; rewrite vdist_chord; reflexivity).
  assert (S : forall l a b, chordlen_rows (l ++ [a; b]) = chordlen_rows (l ++ [a]) ++ [vdist a b]).
  { induction l as [|x [|y l] IH]; intros a b; cbn [app]; [rewrite C; reflexivity|rewrite !C; reflexivity|]. rewrite (C x y), (C x y). cbn [app] in IH. rewrite (IH a b). reflexivity. }
  induction rows as [|a [|b r] IH]; [reflexivity|reflexivity|]. change (rev (a :: b :: r)) with ((rev r ++ [b]) ++ [a]). rewrite <- app_assoc. cbn [app].
  rewrite S. change (rev r ++ [b]) with (rev (b :: r)). rewrite IH, C. cbn [rev]. rewrite (vdist_sym b a). reflexivity.
Qed.
(** Reversing a curve reverses its sides, bit for bit. *)
Theorem C70_reverse : forall junk (c c' : curve float), wf c -> c_rows c <> [] -> c_reverse c = Ok c' ->
  c_chordlen junk c' = rev (c_chordlen junk c).
Proof.
  intros junk c c' W N E. destruct (C07_reverse _ c W) as (c2 & E2 & Er & _ & _ & En & W'). rewrite E in E2. injection E2 as <-.
  assert (N' : c_rows c' <> []) by (rewrite Er; intros H; apply N; rewrite <- (rev_involutive (c_rows c)), H; reflexivity).
  rewrite !c_chordlen_rows by (apply c_bool_wf; assumption). rewrite Er. apply chordlen_rows_rev_float.
Qed.
Print Assumptions C70_reverse.
(** The total length may change, because the additions are made in another
    order: chords 1/2^53, 1/2^53 and 1. *)
Definition rev_ex : curve float := mkCurve [[fz 0; fz 0]; [fz 0; fq 1 (2 ^ 53)]; [fz 0; fq 1 (2 ^ 52)]; [fz 0; (fz 1 + fq 1 (2 ^ 52))%float]] 2 DFloat None.
Theorem C70_reverse_refuted : exists (c c' : curve float), wf c /\ fin_curve c /\ c_reverse c = Ok c' /\
  PrimFloat.eqb (c_arclen nan c') (c_arclen nan c) = false.
Proof.
  exists rev_ex. eexists. split; [|split; [|split; [reflexivity|vm_compute; reflexivity]]].
  - split; [cbn; lia|]. split; [|discriminate]. intros p [<-|[<-|[<-|[<-|[]]]]]; reflexivity.
  - intros p [<-|[<-|[<-|[<-|[]]]]] x [<-|[<-|[]]]; vm_compute; reflexivity.
Qed.
Print Assumptions C70_reverse_refuted.

(** A finite point has distance +0 from itself. *)
Theorem C70_self : forall (p : list float) r, fin_point p -> chord_value p p r -> r = PrimFloat.zero.
Proof. exact chord_self. Qed.
Print Assumptions C70_self.
(** The converse fails: squares underflow; and so does finiteness: squares overflow. *)
Theorem C70_zero_refuted : exists p q : list float, fin_point p /\ fin_point q /\ vdist p q = PrimFloat.zero /\
  exists x y, In (x, y) (combine p q) /\ PrimFloat.eqb x y = false.
Proof.
  exists [fz 0; fz 0], [fq 1 (2 ^ 600); fz 0]. split; [intros x [<-|[<-|[]]]; vm_compute; reflexivity|]. split; [intros x [<-|[<-|[]]]; vm_compute; reflexivity|].
  split; [vm_compute; reflexivity|]. exists (fz 0), (fq 1 (2 ^ 600)). split; [left; reflexivity|vm_compute; reflexivity].
Qed.
Print Assumptions C70_zero_refuted.
Theorem C70_overflow_refuted : exists p q : list float, fin_point p /\ fin_point q /\ vdist p q = infinity.
Proof.
  exists [fz 0; fz 0], [fz (2 ^ 600); fz 0]. split; [intros x [<-|[<-|[]]]; vm_compute; reflexivity|]. split; [intros x [<-|[<-|[]]]; vm_compute; reflexivity|]. vm_compute. reflexivity.
Qed.
Print Assumptions C70_overflow_refuted.

(** The rounding error.  Let the points have n coordinates and let the
    coordinate differences be 0 or at least 2^-510 in absolute value (so that
    their squares do not underflow).  If no overflow occurs, a computed distance
    is the exact distance of the points up to a factor between (1-u)^k and
    (1+u)^k with u = 2^-53 and 2k >= n+4, and the computed length of a polygon
    with m points is its exact length up to the k+m-2-nd powers. *)
Theorem C70_error : forall n k (p q : list float) r, length p = n -> length q = n -> (1 <= n)%nat -> (n + 4 <= 2 * k)%nat ->
  fin_point p -> fin_point q ->
  (forall a b, In (a, b) (combine p q) -> FR b - FR a = 0 \/ bpow radix2 (-510) <= Rabs (FR b - FR a)) ->
  chord_value p q r -> ffin r ->
  dist (map FR p) (map FR q) * (1 - / 2 ^ 53) ^ k <= FR r <= dist (map FR p) (map FR q) * (1 + / 2 ^ 53) ^ k.
Proof.
  intros n k p q r Lp Lq Hn Hk Fp Fq Sc C F. replace (/ 2 ^ 53) with uro by (unfold uro; lra). exact (chord_error n k p q r Lp Lq Hn Hk Fp Fq Sc C F).
Qed.
Print Assumptions C70_error.
Theorem C70_length_error : forall n k (rows : list (list float)) cs L, (1 <= n)%nat -> (n + 4 <= 2 * k)%nat -> (2 <= length rows)%nat ->
  (forall p, In p rows -> length p = n /\ fin_point p) ->
  (forall i a b, (S i < length rows)%nat -> In (a, b) (combine (nth i rows []) (nth (S i) rows [])) ->
     FR b - FR a = 0 \/ bpow radix2 (-510) <= Rabs (FR b - FR a)) ->
  chord_values rows cs -> sums_to cs L -> ffin L ->
  polyline (map (map FR) rows) * (1 - / 2 ^ 53) ^ (k + (length rows - 2)) <= FR L <= polyline (map (map FR) rows) * (1 + / 2 ^ 53) ^ (k + (length rows - 2)).
Proof.
  intros n k rows cs L Hn Hk Hr F Sc C S FL. replace (/ 2 ^ 53) with uro by (unfold uro; lra).
  exact (length_error n k rows cs L Hn Hk Hr F (fun i Hi a b I => Sc i a b Hi I) C S FL).
Qed.
Print Assumptions C70_length_error.
(** The same for the model: for a plane curve of m points the relative error of
    the length is below (m+1) * 2^-53, up to terms of second order. *)
Theorem C70_arclen_error : forall junk (c : curve float), wf c -> c_ndim c = 2%nat -> (2 <= c_size c)%nat -> fin_curve c ->
  (forall i a b, (S i < c_size c)%nat -> In (a, b) (combine (nth i (c_rows c) []) (nth (S i) (c_rows c) [])) ->
     FR b - FR a = 0 \/ bpow radix2 (-510) <= Rabs (FR b - FR a)) ->
  ffin (c_arclen junk c) ->
  polyline (map (map FR) (c_rows c)) * (1 - / 2 ^ 53) ^ (c_size c + 1) <= FR (c_arclen junk c) <= polyline (map (map FR) (c_rows c)) * (1 + / 2 ^ 53) ^ (c_size c + 1).
Proof.
  intros junk c W N2 Hm F Sc FL. assert (B : c_bool c = true).
  { apply c_bool_wf; [exact W|]. intros E. unfold c_size in Hm. rewrite E in Hm. cbn in Hm. lia. }
  destruct (C70_model junk c B) as (C & S & _). replace (c_size c + 1)%nat with (3 + (length (c_rows c) - 2))%nat by (unfold c_size in *; lia).
  apply (C70_length_error 2 3 (c_rows c) (c_chordlen junk c) (c_arclen junk c) ltac:(lia) ltac:(lia) Hm); [|exact Sc|exact C|exact S|exact FL].
  intros p I. split; [rewrite <- N2; apply W; exact I|apply F; exact I].
Qed.
Print Assumptions C70_arclen_error.

Definition fl3 : curve float := mkCurve [[fz 0; fz 0]; [fq 1 10; fq 1 5]; [fz 1; fz (-1)]] 2 DFloat None.
Example C70_ex_hyp : wf fl3 /\ c_bool fl3 = true /\ fin_curve fl3 /\ ffin (c_arclen nan fl3) /\ PrimFloat.ltb (fz 1) (c_arclen nan fl3) = true /\
  forall i a b, (S i < c_size fl3)%nat -> In (a, b) (combine (nth i (c_rows fl3) []) (nth (S i) (c_rows fl3) [])) ->
     FR b - FR a = 0 \/ bpow radix2 (-510) <= Rabs (FR b - FR a).
Proof.
  split; [|split; [reflexivity|split; [|split; [vm_compute; reflexivity|split; [vm_compute; reflexivity|]]]]].
  - split; [cbn; lia|]. split; [|discriminate]. intros p [<-|[<-|[<-|[]]]]; reflexivity.
  - intros p [<-|[<-|[<-|[]]]] x [<-|[<-|[]]]; vm_compute; reflexivity.
  - intros i a b Hi I. right.
    assert (V : forall x s m e, Prim2SF x = S754_finite s m e -> FR x = (if s then -1 else 1) * (IZR (Zpos m) * bpow radix2 e)) by (intros x s m e E; apply (FR_finite x s m e E)).
    assert (T10 : FR (fq 1 10) = 7205759403792794 * bpow radix2 (-56)) by (rewrite (V _ false 7205759403792794%positive (-56)%Z) by (vm_compute; reflexivity); cbv iota; ring).
    assert (T5 : FR (fq 1 5) = 7205759403792794 * bpow radix2 (-55)) by (rewrite (V _ false 7205759403792794%positive (-55)%Z) by (vm_compute; reflexivity); cbv iota; ring).
    assert (B56 : bpow radix2 (-56) = / 72057594037927936) by (rewrite bpow_neg_Z by lia; reflexivity).
    assert (B55 : bpow radix2 (-55) = / 36028797018963968) by (rewrite bpow_neg_Z by lia; reflexivity).
    assert (T1 : FR (fz 1) = 1) by (destruct (f_of_Z_exact 1 ltac:(lia)) as (_ & E); exact E).
    assert (Tm : FR (fz (-1)) = -1) by (destruct (f_of_Z_exact (-1) ltac:(lia)) as (_ & E); exact E).
    assert (T0 : FR (fz 0) = 0) by (destruct (f_of_Z_exact 0 ltac:(lia)) as (_ & E); exact E).
    assert (Bd : bpow radix2 (-510) <= / 1000) by (apply Rle_trans with (bpow radix2 (-10)); [apply bpow_le; lia|rewrite bpow_neg_Z by lia; change (2 ^ (- -10))%Z with 1024%Z; lra]).
    destruct i as [|[|i]]; [| |cbn in Hi; lia]; cbn [fl3 c_rows nth combine In] in I; destruct I as [I|[I|[]]]; inversion I; subst a b; rewrite ?T10, ?T5, ?T1, ?Tm, ?T0;
      apply Rle_trans with (1 := Bd); rewrite ?B56, ?B55; unfold Rabs; destruct (Rcase_abs _); lra.
Qed.

(** ** C71 Equality of an object with itself *)

(** An element equals itself unless it is NaN, whatever its dtype; infinities
    equal themselves. *)
Theorem C71_element : forall d (x : float), isequal d d x x = negb (PrimFloat.is_nan x).
Proof. exact isequal_refl. Qed.
Print Assumptions C71_element.

Lemma allequal_refl_float d (p : list float) : allequal d d p p = true <-> forall x, In x p -> PrimFloat.is_nan x = false.
Proof.
  induction p as [|a p IH]; [split; [intros _ x []|reflexivity]|]. cbn [allequal]. rewrite isequal_refl, andb_true_iff, IH. split.
  - intros [H1 H2] x [<-|I]; [destruct (PrimFloat.is_nan a); [discriminate|reflexivity]|exact (H2 x I)].
  - intros H. split; [rewrite (H a (or_introl eq_refl)); reflexivity|intros x I; apply H; right; exact I].
Qed.
(** A point (a curve) equals itself if and only if no coordinate is NaN. *)
Theorem C71_point : forall p : point float, p_eq p p = true <-> forall x, In x (arr_list (p_data p)) -> PrimFloat.is_nan x = false.
Proof. intros p. unfold p_eq. rewrite Nat.eqb_refl. cbn [andb]. apply allequal_refl_float. Qed.
Print Assumptions C71_point.
Theorem C71_curve : forall c : curve float, c_eq c c = true <-> forall p x, In p (c_rows c) -> In x p -> PrimFloat.is_nan x = false.
Proof.
  intros c. unfold c_eq. rewrite !Nat.eqb_refl. cbn [negb]. generalize (c_rows c). intros rows.
  induction rows as [|a rows IH]; [split; [intros _ p x []|reflexivity]|]. cbn [allequal2]. rewrite andb_true_iff, IH, allequal_refl_float. split.
  - intros [H1 H2] p x [<-|I]; [apply H1|apply H2; exact I].
  - intros H. split; [intros x; apply H; left; reflexivity|intros p x I; apply H; right; exact I].
Qed.
Print Assumptions C71_curve.
(** A point of the curve without NaN coordinate is found in it. *)
Theorem C71_contains : forall (c : curve float) p, wf c -> In p (c_rows c) -> (forall x, In x p -> PrimFloat.is_nan x = false) ->
  contains_point c p (c_dtype c) = true.
Proof.
  intros c p W I N. unfold contains_point. rewrite (proj1 (proj2 W) p I), Nat.eqb_refl. cbn [negb]. apply existsb_exists. exists true. split; [|reflexivity].
  unfold match_mask. apply in_map_iff. exists p. split; [apply allequal_refl_float; exact N|exact I].
Qed.
Print Assumptions C71_contains.
Example C71_ex : isequal DFloat DFloat infinity infinity = true /\ isequal DFloat DFloat nan nan = false /\ c_eq fl3 fl3 = true /\
  p_eq (mkPoint (A1 [fz 1; nan]) DFloat) (mkPoint (A1 [fz 1; nan]) DFloat) = false /\ contains_point fl3 [fq 1 10; fq 1 5] DFloat = true.
Proof. repeat split; vm_compute; reflexivity. Qed.

(** ** C72 Grids *)

(** numpy.linspace(a, b, n) with 2 <= n <= 2^51 and b - a not overflowing: n
    values, the first equal to a, the last b itself. *)
Theorem C72_ends : forall (a b : float) n, ffin a -> ffin b -> ffin (PrimFloat.sub b a) -> (2 <= n)%nat -> (Z.of_nat n <= 2 ^ 51)%Z ->
  exists l, linspace a b (Z.of_nat n) = Ok l /\ length l = n /\ PrimFloat.eqb (nth 0 l nan) a = true /\ nth (n - 1) l nan = b.
Proof.
  intros a b n Fa Fb Fd Hn Hb. unfold linspace. destruct (Z.ltb_spec (Z.of_nat n) 0); [lia|]. rewrite Nat2Z.id. eexists. split; [reflexivity|].
  split; [apply linspace_length; assumption|]. pose proof (linspace_length a b n Hn) as L. rewrite !(nth_indep _ nan 0%float) by lia. rewrite !linspace_nth by assumption.
  destruct (Nat.ltb_spec 0 (n - 1)); [|lia]. destruct (Nat.ltb_spec (n - 1) (n - 1)); [lia|]. rewrite Nat.eqb_refl. split; [|reflexivity].
  destruct (linspace_first a b n Fa Fd Hn Hb) as (F0 & E0). apply eqb_R; assumption.
Qed.
Print Assumptions C72_ends.
(** If b - a overflows the first value is NaN. *)
Theorem C72_ends_refuted : exists (a b : float) l, ffin a /\ ffin b /\ linspace a b 3 = Ok l /\ PrimFloat.is_nan (nth 0 l PrimFloat.zero) = true.
Proof. exists (fz (- 2 ^ 1023)), (fz (2 ^ 1023)). eexists. split; [vm_compute; reflexivity|]. split; [vm_compute; reflexivity|]. split; [reflexivity|vm_compute; reflexivity]. Qed.
Print Assumptions C72_ends_refuted.

(** If a < b and the step is a normal number, the values never decrease. *)
Theorem C72_ascending : forall (a b : float) n l, ffin a -> ffin b -> ffin (PrimFloat.sub b a) -> (2 <= n)%nat -> (Z.of_nat n <= 2 ^ 51)%Z ->
  FR a < FR b -> INR n * bpow radix2 (-1022) <= FR b - FR a -> linspace a b (Z.of_nat n) = Ok l ->
  forall i j, (i <= j)%nat -> (j < n)%nat -> PrimFloat.leb (nth i l nan) (nth j l nan) = true.
Proof.
  intros a b n l Fa Fb Fd Hn Hb Hab Hs. unfold linspace. destruct (Z.ltb_spec (Z.of_nat n) 0); [lia|]. rewrite Nat2Z.id. intros E. injection E as <-.
  intros i j Hij Hj. pose proof (linspace_length a b n Hn) as L. rewrite !(nth_indep _ nan 0%float) by lia. exact (linspace_mono a b n Fa Fb Fd Hn Hb Hab Hs i j Hij Hj).
Qed.
Print Assumptions C72_ascending.
(** Without the last condition they may decrease: linspace(0, 3u, 6) for the
    smallest positive number u is 0, u, 2u, 3u, 4u, 3u. *)
Theorem C72_ascending_refuted : exists (a b : float) l, ffin a /\ ffin b /\ PrimFloat.ltb a b = true /\ linspace a b 6 = Ok l /\
  PrimFloat.ltb (nth 5 l nan) (nth 4 l nan) = true.
Proof. exists (fz 0), (Z.ldexp (fz 3) (-1074)). eexists. split; [vm_compute; reflexivity|]. split; [vm_compute; reflexivity|]. split; [vm_compute; reflexivity|]. split; [reflexivity|vm_compute; reflexivity]. Qed.
Print Assumptions C72_ascending_refuted.

(** A finite grid is accepted if and only if it has a value and every computed
    difference of neighbours exceeds 1e-8; then it is strictly increasing. *)
Theorem C72_validation : forall junk few (c : curve float) l, (forall x, In x l -> ffin x) ->
  (get_grid junk few c (SArr l) = Ok l <->
     l <> [] /\ forall i, (S i < length l)%nat -> PrimFloat.ltb (fq 1 100000000) (PrimFloat.sub (nth (S i) l nan) (nth i l nan)) = true) /\
  (get_grid junk few c (SArr l) = Ok l -> forall i j, (i < j)%nat -> (j < length l)%nat -> PrimFloat.ltb (nth i l nan) (nth j l nan) = true) /\
  (forall l', get_grid junk few c (SArr l) = Ok l' -> l' = l) /\
  (forall e, get_grid junk few c (SArr l) = Raise e -> e = ValueError).
Proof.
  intros junk few c l F. change (get_grid junk few c (SArr l)) with (check_grid l).
  assert (Sp : forall l, spaced l = true <-> forall i, (S i < length l)%nat -> PrimFloat.ltb (fq 1 100000000) (PrimFloat.sub (nth (S i) l nan) (nth i l nan)) = true).
  { clear. induction l as [|a [|b l] IH]; [split; [intros _ i Hi; cbn in Hi; lia|reflexivity]|split; [intros _ i Hi; cbn in Hi; lia|reflexivity]|].
    change (spaced (a :: b :: l)) with (PrimFloat.ltb (fq 1 100000000) (PrimFloat.sub b a) && spaced (b :: l)). rewrite andb_true_iff, IH. split.
    - intros [H1 H2] [|i] Hi; [exact H1|]. exact (H2 i ltac:(cbn in *; lia)).
    - intros H. split; [exact (H 0%nat ltac:(cbn; lia))|]. intros i Hi. exact (H (S i) ltac:(cbn in *; lia)). }
  destruct l as [|x l0] eqn:El.
  - split; [|split; [|split]]; [split; [discriminate|intros [N _]; contradiction]|discriminate|discriminate|intros e E; injection E as <-; reflexivity].
  - rewrite <- El in *. assert (Nl : l <> []) by (rewrite El; discriminate). rewrite (check_grid_fin l Nl F). destruct (spaced l) eqn:S.
    + split; [split; [intros _; split; [exact Nl|apply Sp; exact S]|reflexivity]|]. split.
      * intros _ i j Hij Hj. apply ltb_R; [apply F, nth_In; lia|apply F, nth_In; lia|]. rewrite !(nth_indep _ nan 0%float) by lia. exact (spaced_increasing l F S i j Hij Hj).
      * split; [intros l' E; injection E as <-; reflexivity|discriminate].
    + split; [split; [discriminate|intros [_ H]; apply Sp in H; congruence]|]. split; [discriminate|]. split; [discriminate|intros e E; injection E as <-; reflexivity].
Qed.
Print Assumptions C72_validation.
(** With infinite values the check is void: inf - inf is NaN. *)
Theorem C72_validation_refuted : forall junk few (c : curve float), get_grid junk few c (SArr [infinity; infinity]) = Ok [infinity; infinity].
Proof. reflexivity. Qed.
Print Assumptions C72_validation_refuted.
Example C72_ex : linspace (fz 0) (fz 1) 5 = Ok [fz 0; fq 1 4; fq 1 2; fq 3 4; fz 1] /\ ffin (PrimFloat.sub (fz 1) (fz 0)) /\
  check_grid [fz 0; fq 1 4; fz 1] = Ok [fz 0; fq 1 4; fz 1] /\ check_grid [fz 0; fq 1 1000000000] = Raise ValueError.
Proof. repeat split; vm_compute; reflexivity. Qed.
Example C72_ex_hyp : FR (fz 0) < FR (fz 1) /\ INR 5 * bpow radix2 (-1022) <= FR (fz 1) - FR (fz 0).
Proof.
  destruct (f_of_Z_exact 1 ltac:(lia)) as (_ & E1). destruct (f_of_Z_exact 0 ltac:(lia)) as (_ & E0). unfold fz. rewrite E1, E0. split; [lra|].
  assert (bpow radix2 (-1022) <= / 5); [apply Rle_trans with (bpow radix2 (-3)); [apply bpow_le; lia|rewrite bpow_neg_Z by lia; change (2 ^ (- -3))%Z with 8%Z; lra]|]. cbn [INR]. lra.
Qed.

(** ** C73 Closest points *)

(** For any data - infinite, NaN - the computed parameters are NaN or lie in
    [0, 1]: the closest points never leave the segments by a rounding error of
    the parameters. *)
Theorem C73_point : forall (s : segment float) p, let t := segment_to_point s p in
  PrimFloat.is_nan t = true \/ (PrimFloat.leb 0 t = true /\ PrimFloat.leb t 1 = true).
Proof. exact segment_to_point_unit. Qed.
Print Assumptions C73_point.
Theorem C73_segments : forall (s1 s2 : segment float) tol, PrimFloat.ltb 0 tol = true ->
  let '(t1, t2) := segment_to_segment s1 s2 tol in
  (PrimFloat.is_nan t1 = true \/ (PrimFloat.leb 0 t1 = true /\ PrimFloat.leb t1 1 = true)) /\
  (PrimFloat.is_nan t2 = true \/ (PrimFloat.leb 0 t2 = true /\ PrimFloat.leb t2 1 = true)).
Proof.
  intros s1 s2 tol Ht. unfold segment_to_segment. match goal with |- context [closest_params ?a ?b ?c ?d ?e tol] =>
    pose proof (closest_params_unit a b c d e tol Ht (pos_or_nan_ltb _ (vdot_self_pos _)) (pos_or_nan_ltb _ (vdot_self_pos _))) as H; destruct (closest_params a b c d e tol) as [t1 t2] end. exact H.
Qed.
Print Assumptions C73_segments.
(** The array version computes the same parameters, bit for bit. *)
Theorem C73_matrix : forall (data1 data2 : list (list float)) tol i j, PrimFloat.ltb 0 tol = true ->
  let '(t1, t2) := segments_params data1 data2 tol in
  (t1 i j, t2 i j) = segment_to_segment (mkSeg (nth i data1 []) (nth (S i) data1 [])) (mkSeg (nth j data2 []) (nth (S j) data2 [])) tol.
Proof. exact segments_params_float. Qed.
Print Assumptions C73_matrix.
(** Lengths and distances are NaN or not negative, for any data. *)
Theorem C73_distance : forall (s1 s2 : segment float) p,
  (PrimFloat.is_nan (sg_len s1) = true \/ PrimFloat.leb 0 (sg_len s1) = true) /\
  (PrimFloat.is_nan (sg_distance_point s1 p) = true \/ PrimFloat.leb 0 (sg_distance_point s1 p) = true) /\
  (PrimFloat.is_nan (sg_distance s1 s2) = true \/ PrimFloat.leb 0 (sg_distance s1 s2) = true).
Proof. intros s1 s2 p. repeat split; apply vnorm_pos. Qed.
Print Assumptions C73_distance.
(** The tolerance used is positive; NaN does occur; the point at parameter 1 need
    not be the end point. *)
Example C73_ex : PrimFloat.ltb 0 (@f_eps float FNum) = true /\
  segment_to_point (mkSeg [fz 0; fz 0] [fz 4; fz 0]) [fz 1; fz 7] = fq 1 4 /\
  segment_to_segment (mkSeg [fz 0; fz 0] [fz 4; fz 0]) (mkSeg [fz 1; fz 1] [fz 1; fz 3]) f_eps = (fq 1 4, fz 0) /\
  PrimFloat.is_nan (segment_to_point (mkSeg [fz 0; fz 0] [fz 4; nan]) [fz 1; fz 7]) = true.
Proof. repeat split; vm_compute; reflexivity. Qed.
Theorem C73_end_refuted : exists (s : segment float), fin_point (sg_p1 s) /\ fin_point (sg_p2 s) /\ sg_point s (fz 1) <> sg_p2 s.
Proof.
  exists (mkSeg [fz (2 ^ 54); fz 0] [fz 1; fz 0]). split; [intros x [<-|[<-|[]]]; vm_compute; reflexivity|]. split; [intros x [<-|[<-|[]]]; vm_compute; reflexivity|].
  intros E. apply (f_equal (fun l => PrimFloat.eqb (nth 0 l nan) (fz 1))) in E. vm_compute in E. discriminate.
Qed.
Print Assumptions C73_end_refuted.

(** ** C74 Conversion to integers *)

(** A conversion to the integer dtype keeps the integer part, with the sign: for
    |x| < 2^63 this is the value int64 can hold.  A second conversion changes
    nothing. *)
Theorem C74_integer_part : forall x : float, ffin x -> Rabs (FR x) < 2 ^ 63 -> exists z : Z,
  ffin (cast DInt x) /\ FR (cast DInt x) = IZR z /\ Rabs (IZR z) <= Rabs (FR x) < Rabs (IZR z) + 1 /\ 0 <= IZR z * FR x /\ (Z.abs z < 2 ^ 63)%Z.
Proof.
  intros x F B. destruct (f_trunc_spec x F) as (z & H1 & H2 & H3 & H4). exists z. split; [exact H1|]. split; [exact H2|]. split; [exact H3|]. split; [exact H4|].
  apply lt_IZR. rewrite abs_IZR. change (2 ^ 63)%Z with 9223372036854775808%Z. lra.
Qed.
Print Assumptions C74_integer_part.
Theorem C74_idempotent : forall (d : dtype) (x : float), ffin x -> cast d (cast d x) = cast d x /\ cast DInt (cast DFloat x) = cast DInt x.
Proof.
  intros [|] x F; [|split; reflexivity]. split; [|reflexivity]. cbn [cast ntrunc FNum]. destruct (f_trunc_spec x F) as (z & H1 & H2 & _).
  destruct (f_trunc_spec (f_trunc x) H1) as (z' & H1' & H2' & H3' & H4'). rewrite H2 in H3', H4'.
  assert (E : z' = z).
  { rewrite <- !abs_IZR in H3'. destruct H3' as [L U]. apply le_IZR in L. rewrite <- plus_IZR in U. apply lt_IZR in U. rewrite <- mult_IZR in H4'. apply le_IZR in H4'. nia. }
  subst z'. destruct (Z.eq_dec z 0) as [->|N]; [|apply FR_inj_nz; [assumption|assumption|congruence|rewrite H2'; apply IZR_neq; exact N]].
  destruct (SF_cases (f_trunc x)) as [(_ & E)|[(s & _ & E)|[(s & E & _ & _)|(s & m & e & E)]]].
  - apply ffin_num in H1. unfold fnum in H1. congruence.
  - exfalso. rewrite E in H1. destruct s; vm_compute in H1; discriminate.
  - unfold f_trunc at 1. rewrite E. reflexivity.
  - exfalso. destruct (FR_finite _ s m e E) as (_ & V & _). rewrite H2 in V. pose proof (bpow_gt_0 radix2 e). pose proof (IZR_lt 0 (Z.pos m) ltac:(lia)).
    assert (0 < IZR (Z.pos m) * bpow radix2 e) by (apply Rmult_lt_0_compat; lra). destruct s; lra.
Qed.
Print Assumptions C74_idempotent.
Example C74_ex : cast DInt (fq (-7) 2) = fz (-3) /\ cast DInt (fq 7 2) = fz 3 /\ cast DInt (fz (2 ^ 60)) = fz (2 ^ 60) /\ ffin (fq (-7) 2).
Proof. repeat split; vm_compute; reflexivity. Qed.
