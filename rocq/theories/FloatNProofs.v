(** Lengths of curves in any IEEE format; conversions between binary32 and binary64. *)
From Coq Require Import PrimFloat FloatOps FloatAxioms SpecFloat.
From Coq Require Import ZArith List Bool Arith Lia Reals Lra Psatz Permutation.
From Flocq Require Import Core BinarySingleNaN Relative.
From Flocq Require IEEE754.PrimFloat.
From Verif Require Import Num Py Numeric Curve Vec DiffGeom Spec GeomSpec ListFacts VecFacts CurveProofs CurveProofs3 DiffGeomProofs.
From Verif Require Import FloatN FloatNFacts FloatFacts FloatFacts2 FloatProofs FloatProofs2 FloatProofs3.
Import ListNotations.
Local Open Scope R_scope.
Local Notation float := PrimFloat.float.

(** ** Any format *)

Section Lengths.
  Context {prec emax : Z} {Hp : Prec_gt_0 prec} {Hm : Prec_lt_emax prec emax}.
  Notation bf := (binary_float prec emax).
  Notation zero := (@B754_zero prec emax false).
  Notation badd := (Bplus mode_NE).
  Notation bsub := (Bminus mode_NE).
  Notation bmul := (Bmult mode_NE).
  #[local] Instance nb : Num bf := BNum prec emax Hp Hm.
  #[local] Instance sb : NumSqrt bf := BSqrt prec emax Hp Hm.

  (** A possible value of the distance: the squares of the coordinate differences
      summed in some order, and the square root. *)
  Definition bchord (p q : list bf) (r : bf) : Prop :=
    exists s, bsums (Hp := Hp) (Hm := Hm) (map (fun ab => bmul (bsub (snd ab) (fst ab)) (bsub (snd ab) (fst ab))) (combine p q)) s /\ r = Bsqrt mode_NE s.
  Fixpoint bchords (rows : list (list bf)) (cs : list bf) : Prop :=
    match rows with
    | a :: ((b :: _) as rest) => match cs with r :: cs' => bchord a b r /\ bchords rest cs' | [] => False end
    | _ => cs = []
    end.
  Definition fin_row (p : list bf) : Prop := forall x, In x p -> is_finite x = true.

  Lemma row_diff_squares (p q : list bf) : map (fun x => bmul x x) (row_diff p q) =
    map (fun ab => bmul (bsub (snd ab) (fst ab)) (bsub (snd ab) (fst ab))) (combine p q).
  Proof. revert q. induction p as [|a p IH]; intros [|b q]; cbn [row_diff combine map]; try reflexivity. rewrite IH. reflexivity. Qed.
  Lemma bchord_model (p q : list bf) : bchord p q (nsqrt (vsum (map (fun x => nmul x x) (row_diff p q)))).
  Proof.
    unfold bchord. eexists. split; [|reflexivity].
    change (map (fun x => nmul x x) (row_diff p q)) with (map (fun x => bmul x x) (row_diff p q)). rewrite row_diff_squares. apply fold_right_bsums.
  Qed.
  Lemma bchords_model (rows : list (list bf)) : bchords rows (chordlen_rows rows).
  Proof.
    induction rows as [|a [|b r] IH]; [reflexivity|reflexivity|]. change (chordlen_rows (a :: b :: r)) with
      (nsqrt (vsum (map (fun x => nmul x x) (row_diff a b))) :: chordlen_rows (b :: r)). split; [apply bchord_model|exact IH].
  Qed.
  Lemma squares_swap (p q : list bf) : map (fun ab => bmul (bsub (snd ab) (fst ab)) (bsub (snd ab) (fst ab))) (combine p q) =
    map (fun ab => bmul (bsub (snd ab) (fst ab)) (bsub (snd ab) (fst ab))) (combine q p).
  Proof. revert q. induction p as [|a p IH]; intros [|b q]; cbn [combine map]; try reflexivity. cbn [fst snd]. rewrite IH. f_equal. apply bsub_swap_sq. Qed.
  Lemma bchord_swap p q r : bchord p q r <-> bchord q p r.
  Proof. unfold bchord. rewrite squares_swap. reflexivity. Qed.
  Lemma chord_swap_model (p q : list bf) : chord p q = chord q p.
  Proof.
    unfold chord. f_equal. revert q. induction p as [|a p IH]; intros [|b q]; try reflexivity. cbn [sq_gap]. rewrite IH. f_equal. apply bsub_swap_sq.
  Qed.
  Lemma chordlen_rows_rev_b (rows : list (list bf)) : chordlen_rows (rev rows) = rev (chordlen_rows rows).
  Proof.
    assert (C : forall (a b : list bf) r, chordlen_rows (a :: b :: r) = chord a b :: chordlen_rows (b :: r)) by (intros a b r; unfold chord; rewrite <- sq_gap_diff; reflexivity).
    assert (S : forall l a b, chordlen_rows (l ++ [a; b]) = chordlen_rows (l ++ [a]) ++ [chord a b]).
    { induction l as [|x [|y l] IH]; intros a b; cbn [app]; [rewrite C; reflexivity|rewrite !C; reflexivity|]. rewrite (C x y), (C x y). cbn [app] in IH. rewrite (IH a b). reflexivity. }
    induction rows as [|a [|b r] IH]; [reflexivity|reflexivity|]. change (rev (a :: b :: r)) with ((rev r ++ [b]) ++ [a]). rewrite <- app_assoc. cbn [app].
    rewrite S. change (rev r ++ [b]) with (rev (b :: r)). rewrite IH, C. cbn [rev]. rewrite (chord_swap_model b a). reflexivity.
  Qed.

  Lemma bterms_nonneg p q x : fin_row p -> fin_row q ->
    In x (map (fun ab => bmul (bsub (snd ab) (fst ab)) (bsub (snd ab) (fst ab))) (combine p q)) -> Bleb zero x = true.
  Proof.
    intros P Q I. apply in_map_iff in I as ((a, b) & <- & I). cbn [fst snd]. apply bmul_self_nonneg.
    apply (brounded_num (B2R b - B2R a)). apply bsub_rounded; [apply Q; exact (in_combine_r _ _ _ _ I)|apply P; exact (in_combine_l _ _ _ _ I)].
  Qed.
  Lemma bchord_nonneg p q r : fin_row p -> fin_row q -> bchord p q r -> Bleb zero r = true.
  Proof.
    intros P Q (s & S & ->). apply bsqrt_nonneg. refine (proj1 (bsums_nonneg _ _ S _)). intros x I. exact (bterms_nonneg p q x P Q I).
  Qed.
  Lemma bchord_self p r : fin_row p -> bchord p p r -> r = zero.
  Proof.
    intros P (s & S & ->). rewrite (bsums_zeros _ _ S); [reflexivity|]. intros x I. apply in_map_iff in I as ((a, b) & <- & I).
    apply in_combine_diag in I as (<- & I). cbn [fst snd]. rewrite bsub_self by (apply P; exact I). reflexivity.
  Qed.
  Lemma bchords_nonneg rows : (forall p, In p rows -> fin_row p) -> forall cs, bchords rows cs -> forall x, In x cs -> Bleb zero x = true.
  Proof.
    induction rows as [|a [|b r] IH]; intros F cs C x I; [cbn in C; subst; destruct I|cbn in C; subst; destruct I|].
    destruct cs as [|c cs]; [destruct C|]. destruct C as (C & Cs). destruct I as [<-|I].
    - apply (bchord_nonneg a b); [apply F; cbn; auto|apply F; cbn; auto|exact C].
    - apply (IH (fun p Ip => F p (or_intror Ip)) cs Cs x I).
  Qed.

  (** *** The rounding error *)

  (** The coordinate differences are 0 or at least 2^k in absolute value. *)
  Definition bscaled (k : Z) (p q : list bf) : Prop :=
    forall a b, In (a, b) (combine p q) -> B2R b - B2R a = 0 \/ bpow radix2 k <= Rabs (B2R b - B2R a).

  Lemma bsquare_within k a b : (4 - emax <= 2 * k)%Z -> is_finite a = true -> is_finite b = true ->
    B2R b - B2R a = 0 \/ bpow radix2 k <= Rabs (B2R b - B2R a) ->
    let d := bsub b a in is_finite (bmul d d) = true -> bwithin (prec := prec) 3 (B2R (bmul d d)) ((B2R b - B2R a) * (B2R b - B2R a)).
  Proof.
    intros Hk Fa Fb Sc d F. pose proof (bmul_fin_inv d F) as Fd. pose proof (brounded_fin _ _ (bsub_rounded b a Fb Fa) Fd) as Ed. fold d in Ed.
    destruct (brnd_sub_rel b a) as (e1 & H1 & E1). rewrite E1 in Ed. pose proof (brounded_fin _ _ (bmul_rounded d d Fd Fd) F) as E.
    set (D := B2R b - B2R a) in *. assert (Hd : B2R d * B2R d = (D * D) * (1 + e1) * (1 + e1)) by (rewrite Ed; ring).
    pose proof (bu_pos (prec := prec)) as Bu.
    assert (W2 : bwithin (prec := prec) 2 (B2R d * B2R d) (D * D)).
    { rewrite Hd. apply bwithin_step; [nra| |exact H1]. apply bwithin_step; [nra|apply bwithin_refl|exact H1]. }
    rewrite E. destruct Sc as [Z|Sc].
    - rewrite Ed, Z, !Rmult_0_l, brnd_0. unfold bwithin. rewrite !Rmult_0_l. lra.
    - assert (T : bpow radix2 (2 - emax) <= Rabs (B2R d * B2R d)).
      { rewrite Rabs_mult. assert (L : bpow radix2 (k - 1) <= Rabs (B2R d)).
        { rewrite Ed, Rabs_mult. assert (B : / 2 <= Rabs (1 + e1)).
          { assert (- bu (prec := prec) <= e1 <= bu (prec := prec)) by (revert H1; unfold Rabs; destruct (Rcase_abs e1); lra). rewrite Rabs_right by lra. lra. }
          replace (bpow radix2 (k - 1)) with (bpow radix2 k * / 2) by (unfold Z.sub; rewrite bpow_plus; cbn; lra).
          apply Rmult_le_compat; [apply bpow_ge_0|lra|exact Sc|exact B]. }
        apply Rle_trans with (bpow radix2 (k - 1) * bpow radix2 (k - 1)); [rewrite <- bpow_plus; apply bpow_le; lia|].
        apply Rmult_le_compat; try apply bpow_ge_0; exact L. }
      destruct (brnd_rel (Hp := Hp) _ T) as (e2 & H2 & E2). rewrite E2. apply bwithin_step; [nra|exact W2|exact H2].
  Qed.
  Lemma binner_sum (p q : list bf) : length p = length q ->
    inner (minus (map B2R q) (map B2R p)) (minus (map B2R q) (map B2R p)) = rsum (map (fun ab => (B2R (snd ab) - B2R (fst ab)) * (B2R (snd ab) - B2R (fst ab))) (combine p q)).
  Proof.
    revert q. induction p as [|a p IH]; intros [|b q] H; try discriminate; [reflexivity|].
    cbn [map minus inner combine rsum fold_right fst snd]. rewrite IH by (cbn in H; lia). reflexivity.
  Qed.
  Lemma bchord_error k n m p q r : (4 - emax <= 2 * k)%Z -> length p = n -> length q = n -> (1 <= n)%nat -> (n + 4 <= 2 * m)%nat -> fin_row p -> fin_row q -> bscaled k p q ->
    bchord p q r -> is_finite r = true -> bwithin (prec := prec) m (B2R r) (dist (map B2R p) (map B2R q)).
  Proof.
    intros Hk Lp Lq Hn Hmm P Q Sc (s & S & ->) F.
    assert (Ns : Bleb zero s = true) by (refine (proj1 (bsums_nonneg _ _ S _)); intros x I; exact (bterms_nonneg p q x P Q I)).
    pose proof (bsqrt_fin_inv s Ns F) as Fs. assert (Ps : 0 <= B2R s) by (apply (bleb_R zero s eq_refl Fs) in Ns; exact Ns).
    set (l := map (fun ab => (bmul (bsub (snd ab) (fst ab)) (bsub (snd ab) (fst ab)), (B2R (snd ab) - B2R (fst ab)) * (B2R (snd ab) - B2R (fst ab)))) (combine p q)).
    assert (Ll : length l = n) by (unfold l; rewrite map_length, combine_length; lia).
    replace (map _ (combine p q)) with (map fst l) in S by (unfold l; rewrite map_map; reflexivity).
    destruct (bsums_within 3 l s S Fs) as (_ & W & _).
    { intros x e I Fx. unfold l in I. apply in_map_iff in I as ((a, b) & E & I). cbn [fst snd] in E. injection E as <- <-. split; [apply Rle_0_sqr|].
      apply (bsquare_within k); [exact Hk|apply P; exact (in_combine_l _ _ _ _ I)|apply Q; exact (in_combine_r _ _ _ _ I)|exact (Sc a b I)|exact Fx]. }
    specialize (W ltac:(intros ->; cbn in Ll; lia)). rewrite Ll in W.
    replace (rsum (map snd l)) with (inner (minus (map B2R q) (map B2R p)) (minus (map B2R q) (map B2R p))) in W by (rewrite binner_sum by congruence; unfold l; rewrite map_map; reflexivity).
    set (D := dist (map B2R p) (map B2R q)). assert (HD : 0 <= D) by apply dist_nonneg.
    assert (ED : inner (minus (map B2R q) (map B2R p)) (minus (map B2R q) (map B2R p)) = D * D).
    { unfold D, dist, norm. rewrite sqrt_sqrt; [reflexivity|]. rewrite binner_sum by congruence. apply rsum_nonneg. intros y I. apply in_map_iff in I as (ab & <- & _). apply Rle_0_sqr. }
    rewrite ED in W. destruct (bsqrt_fin s Fs Ps) as (_ & E). pose proof (bu_pos (prec := prec)) as Bu.
    assert (Hr : exists e, Rabs e <= bu (prec := prec) /\ brnd (prec := prec) (emax := emax) (sqrt (B2R s)) = sqrt (B2R s) * (1 + e)).
    { destruct (Req_dec (B2R s) 0) as [Z|Z].
      - exists 0. rewrite Rabs_R0, Z, sqrt_0, brnd_0. split; lra.
      - apply brnd_rel. rewrite Rabs_right by (apply Rle_ge, sqrt_pos). pose proof (b_pos_min s Fs ltac:(lra)) as M.
        apply Rle_trans with (sqrt (bpow radix2 (2 * (2 - emax)))); [rewrite sqrt_bpow; apply Rle_refl|].
        apply sqrt_le_1_alt. eapply Rle_trans; [|exact M]. apply bpow_le. unfold Prec_lt_emax in Hm. lia. }
    destruct Hr as (e & He & Er). rewrite Er in E.
    assert (Pe : 0 <= 1 + e) by (revert He; unfold Rabs; destruct (Rcase_abs e); lra).
    assert (HDD : 0 <= D * D) by apply Rle_0_sqr.
    apply bwithin_unsq; [rewrite E; apply Rmult_le_pos; [apply sqrt_pos|exact Pe]|exact HD|].
    apply (bwithin_weaken (n + 4)); [exact HDD|lia|].
    replace (B2R (Bsqrt mode_NE s) * B2R (Bsqrt mode_NE s)) with (B2R s * (1 + e) * (1 + e)) by (rewrite E; rewrite <- (sqrt_sqrt (B2R s)) at 1 by exact Ps; ring).
    replace (n + 4)%nat with (Datatypes.S (Datatypes.S (3 + (n - 1)))) by lia.
    apply bwithin_step; [exact HDD| |exact He]. apply bwithin_step; [exact HDD|exact W|exact He].
  Qed.
  Lemma bchords_label k n m rows : (4 - emax <= 2 * k)%Z -> (1 <= n)%nat -> (n + 4 <= 2 * m)%nat -> (forall p, In p rows -> length p = n /\ fin_row p) ->
    (forall i, (S i < length rows)%nat -> bscaled k (nth i rows []) (nth (S i) rows [])) ->
    forall cs, bchords rows cs -> exists l : list (bf * R), map fst l = cs /\ rsum (map snd l) = polyline (map (map B2R) rows) /\ length l = (length rows - 1)%nat /\
      forall x e, In (x, e) l -> is_finite x = true -> 0 <= e /\ bwithin (prec := prec) m (B2R x) e.
  Proof.
    intros Hk Hn Hmm. induction rows as [|a [|b r] IH]; intros F Sc cs C.
    - exists []. cbn in C. subst. do 3 (split; [reflexivity|]). intros x e [].
    - exists []. cbn in C. subst. do 3 (split; [reflexivity|]). intros x e [].
    - destruct cs as [|c cs]; [destruct C|]. destruct C as (C & Cs).
      destruct (IH (fun p Ip => F p (or_intror Ip)) (fun i Hi => Sc (S i) ltac:(cbn in *; lia)) cs Cs) as (l & E1 & E2 & E3 & E4).
      exists ((c, dist (map B2R a) (map B2R b)) :: l). split; [cbn; rewrite E1; reflexivity|]. split.
      { cbn [map snd rsum fold_right]. fold (rsum (map snd l)). rewrite E2. reflexivity. }
      split; [cbn [length] in *; rewrite E3; lia|]. intros x e [E|I] Fx; [|exact (E4 x e I Fx)]. injection E as <- <-.
      split; [apply dist_nonneg|]. destruct (F a (or_introl eq_refl)) as (La & Fa). destruct (F b ltac:(cbn; auto)) as (Lb & Fb).
      apply (bchord_error k n m a b c Hk La Lb Hn Hmm Fa Fb); [exact (Sc 0%nat ltac:(cbn; lia))|exact C|exact Fx].
  Qed.
  Lemma blength_error k n m rows cs L : (4 - emax <= 2 * k)%Z -> (1 <= n)%nat -> (n + 4 <= 2 * m)%nat -> (2 <= length rows)%nat -> (forall p, In p rows -> length p = n /\ fin_row p) ->
    (forall i, (S i < length rows)%nat -> bscaled k (nth i rows []) (nth (S i) rows [])) ->
    bchords rows cs -> bsums (Hp := Hp) (Hm := Hm) cs L -> is_finite L = true -> bwithin (prec := prec) (m + (length rows - 2)) (B2R L) (polyline (map (map B2R) rows)).
  Proof.
    intros Hk Hn Hmm Hr F Sc C S FL. destruct (bchords_label k n m rows Hk Hn Hmm F Sc cs C) as (l & <- & E2 & E3 & E4).
    destruct (bsums_within m l L S FL E4) as (_ & W & _). rewrite E2, E3 in W. replace (length rows - 2)%nat with (length rows - 1 - 1)%nat by lia.
    apply W. intros ->. cbn in E3. lia.
  Qed.

  (** *** Cumulative sums *)

  Lemma bcumsum_from_sums (l : list bf) : forall a la, bsums (Hp := Hp) (Hm := Hm) la a -> forall i, (i < length l)%nat -> bsums (Hp := Hp) (Hm := Hm) (la ++ firstn (S i) l) (nth i (cumsum_from a l) zero).
  Proof.
    induction l as [|x l IH]; intros a la Sa i Hi; [cbn in Hi; lia|]. cbn [cumsum_from].
    assert (Sx : bsums (Hp := Hp) (Hm := Hm) (la ++ [x]) (badd a x)) by (apply (bsums_add _ la [x]); [apply Permutation_refl|exact Sa|constructor]).
    destruct i as [|i]; [exact Sx|]. cbn [firstn nth]. specialize (IH _ _ Sx i ltac:(cbn in Hi; lia)). rewrite <- app_assoc in IH. exact IH.
  Qed.
  Lemma bcumsum_sums (l : list bf) i : (i < length l)%nat -> bsums (Hp := Hp) (Hm := Hm) (firstn (S i) l) (nth i (cumsum l) zero).
  Proof.
    destruct l as [|x l]; intros Hi; [cbn in Hi; lia|]. cbn [cumsum]. destruct i as [|i]; [constructor|]. cbn [nth].
    apply (bcumsum_from_sums l x [x] (bsums_one x) i). cbn in Hi. lia.
  Qed.
  Lemma bcumsum_from_length (l : list bf) : forall a, length (cumsum_from a l) = length l.
  Proof. induction l as [|x l IH]; intros a; cbn; [reflexivity|]. rewrite IH. reflexivity. Qed.
  Lemma bcumsum_length (l : list bf) : length (cumsum l) = length l.
  Proof. destruct l; [reflexivity|]. cbn. rewrite bcumsum_from_length. reflexivity. Qed.
  Lemma bcumsum_from_step (l : list bf) : forall a i, (i < length l)%nat ->
    nth (S i) (a :: cumsum_from a l) zero = badd (nth i (a :: cumsum_from a l) zero) (nth i l zero).
  Proof.
    induction l as [|x l IH]; intros a i Hi; [cbn in Hi; lia|]. destruct i as [|i]; [reflexivity|].
    cbn [cumsum_from nth]. exact (IH (badd a x) i ltac:(cbn in Hi; lia)).
  Qed.
  Lemma badd_zero_l (x : bf) : Bleb zero x = true -> B2R (badd zero x) = B2R x.
  Proof.
    intros H. destruct (b_nonneg_cases x H) as [-> | (F & L)]; [reflexivity|].
    pose proof (badd_rounded (Hp := Hp) (Hm := Hm) zero x eq_refl F) as A. cbn [B2R] in A. rewrite Rplus_0_l in A. exact (proj2 (brounded_exact x _ F A)).
  Qed.
  (** The cumulative sums with the 0 in front. *)
  Lemma bcumsum_step (l : list bf) : forall i, (S i < length l)%nat ->
    nth (S i) (cumsum l) zero = badd (nth i (cumsum l) zero) (nth (S i) l zero).
  Proof. destruct l as [|x l]; intros i Hi; [cbn in Hi; lia|]. exact (bcumsum_from_step l x i ltac:(cbn in Hi; lia)). Qed.
  Lemma bcumsum_nonneg (l : list bf) : (forall x, In x l -> Bleb zero x = true) -> forall i, (i < length l)%nat -> Bleb zero (nth i (cumsum l) zero) = true.
  Proof.
    intros H i Hi. refine (proj1 (bsums_nonneg _ _ (bcumsum_sums l i Hi) _)). intros x I. apply H. rewrite <- (firstn_skipn (S i) l). apply in_or_app. left. exact I.
  Qed.
  Lemma bcumsum_mono (l : list bf) : (forall x, In x l -> Bleb zero x = true) -> forall i j, (i <= j)%nat -> (j < length l)%nat ->
    Bleb (nth i (cumsum l) zero) (nth j (cumsum l) zero) = true.
  Proof.
    intros H i j Hij. induction Hij as [|j Hij IH]; intros Hj; [apply bleb_refl; exact (proj2 (bleb_num _ _ (bcumsum_nonneg l H i Hj)))|].
    eapply bleb_trans; [apply IH; lia|]. rewrite bcumsum_step by exact Hj. apply badd_nonneg; [apply bcumsum_nonneg; [exact H|lia]|apply H, nth_In; exact Hj].
  Qed.
  Lemma bcumsum_rising (l : list bf) : (forall x, In x l -> Bleb zero x = true) -> (forall i, (i < length l)%nat -> is_finite (nth i (cumsum l) zero) = true) ->
    forall i, (S i < length l)%nat -> 0 < B2R (nth (S i) l zero) -> B2R (nth i (cumsum l) zero) * bpow radix2 (1 - prec) <= B2R (nth (S i) l zero) ->
    B2R (nth i (cumsum l) zero) < B2R (nth (S i) (cumsum l) zero).
  Proof.
    intros H F i Hi P Q. pose proof (F (S i) Hi) as FS. rewrite bcumsum_step in FS |- * by exact Hi.
    apply badd_gt; [exact FS| |exact P|exact Q]. pose proof (bcumsum_nonneg l H i ltac:(lia)) as N.
    apply (bleb_R zero _ eq_refl (F i ltac:(lia))) in N. exact N.
  Qed.
End Lengths.
