(** Linear interpolation, points of segments and rescaling in binary64 arithmetic. *)
From Coq Require Import PrimFloat FloatOps FloatAxioms SpecFloat.
From Coq Require Import String ZArith List Bool Arith Lia Reals Lra Psatz.
From Verif Require Import Num Py Numeric Curve Spec Vec VecFacts Geom DiffGeom Registry Interp InterpProofs InterpProofs2 FloatFacts FloatFacts2 FloatProofs FloatFacts3.
Import ListNotations.
Local Open Scope R_scope.
Local Notation float := PrimFloat.float.

(** ** Counting *)
Lemma count_ge {A} (P : A -> bool) (l : list A) m d : (m <= length l)%nat -> (forall i, (i < m)%nat -> P (nth i l d) = true) -> (m <= length (filter P l))%nat.
Proof.
  revert m. induction l as [|a l IH]; intros [|m] L H; cbn [length filter] in *; try lia.
  pose proof (H 0%nat ltac:(lia)) as H0. cbn [nth] in H0. rewrite H0. cbn [length]. apply le_n_S, IH; [lia|]. intros i Hi. apply (H (S i)). lia.
Qed.
Lemma count_le {A} (P : A -> bool) (l : list A) m d : (forall i, (m <= i < length l)%nat -> P (nth i l d) = false) -> (length (filter P l) <= m)%nat.
Proof.
  revert m. induction l as [|a l IH]; intros m H; cbn [length filter] in *; [lia|]. destruct m as [|m].
  - pose proof (H 0%nat ltac:(lia)) as H0. cbn [nth] in H0. rewrite H0. apply (IH 0%nat). intros i Hi. apply (H (S i)). lia.
  - destruct (P a); cbn [length]; [apply le_n_S|apply le_S]; apply IH; intros i Hi; apply (H (S i)); lia.
Qed.

(** ** Rising parameters *)
Definition rising (xs : list float) : Prop := (forall x, In x xs -> ffin x) /\ forall i, (S i < length xs)%nat -> FR (nth i xs 0%float) < FR (nth (S i) xs 0%float).
Lemma rising_lt xs i j : rising xs -> (i < j)%nat -> (j < length xs)%nat -> FR (nth i xs 0%float) < FR (nth j xs 0%float).
Proof.
  intros [_ H] L Hj. induction j as [|j IH]; [lia|]. destruct (Nat.eq_dec i j) as [->|]; [apply H; exact Hj|].
  apply Rlt_trans with (FR (nth j xs 0%float)); [apply IH; lia|apply H; exact Hj].
Qed.
Lemma rising_fin xs i : rising xs -> (i < length xs)%nat -> ffin (nth i xs 0%float).
Proof. intros [F _] H. apply F, nth_In, H. Qed.
Lemma lt_nan_fin x y : ffin x -> ffin y -> lt_nan x y = true <-> FR x < FR y.
Proof.
  intros Fx Fy. pose proof (ffin_num y Fy) as Ny. unfold lt_nan. change (nltb x y) with (PrimFloat.ltb x y). change (nisnan y) with (PrimFloat.is_nan y).
  unfold fnum in Ny. rewrite Ny. cbn [andb]. rewrite orb_false_r. apply ltb_R; assumption.
Qed.
Lemma lt_nan_fin_false x y : ffin x -> ffin y -> FR y <= FR x -> lt_nan x y = false.
Proof. intros Fx Fy H. apply not_true_is_false. rewrite lt_nan_fin by assumption. lra. Qed.

Lemma bracket xs v k : rising xs -> ffin v -> (S k < length xs)%nat -> (k = 0%nat \/ FR (nth k xs 0%float) < FR v) ->
  (S (S k) = length xs \/ FR v <= FR (nth (S k) xs 0%float)) -> Nat.max 1 (Nat.min (searchsorted xs v) (length xs - 1)) = S k.
Proof.
  intros Rs Fv Hk Hl Hr. unfold searchsorted. set (P := fun x => lt_nan x v).
  assert (A : k = 0%nat \/ (S k <= length (filter P xs))%nat).
  { destruct Hl as [->|Hl]; [left; reflexivity|right]. apply (count_ge P xs (S k) 0%float); [lia|]. intros i Hi. unfold P. apply lt_nan_fin; [apply rising_fin; [exact Rs|lia]|exact Fv|].
    destruct (Nat.eq_dec i k) as [->|]; [exact Hl|]. apply Rlt_trans with (FR (nth k xs 0%float)); [apply rising_lt; [exact Rs|lia|lia]|exact Hl]. }
  assert (B : S (S k) = length xs \/ (length (filter P xs) <= S k)%nat).
  { destruct Hr as [Hr|Hr]; [left; exact Hr|right]. apply (count_le P xs (S k) 0%float). intros i Hi. unfold P. apply lt_nan_fin_false; [apply rising_fin; [exact Rs|lia]|exact Fv|].
    destruct (Nat.eq_dec i (S k)) as [->|]; [exact Hr|]. apply Rle_trans with (FR (nth (S k) xs 0%float)); [exact Hr|]. left. apply rising_lt; [exact Rs|lia|lia]. }
  lia.
Qed.

(** ** Sorting the samples *)
Lemma insert_last {Y} (p : float * Y) l : (forall q, In q l -> lt_nan (fst p) (fst q) = false) -> insert_sample p l = l ++ [p].
Proof. induction l as [|q l IH]; intros H; [reflexivity|]. cbn [insert_sample]. rewrite H by (left; reflexivity). rewrite IH; [reflexivity|]. intros x Hx. apply H. right. exact Hx. Qed.
Lemma sort_rising {Y} (l : list (float * Y)) : rising (map fst l) -> sort_samples l = l.
Proof.
  intros Rs. unfold sort_samples.
  assert (G : forall a b, l = a ++ b -> fold_left (fun acc p => insert_sample p acc) b a = l).
  { intros a b. revert a. induction b as [|p b IH]; intros a E; [rewrite app_nil_r in E; symmetry; exact E|]. cbn [fold_left].
    rewrite insert_last; [apply IH; rewrite <- app_assoc; exact E|]. intros q Hq. apply In_nth with (d := q) in Hq as (i & Hi & Eq).
    assert (Lp : (length a < length l)%nat) by (rewrite E, app_length; cbn; lia).
    assert (Ni : nth i (map fst l) 0%float = fst q). { rewrite (nth_indep _ _ (fst q)) by (rewrite map_length; lia). rewrite map_nth, E, app_nth1 by exact Hi. f_equal. exact Eq. }
    assert (Np : nth (length a) (map fst l) 0%float = fst p). { rewrite (nth_indep _ _ (fst p)) by (rewrite map_length; exact Lp). rewrite map_nth, E, app_nth2, Nat.sub_diag by lia. reflexivity. }
    apply lt_nan_fin_false; [rewrite <- Np; apply rising_fin; [exact Rs|rewrite map_length; exact Lp]|rewrite <- Ni; apply rising_fin; [exact Rs|rewrite map_length; lia]|].
    rewrite <- Np, <- Ni. left. apply rising_lt; [exact Rs|exact Hi|rewrite map_length; exact Lp]. }
  apply (G [] l). reflexivity.
Qed.
Lemma interp1d_rising few (xs : list float) ys : rising xs -> length ys = length xs -> (2 <= length xs)%nat ->
  interp1d few xs ys = Ok (fun v => Ok (interp_at xs ys v)).
Proof.
  intros Rs L H. unfold interp1d. rewrite L, Nat.eqb_refl. cbn [negb]. destruct (Nat.ltb_spec (length xs) 2); [lia|].
  rewrite sort_rising by (rewrite combine_fst by congruence; exact Rs). rewrite combine_fst, combine_snd by congruence. reflexivity.
Qed.

(** ** One value *)
Lemma nth_map2 {A B C} (f : A -> B -> C) u v j da db dc : (j < length u)%nat -> (j < length v)%nat -> nth j (map2 f u v) dc = f (nth j u da) (nth j v db).
Proof. revert v j. induction u as [|a u IH]; intros [|b v] [|j] H1 H2; cbn in *; try lia; [reflexivity|]. apply IH; lia. Qed.
Lemma length_map2 {A B C} (f : A -> B -> C) u v n : length u = n -> length v = n -> length (map2 f u v) = n.
Proof. revert v n. induction u as [|a u IH]; intros [|b v] n H1 H2; cbn in *; try lia. destruct n; [lia|]. f_equal. apply IH; lia. Qed.

Lemma interp_at_len {T} {NT : Num T} n (xs : list T) ys v : length ys = length xs -> (forall r, In r ys -> length r = n) -> (2 <= length xs)%nat -> length (interp_at xs ys v) = n.
Proof. intros L D H. unfold interp_at. apply length_map2; apply D, nth_In; lia. Qed.

(** The line through two samples, as computed. *)
Definition line (xl xh yl yh v : float) : float :=
  PrimFloat.add (PrimFloat.mul (PrimFloat.div (PrimFloat.sub yh yl) (PrimFloat.sub xh xl)) (PrimFloat.sub v xl)) yl.
Lemma interp_at_nth n xs ys v k j : rising xs -> length ys = length xs -> (forall r, In r ys -> length r = n) -> ffin v -> (S k < length xs)%nat ->
  (k = 0%nat \/ FR (nth k xs 0%float) < FR v) -> (S (S k) = length xs \/ FR v <= FR (nth (S k) xs 0%float)) -> (j < n)%nat ->
  nth j (interp_at xs ys v) 0%float = line (nth k xs 0%float) (nth (S k) xs 0%float) (nth j (nth k ys []) 0%float) (nth j (nth (S k) ys []) 0%float) v.
Proof.
  intros Rs L D Fv Hk Hl Hr Hj. unfold interp_at. rewrite (bracket xs v k Rs Fv Hk Hl Hr). replace (S k - 1)%nat with k by lia.
  rewrite (nth_map2 _ _ _ j 0%float 0%float 0%float); [reflexivity| |]; rewrite D by (apply nth_In; lia); exact Hj.
Qed.

Lemma line_parts xl xh yl yh v : ffin (PrimFloat.sub xh xl) -> ffin (line xl xh yl yh v) ->
  ffin (PrimFloat.div (PrimFloat.sub yh yl) (PrimFloat.sub xh xl)) /\ ffin (PrimFloat.sub yh yl) /\ ffin (PrimFloat.sub v xl) /\ FR (PrimFloat.sub xh xl) <> 0.
Proof.
  intros Fh F. destruct (line_fin _ _ _ F) as (Fm & Fs & Fw & Fy). destruct (div_fin_inv _ _ Fs Fh) as [Fd Nz]. auto.
Qed.

Lemma line_err xl xh yl yh v : FR xl <= FR v <= FR xh -> FR xl < FR xh -> ffin (PrimFloat.sub xh xl) -> ffin (line xl xh yl yh v) ->
  Rabs (FR (line xl xh yl yh v) - (FR yl + (FR v - FR xl) / (FR xh - FR xl) * (FR yh - FR yl)))
    <= 8 * uro * (Rabs (FR yl) + Rabs (FR yh)) + 2 * eta * (1 + (FR xh - FR xl)).
Proof.
  intros Hv Hx Fh F. destruct (line_parts _ _ _ _ _ Fh F) as (Fs & Fd & Fw & Nz). unfold line in *.
  set (d := PrimFloat.sub yh yl) in *. set (h1 := PrimFloat.sub xh xl) in *. set (w := PrimFloat.sub v xl) in *. set (s := PrimFloat.div d h1) in *.
  destruct (line_fin _ _ _ F) as (Fm & _ & _ & Fy). set (m := PrimFloat.mul s w) in *.
  pose proof (sub_R _ _ Fd : FR d = _) as Ed. pose proof (sub_R _ _ Fh : FR h1 = _) as Eh. pose proof (sub_R _ _ Fw : FR w = _) as Ew.
  pose proof (div_R _ _ Fs Fh : FR s = _) as Es. pose proof (mul_R _ _ Fm : FR m = _) as Em. pose proof (add_R _ _ F) as Er.
  destruct (rnd_sub_rel yh yl) as (e1 & H1 & E1). destruct (rnd_sub_rel xh xl) as (e2 & H2 & E2). destruct (rnd_sub_rel v xl) as (e4 & H4 & E4).
  destruct (rnd_err (FR d / FR h1)) as (e3 & t1 & H3 & T1 & E3). destruct (rnd_err (FR s * FR w)) as (e5 & t2 & H5 & T2 & E5).
  destruct (rnd_add_rel m yl) as (e6 & H6 & E6).
  rewrite Er, E6, Em, E5, Es, E3, Ed, Eh, Ew, E1, E2, E4.
  apply line_error; try assumption; [lra|lra| |].
  - unfold Rminus. eapply Rle_trans; [apply Rabs_triang|]. rewrite Rabs_Ropp. lra.
  - assert (Hq : 0 <= (FR v - FR xl) / (FR xh - FR xl) <= 1).
    { split; [apply Rmult_le_pos; [lra|left; apply Rinv_0_lt_compat; lra]|]. apply Rmult_le_reg_r with (FR xh - FR xl); [lra|]. unfold Rdiv. rewrite Rmult_assoc, Rinv_l by lra. lra. }
    set (q := (FR v - FR xl) / (FR xh - FR xl)) in *. replace (FR yl + q * (FR yh - FR yl)) with ((1 - q) * FR yl + q * FR yh) by ring.
    eapply Rle_trans; [apply Rabs_triang|]. rewrite !Rabs_mult, (Rabs_pos_eq q), (Rabs_pos_eq (1 - q)) by lra.
    pose proof (Rabs_pos (FR yl)). pose proof (Rabs_pos (FR yh)). nra.
Qed.

(** Monotone on each piece. *)
Lemma line_mono xl xh yl yh v v' : FR v <= FR v' -> ffin v -> ffin v' -> ffin (line xl xh yl yh v) -> ffin (line xl xh yl yh v') ->
  (0 <= FR (PrimFloat.div (PrimFloat.sub yh yl) (PrimFloat.sub xh xl)) -> FR (line xl xh yl yh v) <= FR (line xl xh yl yh v')) /\
  (FR (PrimFloat.div (PrimFloat.sub yh yl) (PrimFloat.sub xh xl)) <= 0 -> FR (line xl xh yl yh v') <= FR (line xl xh yl yh v)).
Proof.
  intros H Fv Fv' F F'. unfold line in *. set (s := PrimFloat.div _ _) in *. rewrite (line_R _ _ _ F), (line_R _ _ _ F').
  destruct (line_fin _ _ _ F) as (_ & Fs & Fw & _). destruct (line_fin _ _ _ F') as (_ & _ & Fw' & _).
  assert (W : FR (PrimFloat.sub v xl) <= FR (PrimFloat.sub v' xl)) by (rewrite !sub_R by assumption; apply rnd_le; lra).
  split; intros S; apply rnd_le, Rplus_le_compat_r, rnd_le; nra.
Qed.
Lemma slope_sign xl xh yl yh : FR xl < FR xh -> ffin (PrimFloat.sub xh xl) -> ffin (PrimFloat.div (PrimFloat.sub yh yl) (PrimFloat.sub xh xl)) ->
  (FR yl <= FR yh -> 0 <= FR (PrimFloat.div (PrimFloat.sub yh yl) (PrimFloat.sub xh xl))) /\
  (FR yh <= FR yl -> FR (PrimFloat.div (PrimFloat.sub yh yl) (PrimFloat.sub xh xl)) <= 0).
Proof.
  intros Hx Fh Fs. destruct (div_fin_inv _ _ Fs Fh) as [Fd Nz]. pose proof (sub_pos _ _ Fh Hx) as P.
  assert (Pi : 0 < / FR (PrimFloat.sub xh xl)) by (apply Rinv_0_lt_compat; exact P).
  rewrite (div_R _ _ Fs Fh), (sub_R _ _ Fd). split; intros H; rewrite <- rnd_0; apply rnd_le; unfold Rdiv.
  - assert (0 <= rnd (FR yh - FR yl)) by (rewrite <- rnd_0; apply rnd_le; lra). nra.
  - assert (rnd (FR yh - FR yl) <= 0) by (rewrite <- rnd_0; apply rnd_le; lra). nra.
Qed.
Lemma line_start xl xh yl yh v : ffin (line xl xh yl yh v) -> FR v = FR xl -> FR (line xl xh yl yh v) = FR yl.
Proof.
  intros F E. unfold line in *. destruct (line_fin _ _ _ F) as (_ & _ & Fw & _). rewrite (line_R _ _ _ F), sub_R by exact Fw.
  rewrite E. unfold Rminus. rewrite Rplus_opp_r, rnd_0, Rmult_0_r, rnd_0, Rplus_0_l. apply rnd_FR.
Qed.
Lemma line_const xl xh yl yh v : FR xl <> FR xh -> ffin (PrimFloat.sub xh xl) -> ffin (line xl xh yl yh v) -> FR yl = FR yh -> FR (line xl xh yl yh v) = FR yl.
Proof.
  intros N Fh F E. destruct (line_parts _ _ _ _ _ Fh F) as (Fs & Fd & Fw & Nz). unfold line in *. rewrite (line_R _ _ _ F), (div_R _ _ Fs Fh), (sub_R _ _ Fd).
  rewrite E. unfold Rminus at 1. rewrite Rplus_opp_r, rnd_0. unfold Rdiv. rewrite Rmult_0_l, rnd_0, Rmult_0_l, rnd_0, Rplus_0_l, <- E. apply rnd_FR.
Qed.

(** ** The interpolator on a curve *)
Lemma linear_rising junk few (r : registry (icreate float)) name (c : curve float) s g :
  wf c -> (2 <= c_size c)%nat -> rising (c_tval junk c) -> length (c_tval junk c) = c_size c -> c_dtype c = DFloat ->
  reg_find r name = Some (linear junk few) -> get_grid junk few c s = Ok g -> g <> [] ->
  interpolate junk few r name c s = Ok (mkCurve (map (interp_at (c_tval junk c) (c_rows c)) g) (c_ndim c) DFloat (if isparametric c then Some g else None)).
Proof.
  intros W H Rs L Dt F G N. unfold interpolate, get_interpolator. rewrite F. unfold linear.
  rewrite interp1d_rising by (assumption || (unfold c_size in *; lia)). cbn [rbind].
  unfold interp_call. assert (Bc : c_bool c = true).
  { unfold c_bool, c_size in *. destruct W as (W1 & _). destruct (Nat.eqb_spec (length (c_rows c)) 0); [lia|]. destruct (Nat.eqb_spec (c_ndim c) 0); [lia|]. reflexivity. }
  rewrite Bc. cbn [negb]. destruct (Nat.eqb_spec (c_size c) 1); [lia|]. rewrite G. cbn [rbind]. rewrite rseq_map_ok. cbn [rbind]. cbv zeta.
  set (rows := map (interp_at (c_tval junk c) (c_rows c)) g).
  assert (Lr : length rows = length g) by apply map_length.
  assert (Nr : rows <> []) by (intros E; rewrite E in Lr; destruct g; [contradiction|discriminate]).
  assert (Hn : (2 <= c_ndim c)%nat) by apply W.
  assert (D : forall p, In p rows -> length p = c_ndim c).
  { intros p Hp. apply in_map_iff in Hp as (v & <- & _). apply interp_at_len; [unfold c_size in L; congruence|apply W|unfold c_size in *; lia]. }
  assert (Cm : map (map (cast DFloat)) rows = rows).
  { rewrite <- (map_id rows) at 2. apply map_ext. intros p. rewrite <- (map_id p) at 2. apply map_ext. reflexivity. }
  rewrite Dt. destruct (isparametric c).
  - change (Some (mkNd [length g] g)) with (option_map (fun t : list float => mkNd [length t] t) (Some g)).
    rewrite <- Lr at 1. rewrite curve_init_cast by assumption. rewrite Lr, Nat.eqb_refl, Cm. reflexivity.
  - rewrite <- Lr. rewrite (curve_init_cast rows (c_ndim c) None DFloat Nr Hn D : curve_init _ None None None _ = _). rewrite Cm. reflexivity.
Qed.

Lemma get_grid_ne {T} {NT : Num T} {ST : NumSqrt T} {RT : NumRound T} junk few (c : curve T) s g : get_grid junk few c s = Ok g -> g <> [].
Proof.
  unfold get_grid. destruct (match s with SGrid _ => _ | _ => _ end) as [d|]; [|discriminate]. cbn [rbind]. destruct d; try discriminate.
  unfold check_grid. destruct (_ || _); [discriminate|]. destruct l; [discriminate|]. cbn [np_min rbind]. intros E. injection E as <-. discriminate.
Qed.

(** ** Points of a segment *)
Definition seg_coord (a b t : float) : float := PrimFloat.add a (PrimFloat.mul (PrimFloat.sub b a) t).
Lemma sg_point_nth (s : segment float) t j : length (sg_p1 s) = length (sg_p2 s) -> (j < length (sg_p1 s))%nat ->
  nth j (sg_point s t) 0%float = seg_coord (nth j (sg_p1 s) 0%float) (nth j (sg_p2 s) 0%float) t.
Proof.
  intros L H. unfold sg_point, sg_dir, vadd, vscale, vsub. rewrite (nth_map2 _ _ _ j 0%float 0%float); [|exact H|rewrite map_length, (length_map2 _ _ _ (length (sg_p1 s))) by congruence; exact H].
  rewrite (nth_indep (map _ _) 0%float (nmul (0%float : float) t)) by (rewrite map_length, (length_map2 _ _ _ (length (sg_p1 s))) by congruence; exact H). rewrite (map_nth (fun x => nmul x t)).
  rewrite (nth_map2 _ _ _ j 0%float 0%float) by congruence. reflexivity.
Qed.
Lemma seg_fin a b t : ffin (seg_coord a b t) -> ffin a /\ ffin b /\ ffin t /\ ffin (PrimFloat.sub b a) /\ ffin (PrimFloat.mul (PrimFloat.sub b a) t).
Proof. intros F. destruct (add_fin_inv _ _ F) as [Fa Fm]. destruct (mul_fin_inv _ _ Fm) as [Fd Ft]. destruct (sub_fin_inv _ _ Fd). auto. Qed.
Lemma seg_R a b t : ffin (seg_coord a b t) -> FR (seg_coord a b t) = rnd (FR a + rnd (rnd (FR b - FR a) * FR t)).
Proof. intros F. destruct (seg_fin _ _ _ F) as (Fa & Fb & Ft & Fd & Fm). unfold seg_coord in *. rewrite add_R, mul_R, sub_R by assumption. reflexivity. Qed.
Lemma seg_mono a b t t' : ffin (seg_coord a b t) -> ffin (seg_coord a b t') -> FR t <= FR t' ->
  (FR a <= FR b -> FR (seg_coord a b t) <= FR (seg_coord a b t')) /\ (FR b <= FR a -> FR (seg_coord a b t') <= FR (seg_coord a b t)).
Proof.
  intros F F' H. rewrite !seg_R by assumption. split; intros S; apply rnd_le, Rplus_le_compat_l, rnd_le.
  - assert (0 <= rnd (FR b - FR a)) by (rewrite <- rnd_0; apply rnd_le; lra). nra.
  - assert (rnd (FR b - FR a) <= 0) by (rewrite <- rnd_0; apply rnd_le; lra). nra.
Qed.
Lemma seg_start a b t : ffin (seg_coord a b t) -> FR t = 0 -> FR (seg_coord a b t) = FR a.
Proof. intros F E. rewrite seg_R, E, Rmult_0_r, rnd_0, Rplus_0_r by exact F. apply rnd_FR. Qed.
Lemma seg_err a b t : ffin (seg_coord a b t) -> 0 <= FR t <= 1 ->
  Rabs (FR (seg_coord a b t) - (FR a + FR t * (FR b - FR a))) <= 4 * uro * (Rabs (FR a) + Rabs (FR b)) + 2 * eta.
Proof.
  intros F Ht. destruct (seg_fin _ _ _ F) as (Fa & Fb & Ft & Fd & Fm). unfold seg_coord in *.
  set (d := PrimFloat.sub b a) in *. set (m := PrimFloat.mul d t) in *.
  pose proof (sub_R _ _ Fd : FR d = _) as Ed. pose proof (mul_R _ _ Fm : FR m = _) as Em. rewrite (add_R _ _ F).
  destruct (rnd_sub_rel b a) as (e1 & H1 & E1). destruct (rnd_err (FR d * FR t)) as (e2 & t2 & H2 & T2 & E2). destruct (rnd_add_rel a m) as (e3 & H3 & E3).
  rewrite E3, Em, E2, Ed, E1. set (q := FR t * (FR b - FR a)). set (A := Rabs (FR a) + Rabs (FR b)).
  pose proof uro_pos as U. pose proof eta_pos as Et. assert (Us : uro <= / 1000) by (unfold uro; apply Rinv_le_contravar; lra).
  pose proof (Rabs_pos (FR a)). pose proof (Rabs_pos (FR b)). assert (A0 : 0 <= A) by (unfold A; lra).
  assert (Hq : Rabs q <= A).
  { unfold q. rewrite Rabs_mult, (Rabs_pos_eq (FR t)) by lra. assert (Rabs (FR b - FR a) <= A) by (unfold A, Rminus; eapply Rle_trans; [apply Rabs_triang|]; rewrite Rabs_Ropp; lra).
    pose proof (Rabs_pos (FR b - FR a)). nra. }
  assert (Hx : Rabs (FR a + q) <= A).
  { unfold q, A. replace (FR a + FR t * (FR b - FR a)) with ((1 - FR t) * FR a + FR t * FR b) by ring.
    eapply Rle_trans; [apply Rabs_triang|]. rewrite !Rabs_mult, (Rabs_pos_eq (FR t)), (Rabs_pos_eq (1 - FR t)) by lra. nra. }
  apply Rabs_bounds in H1, H2, H3, T2.
  set (th := (1 + e1) * (1 + e2) - 1). assert (Hth : Rabs th <= 21 / 10 * uro) by (apply Rabs_of; unfold th; nra).
  replace ((FR a + ((FR b - FR a) * (1 + e1) * FR t * (1 + e2) + t2)) * (1 + e3) - (FR a + q)) with ((q * th + t2) * (1 + e3) + (FR a + q) * e3) by (unfold q, th; ring).
  assert (B1 : Rabs (q * th + t2) <= 21 / 10 * uro * A + eta).
  { eapply Rle_trans; [apply Rabs_triang|]. apply Rplus_le_compat; [|apply Rabs_of; lra]. rewrite Rabs_mult. pose proof (Rabs_pos q). pose proof (Rabs_pos th). nra. }
  eapply Rle_trans; [apply Rabs_triang|]. rewrite !Rabs_mult, (Rabs_pos_eq (1 + e3)) by lra.
  assert (B2 : Rabs (FR a + q) * Rabs e3 <= A * uro). { assert (Rabs e3 <= uro) by (apply Rabs_of; lra). pose proof (Rabs_pos e3). pose proof (Rabs_pos (FR a + q)). nra. }
  assert (B3 : Rabs (q * th + t2) * (1 + e3) <= (21 / 10 * uro * A + eta) * (1 + uro)) by (pose proof (Rabs_pos (q * th + t2)); apply Rmult_le_compat; lra).
  assert (0 <= uro * A) by nra. assert (uro * (uro * A) <= / 1000 * (uro * A)) by nra. assert (uro * eta <= / 1000 * eta) by nra. lra.
Qed.

(** ** linrescale *)
Definition rescaled (lo hi olo ohi x : float) : float :=
  PrimFloat.add (PrimFloat.mul (PrimFloat.div (PrimFloat.sub x lo) (PrimFloat.sub hi lo)) (PrimFloat.sub ohi olo)) olo.
Lemma linrescale_map l lo hi olo ohi : linrescale l (lo, hi) (olo, ohi) = map (rescaled lo hi olo ohi) l.
Proof. unfold linrescale. rewrite map_map. reflexivity. Qed.
Section Rescale.
  Variables lo hi olo ohi : float.
  Hypotheses (Fl : ffin lo) (Fh : ffin hi) (Fd : ffin (PrimFloat.sub hi lo)) (Fo : ffin (PrimFloat.sub ohi olo)) (Hlh : FR lo < FR hi).
  Lemma quot_fin x : ffin x -> FR lo <= FR x <= FR hi -> ffin (PrimFloat.sub x lo) /\ ffin (PrimFloat.div (PrimFloat.sub x lo) (PrimFloat.sub hi lo)) /\
    0 <= FR (PrimFloat.div (PrimFloat.sub x lo) (PrimFloat.sub hi lo)) <= 1.
  Proof.
    intros Fx Hx. pose proof (sub_pos _ _ Fd Hlh) as P.
    pose proof (sub_rounded x lo Fx Fl) as Rx. pose proof (sub_rounded hi lo Fh Fl) as Rh.
    assert (L0 : PrimFloat.leb 0 (PrimFloat.sub x lo) = true) by (apply (rounded_nonneg _ _ Rx); lra).
    assert (L1 : PrimFloat.leb (PrimFloat.sub x lo) (PrimFloat.sub hi lo) = true) by (apply (rounded_le _ _ _ _ Rx Rh); lra).
    destruct (nonneg_cases _ L0) as [E|(Fs & Ps)]; [rewrite E, inf_leb_fin in L1 by exact Fd; discriminate|].
    apply leb_R in L1; [|exact Fs|exact Fd]. split; [exact Fs|].
    destruct (rounded_between PrimFloat.zero PrimFloat.one _ _ ffin_0 ffin_1 (div_rounded (PrimFloat.sub x lo) (PrimFloat.sub hi lo) Fs Fd ltac:(lra))) as (Fq & B).
    { rewrite FR_0, FR_1. split; [apply Rmult_le_pos; [exact Ps|left; apply Rinv_0_lt_compat; exact P]|]. apply Rmult_le_reg_r with (FR (PrimFloat.sub hi lo)); [exact P|]. unfold Rdiv. rewrite Rmult_assoc, Rinv_l by lra. lra. }
    rewrite FR_0, FR_1 in B. split; [exact Fq|exact B].
  Qed.
  Lemma rescaled_R x : ffin x -> FR lo <= FR x <= FR hi -> ffin olo -> FR olo <= FR ohi ->
    rounded (rnd (FR (PrimFloat.div (PrimFloat.sub x lo) (PrimFloat.sub hi lo)) * rnd (FR ohi - FR olo)) + FR olo) (rescaled lo hi olo ohi x).
  Proof.
    intros Fx Hx Fol Ho. destruct (quot_fin x Fx Hx) as (Fs & Fq & B). set (q := PrimFloat.div _ _) in *. pose proof (sub_sign _ _ Fo Ho) as Pd.
    destruct (rounded_between PrimFloat.zero (PrimFloat.sub ohi olo) _ _ ffin_0 Fo (mul_rounded q (PrimFloat.sub ohi olo) Fq Fo)) as (Fm & _); [rewrite FR_0; nra|].
    pose proof (add_rounded _ _ Fm Fol) as R. rewrite (mul_R _ _ Fm), (sub_R _ _ Fo) in R. exact R.
  Qed.
End Rescale.

Lemma quot_mono lo hi x y : ffin lo -> ffin hi -> ffin (PrimFloat.sub hi lo) -> FR lo < FR hi -> ffin x -> ffin y -> FR lo <= FR x -> FR x <= FR y -> FR y <= FR hi ->
  FR (PrimFloat.div (PrimFloat.sub x lo) (PrimFloat.sub hi lo)) <= FR (PrimFloat.div (PrimFloat.sub y lo) (PrimFloat.sub hi lo)).
Proof.
  intros Fl Fh Fd H Fx Fy H1 H2 H3. destruct (quot_fin lo hi Fl Fh Fd H x Fx ltac:(lra)) as (Fsx & Fqx & _). destruct (quot_fin lo hi Fl Fh Fd H y Fy ltac:(lra)) as (Fsy & Fqy & _).
  rewrite !div_R, !sub_R by assumption. apply rnd_le. pose proof (sub_pos _ _ Fd H) as P. rewrite sub_R in P by exact Fd.
  apply Rmult_le_compat_r; [left; apply Rinv_0_lt_compat; exact P|]. apply rnd_le. lra.
Qed.
Lemma quot_ends lo hi : ffin lo -> ffin hi -> ffin (PrimFloat.sub hi lo) -> FR lo < FR hi ->
  FR (PrimFloat.div (PrimFloat.sub lo lo) (PrimFloat.sub hi lo)) = 0 /\ FR (PrimFloat.div (PrimFloat.sub hi lo) (PrimFloat.sub hi lo)) = 1.
Proof.
  intros Fl Fh Fd H. destruct (quot_fin lo hi Fl Fh Fd H lo Fl ltac:(lra)) as (Fs & Fq & _). destruct (quot_fin lo hi Fl Fh Fd H hi Fh ltac:(lra)) as (Fs' & Fq' & _).
  pose proof (sub_pos _ _ Fd H) as P. rewrite (div_R _ _ Fq Fd), (div_R _ _ Fq' Fd). split.
  - rewrite (sub_R lo lo Fs). unfold Rminus. rewrite Rplus_opp_r, rnd_0. unfold Rdiv. rewrite Rmult_0_l. apply rnd_0.
  - unfold Rdiv. rewrite Rinv_r by lra. rewrite <- FR_1. apply rnd_FR.
Qed.
