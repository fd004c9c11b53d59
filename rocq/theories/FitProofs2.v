(** The interpolating spline: knots, the linear system, existence. *)
From Coq Require Import ZArith List Bool Arith Lia Reals Lra Psatz.
From Coquelicot Require Import Hierarchy Derive Continuity.
From Verif Require Import Num Py Numeric Curve Vec Csaps Registry Interp Splines Savgol FitSpline Spec.
From Verif Require Import ListFacts VecFacts CurveProofs3 CurvesProofs SmoothProofs InterpProofs CsapsProofs SavgolProofs SavgolProofs2 FitProofs.
Import ListNotations.
Local Open Scope list_scope.
Local Open Scope R_scope.

(** ** Linear algebra *)

(** m equations in more than m unknowns. *)
Lemma dependent m : forall rows : list (list R), length rows = m -> (forall r, In r rows -> length r = S m) ->
  exists x, length x = S m /\ (exists i, nth i x 0 <> 0) /\ forall r, In r rows -> vdot r x = 0.
Proof.
  induction m as [|m IH]; intros rows L H.
  - exists [1]. split; [reflexivity|]. split; [exists 0%nat; cbn; lra|]. destruct rows; [intros r []|discriminate].
  - destruct (Classical_Prop.classic (exists r, In r rows /\ nth 0 r 0 <> 0)) as [(r & I & N)|Z].
    + destruct (in_split r rows I) as (l1 & l2 & E). assert (Lr := H r I). destruct r as [|p r]; [discriminate|]. cbn [nth] in N.
      destruct (IH (map (rsub p r) (l1 ++ l2))) as (y & Ly & (i & Hi) & Hy).
      * rewrite map_length, app_length. rewrite E, app_length in L. cbn [length] in L. lia.
      * intros q' Hq. apply in_map_iff in Hq as (q & <- & Hq). assert (Lq : length q = S (S m)).
        { apply H. rewrite E. apply in_app_or in Hq. apply in_or_app. destruct Hq; [left|right; right]; assumption. }
        destruct q as [|c q]; [discriminate|]. cbn [rsub]. rewrite map2_length. cbn [length] in *. lia.
      * exists ((- (vdot r y / p)) :: y). split; [cbn; lia|]. split; [exists (S i); exact Hi|].
        intros q Hq. rewrite E in Hq. apply in_app_or in Hq. destruct Hq as [Hq|[<-|Hq]].
        -- rewrite <- (rsub_vdot m) by (cbn in Lr; try lia; try assumption; apply H; rewrite E; apply in_or_app; left; assumption).
           apply Hy. apply in_map, in_or_app. left. assumption.
        -- rewrite vdot_cons. field. assumption.
        -- rewrite <- (rsub_vdot m) by (cbn in Lr; try lia; try assumption; apply H; rewrite E; apply in_or_app; right; right; assumption).
           apply Hy. apply in_map, in_or_app. right. assumption.
    + exists (1 :: repeat 0 (S m)). split; [cbn; rewrite repeat_length; reflexivity|]. split; [exists 0%nat; cbn; lra|].
      intros r I. destruct r as [|p r]; [reflexivity|]. rewrite vdot_cons, vdot_zero_r.
      assert (p = 0); [|subst; ring]. destruct (Req_dec p 0) as [|N]; [assumption|]. exfalso. apply Z. exists (p :: r). split; assumption.
Qed.

Definition matvec (a : list (list R)) (x : list R) : list R := map (fun r => vdot r x) a.
Definition injective (n : nat) (a : list (list R)) : Prop :=
  forall x, length x = n -> (forall r, In r a -> vdot r x = 0) -> forall i, nth i x 0 = 0.

Lemma vdot_snoc (u v : list R) a b : length u = length v -> vdot (u ++ [a]) (v ++ [b]) = vdot u v + a * b.
Proof.
  revert v. induction u as [|x u IH]; intros [|y v] L; try discriminate L; cbn [app]; rewrite ?vdot_cons.
  - cbn. ring.
  - rewrite IH by (cbn in L; lia). ring.
Qed.
Lemma snoc_split (x : list R) n : length x = S n -> exists y t, x = y ++ [t] /\ length y = n.
Proof.
  intros L. destruct (exists_last (l := x)) as (y & t & ->); [destruct x; [discriminate|discriminate]|].
  exists y, t. split; [reflexivity|]. rewrite app_length in L. cbn in L. lia.
Qed.

(** An injective square matrix takes every value. *)
Lemma square_onto n (a : list (list R)) (b : list R) : length a = n -> (forall r, In r a -> length r = n) -> length b = n ->
  injective n a -> exists x, length x = n /\ matvec a x = b.
Proof.
  intros La Lr Lb I.
  destruct (dependent n (map2 (fun r t => r ++ [- t]) a b)) as (x & Lx & (i & Hi) & Hx).
  - rewrite map2_length. lia.
  - intros q Hq. apply In_nth with (d := []) in Hq as (j & Hj & <-). rewrite map2_length in Hj.
    rewrite (nth_map2 _ a b j [] 0 []) by lia. rewrite app_length. cbn. rewrite Lr by (apply nth_In; lia). lia.
  - destruct (snoc_split x n Lx) as (y & t & -> & Ly).
    assert (E : forall j, (j < n)%nat -> vdot (nth j a []) y = t * nth j b 0).
    { intros j Hj. assert (H := Hx (nth j (map2 (fun r t => r ++ [- t]) a b) []) ltac:(apply nth_In; rewrite map2_length; lia)).
      rewrite (nth_map2 _ a b j [] 0 []) in H by lia. rewrite vdot_snoc in H by (rewrite Lr by (apply nth_In; lia); congruence). rnum. lra. }
    destruct (Req_dec t 0) as [->|Nt].
    + exfalso. assert (Z : forall j, nth j y 0 = 0).
      { apply I; [assumption|]. intros r Hr. apply In_nth with (d := []) in Hr as (j & Hj & <-). rewrite E by lia. ring. }
      destruct (Nat.lt_ge_cases i n) as [L|L].
      * rewrite app_nth1 in Hi by lia. apply Hi, Z.
      * rewrite app_nth2 in Hi by lia. destruct (i - length y)%nat as [|[|m]]; cbn in Hi; lra.
    + exists (vscale y (/ t)). split; [rewrite vscale_length; assumption|]. apply vec_ext; [unfold matvec; rewrite map_length; lia|].
      intros j. destruct (Nat.lt_ge_cases j n) as [Hj|Hj]; [|rewrite !nth_overflow by (unfold matvec; rewrite ?map_length; lia); reflexivity].
      unfold matvec. rewrite (nth_indep _ 0 ((fun r => vdot r (vscale y (/ t))) [])) by (rewrite map_length; lia). rewrite (map_nth (fun r => vdot r (vscale y (/ t)))).
      rewrite vdot_scale_r, E by assumption. field. assumption.
Qed.

Lemma vdot_bsum (u x : list R) n : length u = n -> length x = n -> vdot u x = bsum (fun l => nth l u 0 * nth l x 0) n.
Proof.
  intros Lu Lx. transitivity (vdot (map (fun i => nth i u 0) (seq 0 n)) x); [rewrite <- Lu, rows_seq; reflexivity|].
  rewrite vdot_seq, Lx, Nat.min_id. reflexivity.
Qed.

(** The transpose. *)
Lemma transpose_dot dim (a : list (list R)) x v : (forall r, In r a -> length r = dim) -> length x = dim -> length v = length a ->
  vdot x (map (fun i => vdot (column a i) v) (seq 0 dim)) = vdot (matvec a x) v.
Proof.
  intros Lr Lx. revert v. induction a as [|r a IH]; intros v Lv.
  - destruct v; [|discriminate]. cbn [column map matvec]. rewrite vdot_comm, vdot_seq, Lx, Nat.min_id.
    transitivity (bsum (fun _ => 0) dim); [apply bsum_ext; intros i _; cbn; ring|]. rewrite bsum_zero. reflexivity.
  - destruct v as [|t v]; [discriminate|]. cbn [matvec map]. rewrite vdot_cons. fold (matvec a x).
    rewrite <- IH by (try (cbn in Lv; lia); intros; apply Lr; right; assumption).
    rewrite !(vdot_comm x), !vdot_seq, Lx, Nat.min_id. rewrite (vdot_bsum r x dim) by (try assumption; apply Lr; left; reflexivity).
    rewrite (Rmult_comm _ t), <- bsum_scal, <- bsum_plus. apply bsum_ext. intros i _. cbn [column map]. rewrite vdot_cons. fold (column a i). rnum. ring.
Qed.
Lemma gram_row dim (a : list (list R)) x i : (forall r, In r a -> length r = dim) -> length x = dim ->
  vdot (map (fun j => vdot (column a i) (column a j)) (seq 0 dim)) x = vdot (column a i) (matvec a x).
Proof.
  intros Lr Lx. rewrite (vdot_comm (column a i)). rewrite <- (transpose_dot dim) by (try assumption; unfold column; rewrite map_length; reflexivity).
  rewrite vdot_comm. f_equal. apply map_ext. intros j. apply vdot_comm.
Qed.

Section Normal.
  Variables (dim : nat) (a : list (list R)) (b : list R).
  Hypothesis Lr : forall r, In r a -> length r = dim.
  Hypothesis Inj : injective dim a.
  Lemma fit_system_length : length (fit_system dim a b) = dim.
  Proof. unfold fit_system. rewrite map_length, seq_length. reflexivity. Qed.
  Lemma fit_system_rows r : In r (fit_system dim a b) -> length r = S dim.
  Proof. unfold fit_system. intros H. apply in_map_iff in H as (i & <- & _). rewrite app_length, map_length, seq_length. cbn. lia. Qed.
  Lemma fit_row_dot x i : length x = dim ->
    vdot (map (fun j => vdot (column a i) (column a j)) (seq 0 dim) ++ [vdot (column a i) b]) x = vdot (column a i) (matvec a x).
  Proof. intros L. rewrite vdot_app_one by (rewrite map_length, seq_length; lia). apply gram_row; assumption. Qed.
  Lemma fit_pos : pos_def dim (fit_system dim a b).
  Proof.
    intros x Lx (i & Hi & N). unfold fit_system. rewrite map_map. rewrite (map_ext _ (fun i => vdot (column a i) (matvec a x))) by (intros; apply fit_row_dot; assumption).
    rewrite transpose_dot by (try assumption; unfold matvec; rewrite map_length; reflexivity).
    destruct (Rle_lt_or_eq_dec _ _ (vdot_nonneg (matvec a x))) as [|E]; [assumption|]. exfalso. apply N. apply Inj; [assumption|].
    intros r Hr. symmetry in E. apply vdot_eq0 in E. assert (I : In (vdot r x) (matvec a x)) by (unfold matvec; apply (in_map (fun r => vdot r x)); assumption).
    rewrite E in I. apply repeat_spec in I. exact I.
  Qed.
  (** If the equations have a solution, elimination finds it. *)
  Lemma fit_solves x : length x = dim -> matvec a x = b -> gauss dim (fit_system dim a b) = x.
  Proof.
    intros Lx E. symmetry. apply gauss_unique; [apply fit_system_length|apply fit_system_rows|apply fit_pos|assumption|].
    intros r Hr. unfold fit_system in Hr. apply in_map_iff in Hr as (i & <- & _). rewrite fit_row_dot by assumption. rewrite E.
    rewrite app_nth2 by (rewrite map_length, seq_length; lia). rewrite map_length, seq_length, Nat.sub_diag. reflexivity.
  Qed.
End Normal.

(** ** Knots *)

Section Interpolation.
  Variables (k : nat) (xs : list R).
  Hypotheses (Hk : (0 < k)%nat) (I : increasing xs) (Hn : (k < length xs)%nat).
  Let r := (length xs - (k + 1))%nat.
  Let ks := fit_knots k xs.

  Lemma knots_length : length (fit_knots k xs) = (length xs - (k + 1))%nat.
  Proof. unfold fit_knots. rewrite map_length, seq_length. reflexivity. Qed.
  Lemma knot_nth l : (l < length xs - (k + 1))%nat -> nth l (fit_knots k xs) 0 =
    if Nat.odd k then nth (k / 2 + 1 + l) xs 0 else (nth (k / 2 + 1 + l) xs 0 + nth (k / 2 + l) xs 0) / 2.
  Proof.
    intros H. unfold fit_knots. rewrite nth_map_seq by assumption. destruct (Nat.odd k); [reflexivity|]. rnum. cbn [nlit RNum]. unfold Rdiv. f_equal. lra.
  Qed.
  Lemma half_k : if Nat.odd k then k = (2 * (k / 2) + 1)%nat else k = (2 * (k / 2))%nat.
  Proof. clear. rewrite <- Nat.bit0_odd, Nat.bit0_eqb. assert (D := Nat.div_mod_eq k 2). assert (M := Nat.mod_upper_bound k 2 ltac:(lia)). destruct (Nat.eqb_spec (k mod 2) 1); lia. Qed.
  Lemma knot_between l : (l < r)%nat -> nth l xs 0 < nth l ks 0 < nth (l + 1 + k) xs 0.
  Proof.
    intros H. unfold ks. rewrite knot_nth by exact H. unfold r in H. assert (E := half_k). destruct (Nat.odd k).
    - split; apply increasing_lt; try assumption; lia.
    - assert (A := increasing_lt xs I (k / 2 + l) (k / 2 + 1 + l) ltac:(lia)).
      assert (B := increasing_lt xs I l (k / 2 + l) ltac:(lia)). assert (C := increasing_le xs I (k / 2 + 1 + l) (l + 1 + k) ltac:(lia)). lra.
  Qed.
  Lemma knot_lt l : (S l < r)%nat -> nth l ks 0 < nth (S l) ks 0.
  Proof.
    intros H. unfold ks. rewrite !knot_nth by (unfold r in H; lia). unfold r in H. assert (E := half_k). destruct (Nat.odd k).
    - apply increasing_lt; [assumption|lia].
    - assert (A := increasing_lt xs I (k / 2 + l) (k / 2 + 1 + l) ltac:(lia)). assert (B := increasing_lt xs I (k / 2 + 1 + l) (k / 2 + 1 + S l) ltac:(lia)).
      replace (k / 2 + S l)%nat with (k / 2 + 1 + l)%nat by lia. lra.
  Qed.
  Lemma knots_increasing : increasing (fit_knots k xs).
  Proof. intros l H. rewrite knots_length in H. apply knot_lt. exact H. Qed.
  Lemma knot_inside l : (l < r)%nat -> nth 0 xs 0 < nth l ks 0 < nth (length xs - 1) xs 0.
  Proof.
    intros H. assert (B := knot_between l H). unfold r in H. assert (C := increasing_le xs I 0 l ltac:(lia)).
    assert (D := increasing_le xs I (l + 1 + k) (length xs - 1) ltac:(lia)). lra.
  Qed.

  (** ** The basis *)

  Lemma basis_dot (qs a c : list R) x : length a = S k -> length c = length qs -> vdot (a ++ c) (basis k qs x) = sp k a (combine qs c) x.
  Proof.
    intros La Lc. unfold basis, sp. rewrite <- (polyval_vdot a x k La).
    assert (G : forall u v c w : list R, length u = length v -> vdot (u ++ c) (v ++ w) = vdot u v + vdot c w).
    { induction u as [|p u IH]; intros [|q v] c' w L; try discriminate L; cbn [app]; rewrite ?vdot_cons; [cbn; ring|]. rewrite IH by (cbn in L; lia). ring. }
    rewrite G by (rewrite map_length, seq_length; assumption). f_equal.
    clear G La. revert c Lc. induction qs as [|q qs IH]; intros [|t c] Lc; try discriminate Lc; [reflexivity|].
    cbn [map combine tsum]. rewrite vdot_cons, IH by (cbn in Lc; lia). reflexivity.
  Qed.
  Lemma basis_length (qs : list R) (x : R) : length (basis k qs x) = (k + 1 + length qs)%nat.
  Proof. unfold basis. rewrite app_length, !map_length, seq_length. lia. Qed.

  Definition dim : nat := (k + 1 + length ks)%nat.
  Lemma dim_eq : dim = length xs.
  Proof. unfold dim, ks. rewrite knots_length. lia. Qed.
  Lemma split_coeffs (cf : list R) : length cf = dim -> exists a c, cf = a ++ c /\ length a = S k /\ length c = length ks.
  Proof.
    intros L. exists (firstn (S k) cf), (skipn (S k) cf). rewrite firstn_skipn, firstn_length, skipn_length. unfold dim in L. repeat split; lia.
  Qed.

  Theorem fit_inj (cf : list R) : length cf = dim -> (forall i, (i < length xs)%nat -> fit_value k ks cf (nth i xs 0) = 0) -> forall i, nth i cf 0 = 0.
  Proof.
    intros L Z. destruct (split_coeffs cf L) as (a & c & -> & La & Lc).
    set (K := fun i : nat => if Nat.eqb i 0 then nth 0 xs 0 - 1 else if Nat.leb i r then nth (i - 1) ks 0 else nth (length xs - 1) xs 0 + 1).
    assert (Lk : length ks = r) by apply knots_length.
    assert (K0 : K 0%nat = nth 0 xs 0 - 1) by reflexivity.
    assert (Km : forall i, (1 <= i <= r)%nat -> K i = nth (i - 1) ks 0).
    { intros i Hi. unfold K. destruct (Nat.eqb_spec i 0); [lia|]. destruct (Nat.leb_spec i r); [reflexivity|lia]. }
    assert (Kr : K (S r) = nth (length xs - 1) xs 0 + 1) by (unfold K; cbn [Nat.eqb]; destruct (Nat.leb_spec (S r) r); [lia|reflexivity]).
    assert (Ends := increasing_le xs I 0 (length xs - 1) ltac:(lia)).
    assert (Ew : wcs r (fun j => nth j c 0) K = combine ks c).
    { unfold wcs. rewrite <- Lk. rewrite (map_ext_in _ (fun j => nth j (combine ks c) (0, 0))).
      - rewrite <- (rows_seq (combine ks c) (0, 0)) at 1. f_equal. f_equal. rewrite combine_length. lia.
      - intros j Hj. apply in_seq in Hj. rewrite combine_nth by congruence. rewrite Km by lia. replace (S j - 1)%nat with j by lia. reflexivity. }
    destruct (whitney k r a (fun j => nth j c 0) K (fun i => nth i xs 0)) as [Za Zc]; try assumption.
    - intros i Hi. destruct (Nat.eq_dec i 0) as [->|Ni]; [destruct (Nat.eq_dec r 0) as [Er|Er]|].
      + rewrite K0. replace 1%nat with (S r) by lia. rewrite Kr. lra.
      + rewrite K0, Km by lia. cbn [Nat.sub]. assert (B := knot_inside 0 ltac:(lia)). lra.
      + destruct (Nat.eq_dec i r) as [->|Nr].
        * rewrite Kr, Km by lia. assert (B := knot_inside (r - 1) ltac:(lia)). lra.
        * rewrite !Km by lia. replace (S i - 1)%nat with (S (i - 1)) by lia. apply knot_lt. lia.
    - intros i Hi. apply I. unfold r in Hi. lia.
    - rewrite K0. lra.
    - rewrite Kr. assert (B := increasing_le xs I (k + r) (length xs - 1) ltac:(unfold r; lia)). lra.
    - intros j Hj. rewrite Km by lia. assert (B := knot_between (j - 1) ltac:(lia)). replace (j - 1 + 1 + k)%nat with (j + k)%nat in B by lia. exact B.
    - intros i Hi. cbv beta. rewrite Ew, <- basis_dot by assumption. apply Z. unfold r in Hi. lia.
    - intros i. destruct (Nat.lt_ge_cases i (length a)) as [H|H]; [rewrite app_nth1 by assumption; apply Za|]. rewrite app_nth2 by assumption.
      destruct (Nat.lt_ge_cases (i - length a) r) as [H'|H']; [apply Zc; assumption|]. apply nth_overflow. lia.
  Qed.

  Variables (ys ws : list R).
  Hypotheses (Ly : length ys = length xs) (Lw : length ws = length xs) (Nw : forall w, In w ws -> w <> 0).

  Lemma design_row i : (i < length xs)%nat -> nth i (design k ks xs ws) [] = vscale (basis k ks (nth i xs 0)) (nth i ws 0).
  Proof.
    intros H. unfold design. rewrite (nth_map2 _ xs ws i 0 0 []) by lia. unfold vscale. apply map_ext. intros t. rnum. apply Rmult_comm.
  Qed.
  Lemma design_length : length (design k ks xs ws) = length xs.
  Proof. unfold design. rewrite map2_length. lia. Qed.
  Lemma design_rows r' : In r' (design k ks xs ws) -> length r' = dim.
  Proof.
    intros H. apply In_nth with (d := []) in H as (i & Hi & <-). rewrite design_length in Hi. rewrite design_row by assumption.
    rewrite vscale_length, basis_length. reflexivity.
  Qed.
  Lemma design_inj : injective dim (design k ks xs ws).
  Proof.
    intros x Lx Z. apply fit_inj; [assumption|]. intros i Hi. assert (H := Z (nth i (design k ks xs ws) []) ltac:(apply nth_In; rewrite design_length; assumption)).
    rewrite design_row in H by assumption. rewrite vdot_scale_l in H. apply Rmult_integral in H. destruct H as [H|H].
    - exfalso. apply (Nw (nth i ws 0)); [apply nth_In; lia|assumption].
    - unfold fit_value. rewrite vdot_comm. exact H.
  Qed.
  Lemma matvec_design (cf : list R) : (forall i, (i < length xs)%nat -> fit_value k ks cf (nth i xs 0) = nth i ys 0) <-> matvec (design k ks xs ws) cf = map2 Rmult ys ws.
  Proof.
    assert (E : forall i, (i < length xs)%nat -> nth i (matvec (design k ks xs ws) cf) 0 = nth i ws 0 * fit_value k ks cf (nth i xs 0)).
    { intros i Hi. unfold matvec. rewrite (nth_indep _ 0 ((fun r => vdot r cf) [])) by (rewrite map_length, design_length; assumption).
      rewrite (map_nth (fun r => vdot r cf)), design_row, vdot_scale_l by assumption. unfold fit_value. rewrite (vdot_comm cf). reflexivity. }
    split.
    - intros H. apply vec_ext; [unfold matvec; rewrite map_length, design_length, map2_length; lia|]. intros i.
      destruct (Nat.lt_ge_cases i (length xs)) as [Hi|Hi].
      + rewrite E, H by assumption. rewrite (nth_map2 _ ys ws i 0 0 0) by lia. ring.
      + rewrite !nth_overflow by (unfold matvec; rewrite ?map_length, ?design_length, ?map2_length; lia). reflexivity.
    - intros H i Hi. assert (E' := E i Hi). rewrite H in E'. rewrite (nth_map2 _ ys ws i 0 0 0) in E' by lia.
      assert (N : nth i ws 0 <> 0) by (apply Nw, nth_In; lia). apply Rmult_eq_reg_l with (nth i ws 0); [lra|assumption].
  Qed.

  (** There is exactly one spline through the samples, and it is the one computed. *)
  Theorem fit_ok : length (fit_coeffs k xs ys ws) = length xs /\
    (forall i, (i < length xs)%nat -> fit_value k ks (fit_coeffs k xs ys ws) (nth i xs 0) = nth i ys 0) /\
    (forall cf : list R, length cf = length xs -> (forall i, (i < length xs)%nat -> fit_value k ks cf (nth i xs 0) = nth i ys 0) -> cf = fit_coeffs k xs ys ws).
  Proof.
    destruct (square_onto dim (design k ks xs ws) (map2 Rmult ys ws)) as (x & Lx & Ex).
    - rewrite design_length, dim_eq. reflexivity.
    - apply design_rows.
    - rewrite map2_length, dim_eq. lia.
    - apply design_inj.
    - assert (E : forall cf, length cf = dim -> matvec (design k ks xs ws) cf = map2 Rmult ys ws -> fit_coeffs k xs ys ws = cf).
      { intros cf L M. unfold fit_coeffs. apply (fit_solves dim); [apply design_rows|apply design_inj|assumption|assumption]. }
      rewrite (E x Lx Ex). split; [rewrite Lx; apply dim_eq|]. split; [apply matvec_design; assumption|].
      intros cf L H. rewrite <- (E x Lx Ex). symmetry. apply E; [rewrite L; symmetry; apply dim_eq|]. apply matvec_design. assumption.
  Qed.
End Interpolation.
