(** Interpolation grids and interpolators: exact results over the reals. *)
From Coq Require Import ZArith String List Bool Arith Lia Reals Lra Psatz.
From Verif Require Import Num Py Numeric Curve Vec Geom DiffGeom Intersect Registry Interp Spec GeomSpec.
From Verif Require Import ListFacts ArrayProofs VecFacts CurveProofs CurveProofs2 CurveProofs3 GeomProofs GeomProofs2 DiffGeomProofs InterpProofs.
Import ListNotations.
Local Open Scope list_scope.
Local Open Scope R_scope.

(** [k] is the integer nearest to [x]; the even one if there are two. *)
Definition nearest_even (x : R) (k : Z) : Prop :=
  Rabs (x - IZR k) <= / 2 /\ (Rabs (x - IZR k) = / 2 -> Z.even k = true).

Lemma Rround_nearest (x : R) : nearest_even x (Rround x).
Proof.
  unfold Rround. destruct (base_fp x) as [F0 F1]. set (f := frac_part x) in *. set (k := Int_part x).
  assert (E : x = IZR k + f) by (unfold f, k, frac_part; lra).
  unfold nearest_even, half_even. destruct (Rlt_dec f (/ 2)) as [A|A]; [|destruct (Rlt_dec (/ 2) f) as [B|B]].
  - replace (x - IZR k) with f by lra. rewrite Rabs_right by lra. split; [lra|intros; lra].
  - rewrite plus_IZR. replace (x - (IZR k + 1)) with (- (1 - f)) by lra. rewrite Rabs_Ropp, Rabs_right by lra. split; [lra|intros; lra].
  - assert (f = / 2) by lra. destruct (Z.even k) eqn:Ev.
    + replace (x - IZR k) with (/ 2) by lra. rewrite Rabs_right by lra. split; [lra|intros; assumption].
    + rewrite plus_IZR. replace (x - (IZR k + 1)) with (- / 2) by lra. rewrite Rabs_Ropp, Rabs_right by lra. split; [lra|].
      intros _. rewrite Z.even_add, Ev. reflexivity.
Qed.

Lemma nearest_even_unique x k k' : nearest_even x k -> nearest_even x k' -> k = k'.
Proof.
  intros [H1 H2] [H3 H4].
  assert (D : Rabs (IZR (k - k')) <= 1).
  { rewrite minus_IZR. replace (IZR k - IZR k') with ((x - IZR k') - (x - IZR k)) by lra.
    pose proof (Rabs_triang (x - IZR k') (- (x - IZR k))) as T. rewrite Rabs_Ropp in T.
    unfold Rminus in *. lra. }
  assert (D' : (Z.abs (k - k') <= 1)%Z) by (apply le_IZR; rewrite abs_IZR; assumption).
  assert (C : (k = k' \/ k = k' + 1 \/ k' = k + 1)%Z) by lia. destruct C as [C|[C|C]]; [assumption| |].
  - exfalso. subst k. rewrite plus_IZR in *.
    assert (A : x - IZR k' = / 2).
    { apply Rle_antisym; [|]; [|].
      - pose proof (Rle_abs (x - IZR k')). lra.
      - pose proof (Rle_abs (- (x - (IZR k' + 1)))). rewrite Rabs_Ropp in H. lra. }
    replace (x - (IZR k' + 1)) with (- / 2) in H2 by lra. rewrite Rabs_Ropp, Rabs_right in H2 by lra.
    rewrite A, Rabs_right in H4 by lra. specialize (H2 eq_refl). specialize (H4 eq_refl). rewrite Z.even_add, H4 in H2. discriminate.
  - exfalso. subst k'. rewrite plus_IZR in *.
    assert (A : x - IZR k = / 2).
    { apply Rle_antisym; [|].
      - pose proof (Rle_abs (x - IZR k)). lra.
      - pose proof (Rle_abs (- (x - (IZR k + 1)))). rewrite Rabs_Ropp in H. lra. }
    replace (x - (IZR k + 1)) with (- / 2) in H4 by lra. rewrite Rabs_Ropp, Rabs_right in H4 by lra.
    rewrite A, Rabs_right in H2 by lra. specialize (H2 eq_refl). specialize (H4 eq_refl). rewrite Z.even_add, H2 in H4. discriminate.
Qed.

Lemma round_div_R (a b : R) : b <> 0 -> round_div a b = Ok (Rround (a / b)).
Proof.
  intros H. unfold round_div. rnum. destruct (Reqb b 0) eqn:E; [apply Reqb_iff in E; contradiction|reflexivity].
Qed.
Lemma round_div_zero (a : R) : round_div a 0 = Raise (if Reqb a 0 then ValueError else OtherError).
Proof. unfold round_div. rnum. rewrite (proj2 (Reqb_iff 0 0) eq_refl). reflexivity. Qed.

(** ** Parameters of a curve *)

Lemma tval_length junk (c : curve R) : wf c -> c_rows c <> [] -> length (c_tval junk c) = c_size c.
Proof.
  intros W N. unfold c_tval. destruct (c_t c) as [t|] eqn:E.
  - apply W. assumption.
  - apply cumarclen_length, c_bool_wf; assumption.
Qed.
Lemma size_nonempty {T} (c : curve T) : (1 <= c_size c)%nat -> c_rows c <> [].
Proof. unfold c_size. intros H E. rewrite E in H. cbn in H. lia. Qed.

Lemma uniform_call_eq junk (u : ugrid R) (c : curve R) : wf c -> (2 <= c_size c)%nat ->
  uniform_call junk u c =
  do n <- match u with UPoint n => Ok n | ULength fill => rmap (fun k => (k + 1)%Z) (round_div (c_arclen junk c) fill) end ;
  linspace (nth 0 (c_tval junk c) 0) (nth (c_size c - 1) (c_tval junk c) 0) n.
Proof.
  intros W H. unfold uniform_call. destruct (Nat.ltb_spec (c_size c) 2); [lia|].
  assert (L := tval_length junk c W (size_nonempty c ltac:(lia))).
  assert (N : c_tval junk c <> []) by (intros E; rewrite E in L; cbn in L; lia).
  rewrite (np_get_first _ 0 N), (np_get_last _ 0 N), L. reflexivity.
Qed.

(** ** Validation *)

(** Consecutive values are more than 1e-8 apart, in increasing order. *)
Definition well_spaced (l : list R) : Prop :=
  forall i, (S i < length l)%nat -> nth i l 0 + / 100000000 < nth (S i) l 0.

Lemma well_spaced_increasing l : well_spaced l -> increasing l.
Proof. intros H i Hi. specialize (H i Hi). lra. Qed.

Lemma isclose_zero (d : R) : isclose d 0 = true <-> Rabs d <= / 100000000.
Proof. rewrite isclose_R, Rminus_0_r, Rabs_R0, Rmult_0_r, Rplus_0_r. reflexivity. Qed.

Lemma bad_step_iff (l : list R) :
  existsb (fun d => nltb d n0) (diff l) || existsb (fun d => isclose d n0) (diff l) = false <-> well_spaced l.
Proof.
  rewrite orb_false_iff. split.
  - intros [H1 H2] i Hi.
    assert (I : In (nth i (diff l) 0) (diff l)) by (apply nth_In; rewrite diff_length; lia).
    assert (B1 : Rltb (nth i (diff l) 0) 0 = false).
    { destruct (Rltb (nth i (diff l) 0) 0) eqn:E; [|reflexivity]. rewrite <- H1. symmetry. apply existsb_exists. eauto. }
    assert (B2 : isclose (nth i (diff l) 0) 0 <> true).
    { intros E. assert (X : existsb (fun d : R => isclose d n0) (diff l) = true) by (apply existsb_exists; eauto). congruence. }
    rewrite isclose_zero in B2. apply Rltb_false in B1. rewrite Rabs_right in B2 by lra. rewrite diff_nth in * by assumption. lra.
  - intros H.
    assert (K : forall d, In d (diff l) -> / 100000000 < d).
    { intros d Hd. apply (In_nth _ _ 0) in Hd as (i & Hi & <-). rewrite diff_length in Hi. rewrite diff_nth by lia.
      specialize (H i ltac:(lia)). lra. }
    split; apply not_true_is_false; intros E; apply existsb_exists in E as (d & Hd & E); specialize (K d Hd).
    + apply Rltb_iff in E. cbn [n0 RNum] in E. lra.
    + apply isclose_zero in E. rewrite Rabs_right in E by lra. lra.
Qed.

Lemma check_grid_ok (l : list R) : l <> [] -> well_spaced l -> check_grid l = Ok l.
Proof.
  intros N H. unfold check_grid. rewrite (proj2 (bad_step_iff l) H). destruct l; [contradiction|]. reflexivity.
Qed.
Lemma check_grid_raise (l : list R) : l = [] \/ ~ well_spaced l -> check_grid l = Raise ValueError.
Proof.
  intros H. unfold check_grid. destruct (existsb _ _ || existsb _ _) eqn:E; [reflexivity|].
  destruct H as [->|H]; [reflexivity|]. apply bad_step_iff in E. contradiction.
Qed.
Lemma check_grid_inv (l l' : list R) : check_grid l = Ok l' -> l' = l /\ l <> [] /\ well_spaced l.
Proof.
  unfold check_grid. destruct (existsb _ _ || existsb _ _) eqn:E; [discriminate|].
  destruct l as [|a l]; [discriminate|]. cbn [np_min rbind]. intros H. injection H as <-.
  split; [reflexivity|]. split; [discriminate|]. apply bad_step_iff. assumption.
Qed.

Lemma linspace_well_spaced (a b : R) n : (2 <= n)%nat ->
  well_spaced (linspace_nat a b n) <-> a + INR (n - 1) * / 100000000 < b.
Proof.
  intros Hn. assert (P : 0 < INR (n - 1)) by (apply lt_0_INR; lia).
  assert (S1 : forall i, (S i < n)%nat -> nth (S i) (linspace_nat a b n) 0 = nth i (linspace_nat a b n) 0 + (b - a) / INR (n - 1)).
  { intros i Hi. rewrite !linspace_nth by lia. rewrite S_INR. ring. }
  assert (E : / 100000000 < (b - a) / INR (n - 1) <-> a + INR (n - 1) * / 100000000 < b).
  { assert (X : (b - a) / INR (n - 1) * INR (n - 1) = b - a) by (field; lra). split; intros H; nra. }
  rewrite <- E. unfold well_spaced. rewrite linspace_length. split.
  - intros H. specialize (H 0%nat ltac:(lia)). rewrite S1 in H by lia. lra.
  - intros H i Hi. rewrite S1 by assumption. lra.
Qed.

(** ** Construction of the result *)

Lemma curve_init_cast {T} {NT : Num T} (rows : list (list T)) n td d :
  rows <> [] -> (2 <= n)%nat -> (forall r, In r rows -> length r = n) ->
  curve_init (SArray (mkNd [length rows; n] (concat rows)) DFloat)
    (option_map (fun t => mkNd [length t] t) td) None None (Some d)
  = match td with
    | Some t => if Nat.eqb (length t) (length rows) then Ok (mkCurve (map (map (cast d)) rows) n d td) else Raise ValueError
    | None => Ok (mkCurve (map (map (cast d)) rows) n d None)
    end.
Proof.
  intros Hne Hn Hr. unfold curve_init. change (2 <? 2)%Z with false. cbv iota.
  assert (Hz : (length rows * n <> 0)%nat) by (destruct rows; [contradiction|]; cbn; lia).
  rewrite as2d_id by assumption. cbn [rbind]. rewrite map_length.
  destruct (Nat.eqb_spec (length rows * n) 0); [contradiction|]. rewrite map_length.
  destruct (Nat.eqb_spec (length rows * n) 0); [contradiction|].
  destruct (Nat.ltb_spec n 2); [lia|]. cbn [negb andb].
  destruct td as [t|]; cbn [option_map]; [|reflexivity].
  unfold nd_ndim, nd_size. cbn [nd_shape length Nat.eqb negb fold_right]. rewrite Nat.mul_1_r, map_length.
  destruct (Nat.eqb (length t) (length rows)); reflexivity.
Qed.

(** ** The linear interpolator *)

Lemma linear_eq junk few (c : curve R) : wf c -> (2 <= c_size c)%nat -> increasing (c_tval junk c) ->
  exists f, linear junk few c = Ok f /\
    forall g, f g = Ok (mkNd [length g; c_ndim c] (concat (map (interp_at (c_tval junk c) (c_rows c)) g))).
Proof.
  intros W H I. assert (L := tval_length junk c W (size_nonempty c ltac:(lia))).
  unfold linear. rewrite interp1d_increasing by (assumption || (unfold c_size in *; lia)). cbn [rbind].
  eexists. split; [reflexivity|]. intros g. cbv beta. rewrite rseq_map_ok. reflexivity.
Qed.

Lemma interp_call_eq (c : curve R) junk few f g rows s :
  wf c -> (2 <= c_size c)%nat -> get_grid junk few c s = Ok g -> g <> [] -> length rows = length g -> dims (c_ndim c) rows ->
  f g = Ok (mkNd [length g; c_ndim c] (concat rows)) ->
  interp_call junk few c f s
  = Ok (mkCurve (map (map (cast (c_dtype c))) rows) (c_ndim c) (c_dtype c) (if isparametric c then Some g else None)).
Proof.
  intros W H G N L D F. unfold interp_call. rewrite c_bool_wf by (assumption || (apply size_nonempty; lia)). cbn [negb].
  destruct (Nat.eqb_spec (c_size c) 1); [lia|]. rewrite G. cbn [rbind]. rewrite F. cbv zeta.
  assert (Nr : rows <> []) by (intros E; rewrite E in L; destruct g; [contradiction|discriminate]).
  assert (Hn : (2 <= c_ndim c)%nat) by apply W.
  destruct (isparametric c).
  - change (Some (mkNd [length g] g)) with (option_map (fun t : list R => mkNd [length t] t) (Some g)).
    rewrite <- L at 1. rewrite curve_init_cast by assumption. rewrite L, Nat.eqb_refl. reflexivity.
  - rewrite <- L. exact (curve_init_cast rows (c_ndim c) None (c_dtype c) Nr Hn D).
Qed.
