(** The interpolators of Periodic.v: creation, values, linearity in the points,
    other starting points of a closed curve. *)
From Coq Require Import ZArith String List Bool Arith Lia Reals Lra Psatz.
From Verif Require Import Num Py Numeric Curve Vec Geom DiffGeom Intersect Registry Interp Splines Splines2 Periodic Spec GeomSpec.
From Verif Require Import ListFacts VecFacts CurveProofs CurveProofs2 CurveProofs3 GeomProofs DiffGeomProofs DiffGeomProofs2.
From Verif Require Import InterpProofs InterpProofs2 SplineProofs SplineProofs2 SplineProofs3 SplineProofs4 SplineProofs5 SplineProofs6 AverageProofs.
From Verif Require Import PeriodicProofs PeriodicProofs2.
Import ListNotations.
Local Open Scope string_scope.
Local Open Scope list_scope.
Local Open Scope R_scope.

(** ** Values *)

Lemma periodic_rows_length (xs : list R) rows n : length (periodic_rows xs rows n) = length xs.
Proof. unfold periodic_rows. rewrite map_length, seq_length. reflexivity. Qed.

Lemma periodic_rows_nth (xs : list R) rows n k j : (k < length xs)%nat -> (j < n)%nat ->
  nth j (nth k (periodic_rows xs rows n) []) 0 = per_at xs (column rows j) k.
Proof.
  intros Hk Hj. unfold periodic_rows. rewrite (nth_map_in _ _ _ 0%nat) by (rewrite seq_length; assumption). rewrite seq_nth by assumption.
  rewrite (nth_map_in _ _ _ 0%nat) by (rewrite seq_length; assumption). rewrite seq_nth by assumption. reflexivity.
Qed.

Lemma periodic_at qnan ex (xs : list R) rows n v j : increasing xs -> (2 <= length xs)%nat -> length rows = length xs ->
  (j < n)%nat -> (ex = true \/ inside xs v) ->
  nth j (hermite_at qnan ex xs rows (periodic_rows xs rows n) n v) 0 = per0 xs (column rows j) v.
Proof.
  intros I H2 L Hj Hex. destruct (piece_exists xs I H2 v) as (k & Hk & Ek & Hl & Hr).
  assert (Hr' : (S (S k) = length xs \/ v <= nth (S k) xs 0)) by (destruct Hr; [left; assumption|right; lra]).
  rewrite (hermite_at_eq qnan ex xs _ _ _ I H2 v k j Hk Hj Hex Hl Hr').
  unfold per0, spl0, pw. rewrite Ek. rewrite !periodic_rows_nth by lia.
  rewrite <- (cp0_hval xs _ _ I k v Hk). rewrite !per_deriv_at by (assumption || lia). rewrite !column_nth by lia. reflexivity.
Qed.

(** ** Creation *)

Definition near (x y : R) : Prop := Rabs (x - y) <= (1 + Rabs y) / 1000000000000000.

Lemma ends_close_iff (rows : list (list R)) n :
  ends_close rows n = true <-> forall j, (j < n)%nat -> near (nth j (nth 0 rows []) 0) (nth j (nth (length rows - 1) rows []) 0).
Proof.
  unfold ends_close, near. cbv zeta. rewrite forallb_forall.
  assert (K : forall j, nleb (nabs (nth j (nth 0 rows []) n0 - nth j (nth (length rows - 1) rows []) n0)%num)
      (nlit 1 1000000000000000 + nlit 1 1000000000000000 * nabs (nth j (nth (length rows - 1) rows []) n0))%num = true
    <-> Rabs (nth j (nth 0 rows []) 0 - nth j (nth (length rows - 1) rows []) 0) <= (1 + Rabs (nth j (nth (length rows - 1) rows []) 0)) / 1000000000000000).
  { intros j. rn. cbn [nleb RNum]. rewrite Rleb_iff. split; intros Q; lra. }
  split.
  - intros H j Hj. apply K, H, in_seq. lia.
  - intros H j Hj. apply in_seq in Hj. apply K, H. lia.
Qed.

(** The derivatives the interpolators use. *)
Definition cubic_ds (b : bctype R) (xs : list R) (rows : list (list R)) (n : nat) : list (list R) :=
  if is_periodic b then periodic_rows xs rows n
  else match validate_bc n b with Ok bcs => cubic_rows (fst bcs) (snd bcs) xs rows n | Raise _ => [] end.
Definition mode_of (b : bctype R) (ex : option exmode) : exmode :=
  match ex with Some e => e | None => if is_periodic b then ExPeriodic else ExBool true end.
Definition cubic_fits (b : bctype R) (c : curve R) : Prop :=
  if is_periodic b then ends_close (c_rows c) (c_ndim c) = true else exists bcs, validate_bc (c_ndim c) b = Ok bcs.

Lemma spline_new_ok qnan fm ex (xs : list R) ys ds n : (2 <= length xs)%nat -> length ys = length xs -> increasing xs ->
  length ds = length xs -> spline_new qnan fm ex xs ys (Some ds) n = Ok (map (spline_at qnan fm ex xs ys ds n)).
Proof. intros H2 L I Ld. unfold spline_new. rewrite hermite_new_ok by assumption. reflexivity. Qed.

Lemma cubic_any_ok junk qnan fm b ex (c : curve R) : wf c -> (2 <= c_size c)%nat -> increasing (c_tval junk c) -> cubic_fits b c ->
  cubic_any junk qnan fm b ex c = Ok (as_array (c_ndim c)
    (map (spline_at qnan fm (mode_of b ex) (c_tval junk c) (c_rows c) (cubic_ds b (c_tval junk c) (c_rows c) (c_ndim c)) (c_ndim c)))).
Proof.
  intros W H I Hf. assert (N := size_nonempty c ltac:(lia)). assert (L := tval_length junk c W N).
  assert (P : prepare_ok (c_tval junk c) (c_rows c) = true) by (apply prepare_ok_iff; unfold c_size in *; repeat split; [lia|congruence|assumption]).
  assert (Q : is_periodic b = true -> forall e, cubic_periodic junk qnan fm e c = Ok (as_array (c_ndim c)
      (map (spline_at qnan fm (match e with Some x => x | None => ExPeriodic end) (c_tval junk c) (c_rows c) (periodic_rows (c_tval junk c) (c_rows c) (c_ndim c)) (c_ndim c))))).
  { intros Pb e. unfold cubic_fits in Hf. rewrite Pb in Hf. unfold cubic_periodic. cbv zeta. rewrite P, Hf.
    rewrite spline_new_ok; [reflexivity| | | |]; unfold c_size in *; rewrite ?periodic_rows_length; (lia || congruence || assumption). }
  unfold cubic_any, cubic_ds, mode_of, cubic_fits in *. destruct (is_periodic b) eqn:Pb.
  - destruct ex as [[e|]|]; unfold cubic; rewrite ?Pb; rewrite Q by reflexivity; reflexivity.
  - destruct Hf as [bcs V]. rewrite V. destruct ex as [[e|]|].
    + rewrite (cubic_eq junk qnan _ b e c bcs) by assumption. reflexivity.
    + rewrite P. cbn [rbind]. rewrite spline_new_ok; [reflexivity| | | |]; unfold c_size in *; rewrite ?cubic_rows_length; (lia || congruence || assumption).
    + rewrite (cubic_eq junk qnan _ b true c bcs) by assumption. reflexivity.
Qed.

Lemma cubic_any_fails junk qnan fm b ex (c : curve R) :
  ~ ((2 <= c_size c)%nat /\ increasing (c_tval junk c) /\ cubic_fits b c) -> exists e, cubic_any junk qnan fm b ex c = Raise e.
Proof.
  intros Hn. unfold cubic_fits in Hn.
  assert (P : prepare_ok (c_tval junk c) (c_rows c) = true -> ~ (if is_periodic b then ends_close (c_rows c) (c_ndim c) = true else exists bcs, validate_bc (c_ndim c) b = Ok bcs)).
  { intros P F. apply prepare_ok_iff in P as (P1 & P2 & P3). apply Hn. unfold c_size. rewrite P2. auto. }
  assert (Q : is_periodic b = true -> forall e, exists x, cubic_periodic junk qnan fm e c = Raise x).
  { intros Pb e. rewrite Pb in P. unfold cubic_periodic. cbv zeta. destruct (prepare_ok (c_tval junk c) (c_rows c)); [|eauto].
    destruct (ends_close (c_rows c) (c_ndim c)); [|eauto]. exfalso. apply P; reflexivity. }
  unfold cubic_any, cubic. destruct (is_periodic b) eqn:Pb.
  - destruct ex as [[e|]|]; apply Q; reflexivity.
  - destruct (prepare_ok (c_tval junk c) (c_rows c)); [|destruct ex as [[e|]|]; cbv zeta; eauto].
    destruct (validate_bc (c_ndim c) b) as [bcs|x]; [exfalso; apply P; eauto|]. destruct ex as [[e|]|]; cbv zeta; cbn [rbind]; eauto.
Qed.

Lemma hermite_any_ok junk qnan fm ex (c : curve R) : wf c -> (2 <= c_size c)%nat -> increasing (c_tval junk c) ->
  hermite_any junk qnan fm ex c = Ok (as_array (c_ndim c)
    (map (spline_at qnan fm (match ex with Some e => e | None => ExBool true end) (c_tval junk c) (c_rows c) (frenet1_rows (c_rows c)) (c_ndim c)))).
Proof.
  intros W H I. assert (N := size_nonempty c ltac:(lia)). assert (L := tval_length junk c W N).
  unfold hermite_any. rewrite curve_prop_frenet1 by (apply c_bool_wf; assumption). cbn [rbind].
  rewrite spline_new_ok; [reflexivity| | | |]; unfold c_size in *; rewrite ?frenet1_length; (lia || congruence || assumption).
Qed.

Lemma spline_at_length qnan fm ex (xs : list R) ys ds n v : length (spline_at qnan fm ex xs ys ds n v) = n.
Proof. destruct ex; apply hermite_at_length. Qed.

Lemma any_result junk few qnan fm ex (r : registry (icreate R)) name (c : curve R) s g create ds :
  wf c -> (2 <= c_size c)%nat -> reg_find r name = Some create ->
  create c = Ok (as_array (c_ndim c) (map (spline_at qnan fm ex (c_tval junk c) (c_rows c) ds (c_ndim c)))) ->
  get_grid junk few c s = Ok g ->
  interpolate junk few r name c s
  = Ok (mkCurve (map (map (cast (c_dtype c))) (map (spline_at qnan fm ex (c_tval junk c) (c_rows c) ds (c_ndim c)) g))
          (c_ndim c) (c_dtype c) (if isparametric c then Some g else None)).
Proof.
  intros W H F E G. destruct (get_grid_nonempty _ _ _ _ _ G) as [Ng _].
  unfold interpolate, get_interpolator. rewrite F, E. cbn [rbind].
  apply interp_call_eq; try assumption; [apply map_length| |reflexivity].
  intros p Hp. apply in_map_iff in Hp as (v & <- & _). apply spline_at_length.
Qed.

Lemma hermite_at_inside qnan ex (xs : list R) ys ds n v : increasing xs -> (2 <= length xs)%nat -> inside xs v ->
  hermite_at qnan ex xs ys ds n v = hermite_at qnan true xs ys ds n v.
Proof.
  intros I H2 Hv. apply vec_ext; [rewrite !hermite_at_length; reflexivity|]. intros j.
  destruct (Nat.lt_ge_cases j n) as [Hj|Hj]; [|rewrite !nth_overflow by (rewrite hermite_at_length; lia); reflexivity].
  destruct (piece_exists xs I H2 v) as (k & Hk & Ek & Hl & Hr).
  assert (Hr' : (S (S k) = length xs \/ v <= nth (S k) xs 0)) by (destruct Hr; [left; assumption|right; lra]).
  rewrite !(hermite_at_eq qnan _ xs _ _ _ I H2 v k j Hk Hj) by auto. reflexivity.
Qed.

Lemma spline_at_wrapped qnan fm (xs : list R) ys ds n v u k e : is_mod fm -> increasing xs -> (2 <= length xs)%nat ->
  nth 0 xs 0 <= u < nth (length xs - 1) xs 0 -> v = u + IZR k * (nth (length xs - 1) xs 0 - nth 0 xs 0) ->
  spline_at qnan fm ExPeriodic xs ys ds n v = spline_at qnan fm (ExBool e) xs ys ds n u.
Proof.
  intros M I H2 Hu Ev. unfold spline_at.
  assert (E : wrap fm xs v = u) by (apply (w_unique fm M (nth 0 xs 0) (nth (length xs - 1) xs 0) (ab_lt xs I H2) v u k Hu Ev)).
  assert (Iu : inside xs u) by (unfold inside; lra).
  rewrite E, (hermite_at_inside qnan false), (hermite_at_inside qnan e) by assumption. reflexivity.
Qed.

(** ** Linearity in the points *)

Lemma per_at_lin xs a b u w k : increasing xs -> (2 <= length xs)%nat -> length u = length w -> (k < length xs)%nat ->
  per_at xs (lcomb a b u w) k = a * per_at xs u k + b * per_at xs w k.
Proof.
  intros I H2 L Hk. symmetry.
  apply (cyclic_unique xs (lcomb a b u w) I H2 (fun k => a * per_at xs u k + b * per_at xs w k) (per_at xs (lcomb a b u w))); [|apply per_at_ok; assumption|assumption].
  destruct (per_at_ok xs u I H2) as [Iu [Su1 Su2]]. destruct (per_at_ok xs w I H2) as [Iw [Sw1 Sw2]]. split; [|split].
  - rewrite inner_eq_h in *. intros i Hi. rewrite !slope_at_lin by assumption. pose proof (Iu i Hi) as A. pose proof (Iw i Hi) as B.
    set (pu := per_at xs u) in *. set (pw := per_at xs w) in *. set (h := step_at xs) in *. set (mu := slope_at xs u) in *. set (mw := slope_at xs w) in *.
    replace (3 * (h (S i) * (a * mu i + b * mw i) + h i * (a * mu (S i) + b * mw (S i))))
      with (a * (3 * (h (S i) * mu i + h i * mu (S i))) + b * (3 * (h (S i) * mw i + h i * mw (S i)))) by ring.
    rewrite <- A, <- B. ring.
  - rewrite Su1, Sw1. reflexivity.
  - rewrite !slope_at_lin by assumption.
    set (pu := per_at xs u) in *. set (pw := per_at xs w) in *. set (h := step_at xs) in *. set (mu := slope_at xs u) in *. set (mw := slope_at xs w) in *.
    set (n2 := (length xs - 2)%nat) in *.
    replace (3 * (h 0%nat * (a * mu n2 + b * mw n2) + h n2 * (a * mu 0%nat + b * mw 0%nat)))
      with (a * (3 * (h 0%nat * mu n2 + h n2 * mu 0%nat)) + b * (3 * (h 0%nat * mw n2 + h n2 * mw 0%nat))) by ring.
    rewrite <- Su2, <- Sw2. ring.
Qed.

Lemma per_at_const xs c k : increasing xs -> (2 <= length xs)%nat -> (k < length xs)%nat -> per_at xs (repeat c (length xs)) k = 0.
Proof.
  intros I H2 Hk. symmetry.
  apply (cyclic_unique xs (repeat c (length xs)) I H2 (fun _ => 0) (per_at xs (repeat c (length xs)))); [|apply per_at_ok; assumption|assumption].
  split; [|split].
  - apply inner_eq_h. intros i Hi. rewrite !slope_const by lia. ring.
  - reflexivity.
  - rewrite !slope_const by lia. ring.
Qed.

Lemma per0_lin xs v : increasing xs -> (2 <= length xs)%nat -> lin_fun (length xs) (fun ys => per0 xs ys v).
Proof.
  intros I H2 a b u w Lu Lw. destruct (piece_exists xs I H2 v) as (k & Hk & Ek & _).
  unfold per0, spl0, pw, cp0, pc2, pc3. cbv beta zeta. rewrite Ek.
  rewrite !per_deriv_at, !nth_lcomb, !per_at_lin by (assumption || congruence || lia). unfold Rdiv. ring.
Qed.

Lemma per0_const xs c v : increasing xs -> (2 <= length xs)%nat -> per0 xs (repeat c (length xs)) v = c.
Proof.
  intros I H2. destruct (piece_exists xs I H2 v) as (k & Hk & Ek & _).
  unfold per0, spl0, pw, cp0, pc2, pc3. cbv beta zeta. rewrite Ek.
  rewrite !per_deriv_at, !per_at_const, !nth_ones by (assumption || lia). unfold Rdiv. ring.
Qed.

(** ** Another starting point *)

Section Restart.
  Variables (xs xs' : list R) (m : nat) (d : R).
  Hypothesis H2 : (2 <= length xs)%nat.
  Hypothesis L : length xs' = length xs.
  Hypothesis Hm : (m < length xs)%nat.
  Let n := length xs.
  Let p := nth (n - 1) xs 0 - nth 0 xs 0.
  (** The samples from m on, then those from the second one to m again. *)
  Definition restart {A} (f : nat -> A -> A) (l l' : list A) (z : A) : Prop :=
    forall k, (k < length l)%nat ->
      nth k l' z = (if Nat.ltb (k + m) (length l) then f 0%nat (nth (k + m) l z) else f 1%nat (nth (k + m - (length l - 1)) l z)).
  Hypothesis Rx : restart (fun i x => x + INR i * p + d) xs xs' 0.

  Lemma restart_period : nth (n - 1) xs' 0 - nth 0 xs' 0 = p.
  Proof.
    pose proof (Rx (n - 1)%nat ltac:(unfold n; lia)) as A. pose proof (Rx 0%nat ltac:(lia)) as B. fold n in A, B. rewrite A, B.
    cbn [Nat.add]. rewrite (proj2 (Nat.ltb_lt m n)) by assumption.
    destruct (Nat.ltb_spec (n - 1 + m) n) as [Q|Q].
    - replace m with 0%nat by (unfold n in *; lia). rewrite Nat.add_0_r. unfold p. ring.
    - replace (n - 1 + m - (n - 1))%nat with m by lia. cbn [INR]. ring.
  Qed.

  Lemma closed_restart ys ys' f f1 f2 : length ys = length xs -> restart (fun _ y => y) ys ys' 0 ->
    closed_fun xs ys f f1 f2 -> closed_fun xs' ys' (fun v => f (v - d)) (fun v => f1 (v - d)) (fun v => f2 (v - d)).
  Proof.
    intros Ly Ry ((D0 & D1 & C2) & P & Cu & V). fold n in P. fold p in P.
    assert (Val : forall k, (k < n)%nat -> forall i, f (nth k xs 0 + INR i * p + d - d) = nth k ys 0).
    { intros k Hk i. rewrite <- (V k Hk). induction i as [|i IH]; [f_equal; cbn; ring|].
      rewrite <- IH. rewrite <- (P (nth k xs 0 + INR i * p + d - d)). f_equal. rewrite S_INR. ring. }
    unfold closed_fun. rewrite L. fold n. rewrite restart_period. split; [|split; [|split]].
    - split; [|split]; [intros v; apply (shift_deriv f), D0|intros v; apply (shift_deriv f1), D1|intros v; apply (shift_cont f2), C2].
    - intros v. rewrite <- (P (v - d)). f_equal. ring.
    - intros k Hk.
      (* the piece of the given curve, moved by i periods *)
      assert (G : exists q i, (S q < n)%nat /\ (i <= 1)%nat /\ nth k xs' 0 = nth q xs 0 + INR i * p + d /\ nth (S k) xs' 0 = nth (S q) xs 0 + INR i * p + d).
      { pose proof (Rx k ltac:(unfold n in *; lia)) as A. pose proof (Rx (S k) Hk) as B. fold n in A, B.
        destruct (Nat.ltb_spec (S k + m) n) as [Q|Q].
        - rewrite (proj2 (Nat.ltb_lt (k + m) n)) in A by lia. exists (k + m)%nat, 0%nat. repeat split; [lia|lia|exact A|exact B].
        - destruct (Nat.ltb_spec (k + m) n) as [Q'|Q'].
          + exists 0%nat, 1%nat. split; [unfold n; lia|]. split; [lia|]. rewrite A, B. cbn [INR].
            replace (k + m)%nat with (n - 1)%nat by lia. replace (S k + m - (n - 1))%nat with 1%nat by lia. unfold p. split; ring.
          + exists (k + m - (n - 1))%nat, 1%nat. split; [lia|]. split; [lia|]. split; [exact A|]. rewrite B.
            replace (S k + m - (n - 1))%nat with (S (k + m - (n - 1))) by lia. reflexivity. }
      destruct G as (q & i & Hq & Hi & Ek & Es). destruct (Cu q Hq) as (a0 & a1 & a2 & a3 & Hc). rewrite Ek, Es.
      set (s := INR i * p + d).
      exists (a0 - a1 * s + a2 * (s * s) - a3 * (s * s * s)), (a1 - 2 * a2 * s + 3 * a3 * (s * s)), (a2 - 3 * a3 * s), a3. intros v Hv.
      assert (E : f (v - d) = f (v - s)).
      { assert (i = 0 \/ i = 1)%nat as [-> | ->] by lia; unfold s; cbn [INR]; [f_equal; ring|]. rewrite <- (P (v - (1 * p + d))). f_equal. ring. }
      rewrite E, Hc by (unfold s; lra). ring.
    - intros k Hk. pose proof (Rx k Hk) as A. pose proof (Ry k ltac:(lia)) as B. rewrite Ly in B. fold n in A, B. rewrite A, B.
      destruct (Nat.ltb_spec (k + m) n) as [Q|Q]; apply Val; unfold n in *; lia.
  Qed.
End Restart.
