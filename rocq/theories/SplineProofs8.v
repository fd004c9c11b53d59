(** Piecewise cubic functions with given derivatives; Akima's derivatives. *)
From Coq Require Import ZArith String List Bool Arith Lia Reals Lra Psatz.
From Verif Require Import Num Py Numeric Curve Vec Geom DiffGeom Intersect Registry Interp Splines Splines2 Spec GeomSpec.
From Verif Require Import ListFacts VecFacts CurveProofs3 GeomProofs GeomProofs2 DiffGeomProofs2 InterpProofs InterpProofs2 InterpProofs3.
From Verif Require Import SplineProofs SplineProofs2 SplineProofs3 SplineProofs4 SplineProofs5 SplineProofs6.
Import ListNotations.
Local Open Scope list_scope.
Local Open Scope R_scope.

(** ** Specification *)

(** f is differentiable with the continuous derivative f1, a cubic on every piece
    and has the values ys and the derivatives ds at xs. *)
Definition hermite_fun (xs : list R) (ys ds : nat -> R) (f f1 : R -> R) : Prop :=
  (forall v, derivable_pt_lim f v (f1 v)) /\ continuity f1 /\
  (forall k, (S k < length xs)%nat -> cubic_on f (in_piece xs k)) /\
  (forall k, (k < length xs)%nat -> f (nth k xs 0) = ys k /\ f1 (nth k xs 0) = ds k).

Section Hermite.
  Variables (xs : list R) (y d : nat -> R).
  Hypothesis I : increasing xs.
  Hypothesis H2 : (2 <= length xs)%nat.

  Definition her0 : R -> R := pw xs (cp0 xs y d).
  Definition her1 : R -> R := pw xs (cp1 xs y d).

  Theorem hermite_exists : hermite_fun xs y d her0 her1.
  Proof.
    assert (A0 := cp0_agree xs y d I). assert (A1 := cp1_agree xs y d I).
    split; [|split; [|split]].
    - apply pw_deriv; try assumption. apply cp0_deriv.
    - apply pw_cont; try assumption. intros k v. apply derivable_continuous_pt. eexists. apply cp1_deriv.
    - intros k Hk. pose proof (cp0_poly xs y d k) as P. cbv beta in P. do 4 eexists. intros v Hv. unfold her0.
      rewrite (pw_eq xs I H2 _ k v) by assumption. apply P.
    - intros k Hk. destruct (le_lt_dec (length xs) (S k)) as [L|L].
      + destruct k as [|k]; [lia|]. destruct (in_piece_at xs I k ltac:(lia)) as [_ P]. cbv beta in P.
        unfold her0, her1. rewrite !(pw_eq xs I H2 _ k _) by assumption. split; [apply (cp0_right xs y d I k); lia|apply (cp1_right xs y d I k); lia].
      + destruct (in_piece_at xs I k ltac:(lia)) as [P _]. cbv beta in P.
        unfold her0, her1. rewrite !(pw_eq xs I H2 _ k _) by assumption. split; [apply (cp0_left xs y d k)|apply (cp1_left xs y d k)].
  Qed.

  Theorem hermite_unique f f1 : hermite_fun xs y d f f1 -> forall v, f v = her0 v.
  Proof.
    intros (D & _ & Q & V) v. destruct (piece_exists xs I H2 v) as (k & Hk & Ek & Hl & Hr).
    assert (Hv : in_piece xs k v) by (split; [assumption|]; split; [assumption|]; destruct Hr; [left; assumption|right; lra]).
    destruct (Q k Hk) as (a0 & a1 & a2 & a3 & Hq). rewrite (Hq v Hv). unfold her0, pw. rewrite Ek.
    pose proof (I k Hk) as L.
    apply (cp0_hermite xs y d I k a0 a1 a2 a3 Hk).
    - rewrite <- (proj1 (V k ltac:(lia))). symmetry. apply Hq. apply (in_piece_at xs I); assumption.
    - rewrite <- (proj1 (V (S k) Hk)). symmetry. apply Hq. apply (in_piece_at xs I); assumption.
    - rewrite <- (proj2 (V k ltac:(lia))). symmetry.
      apply (deriv_right f (fun v => a0 + a1 * v + a2 * (v * v) + a3 * (v * v * v)) (nth k xs 0) _ _ (nth (S k) xs 0 - nth k xs 0)); [lra| |apply D|apply poly_deriv].
      intros u Hu. apply Hq. apply (in_piece_mid xs); [assumption|]. lra.
    - rewrite <- (proj2 (V (S k) Hk)). symmetry.
      apply (deriv_left f (fun v => a0 + a1 * v + a2 * (v * v) + a3 * (v * v * v)) (nth (S k) xs 0) _ _ (nth (S k) xs 0 - nth k xs 0)); [lra| |apply D|apply poly_deriv].
      intros u Hu. apply Hq. apply (in_piece_mid xs); [assumption|]. lra.
  Qed.
End Hermite.

Lemma hermite_at_fun qnan ex (xs : list R) rows ds n v j : increasing xs -> (2 <= length xs)%nat -> length rows = length xs ->
  (j < n)%nat -> (ex = true \/ inside xs v) ->
  nth j (hermite_at qnan ex xs rows ds n v) 0 = her0 xs (fun k => nth j (nth k rows []) 0) (fun k => nth j (nth k ds []) 0) v.
Proof.
  intros I H2 L Hj Hex. destruct (piece_exists xs I H2 v) as (k & Hk & Ek & Hl & Hr).
  assert (Hr' : (S (S k) = length xs \/ v <= nth (S k) xs 0)) by (destruct Hr; [left; assumption|right; lra]).
  rewrite (hermite_at_eq qnan ex xs _ _ _ I H2 v k j Hk Hj Hex Hl Hr').
  unfold her0, pw. rewrite Ek. rewrite <- (cp0_hval xs _ _ I k v Hk). reflexivity.
Qed.

(** ** Akima's derivatives *)

(** The slopes of the pieces, shifted by two, continued by two on both sides in
    arithmetic progression. *)
Definition slopes_ext (xs : list R) (y : nat -> R) (M : nat -> R) : Prop :=
  let n := length xs in
  (forall k, (S k < n)%nat -> M (k + 2)%nat = (y (S k) - y k) / (nth (S k) xs 0 - nth k xs 0)) /\
  M 0%nat - M 1%nat = M 1%nat - M 2%nat /\ M 1%nat - M 2%nat = M 2%nat - M 3%nat /\
  M (n + 1)%nat - M n = M n - M (n - 1)%nat /\ M (n + 2)%nat - M (n + 1)%nat = M (n + 1)%nat - M n.

(** The sum of the changes of the slopes after and before sample k. *)
Definition bend (M : nat -> R) (k : nat) : R := Rabs (M (k + 3)%nat - M (k + 2)%nat) + Rabs (M (k + 1)%nat - M k).

(** Akima's rule: the derivative is the mean of the slopes before and after,
    weighted by the changes of the slopes after and before; if there is no
    noticeable change, the mean of the slopes next to them. *)
Definition akima_rule (M : nat -> R) (limit : R) (k : nat) (d : R) : Prop :=
  (limit < bend M k -> d * bend M k = Rabs (M (k + 3)%nat - M (k + 2)%nat) * M (k + 1)%nat + Rabs (M (k + 1)%nat - M k) * M (k + 2)%nat) /\
  (bend M k <= limit -> d = (M (k + 3)%nat + M k) / 2).

Lemma akima_slopes_length e (xs ys : list R) : (2 <= length xs)%nat -> length (akima_slopes e xs ys) = (length xs + 3)%nat.
Proof. intros H. unfold akima_slopes. cbn [app length]. rewrite app_length, map_length, seq_length. cbn [length]. lia. Qed.

Lemma akima_slopes_ext e (xs ys : list R) : (3 <= length xs)%nat ->
  slopes_ext xs (fun k => nth k ys 0) (fun i => nth i (akima_slopes e xs ys) 0).
Proof.
  intros H3. set (n := length xs). set (s := map (slope_at xs ys) (seq 0 (n - 1))).
  assert (Ls : length s = (n - 1)%nat) by (unfold s; rewrite map_length, seq_length; reflexivity).
  assert (Ns : forall k, (S k < n)%nat -> nth k s 0 = slope_at xs ys k).
  { intros k Hk. unfold s. rewrite (nth_map_in _ _ _ 0%nat) by (rewrite seq_length; lia). rewrite seq_nth by lia. reflexivity. }
  unfold akima_slopes. fold n. fold s. cbv zeta. destruct (Nat.eqb_spec n 2) as [E|_]; [unfold n in *; lia|].
  match goal with |- context [[?a; ?b] ++ _ ++ [?c; ?d]] => set (m0 := a); set (m1 := b) in *; set (r2 := d); set (r1 := c) in * end.
  assert (G : forall k, (S k < n)%nat -> nth (k + 2) ([m0; m1] ++ s ++ [r1; r2]) 0 = nth k s 0).
  { intros k Hk. rewrite app_nth2 by (cbn; lia). cbn [length]. replace (k + 2 - 2)%nat with k by lia. apply app_nth1. lia. }
  assert (G1 : nth (n + 1) ([m0; m1] ++ s ++ [r1; r2]) 0 = r1).
  { rewrite app_nth2 by (cbn; lia). rewrite app_nth2 by (cbn; lia). cbn [length]. replace (n + 1 - 2 - length s)%nat with 0%nat by lia. reflexivity. }
  assert (G2 : nth (n + 2) ([m0; m1] ++ s ++ [r1; r2]) 0 = r2).
  { rewrite app_nth2 by (cbn; lia). rewrite app_nth2 by (cbn; lia). cbn [length]. replace (n + 2 - 2 - length s)%nat with 1%nat by lia. reflexivity. }
  split; [|split; [|split; [|split]]].
  - fold n. intros k Hk. rewrite G, Ns by assumption. reflexivity.
  - change (nth 2 ([m0; m1] ++ s ++ [r1; r2]) 0) with (nth (0 + 2) ([m0; m1] ++ s ++ [r1; r2]) 0). rewrite G by lia. cbn [app nth].
    unfold m0. rn. lra.
  - change (nth 2 ([m0; m1] ++ s ++ [r1; r2]) 0) with (nth (0 + 2) ([m0; m1] ++ s ++ [r1; r2]) 0).
    change (nth 3 ([m0; m1] ++ s ++ [r1; r2]) 0) with (nth (1 + 2) ([m0; m1] ++ s ++ [r1; r2]) 0). rewrite !G by lia. cbn [app nth].
    unfold m1. rn. lra.
  - fold n. rewrite G1. pose proof (G (n - 2)%nat ltac:(lia)) as A. pose proof (G (n - 3)%nat ltac:(lia)) as B.
    replace (n - 2 + 2)%nat with n in A by lia. replace (n - 3 + 2)%nat with (n - 1)%nat in B by lia. rewrite A, B.
    unfold r1. rn. lra.
  - fold n. rewrite G1, G2. pose proof (G (n - 2)%nat ltac:(lia)) as A. replace (n - 2 + 2)%nat with n in A by lia. rewrite A.
    unfold r2. rn. lra.
Qed.

Lemma akima_f12_bend m k : akima_f12 m k = bend (fun i => nth i m 0) k.
Proof. reflexivity. Qed.

Lemma bend_nonneg M k : 0 <= bend M k.
Proof. unfold bend. pose proof (Rabs_pos (M (k + 3)%nat - M (k + 2)%nat)). pose proof (Rabs_pos (M (k + 1)%nat - M k)). lra. Qed.

Lemma akima_deriv_rule limit m k : 0 <= limit -> akima_rule (fun i => nth i m 0) limit k (akima_deriv limit m k).
Proof.
  intros H0. unfold akima_deriv. rewrite akima_f12_bend. split; intros H.
  - assert (E : nltb limit (bend (fun i => nth i m 0) k) = true) by (apply Rltb_iff; assumption).
    rewrite E. cbv iota. unfold akima_f1, akima_f2. rn. field. lra.
  - assert (E : nltb limit (bend (fun i => nth i m 0) k) = false) by (apply Rltb_false; lra).
    rewrite E. cbv iota. rn. lra.
Qed.

Lemma max_list_ge (l : list R) x : In x l -> x <= max_list l.
Proof.
  assert (G : forall l a, a <= fold_left npmax l a /\ forall x, In x l -> x <= fold_left npmax l a).
  { clear. induction l as [|b l IH]; intros a; cbn [fold_left In]; [split; [lra|intros _ []]|].
    destruct (IH (npmax a b)) as [A B]. rewrite npmax_R in A, B |- *. pose proof (Rmax_l a b). pose proof (Rmax_r a b). split; [lra|].
    intros x [->|Hx]; [lra|]. apply B, Hx. }
  destruct l as [|a l]; intros H; [destruct H|]. destruct (G l a) as [A B]. cbn [max_list]. destruct H as [->|H]; [assumption|]. apply B, H.
Qed.
Lemma max_list_in (l : list R) : l <> [] -> In (max_list l) l.
Proof.
  assert (G : forall (l : list R) (a : R), fold_left npmax l a = a \/ In (fold_left npmax l a) l).
  { clear. induction l as [|b l IH]; intros a; cbn [fold_left In]; [left; reflexivity|].
    destruct (IH (npmax a b)) as [A|A]; [|right; right; assumption]. rewrite npmax_R in A |- *. rewrite A.
    destruct (Rle_dec a b); [rewrite Rmax_right by assumption; auto|rewrite Rmax_left by lra; auto]. }
  destruct l as [|a l]; intros N; [contradiction N; reflexivity|]. cbn [max_list]. destruct (G l a) as [E|E]; [rewrite E; left; reflexivity|right; assumption].
Qed.

Section Akima.
  Variables (xs : list R) (rows : list (list R)) (empty : nat -> R) (n : nat).
  Hypothesis I : increasing xs.
  Hypothesis H2 : (2 <= length xs)%nat.
  Hypothesis L : length rows = length xs.
  Hypothesis Pn : (0 < n)%nat.

  Definition ak_m (j i : nat) : R := nth i (akima_slopes (empty j) xs (column rows j)) 0.
  Let all := concat (map (fun i => map (fun j => akima_f12 (akima_slopes (empty j) xs (column rows j)) i) (seq 0 n)) (seq 0 (length xs))).
  Definition ak_top : R := max_list all.

  Lemma ak_top_ge i j : (i < length xs)%nat -> (j < n)%nat -> bend (ak_m j) i <= ak_top.
  Proof.
    intros Hi Hj. apply max_list_ge. unfold all. apply in_concat. eexists. split.
    - apply in_map_iff. exists i. split; [reflexivity|]. apply in_seq. lia.
    - apply in_map_iff. exists j. split; [reflexivity|]. apply in_seq. lia.
  Qed.
  Lemma ak_top_in : exists i j, (i < length xs)%nat /\ (j < n)%nat /\ ak_top = bend (ak_m j) i.
  Proof.
    assert (N : all <> []).
    { unfold all. destruct (length xs); [lia|]. destruct n; [lia|]. cbn. discriminate. }
    pose proof (max_list_in all N) as K. unfold all in K at 2. apply in_concat in K as (l & Hl & K).
    apply in_map_iff in Hl as (i & <- & Hi). apply in_map_iff in K as (j & E & Hj). apply in_seq in Hi, Hj.
    exists i, j. split; [lia|]. split; [lia|]. symmetry. exact E.
  Qed.
  Lemma ak_top_pos : 0 <= ak_top.
  Proof. destruct ak_top_in as (i & j & _ & _ & ->). apply bend_nonneg. Qed.

  Lemma akima_rows_length : length (akima_rows empty xs rows n) = length xs.
  Proof. unfold akima_rows. rewrite map_length, seq_length. reflexivity. Qed.

  Lemma akima_rows_rule k j : (k < length xs)%nat -> (j < n)%nat ->
    akima_rule (ak_m j) (ak_top / 1000000000) k (nth j (nth k (akima_rows empty xs rows n) []) 0).
  Proof.
    intros Hk Hj. unfold akima_rows. rewrite (nth_map_in _ _ _ 0%nat) by (rewrite seq_length; assumption). rewrite seq_nth by assumption.
    rewrite (nth_map_in _ _ _ 0%nat) by (rewrite seq_length; assumption). rewrite seq_nth by assumption. rewrite !Nat.add_0_l.
    change (max_list _) with ak_top.
    replace (nmul (nlit 1 1000000000) ak_top) with (ak_top / 1000000000) by (rn; lra).
    apply akima_deriv_rule. pose proof ak_top_pos. lra.
  Qed.
End Akima.

(** ** Consequences of the rule *)

Lemma rule_between M limit k d : 0 <= limit -> akima_rule M limit k d ->
  Rmin (M (k + 1)%nat) (M (k + 2)%nat) - limit / 2 <= d <= Rmax (M (k + 1)%nat) (M (k + 2)%nat) + limit / 2.
Proof.
  intros H0 [R1 R2]. unfold bend in *. set (w1 := Rabs (M (k + 3)%nat - M (k + 2)%nat)) in *. set (w2 := Rabs (M (k + 1)%nat - M k)) in *.
  assert (P1 : 0 <= w1) by apply Rabs_pos. assert (P2 : 0 <= w2) by apply Rabs_pos.
  pose proof (Rmin_l (M (k + 1)%nat) (M (k + 2)%nat)). pose proof (Rmin_r (M (k + 1)%nat) (M (k + 2)%nat)).
  pose proof (Rmax_l (M (k + 1)%nat) (M (k + 2)%nat)). pose proof (Rmax_r (M (k + 1)%nat) (M (k + 2)%nat)).
  set (lo := Rmin _ _) in *. set (hi := Rmax _ _) in *.
  destruct (Rlt_dec limit (w1 + w2)) as [L|L].
  - specialize (R1 L). assert (A : lo * (w1 + w2) <= d * (w1 + w2) <= hi * (w1 + w2)) by (rewrite R1; split; nra).
    assert (lo <= d <= hi); [|lra]. split; apply Rmult_le_reg_r with (w1 + w2); lra.
  - assert (L' : w1 + w2 <= limit) by lra. specialize (R2 L').
    pose proof (Rle_abs (M (k + 3)%nat - M (k + 2)%nat)). pose proof (Rle_abs (- (M (k + 3)%nat - M (k + 2)%nat))) as B1. rewrite Rabs_Ropp in B1.
    pose proof (Rle_abs (M (k + 1)%nat - M k)). pose proof (Rle_abs (- (M (k + 1)%nat - M k))) as B2. rewrite Rabs_Ropp in B2.
    unfold w1, w2 in *. lra.
Qed.

Lemma rule_progression M limit k d e : 0 <= limit -> akima_rule M limit k d ->
  M (k + 1)%nat - M k = e -> M (k + 3)%nat - M (k + 2)%nat = e -> d = (M (k + 1)%nat + M (k + 2)%nat) / 2.
Proof.
  intros H0 [R1 R2] E1 E2. unfold bend in *. rewrite E1, E2 in *. destruct (Rlt_dec limit (Rabs e + Rabs e)) as [L|L].
  - specialize (R1 L). apply Rmult_eq_reg_r with (Rabs e + Rabs e); [|lra]. rewrite R1. field.
  - rewrite R2 by lra. lra.
Qed.

Lemma ext_progression xs y M e : (2 <= length xs)%nat -> slopes_ext xs y M ->
  (length xs = 2%nat -> M 3%nat - M 2%nat = e) ->
  (forall k, (S (S k) < length xs)%nat -> M (k + 3)%nat - M (k + 2)%nat = e) ->
  forall i, (i < length xs + 2)%nat -> M (S i) - M i = e.
Proof.
  intros H2 (_ & E0 & E1 & E2 & E3) T Hk i Hi. set (n := length xs) in *.
  assert (Hin : forall i, (2 <= i)%nat -> (i < n)%nat -> M (S i) - M i = e).
  { intros m A B. specialize (Hk (m - 2)%nat ltac:(lia)). replace (m - 2 + 3)%nat with (S m) in Hk by lia. replace (m - 2 + 2)%nat with m in Hk by lia. assumption. }
  assert (G1 : M 2%nat - M 1%nat = e).
  { destruct (Nat.eq_dec n 2) as [E|E]; [specialize (T E); lra|]. specialize (Hin 2%nat ltac:(lia) ltac:(lia)). lra. }
  assert (G0 : M 1%nat - M 0%nat = e) by lra.
  assert (Gn : M n - M (n - 1)%nat = e).
  { destruct (Nat.eq_dec n 2) as [E|E]; [rewrite E; assumption|]. specialize (Hin (n - 1)%nat ltac:(lia) ltac:(lia)).
    replace (S (n - 1)) with n in Hin by lia. assumption. }
  destruct (Nat.eq_dec i 0) as [->|]; [assumption|]. destruct (Nat.eq_dec i 1) as [->|]; [assumption|].
  destruct (Nat.eq_dec i n) as [->|]; [replace (S n) with (n + 1)%nat by lia; lra|].
  destruct (Nat.eq_dec i (n + 1)) as [->|]; [replace (S (n + 1)) with (n + 2)%nat by lia; lra|].
  apply Hin; lia.
Qed.

Lemma akima_slopes_ext2 e (xs ys : list R) : length xs = 2%nat ->
  slopes_ext xs (fun k => nth k ys 0) (fun i => nth i (akima_slopes e xs ys) 0) /\ nth 3 (akima_slopes e xs ys) 0 = e.
Proof.
  intros E. unfold akima_slopes, slopes_ext. rewrite E. cbn [Nat.eqb Nat.sub seq map]. cbv zeta. cbn [app nth Nat.add]. rn.
  split; [|lra]. split; [|repeat split; lra].
  intros k Hk. replace k with 0%nat by lia. reflexivity.
Qed.

(** Polynomials that have the right values and derivatives. *)
Lemma her0_poly xs y d a0 a1 a2 a3 : increasing xs -> (2 <= length xs)%nat ->
  (forall k, (k < length xs)%nat -> let v := nth k xs 0 in
     y k = a0 + a1 * v + a2 * (v * v) + a3 * (v * v * v) /\ d k = a1 + 2 * a2 * v + 3 * a3 * (v * v)) ->
  forall v, her0 xs y d v = a0 + a1 * v + a2 * (v * v) + a3 * (v * v * v).
Proof.
  intros I H2 H v. symmetry.
  apply (hermite_unique xs y d I H2 (fun v => a0 + a1 * v + a2 * (v * v) + a3 * (v * v * v)) (fun v => a1 + 2 * a2 * v + 3 * a3 * (v * v))).
  split; [|split; [|split]].
  - intros u. apply poly_deriv.
  - intros u. apply derivable_continuous_pt. exists (2 * a2 + 2 * (3 * a3) * u + 3 * 0 * (u * u)).
    apply (glue_deriv _ (fun v => a1 + 2 * a2 * v + 3 * a3 * (v * v) + 0 * (v * v * v)) (fun v => a1 + 2 * a2 * v + 3 * a3 * (v * v) + 0 * (v * v * v)) u _ 1);
      try lra; intros; try ring; apply (poly_deriv a1 (2 * a2) (3 * a3) 0).
  - intros k Hk. exists a0, a1, a2, a3. reflexivity.
  - intros k Hk. destruct (H k Hk) as [A B]. split; symmetry; assumption.
Qed.

(** The interpolator. *)
Lemma akima_eq junk qnan empty (c : curve R) : wf c -> (2 <= c_size c)%nat -> increasing (c_tval junk c) ->
  akima junk qnan empty c = Ok (as_array (c_ndim c)
    (map (hermite_at qnan false (c_tval junk c) (c_rows c) (akima_rows empty (c_tval junk c) (c_rows c) (c_ndim c)) (c_ndim c)))).
Proof.
  intros W H I. assert (N := size_nonempty c ltac:(lia)). assert (L := tval_length junk c W N).
  unfold akima. rewrite (proj2 (prepare_ok_iff _ _)) by (unfold c_size in *; split; [lia|split; [congruence|assumption]]).
  rewrite hermite_new_ok; try assumption; try (unfold c_size in *; lia). 2:{ rewrite akima_rows_length. reflexivity. }
  reflexivity.
Qed.
Lemma akima_fails junk qnan empty (c : curve R) : ~ ((2 <= c_size c)%nat /\ increasing (c_tval junk c)) ->
  exists e, akima junk qnan empty c = Raise e.
Proof.
  intros N. unfold akima. destruct (prepare_ok (c_tval junk c) (c_rows c)) eqn:E; [|eexists; reflexivity].
  apply prepare_ok_iff in E as (E1 & E2 & E3). exfalso. apply N. unfold c_size. split; [lia|assumption].
Qed.
