(** Lengths and distances of linearly interpolated points: the arc length up to a
    parameter bounds the distance of two points of the interpolant. *)
From Coq Require Import ZArith List Bool Arith Lia Reals Lra Psatz.
From Verif Require Import Num Py Numeric Curve Vec Geom DiffGeom Registry Interp GeomSpec.
From Verif Require Import ListFacts ArrayProofs VecFacts CurveProofs CurveProofs2 CurveProofs3 GeomProofs DiffGeomProofs.
From Verif Require Import InterpProofs InterpProofs2 InterpProofs3.
Import ListNotations.
Local Open Scope R_scope.

(** Two points of one line. *)
Lemma affine_dist p q t t' x x' : length p = length q -> affine_at p q t x -> affine_at p q t' x' -> dist x x' = Rabs (t' - t) * dist p q.
Proof.
  intros L [A1 A2] [B1 B2]. rewrite !dist_vdist by congruence. unfold vdist.
  replace (vsub x x') with (vscale (vsub p q) (t' - t)); [apply vnorm_scale|].
  apply vec_ext; [rewrite vscale_length, !vsub_length by congruence; congruence|].
  intros i. rewrite nth_vscale, !nth_vsub by congruence. rewrite A2, B2. ring.
Qed.

Section Line.
  Variables (n : nat) (xs : list R) (ys : list (list R)) (cum : list R).
  Hypothesis (I : increasing xs) (L : length ys = length xs) (D : dims n ys) (H2 : (2 <= length xs)%nat).
  Hypothesis (Lc : length cum = length xs).
  Hypothesis (C : forall k, (S k < length xs)%nat -> nth (S k) cum 0 = nth k cum 0 + dist (nth k ys []) (nth (S k) ys [])).

  Definition piece (k : nat) (v : R) : Prop :=
    (S k < length xs)%nat /\ (k = 0%nat \/ nth k xs 0 <= v) /\ (S (S k) = length xs \/ v <= nth (S k) xs 0).

  (** The length of the polygon up to the parameter [v]. *)
  Definition upto (v : R) : R := nth 0 (interp_at xs (map (fun x => [x]) cum) v) 0.

  Lemma row_length k : (k < length xs)%nat -> length (nth k ys []) = n.
  Proof. intros Hk. apply D, nth_In. lia. Qed.

  Lemma upto_piece k v : piece k v ->
    upto v = nth k cum 0 + (v - nth k xs 0) / (nth (S k) xs 0 - nth k xs 0) * (nth (S k) cum 0 - nth k cum 0).
  Proof.
    intros (Hk & Hl & Hr). unfold upto.
    assert (N : forall j, (j < length xs)%nat -> nth j (map (fun x : R => [x]) cum) [] = [nth j cum 0]).
    { intros j Hj. rewrite (nth_indep _ [] [0]) by (rewrite map_length; lia). apply (map_nth (fun x : R => [x])). }
    assert (A := interp_at_piece 1 xs (map (fun x => [x]) cum) v k I).
    destruct A as [_ A]; try assumption.
    - rewrite map_length. assumption.
    - intros p Hp. apply in_map_iff in Hp as (x & <- & _). reflexivity.
    - rewrite A, !N by lia. reflexivity.
  Qed.

  Lemma same_piece k v v' : piece k v -> piece k v' -> v <= v' ->
    dist (interp_at xs ys v) (interp_at xs ys v') = upto v' - upto v.
  Proof.
    intros P P' V. rewrite (upto_piece k v P), (upto_piece k v' P').
    destruct P as (Hk & Hl & Hr), P' as (_ & Hl' & Hr').
    assert (A := interp_at_piece n xs ys v k I L D Hk Hl Hr). assert (A' := interp_at_piece n xs ys v' k I L D Hk Hl' Hr').
    rewrite (affine_dist (nth k ys []) (nth (S k) ys []) _ _ _ _ ltac:(rewrite !row_length by lia; reflexivity) A A').
    rewrite (C k Hk). pose proof (I k Hk) as Ik.
    replace ((v' - nth k xs 0) / (nth (S k) xs 0 - nth k xs 0) - (v - nth k xs 0) / (nth (S k) xs 0 - nth k xs 0))
      with ((v' - v) * / (nth (S k) xs 0 - nth k xs 0)) by (field; lra).
    rewrite Rabs_right; [field; lra|]. apply Rle_ge, Rmult_le_pos; [lra|]. apply Rlt_le, Rinv_0_lt_compat. lra.
  Qed.

  Lemma interp_row_length v : length (interp_at xs ys v) = n.
  Proof. apply interp_at_length; assumption. Qed.

  Lemma piece_node k : (S k < length xs)%nat -> piece k (nth k xs 0) /\ piece k (nth (S k) xs 0).
  Proof. intros Hk. pose proof (I k Hk). repeat split; try assumption; right; lra. Qed.

  Lemma chain k' : forall k v v', piece k v -> piece k' v' -> v <= v' ->
    dist (interp_at xs ys v) (interp_at xs ys v') <= upto v' - upto v.
  Proof.
    induction k' as [k' IH] using lt_wf_ind. intros k v v' P P' V.
    destruct (Nat.lt_trichotomy k k') as [K|[->|K]].
    - destruct k' as [|k']; [lia|]. destruct P as (Hk & Hl & Hr). destruct P' as (Hk' & Hl' & Hr').
      destruct Hl' as [Hl'|Hl']; [discriminate|]. destruct Hr as [Hr|Hr]; [lia|].
      assert (V1 : v <= nth (S k') xs 0) by (eapply Rle_trans; [exact Hr|apply (increasing_le xs I); lia]).
      destruct (piece_node k' ltac:(lia)) as [_ P1]. destruct (piece_node (S k') ltac:(lia)) as [P2 _].
      pose proof (IH k' ltac:(lia) k v (nth (S k') xs 0) (conj Hk (conj Hl (or_intror Hr))) P1 V1).
      pose proof (same_piece (S k') (nth (S k') xs 0) v' P2 (conj Hk' (conj (or_intror Hl') Hr')) Hl').
      pose proof (dist_triangle (interp_at xs ys v) (interp_at xs ys (nth (S k') xs 0)) (interp_at xs ys v') ltac:(rewrite !interp_row_length; reflexivity) ltac:(rewrite !interp_row_length; reflexivity)).
      lra.
    - right. apply (same_piece k'); assumption.
    - assert (E : v = v').
      { destruct P as (Hk & [Hl|Hl] & _); [lia|]. destruct P' as (Hk' & _ & [Hr'|Hr']); [lia|].
        pose proof (increasing_le xs I (S k') k ltac:(lia)). lra. }
      subst v'. rewrite dist_refl. lra.
  Qed.

  Lemma piece_of v : exists k, piece k v.
  Proof. destruct (piece_exists xs v I H2) as (k & K). exists k. exact K. Qed.

  Lemma upto_dist v v' : v <= v' -> dist (interp_at xs ys v) (interp_at xs ys v') <= upto v' - upto v.
  Proof. intros V. destruct (piece_of v) as (k & K), (piece_of v') as (k' & K'). apply (chain k' k); assumption. Qed.

  Lemma upto_mono v v' : v <= v' -> upto v <= upto v'.
  Proof. intros V. pose proof (upto_dist v v' V). pose proof (dist_nonneg (interp_at xs ys v) (interp_at xs ys v')). lra. Qed.

  Lemma upto_node k : (k < length xs)%nat -> upto (nth k xs 0) = nth k cum 0.
  Proof.
    intros Hk. destruct (Nat.eq_dec (S k) (length xs)) as [E|E].
    - destruct k as [|k]; [lia|]. destruct (piece_node k ltac:(lia)) as [_ P]. rewrite (upto_piece k _ P). pose proof (I k Hk). field. lra.
    - destruct (piece_node k ltac:(lia)) as [P _]. rewrite (upto_piece k _ P). pose proof (I k ltac:(lia)). field. lra.
  Qed.

  (** The steps of a rising grid together, and what is lost between nodes. *)
  Definition inside (a b : R) : list R := filter (fun x => if Rlt_dec a x then if Rlt_dec x b then true else false else false) xs.

  Lemma inside_split a b c : a <= b -> b <= c -> (length (inside a b) + length (inside b c) <= length (inside a c))%nat.
  Proof.
    intros A B. unfold inside. clear - A B. induction xs as [|x l IH]; [cbn; lia|]. cbn [filter].
    destruct (Rlt_dec a x), (Rlt_dec x b), (Rlt_dec b x), (Rlt_dec x c); cbn [length] in *; try lia; lra.
  Qed.

  Lemma inside_none a b : a <= b -> inside a b = [] -> exists k, piece k a /\ piece k b.
  Proof.
    intros V E. destruct (Req_dec a b) as [->|N]; [destruct (piece_of b) as (k & K); exists k; split; exact K|].
    assert (X : forall k, (k < length xs)%nat -> nth k xs 0 <= a \/ b <= nth k xs 0).
    { intros k Hk. destruct (Rle_dec (nth k xs 0) a); [auto|]. destruct (Rle_dec b (nth k xs 0)); [auto|]. exfalso.
      assert (K : In (nth k xs 0) (inside a b)).
      { apply filter_In. split; [apply nth_In; assumption|]. destruct (Rlt_dec a (nth k xs 0)), (Rlt_dec (nth k xs 0) b); try reflexivity; lra. }
      rewrite E in K. destruct K. }
    destruct (piece_of ((a + b) / 2)) as (k & Hk & Hl & Hr). exists k. split; (split; [assumption|]); split.
    - destruct Hl as [->|Hl]; [auto|]. right. destruct (X k ltac:(lia)); lra.
    - destruct Hr as [Hr|Hr]; [auto|]. right. lra.
    - destruct Hl as [->|Hl]; [auto|]. right. lra.
    - destruct Hr as [Hr|Hr]; [auto|]. right. destruct (X (S k) ltac:(lia)); lra.
  Qed.

  Lemma grid_length a g : increasing (a :: g) ->
    polyline (map (interp_at xs ys) (a :: g)) <= upto (last (a :: g) 0) - upto a.
  Proof.
    revert a. induction g as [|b g IH]; intros a G; [cbn; lra|].
    change (polyline (map (interp_at xs ys) (a :: b :: g))) with (dist (interp_at xs ys a) (interp_at xs ys b) + polyline (map (interp_at xs ys) (b :: g))).
    change (last (a :: b :: g) 0) with (last (b :: g) 0).
    pose proof (G 0%nat ltac:(cbn; lia)) as Gab. cbn in Gab.
    pose proof (IH b (increasing_tail a _ G)). pose proof (upto_dist a b ltac:(lra)). lra.
  Qed.

  Lemma last_ge a g : increasing (a :: g) -> a <= last (a :: g) 0.
  Proof.
    revert a. induction g as [|b g IH]; intros a G; [cbn; lra|].
    change (last (a :: b :: g) 0) with (last (b :: g) 0).
    pose proof (G 0%nat ltac:(cbn; lia)) as Gab. cbn in Gab. pose proof (IH b (increasing_tail a _ G)). lra.
  Qed.

  Lemma grid_loss h a g : increasing (a :: g) ->
    (forall i, (S i < length (a :: g))%nat -> upto (nth (S i) (a :: g) 0) - upto (nth i (a :: g) 0) <= h) -> 0 <= h ->
    upto (last (a :: g) 0) - upto a - h * INR (length (inside a (last (a :: g) 0))) <= polyline (map (interp_at xs ys) (a :: g)).
  Proof.
    revert a. induction g as [|b g IH]; intros a G Hs Hh.
    - cbn [last map polyline]. pose proof (pos_INR (length (inside a a))). pose proof (Rmult_le_pos _ _ Hh H). lra.
    - change (polyline (map (interp_at xs ys) (a :: b :: g))) with (dist (interp_at xs ys a) (interp_at xs ys b) + polyline (map (interp_at xs ys) (b :: g))).
      change (last (a :: b :: g) 0) with (last (b :: g) 0).
      pose proof (G 0%nat ltac:(cbn; lia)) as Gab. cbn [nth] in Gab. pose proof (Hs 0%nat ltac:(cbn; lia)) as Hab. cbn [nth] in Hab.
      pose proof (last_ge b g (increasing_tail a _ G)) as Gb.
      pose proof (IH b (increasing_tail a _ G) (fun i Hi => Hs (S i) ltac:(cbn [length] in *; lia)) Hh) as K.
      set (z := last (b :: g) 0) in *.
      pose proof (inside_split a b z ltac:(lra) Gb) as Sp. apply le_INR in Sp. rewrite plus_INR in Sp.
      pose proof (Rmult_le_compat_l h _ _ Hh Sp) as M.
      assert (B : upto b - upto a - h * INR (length (inside a b)) <= dist (interp_at xs ys a) (interp_at xs ys b)).
      { destruct (inside a b) as [|x l] eqn:E.
        - destruct (inside_none a b ltac:(lra) E) as (k & K1 & K2). rewrite (same_piece k a b K1 K2) by lra. cbn. lra.
        - pose proof (dist_nonneg (interp_at xs ys a) (interp_at xs ys b)).
          assert (1 <= INR (length (x :: l))) by (replace 1 with (INR 1) by reflexivity; apply le_INR; cbn; lia).
          pose proof (Rmult_le_compat_l h _ _ Hh H0). lra. }
      lra.
  Qed.

  (** A grid that meets every node it passes loses nothing. *)
  Lemma grid_exact a g : increasing (a :: g) -> (forall x, In x xs -> a < x < last (a :: g) 0 -> In x g) ->
    polyline (map (interp_at xs ys) (a :: g)) = upto (last (a :: g) 0) - upto a.
  Proof.
    revert a. induction g as [|b g IH]; intros a G Hg; [cbn; lra|].
    change (polyline (map (interp_at xs ys) (a :: b :: g))) with (dist (interp_at xs ys a) (interp_at xs ys b) + polyline (map (interp_at xs ys) (b :: g))).
    change (last (a :: b :: g) 0) with (last (b :: g) 0) in *.
    pose proof (G 0%nat ltac:(cbn; lia)) as Gab. cbn [nth] in Gab.
    pose proof (last_ge b g (increasing_tail a _ G)) as Gb.
    assert (Gt : forall x, In x g -> b < x).
    { intros x Hx. apply (In_nth _ _ 0) in Hx as (i & Hi & <-). apply (increasing_lt _ (increasing_tail a _ G) 0 (S i)). cbn. lia. }
    rewrite IH.
    - destruct (inside_none a b ltac:(lra)) as (k & K1 & K2).
      + unfold inside. destruct (filter _ xs) as [|x l] eqn:E; [reflexivity|]. exfalso.
        assert (X : In x (filter (fun x => if Rlt_dec a x then if Rlt_dec x b then true else false else false) xs)) by (rewrite E; left; reflexivity).
        apply filter_In in X as [X1 X2]. destruct (Rlt_dec a x), (Rlt_dec x b); try discriminate.
        destruct (Hg x X1 ltac:(lra)) as [->|X3]; [lra|]. apply Gt in X3. lra.
      + rewrite (same_piece k a b K1 K2) by lra. lra.
    - apply increasing_tail with a. assumption.
    - intros x Hx Hx2. destruct (Hg x Hx ltac:(lra)) as [->|X3]; [lra|assumption].
  Qed.

  Lemma inside_all : (length (inside (nth 0 xs 0%R) (nth (length xs - 1) xs 0%R)) <= length xs - 2)%nat.
  Proof.
    unfold inside. destruct xs as [|x0 l] eqn:E; [cbn; lia|]. rewrite <- E in *. clear C Lc L.
    destruct (exists_last (l := l)) as (m & z & Em). { intros ->. rewrite E in H2. cbn in H2. lia. }
    assert (Ez : nth (length xs - 1) xs 0 = z).
    { rewrite E, Em. cbn [length]. rewrite app_length. cbn [length]. replace (S (length m + 1) - 1)%nat with (S (length m)) by lia. cbn [nth]. rewrite app_nth2 by lia. rewrite Nat.sub_diag. reflexivity. }
    rewrite Ez. assert (E0 : nth 0 xs 0 = x0) by (rewrite E; reflexivity). rewrite E0.
    rewrite E, Em. cbn [filter length]. rewrite filter_app, app_length. cbn [filter].
    destruct (Rlt_dec x0 x0); [lra|]. destruct (Rlt_dec z z); [lra|].
    assert (F : forall f : R -> bool, (length (filter f m) <= length m)%nat).
    { intros f. induction m as [|y m' IHm] using rev_ind; [cbn; lia|]. clear. induction (m' ++ [y]) as [|w k IH]; [cbn; lia|]. cbn. destruct (f w); cbn; lia. }
    destruct (Rlt_dec x0 z); cbn [length]; rewrite app_length; cbn [length];
    match goal with |- context [filter ?f m] => pose proof (F f) end; lia.
  Qed.
End Line.
