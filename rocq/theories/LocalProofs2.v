(** Which points of a curve its derivatives, Frenet vectors, curvature and torsion
    at a point depend on. *)
From Coq Require Import String.
From Coq Require Import ZArith List Bool Arith Lia.
From Verif Require Import Num Py Numeric Curve Vec DiffGeom Spec ListFacts VecFacts DiffGeomProofs DiffGeomProofs2 DiffGeomProofs4 LocalProofs.
Import ListNotations.

Section Reach.
  Context {T : Type} {NT : Num T} {ST : NumSqrt T}.

  (** d steps on both sides of point i, one more at the ends. *)
  Definition reach (d i n : nat) : nat := if Nat.eqb i 0 || Nat.eqb i (n - 1) then S d else d.
  Definition near_rows (d i : nat) (rows rows2 : list (list T)) : Prop :=
    forall l, i <= l + d -> l <= i + d -> nth l rows [] = nth l rows2 [].

  Definition loc {A} (da : A) (d : nat) (F : list (list T) -> list A) : Prop :=
    (forall rows, length (F rows) = length rows) /\
    forall rows rows2 i, length rows = length rows2 -> i < length rows -> near_rows (reach d i (length rows)) i rows rows2 ->
      nth i (F rows) da = nth i (F rows2) da.

  Lemma near_mono d d' i rows rows2 : d <= d' -> near_rows d' i rows rows2 -> near_rows d i rows rows2.
  Proof. intros H N l A B. apply N; lia. Qed.
  Lemma reach_mono d d' i n : d <= d' -> reach d i n <= reach d' i n.
  Proof. unfold reach. destruct (_ || _); lia. Qed.
  Lemma loc_mono {A} (da : A) d d' F : d <= d' -> loc da d F -> loc da d' F.
  Proof.
    intros H (L & N). split; [exact L|]. intros rows rows2 i E Hi Nr. apply N; [exact E|exact Hi|].
    apply (near_mono _ _ _ _ _ (reach_mono d d' i (length rows) H) Nr).
  Qed.
  Lemma loc_id : loc [] 0 (fun rows => rows).
  Proof. split; [reflexivity|]. intros rows rows2 i _ _ N. apply N; lia. Qed.

  Lemma loc_map {A B} (da : A) (db : B) d F (f : A -> B) : loc da d F -> loc db d (fun rows => map f (F rows)).
  Proof.
    intros (L & N). split; [intros; rewrite map_length; apply L|]. intros rows rows2 i E Hi Nr.
    rewrite (nth_indep _ db (f da)) by (rewrite map_length, L; exact Hi).
    rewrite (nth_indep (map f (F rows2)) db (f da)) by (rewrite map_length, L, <- E; exact Hi).
    rewrite !map_nth. f_equal. exact (N rows rows2 i E Hi Nr).
  Qed.
  Lemma loc_map2 {A B C} (da : A) (db : B) (dc : C) d F G (f : A -> B -> C) : loc da d F -> loc db d G -> loc dc d (fun rows => map2 f (F rows) (G rows)).
  Proof.
    intros (L & N) (L2 & N2). split; [intros; apply gen_map2_length; [apply L|apply L2]|]. intros rows rows2 i E Hi Nr.
    rewrite !(nth_map2 f _ _ i da db) by (rewrite ?L, ?L2; lia). rewrite (N rows rows2 i E Hi Nr), (N2 rows rows2 i E Hi Nr). reflexivity.
  Qed.
  Lemma loc_combine {A B} (da : A) (db : B) d F G : loc da d F -> loc db d G -> loc (da, db) d (fun rows => combine (F rows) (G rows)).
  Proof.
    intros (L & N) (L2 & N2). split; [intros; apply gen_combine_length; [apply L|apply L2]|]. intros rows rows2 i E Hi Nr.
    rewrite !combine_nth by (rewrite L, L2; reflexivity). rewrite (N rows rows2 i E Hi Nr), (N2 rows rows2 i E Hi Nr). reflexivity.
  Qed.

  Lemma gradient_at (r r2 : list (list T)) i : length r = length r2 -> i < length r ->
    (forall l, l < length r -> (i <= l + 1 /\ l <= i + 1) \/ (i = 0 /\ l <= 2) \/ (i = length r - 1 /\ i <= l + 2) -> nth l r [] = nth l r2 []) ->
    nth i (gradient r) [] = nth i (gradient r2) [].
  Proof.
    intros E Hi A.
    destruct (le_lt_dec 2 (length r)) as [Hn|Hn].
    2: { destruct r as [|x [|y r]]; cbn in *; try lia. destruct r2 as [|x2 [|y2 r2]]; cbn in *; try lia. reflexivity. }
    assert (G : forall r : list (list T), 2 <= length r -> gradient r = np_gradient (negb (Nat.eqb (length r) 2)) r).
    { intros r0 Hr. unfold gradient. destruct r0 as [|a [|b [|c r0]]]; cbn in *; try lia; reflexivity. }
    rewrite !G by lia. unfold np_gradient. cbv zeta. rewrite <- E.
    match goal with |- nth i (map ?f ?l) [] = nth i (map ?f2 ?l) [] =>
      rewrite (nth_indep (map f l) [] (f 0)) by (rewrite map_length, seq_length; lia);
      rewrite (nth_indep (map f2 l) [] (f2 0)) by (rewrite map_length, seq_length; lia);
      rewrite (map_nth f), (map_nth f2) end.
    rewrite seq_nth by lia. cbn [Nat.add].
    destruct (Nat.eqb_spec (length r) 2) as [E2|E2]; cbn [negb].
    - destruct (Nat.eqb_spec i 0) as [I0|I0]; [|destruct (Nat.eqb_spec i (length r - 1)) as [IL|IL]; [|lia]].
      + rewrite (A 0), (A 1) by lia. reflexivity.
      + rewrite (A (length r - 1)), (A (length r - 2)) by lia. reflexivity.
    - destruct (Nat.eqb_spec i 0) as [I0|I0]; [|destruct (Nat.eqb_spec i (length r - 1)) as [IL|IL]].
      + rewrite (A 0), (A 1), (A 2) by lia. reflexivity.
      + rewrite (A (length r - 1)), (A (length r - 2)), (A (length r - 3)) by lia. reflexivity.
      + rewrite (A (i + 1)), (A (i - 1)) by lia. reflexivity.
  Qed.

  Lemma loc_gradient d F : loc [] d F -> loc [] (S d) (fun rows => gradient (F rows)).
  Proof.
    intros (L & N). split; [intros; rewrite gen_gradient_length; apply L|]. intros rows rows2 i E Hi Nr.
    apply gradient_at; [rewrite !L; exact E|rewrite L; exact Hi|]. rewrite L. intros l Hl C. apply (N rows rows2 l E Hl).
    intros p Hp1 Hp2. destruct (le_lt_dec (length rows) p) as [Hp|Hp]; [rewrite !nth_overflow by lia; reflexivity|].
    unfold reach in Hp1, Hp2, Nr.
    apply Nr; destruct (Nat.eqb_spec i 0), (Nat.eqb_spec i (length rows - 1)), (Nat.eqb_spec l 0), (Nat.eqb_spec l (length rows - 1)); cbn [orb] in *; lia.
  Qed.

  Lemma loc_d1 : loc [] 1 deriv1. Proof. exact (loc_gradient 0 _ loc_id). Qed.
  Lemma loc_d2 : loc [] 2 deriv2. Proof. exact (loc_gradient 1 _ loc_d1). Qed.
  Lemma loc_d3 : loc [] 3 deriv3. Proof. exact (loc_gradient 2 _ loc_d2). Qed.
  Lemma loc_speed : loc n0 1 speed_rows. Proof. exact (loc_map [] n0 1 _ vnorm loc_d1). Qed.
  Lemma loc_e1 : loc [] 1 frenet1_rows. Proof. exact (loc_map [] [] 1 _ unit_row loc_d1). Qed.
  Lemma loc_n : loc [] 2 normal_rows.
  Proof. exact (loc_map2 [] [] [] 2 _ _ reject loc_d2 (loc_mono _ 1 2 _ ltac:(lia) loc_e1)). Qed.
  Lemma loc_e2 : loc [] 2 frenet2_rows. Proof. exact (loc_map [] [] 2 _ unit_row loc_n). Qed.
  Lemma loc_b : loc [] 3 binormal_rows.
  Proof.
    exact (loc_map2 [] ([], []) [] 3 _ _ _ loc_d3 (loc_combine [] [] 3 _ _ (loc_mono _ 1 3 _ ltac:(lia) loc_e1) (loc_mono _ 2 3 _ ltac:(lia) loc_e2))).
  Qed.
  Lemma loc_e3 : loc [] 3 frenet3_rows. Proof. exact (loc_map [] [] 3 _ unit_row loc_b). Qed.
  Lemma loc_cp : loc n0 2 (fun rows => map2 curvature2 (deriv1 rows) (deriv2 rows)).
  Proof. exact (loc_map2 [] [] n0 2 _ _ _ (loc_mono _ 1 2 _ ltac:(lia) loc_d1) loc_d2). Qed.
  Lemma loc_cs : loc n0 2 curvature_space.
  Proof. exact (loc_map2 [] [] n0 2 _ _ _ (loc_gradient 1 _ loc_e1) (loc_mono _ 1 2 _ ltac:(lia) loc_d1)). Qed.
  Lemma loc_t : loc n0 3 torsion_rows.
  Proof. exact (loc_map2 ([], []) [] n0 3 _ _ _ (loc_combine [] [] 3 _ _ (loc_gradient 2 _ loc_e2) loc_e3) (loc_mono _ 1 3 _ ltac:(lia) loc_d1)). Qed.

  (** array[idx] of two arrays which agree at this place. *)
  Lemma np_get_same {A} (da : A) (u v : list A) n k idx : length u = n -> length v = n -> k < n ->
    (idx = Z.of_nat k \/ idx = Z.of_nat k - Z.of_nat n)%Z -> nth k u da = nth k v da -> np_get u idx = np_get v idx.
  Proof.
    intros Lu Lv Hk Hi E. destruct (np_get_wrapped u n k idx Lu Hk Hi) as (x & Nx & ->). destruct (np_get_wrapped v n k idx Lv Hk Hi) as (y & Ny & ->).
    apply (nth_error_nth _ _ da) in Nx. apply (nth_error_nth _ _ da) in Ny. congruence.
  Qed.

  Lemma loc_get {A} (da : A) d F rows rows2 k idx : loc da d F -> length rows = length rows2 -> k < length rows ->
    (idx = Z.of_nat k \/ idx = Z.of_nat k - Z.of_nat (length rows))%Z -> near_rows (reach d k (length rows)) k rows rows2 ->
    np_get (F rows) idx = np_get (F rows2) idx.
  Proof.
    intros (L & N) E Hk Hi Nr. apply (np_get_same da _ _ (length rows) k); [apply L|rewrite L; congruence|exact Hk|exact Hi|exact (N rows rows2 k E Hk Nr)].
  Qed.

  (** ** Cumulative arc length *)

  Lemma cumsum_from_prefix (l l2 : list T) : forall a k, length l = length l2 -> (forall j, j <= k -> nth j l n0 = nth j l2 n0) ->
    nth k (cumsum_from a l) n0 = nth k (cumsum_from a l2) n0.
  Proof.
    revert l2. induction l as [|x l IH]; intros [|y l2] a k E H; try discriminate; [reflexivity|].
    pose proof (H 0 ltac:(lia)) as H0. cbn in H0. subst y. cbn [cumsum_from]. destruct k as [|k]; [reflexivity|]. cbn [nth].
    apply IH; [cbn in E; lia|]. intros j Hj. exact (H (S j) ltac:(lia)).
  Qed.
  Lemma cumsum_prefix (l l2 : list T) k : length l = length l2 -> (forall j, j <= k -> nth j l n0 = nth j l2 n0) -> nth k (cumsum l) n0 = nth k (cumsum l2) n0.
  Proof.
    destruct l as [|x l], l2 as [|y l2]; intros E H; try discriminate; [reflexivity|].
    pose proof (H 0 ltac:(lia)) as H0. cbn in H0. subst y. cbn [cumsum]. destruct k as [|k]; [reflexivity|]. cbn [nth].
    apply cumsum_from_prefix; [cbn in E; lia|]. intros j Hj. exact (H (S j) ltac:(lia)).
  Qed.
  Lemma chord_at (rows rows2 : list (list T)) j : length rows = length rows2 -> nth j rows [] = nth j rows2 [] -> nth (S j) rows [] = nth (S j) rows2 [] ->
    nth j (chordlen_rows rows) n0 = nth j (chordlen_rows rows2) n0.
  Proof.
    revert rows2 j. induction rows as [|a [|b rows] IH]; intros [|a2 [|b2 rows2]] j E A B; try discriminate; [reflexivity|reflexivity|].
    destruct j as [|j]; [cbn in A, B; subst; reflexivity|].
    change (nth j (chordlen_rows (b :: rows)) n0 = nth j (chordlen_rows (b2 :: rows2)) n0). apply IH; [cbn in *; lia|exact A|exact B].
  Qed.
End Reach.
