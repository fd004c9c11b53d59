(** Which points of a curve an interpolated value depends on. *)
From Coq Require Import String.
From Coq Require Import List Bool Arith Lia ZArith.
From Verif Require Import Num Py Numeric Curve Vec DiffGeom Registry Interp Splines Spec ListFacts VecFacts InterpProofs InterpProofs2 FloatLinearProofs DiffGeomProofs DiffGeomProofs4.
Import ListNotations.

Section Local.
  Context {T : Type} {NT : Num T} {ST : NumSqrt T} {RT : NumRound T}.

  (** v lies in piece k of the parameters xs: behind those up to number k, not
      behind those after it; the first and the last piece have no outer bound. *)
  Definition in_piece (behind : T -> T -> bool) (xs : list T) (v : T) (k : nat) : Prop :=
    S k < length xs
    /\ (k = 0 \/ forall l, l <= k -> behind (nth l xs n0) v = true)
    /\ (S (S k) = length xs \/ forall l, k < l -> l < length xs -> behind (nth l xs n0) v = false).

  Lemma nth_firstn_lt {A} (l : list A) m i d : i < m -> nth i (firstn m l) d = nth i l d.
  Proof.
    revert m i. induction l as [|x l IH]; intros m i H; [rewrite firstn_nil; reflexivity|].
    destruct m; [lia|]. destruct i; [reflexivity|]. cbn. apply IH. lia.
  Qed.
  Lemma nth_skipn_add {A} (l : list A) m i d : nth i (skipn m l) d = nth (m + i) l d.
  Proof. revert l. induction m; intros l; [reflexivity|]. destruct l; [destruct i; reflexivity|]. cbn. apply IHm. Qed.
  Lemma filter_all {A} (p : A -> bool) l : (forall x, In x l -> p x = true) -> filter p l = l.
  Proof. induction l as [|x l IH]; intros H; [reflexivity|]. cbn. rewrite H by (left; reflexivity). f_equal. apply IH. intros y Hy. apply H. right. exact Hy. Qed.
  Lemma filter_none {A} (p : A -> bool) l : (forall x, In x l -> p x = false) -> filter p l = [].
  Proof. induction l as [|x l IH]; intros H; [reflexivity|]. cbn. rewrite H by (left; reflexivity). apply IH. intros y Hy. apply H. right. exact Hy. Qed.

  Lemma count_ge (p : T -> bool) xs k : k < length xs -> (forall l, l <= k -> p (nth l xs n0) = true) -> S k <= length (filter p xs).
  Proof.
    intros Hk H. rewrite <- (firstn_skipn (S k) xs), filter_app, app_length.
    rewrite filter_all; [rewrite firstn_length; lia|].
    intros x Hx. apply (In_nth _ _ n0) in Hx as (i & Hi & <-). rewrite firstn_length in Hi. rewrite nth_firstn_lt by lia. apply H. lia.
  Qed.
  Lemma filter_le {A} (p : A -> bool) l : length (filter p l) <= length l.
  Proof. induction l as [|x l IH]; [cbn; lia|]. cbn. destruct (p x); cbn; lia. Qed.
  Lemma count_le (p : T -> bool) xs k : (forall l, k < l -> l < length xs -> p (nth l xs n0) = false) -> length (filter p xs) <= S k.
  Proof.
    intros H. rewrite <- (firstn_skipn (S k) xs), filter_app, app_length.
    rewrite (filter_none p (skipn _ _)).
    - pose proof (filter_le p (firstn (S k) xs)). rewrite firstn_length in *. cbn [length]. lia.
    - intros x Hx. apply (In_nth _ _ n0) in Hx as (i & Hi & <-). rewrite skipn_length in Hi. rewrite nth_skipn_add. apply H; lia.
  Qed.

  Lemma piece_of_in xs v k : in_piece nleb xs v k -> piece_of xs v = k.
  Proof.
    intros (Hk & L & U). unfold piece_of.
    assert (A : k = 0 \/ S k <= length (filter (fun x => nleb x v) xs)) by (destruct L as [L|L]; [left; exact L|right; apply count_ge; [lia|exact L]]).
    assert (B : S (S k) = length xs \/ length (filter (fun x => nleb x v) xs) <= S k) by (destruct U as [U|U]; [left; exact U|right; apply count_le; exact U]).
    lia.
  Qed.
  Lemma bracket_in xs v k : in_piece lt_nan xs v k -> Nat.max 1 (Nat.min (searchsorted xs v) (length xs - 1)) = S k.
  Proof.
    intros (Hk & L & U). unfold searchsorted.
    assert (A : k = 0 \/ S k <= length (filter (fun x => lt_nan x v) xs)) by (destruct L as [L|L]; [left; exact L|right; apply count_ge; [lia|exact L]]).
    assert (B : S (S k) = length xs \/ length (filter (fun x => lt_nan x v) xs) <= S k) by (destruct U as [U|U]; [left; exact U|right; apply count_le; exact U]).
    lia.
  Qed.

  (** ** The derivatives *)

  Definition agree_near (k : nat) (rows rows2 : list (list T)) : Prop :=
    forall l, k <= l + 1 -> l <= k + 2 -> nth l rows [] = nth l rows2 [].

  Lemma gradient_local rows rows2 k i : length rows = length rows2 -> S k < length rows -> (i = k \/ i = S k) -> agree_near k rows rows2 ->
    nth i (gradient rows) [] = nth i (gradient rows2) [].
  Proof.
    intros E Hk Hi A.
    assert (G : forall r : list (list T), 2 <= length r -> gradient r = np_gradient (negb (Nat.eqb (length r) 2)) r).
    { intros r Hr. unfold gradient. destruct r as [|a [|b [|c r]]]; cbn in *; try lia; reflexivity. }
    rewrite !G by lia. unfold np_gradient. cbv zeta. rewrite <- E.
    match goal with |- nth i (map ?f ?l) [] = nth i (map ?f2 ?l) [] =>
      rewrite (nth_indep (map f l) [] (f 0)) by (rewrite map_length, seq_length; lia);
      rewrite (nth_indep (map f2 l) [] (f2 0)) by (rewrite map_length, seq_length; lia);
      rewrite (map_nth f), (map_nth f2) end.
    rewrite seq_nth by lia. cbn [Nat.add].
    destruct (Nat.eqb_spec i 0) as [I0|I0]; [|destruct (Nat.eqb_spec i (length rows - 1)) as [IL|IL]].
    - destruct (negb _) eqn:N2.
      + rewrite (A 0), (A 1), (A 2) by lia. reflexivity.
      + rewrite (A 0), (A 1) by lia. reflexivity.
    - destruct (Nat.eqb_spec (length rows) 2) as [E2|E2]; cbn [negb].
      + rewrite (A (length rows - 1)), (A (length rows - 2)) by lia. reflexivity.
      + rewrite (A (length rows - 1)), (A (length rows - 2)), (A (length rows - 3)) by lia. reflexivity.
    - rewrite (A (i + 1)), (A (i - 1)) by lia. reflexivity.
  Qed.

  Lemma frenet1_local rows rows2 k i : length rows = length rows2 -> S k < length rows -> (i = k \/ i = S k) -> agree_near k rows rows2 ->
    nth i (frenet1_rows rows) [] = nth i (frenet1_rows rows2) [].
  Proof.
    intros. unfold frenet1_rows, deriv1. change (@nil T) with (unit_row (@nil T)). rewrite !map_nth. f_equal.
    exact (gradient_local rows rows2 k i ltac:(assumption) ltac:(assumption) ltac:(assumption) ltac:(assumption)).
  Qed.

  Lemma column_at rows j k : nth k (Splines.column rows j) n0 = nth j (nth k rows []) (n0 : T).
  Proof.
    unfold Splines.column. replace (n0 : T) with (nth j (@nil T) n0) at 1 by (destruct j; reflexivity).
    exact (map_nth (fun r : list T => nth j r n0) rows [] k).
  Qed.

  Lemma pchip_local (xs : list T) rows rows2 n k i : S k < length xs -> (i = k \/ i = S k) -> agree_near k rows rows2 ->
    nth i (pchip_rows xs rows n) [] = nth i (pchip_rows xs rows2 n) [].
  Proof.
    intros Hk Hi A. unfold pchip_rows.
    match goal with |- nth i (map ?f ?l) [] = nth i (map ?f2 ?l) [] =>
      rewrite (nth_indep (map f l) [] (f 0)) by (rewrite map_length, seq_length; lia);
      rewrite (nth_indep (map f2 l) [] (f2 0)) by (rewrite map_length, seq_length; lia);
      rewrite (map_nth f), (map_nth f2) end.
    rewrite seq_nth by lia. cbn [Nat.add]. apply map_ext. intros j. unfold pchip_derivs. cbv zeta.
    match goal with |- nth i (map ?f ?l) ?d = nth i (map ?f2 ?l) ?d =>
      rewrite (nth_indep (map f l) d (f 0)) by (rewrite map_length, seq_length; lia);
      rewrite (nth_indep (map f2 l) d (f2 0)) by (rewrite map_length, seq_length; lia);
      rewrite (map_nth f), (map_nth f2) end.
    rewrite seq_nth by lia. cbn [Nat.add]. rewrite !column_at.
    destruct (Nat.eqb_spec (length xs) 2) as [E2|E2]; [rewrite (A 0), (A 1) by lia; reflexivity|].
    destruct (Nat.eqb_spec i 0) as [I0|I0]; [rewrite (A 0), (A 1), (A 2) by lia; reflexivity|].
    destruct (Nat.eqb_spec i (length xs - 1)) as [IL|IL].
    - rewrite (A (S (length xs - 2))), (A (length xs - 2)), (A (S (length xs - 3))), (A (length xs - 3)) by lia. reflexivity.
    - rewrite (A (S i)), (A i), (A (S (i - 1))), (A (i - 1)) by lia. reflexivity.
  Qed.

  Lemma hermite_at_local (qnan : T) ex xs ys ys2 ds ds2 n v k : in_piece nleb xs v k ->
    nth k ys [] = nth k ys2 [] -> nth (S k) ys [] = nth (S k) ys2 [] -> nth k ds [] = nth k ds2 [] -> nth (S k) ds [] = nth (S k) ds2 [] ->
    hermite_at qnan ex xs ys ds n v = hermite_at qnan ex xs ys2 ds2 n v.
  Proof. intros P A B C D. unfold hermite_at. cbv zeta. rewrite (piece_of_in _ _ _ P), A, B, C, D. reflexivity. Qed.

  (** ** The result *)

  Lemma interp_rows junk few (r : registry (icreate T)) name (c : curve T) s g a create f rows :
    wf c -> (2 <= c_size c)%nat -> reg_find r name = Some create -> create c = Ok f -> get_grid junk few c s = Ok g ->
    f g = Ok (mkNd [length g; c_ndim c] (concat rows)) -> length rows = length g -> (forall p, In p rows -> length p = c_ndim c) ->
    interpolate junk few r name c s = Ok a -> c_rows a = map (map (cast (c_dtype c))) rows.
  Proof.
    intros W H F C G Fg L D E. unfold interpolate, get_interpolator in E. rewrite F, C in E. cbn [rbind] in E.
    unfold interp_call in E. assert (B : c_bool c = true) by (apply c_bool_wf; [exact W|intros X; unfold c_size in H; rewrite X in H; cbn in H; lia]).
    rewrite B in E. cbn [negb] in E. destruct (Nat.eqb_spec (c_size c) 1); [lia|]. rewrite G in E. cbn [rbind] in E. rewrite Fg in E. cbv zeta in E.
    assert (N := get_grid_ne _ _ _ _ _ G).
    assert (Nr : rows <> []) by (intros X; rewrite X in L; destruct g; [contradiction|discriminate]).
    assert (Hn : (2 <= c_ndim c)%nat) by apply W.
    destruct (isparametric c).
    - change (Some (mkNd [length g] g)) with (option_map (fun t : list T => mkNd [length t] t) (Some g)) in E.
      rewrite <- L in E at 1. rewrite curve_init_cast in E by assumption. rewrite L, Nat.eqb_refl in E. inversion E. reflexivity.
    - rewrite <- L in E. rewrite (curve_init_cast rows (c_ndim c) None (c_dtype c) Nr Hn D : curve_init _ None None None _ = _) in E. inversion E. reflexivity.
  Qed.

  Lemma hermite_at_len (qnan : T) ex xs ys ds n v : length (hermite_at qnan ex xs ys ds n v) = n.
  Proof. unfold hermite_at. cbv zeta. rewrite map_length, seq_length. reflexivity. Qed.

  Lemma hermite_new_at (qnan : T) ex xs ys ds n f : hermite_new qnan ex xs ys (Some ds) n = Ok f ->
    f = (fun g => map (hermite_at qnan ex xs ys ds n) g) /\ length xs = length ys.
  Proof.
    unfold hermite_new. destruct (prepare_ok xs ys) eqn:P; [|discriminate]. destruct (_ && _); [|discriminate]. intros E. inversion E. split; [reflexivity|].
    unfold prepare_ok in P. rewrite !andb_true_iff in P. apply Nat.eqb_eq. tauto.
  Qed.

  Lemma hermite_like (create : icreate T) (qnan : T) ex ds junk few r name (c : curve T) s g a f :
    wf c -> (2 <= c_size c)%nat -> reg_find r name = Some create -> get_grid junk few c s = Ok g ->
    create c = Ok (as_array (c_ndim c) f) -> hermite_new qnan ex (c_tval junk c) (c_rows c) (Some ds) (c_ndim c) = Ok f ->
    interpolate junk few r name c s = Ok a ->
    c_rows a = map (map (cast (c_dtype c))) (map (hermite_at qnan ex (c_tval junk c) (c_rows c) ds (c_ndim c)) g).
  Proof.
    intros W H F G C E I. apply hermite_new_at in E as (-> & L).
    apply (interp_rows junk few r name c s g a create _ _ W H F C G); [reflexivity|rewrite map_length; reflexivity| |exact I].
    intros p Hp. apply in_map_iff in Hp as (v & <- & _). apply hermite_at_len.
  Qed.

  (** ** Linear interpolation *)

  Lemma insert_sample_end {Y} (p : T * Y) l : (forall q, In q l -> lt_nan (fst p) (fst q) = false) -> insert_sample p l = l ++ [p].
  Proof.
    induction l as [|q l IH]; intros H; [reflexivity|]. cbn [insert_sample app]. rewrite H by (left; reflexivity). f_equal. apply IH. intros y Hy. apply H. right. exact Hy.
  Qed.
  Lemma sort_sorted {Y} (d : T * Y) (l acc : list (T * Y)) :
    (forall p q, p < q -> q < length (acc ++ l) -> lt_nan (fst (nth q (acc ++ l) d)) (fst (nth p (acc ++ l) d)) = false) ->
    fold_left (fun acc p => insert_sample p acc) l acc = acc ++ l.
  Proof.
    revert acc. induction l as [|x l IH]; intros acc H; [rewrite app_nil_r; reflexivity|]. cbn [fold_left].
    rewrite insert_sample_end.
    - rewrite IH; rewrite <- app_assoc; [reflexivity|exact H].
    - intros y Hy. apply (In_nth _ _ d) in Hy as (i & Hi & E). specialize (H i (length acc) Hi). rewrite app_length in H. cbn [length] in H.
      specialize (H ltac:(lia)). rewrite (app_nth1 _ _ _ Hi), E in H. rewrite app_nth2, Nat.sub_diag in H by lia. exact H.
  Qed.
  Lemma nth_combine_fst {Y} (xs : list T) (ys : list Y) i d dy : length xs = length ys -> fst (nth i (combine xs ys) (d, dy)) = nth i xs d.
  Proof. intros E. rewrite combine_nth by exact E. reflexivity. Qed.
  Lemma sort_combine {Y} (xs : list T) (ys : list Y) (dy : Y) : length xs = length ys ->
    (forall p q, p < q -> q < length xs -> lt_nan (nth q xs n0) (nth p xs n0) = false) ->
    map fst (sort_samples (combine xs ys)) = xs /\ map snd (sort_samples (combine xs ys)) = ys.
  Proof.
    intros E H. unfold sort_samples. rewrite (sort_sorted (n0, dy) (combine xs ys) []).
    - cbn [app]. clear H. revert ys E. induction xs as [|x xs IH]; intros [|y ys] E; try discriminate; [split; reflexivity|].
      cbn [length] in E. destruct (IH ys ltac:(lia)) as (A & B). cbn [combine map fst snd]. rewrite A, B. split; reflexivity.
    - cbn [app]. intros p q Hpq Hq. rewrite combine_length in Hq. rewrite !nth_combine_fst by exact E. apply H; lia.
  Qed.

  Lemma lt_nan_number a b : nisnan b = false -> lt_nan a b = nltb a b.
  Proof. intros H. unfold lt_nan. rewrite H. cbn [andb]. apply orb_false_r. Qed.

  Lemma interp_at_local (xs : list T) ys ys2 v k : in_piece lt_nan xs v k -> nth k ys [] = nth k ys2 [] -> nth (S k) ys [] = nth (S k) ys2 [] ->
    interp_at xs ys v = interp_at xs ys2 v.
  Proof.
    intros P A B. unfold interp_at. cbv zeta. rewrite (bracket_in _ _ _ P). replace (S k - 1)%nat with k by lia. rewrite A, B. reflexivity.
  Qed.

  Lemma linear_like junk few r name (c : curve T) s g a :
    wf c -> (2 <= c_size c)%nat -> length (c_tval junk c) = c_size c ->
    (forall p q, p < q -> q < c_size c -> lt_nan (nth q (c_tval junk c) n0) (nth p (c_tval junk c) n0) = false) ->
    reg_find r name = Some (linear junk few) -> get_grid junk few c s = Ok g ->
    interpolate junk few r name c s = Ok a ->
    c_rows a = map (map (cast (c_dtype c))) (map (interp_at (c_tval junk c) (c_rows c)) g).
  Proof.
    intros W H L St F G I.
    assert (LL : length (c_tval junk c) = length (c_rows c)) by exact L.
    destruct (sort_combine (c_tval junk c) (c_rows c) [] LL) as (S1 & S2); [rewrite L; exact St|].
    assert (C : linear junk few c = Ok (fun g => do rows <- rseq (map (fun v => Ok (interp_at (c_tval junk c) (c_rows c) v)) g) ; Ok (mkNd [length g; c_ndim c] (concat rows)))).
    { unfold linear, interp1d. rewrite LL, Nat.eqb_refl. cbn [negb]. destruct (Nat.ltb_spec (length (c_rows c)) 2); [unfold c_size in H; lia|].
      cbv zeta. rewrite S1, S2. reflexivity. }
    apply (interp_rows junk few r name c s g a _ _ _ W H F C G); [cbv beta; rewrite rseq_map_ok; reflexivity|rewrite map_length; reflexivity| |exact I].
    intros p Hp. apply in_map_iff in Hp as (v & <- & _). unfold interp_at. cbv zeta. rewrite map2_length.
    assert (B : forall i, i < c_size c -> length (nth i (c_rows c) []) = c_ndim c) by (intros i Hi; apply W, nth_In, Hi).
    rewrite !B by (rewrite L; lia). apply Nat.min_id.
  Qed.
End Local.
