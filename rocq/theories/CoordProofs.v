(** Coordinates of a curve that are treated independently of each other. *)
From Coq Require Import String.
From Coq Require Import ZArith List Bool Arith Lia.
From Verif Require Import Num Py Numeric Curve Vec DiffGeom Registry Interp Splines Splines2 Smooth Savgol Spec ListFacts VecFacts DiffGeomProofs4 LocalProofs LocalProofs3.
Import ListNotations.

Section Coord.
  Context {T : Type} {NT : Num T} {ST : NumSqrt T}.

  (** Column j of one array is column j2 of the other. *)
  Definition same_column (rows rows2 : list (list T)) (j j2 : nat) : Prop :=
    length rows = length rows2 /\ forall l, l < length rows -> nth j (nth l rows []) n0 = nth j2 (nth l rows2 []) n0.

  Lemma column_eq rows rows2 j j2 : same_column rows rows2 j j2 -> Splines.column rows j = Splines.column rows2 j2.
  Proof.
    intros (E & H). unfold Splines.column. apply (nth_ext _ _ n0 n0); [rewrite !map_length; exact E|]. intros l Hl. rewrite map_length in Hl.
    change (nth l (Splines.column rows j) n0 = nth l (Splines.column rows2 j2) n0). rewrite !column_at. apply H, Hl.
  Qed.
  Lemma column_all rows rows2 j j2 l : same_column rows rows2 j j2 -> nth j (nth l rows []) n0 = nth j2 (nth l rows2 []) n0.
  Proof. intros S. rewrite <- !column_at, (column_eq _ _ _ _ S). reflexivity. Qed.

  Lemma nth_seq_map {A} (f : nat -> A) n j d : j < n -> nth j (map f (seq 0 n)) d = f j.
  Proof.
    intros H. rewrite (nth_indep _ d (f 0)) by (rewrite map_length, seq_length; exact H). rewrite map_nth, seq_nth by exact H. reflexivity.
  Qed.
  Lemma nth_cast d (u : list T) j : j < length u -> nth j (map (cast d) u) n0 = cast d (nth j u n0).
  Proof. intros H. rewrite (nth_indep _ n0 (cast d n0)) by (rewrite map_length; exact H). apply map_nth. Qed.

  (** ** Interpolation *)

  Lemma hermite_at_coord (qnan : T) ex xs ys ys2 ds ds2 n n2 v j j2 : j < n -> j2 < n2 ->
    (forall l, nth j (nth l ys []) n0 = nth j2 (nth l ys2 []) n0) -> (forall l, S l < length xs -> nth j (nth l ds []) n0 = nth j2 (nth l ds2 []) n0) ->
    (forall l, S l = length xs -> nth j (nth l ds []) n0 = nth j2 (nth l ds2 []) n0) -> 2 <= length xs ->
    nth j (hermite_at qnan ex xs ys ds n v) n0 = nth j2 (hermite_at qnan ex xs ys2 ds2 n2 v) n0.
  Proof.
    intros Hj Hj2 A B B2 L. unfold hermite_at. cbv zeta. rewrite !nth_seq_map by assumption.
    assert (P : S (piece_of xs v) < length xs) by (unfold piece_of; lia).
    rewrite !A, (B _ P). destruct (le_lt_dec (length xs) (S (S (piece_of xs v)))); [rewrite (B2 (S (piece_of xs v))) by lia|rewrite (B (S (piece_of xs v))) by lia]; reflexivity.
  Qed.

  Lemma pchip_coord (xs : list T) rows rows2 n n2 j j2 l : j < n -> j2 < n2 -> same_column rows rows2 j j2 -> l < length xs ->
    nth j (nth l (pchip_rows xs rows n) []) n0 = nth j2 (nth l (pchip_rows xs rows2 n2) []) n0.
  Proof.
    intros Hj Hj2 S Hl. unfold pchip_rows. rewrite !nth_seq_map by assumption. rewrite (column_eq _ _ _ _ S). reflexivity.
  Qed.
  Lemma cubic_coord b0 b1 b02 b12 (xs : list T) rows rows2 n n2 j j2 l : j < n -> j2 < n2 -> same_column rows rows2 j j2 -> l < length xs ->
    bc_coord b0 j = bc_coord b02 j2 -> bc_coord b1 j = bc_coord b12 j2 ->
    nth j (nth l (cubic_rows b0 b1 xs rows n) []) n0 = nth j2 (nth l (cubic_rows b02 b12 xs rows2 n2) []) n0.
  Proof.
    intros Hj Hj2 S Hl E0 E1. unfold cubic_rows. rewrite !nth_seq_map by assumption. rewrite (column_eq _ _ _ _ S), E0, E1. reflexivity.
  Qed.

  Lemma interp_at_coord (xs : list T) rows rows2 n n2 v j j2 : length xs = length rows -> 2 <= length xs ->
    (forall p, In p rows -> length p = n) -> (forall p, In p rows2 -> length p = n2) -> j < n -> j2 < n2 -> same_column rows rows2 j j2 ->
    nth j (interp_at xs rows v) n0 = nth j2 (interp_at xs rows2 v) n0.
  Proof.
    intros L L2 D D2 Hj Hj2 S. unfold interp_at. cbv zeta. set (hi := Nat.max 1 _). assert (Hh : 1 <= hi /\ hi < length xs) by (unfold hi; lia). clearbody hi.
    pose proof (proj1 S) as E. 
    assert (B : forall l, l < length rows -> length (nth l rows []) = n) by (intros l Hl; apply D, nth_In, Hl).
    assert (B2 : forall l, l < length rows -> length (nth l rows2 []) = n2) by (intros l Hl; apply D2, nth_In; lia).
    rewrite (nth_map2 _ _ _ j n0 n0) by (rewrite !B by lia; (reflexivity || lia)).
    rewrite (nth_map2 _ (nth (hi - 1) rows2 []) _ j2 n0 n0) by (rewrite !B2 by lia; (reflexivity || lia)).
    rewrite !(column_all rows rows2 j j2 _ S). reflexivity.
  Qed.

  (** ** Smoothing *)

  Lemma conv_row_coord m cval (w : list T) rows rows2 n n2 i j j2 : j < n -> j2 < n2 -> same_column rows rows2 j j2 ->
    nth j (conv_row m cval w rows n i) n0 = nth j2 (conv_row m cval w rows2 n2 i) n0.
  Proof.
    intros Hj Hj2 S. unfold conv_row. rewrite !nth_seq_map by assumption. f_equal. apply map_ext. intros k. f_equal.
    unfold ext_row. rewrite <- (proj1 S). destruct (ext_index _ _ _) as [l|]; [apply (column_all _ _ _ _ _ S)|].
    assert (R : forall (x : T) m k, k < m -> nth k (repeat x m) n0 = x).
    { intros x m0. induction m0 as [|m0 IH]; intros k0 H; [lia|]. destruct k0; [reflexivity|]. apply IH. lia. }
    rewrite !R by assumption. reflexivity.
  Qed.
  Lemma convolve1d_coord (rows rows2 : list (list T)) n n2 dt w mode cval y y2 j j2 : j < n -> j2 < n2 -> same_column rows rows2 j j2 ->
    convolve1d rows n dt w mode cval = Ok y -> convolve1d rows2 n2 dt w mode cval = Ok y2 -> same_column y y2 j j2.
  Proof.
    intros Hj Hj2 S E1 E2. unfold convolve1d in E1, E2. destruct w as [|w0 w]; [discriminate|]. destruct (bmode_of mode) as [m|e]; cbn [rbind] in E1, E2; [|discriminate].
    inversion E1. inversion E2. pose proof (proj1 S) as L. split; [rewrite !map_length, !seq_length; exact L|].
    intros l Hl. rewrite map_length, seq_length in Hl. rewrite !nth_seq_map by lia. rewrite !nth_cast by (rewrite conv_row_len; assumption). f_equal.
    apply conv_row_coord; assumption.
  Qed.
  Lemma fit_edge_coord (rows rows2 : list (list T)) n n2 w p d delta start i0 m j j2 : j < n -> j2 < n2 -> same_column rows rows2 j j2 ->
    same_column (fit_edge rows n w p d delta start i0 m) (fit_edge rows2 n2 w p d delta start i0 m) j j2.
  Proof.
    intros Hj Hj2 S. split; [rewrite !(proj1 (fit_edge_shape _ _ _ _ _ _ _ _ _)); reflexivity|]. rewrite (proj1 (fit_edge_shape _ _ _ _ _ _ _ _ _)). intros l Hl.
    unfold fit_edge. cbv zeta.
    match goal with |- nth j (nth l (map ?f ?s) []) n0 = nth j2 (nth l (map ?f2 ?s) []) n0 =>
      rewrite (nth_indep (map f s) [] (f 0)) by (rewrite map_length, seq_length; exact Hl);
      rewrite (nth_indep (map f2 s) [] (f2 0)) by (rewrite map_length, seq_length; exact Hl);
      rewrite (map_nth f), (map_nth f2) end.
    rewrite !map_map. rewrite !nth_seq_map by assumption.
    assert (W : forall r k, map (fun r : list T => nth k r n0) (firstn w (skipn start r)) = firstn w (skipn start (Splines.column r k)))
      by (intros r k; unfold Splines.column; rewrite skipn_map, firstn_map; reflexivity).
    rewrite !W, (column_eq _ _ _ _ S). reflexivity.
  Qed.
  Lemma same_column_app (u u2 v v2 : list (list T)) j j2 : same_column u u2 j j2 -> same_column v v2 j j2 -> same_column (u ++ v) (u2 ++ v2) j j2.
  Proof.
    intros (L & A) (L2 & B). split; [rewrite !app_length; lia|]. intros l Hl. rewrite app_length in Hl. destruct (le_lt_dec (length u) l) as [H|H].
    - rewrite !app_nth2 by lia. rewrite <- L. apply B. lia.
    - rewrite !app_nth1 by lia. apply A. exact H.
  Qed.
  Lemma same_column_part (y y2 : list (list T)) j j2 a b : same_column y y2 j j2 -> same_column (firstn a (skipn b y)) (firstn a (skipn b y2)) j j2.
  Proof.
    intros (L & A). split; [rewrite !firstn_length, !skipn_length, L; reflexivity|]. intros l Hl. rewrite firstn_length, skipn_length in Hl.
    rewrite !nth_firstn_lt by lia. rewrite !nth_skipn_add. apply A. lia.
  Qed.

  (** ** Derivatives *)

  Definition gslope (m : nat) (f : nat -> T) (i : nat) : T :=
    if Nat.eqb m 2 then nsub (f 1) (f 0)
    else if Nat.eqb i 0 then nadd (nadd (nmul (f 0) (nlit (-3) 2)) (nmul (f 1) (nlit 2 1))) (nmul (f 2) (nlit (-1) 2))
    else if Nat.eqb i (m - 1) then nadd (nadd (nmul (f (m - 3)) (nlit 1 2)) (nmul (f (m - 2)) (nlit (-2) 1))) (nmul (f (m - 1)) (nlit 3 2))
    else ndiv (nsub (f (i + 1)) (f (i - 1))) (nlit 2 1).

  Lemma vec_nth (op : T -> T -> T) (u v : list T) n j : length u = n -> length v = n -> j < n -> nth j (map2 op u v) n0 = op (nth j u n0) (nth j v n0).
  Proof. intros A B H. apply nth_map2; lia. Qed.
  Lemma scale_nth (u : list T) s j : j < length u -> nth j (vscale u s) n0 = nmul (nth j u n0) s.
  Proof. intros H. unfold vscale. rewrite (nth_indep _ n0 (nmul n0 s)) by (rewrite map_length; exact H). apply (map_nth (fun x => nmul x s)). Qed.
  Lemma vec_len (op : T -> T -> T) (u v : list T) n : length u = n -> length v = n -> length (map2 op u v) = n.
  Proof. intros A B. rewrite map2_length, A, B. apply Nat.min_id. Qed.
  Lemma scale_len (u : list T) s n : length u = n -> length (vscale u s) = n.
  Proof. intros A. unfold vscale. rewrite map_length. exact A. Qed.

  Lemma gradient_coord n (rows : list (list T)) i : (forall p, In p rows -> length p = n) -> 2 <= length rows -> i < length rows ->
    length (nth i (gradient rows) []) = n /\
    forall j, j < n -> nth j (nth i (gradient rows) []) n0 = gslope (length rows) (fun k => nth j (nth k rows []) n0) i.
  Proof.
    intros D Hm Hi.
    assert (L : forall k, k < length rows -> length (nth k rows []) = n) by (intros k Hk; apply D, nth_In, Hk).
    assert (G : gradient rows = np_gradient (negb (Nat.eqb (length rows) 2)) rows).
    { unfold gradient. destruct rows as [|a [|b [|c r]]]; cbn in *; try lia; reflexivity. }
    rewrite G. unfold np_gradient. cbv zeta. rewrite nth_seq_map by exact Hi. unfold gslope.
    destruct (Nat.eqb_spec (length rows) 2) as [E2|N2]; cbn [negb].
    - rewrite E2. cbn [Nat.sub]. rewrite E2 in L.
      destruct i as [|[|i]]; [| |lia]; cbn [Nat.eqb]; unfold vsub;
        (split; [apply vec_len; apply L; lia|]); intros j Hj; rewrite (vec_nth nsub _ _ n) by (try exact Hj; apply L; lia); reflexivity.
    - destruct (Nat.eqb_spec i 0) as [->|N0]; [|destruct (Nat.eqb_spec i (length rows - 1)) as [->|NL]].
      + unfold vadd. split; [repeat apply vec_len; apply scale_len, L; lia|]. intros j Hj.
        rewrite (vec_nth nadd _ _ n) by (try exact Hj; repeat apply vec_len; apply scale_len, L; lia).
        rewrite (vec_nth nadd _ _ n) by (try exact Hj; apply scale_len, L; lia).
        rewrite !scale_nth by (rewrite L by lia; exact Hj). reflexivity.
      + unfold vadd. split; [repeat apply vec_len; apply scale_len, L; lia|]. intros j Hj.
        rewrite (vec_nth nadd _ _ n) by (try exact Hj; repeat apply vec_len; apply scale_len, L; lia).
        rewrite (vec_nth nadd _ _ n) by (try exact Hj; apply scale_len, L; lia).
        rewrite !scale_nth by (rewrite L by lia; exact Hj). reflexivity.
      + unfold vsub. split; [rewrite map_length; apply vec_len; apply L; lia|]. intros j Hj.
        rewrite (nth_indep _ _ (ndiv n0 (nlit 2 1))) by (rewrite map_length, (vec_len nsub _ _ n); [exact Hj|apply L; lia|apply L; lia]).
        rewrite (map_nth (fun x => ndiv x (nlit 2 1))). rewrite (vec_nth nsub _ _ n) by (try exact Hj; apply L; lia). reflexivity.
  Qed.
  Lemma gslope_ext m f g i : (forall k, f k = g k) -> gslope m f i = gslope m g i.
  Proof. intros H. unfold gslope. rewrite !H. reflexivity. Qed.

  Lemma gradient_same n n2 (rows rows2 : list (list T)) j j2 : (forall p, In p rows -> length p = n) -> (forall p, In p rows2 -> length p = n2) ->
    2 <= length rows -> j < n -> j2 < n2 -> same_column rows rows2 j j2 ->
    same_column (gradient rows) (gradient rows2) j j2 /\ (forall p, In p (gradient rows) -> length p = n).
  Proof.
    intros D D2 Hm Hj Hj2 S. pose proof (proj1 S) as E. split.
    - split; [rewrite !gen_gradient_length; exact E|]. rewrite gen_gradient_length. intros l Hl.
      rewrite (proj2 (gradient_coord n rows l D Hm Hl) j Hj), (proj2 (gradient_coord n2 rows2 l D2 ltac:(lia) ltac:(lia)) j2 Hj2), <- E.
      apply gslope_ext. intros k. apply (column_all _ _ _ _ _ S).
    - intros p Hp. apply (In_nth _ _ []) in Hp as (l & Hl & <-). rewrite gen_gradient_length in Hl. apply (gradient_coord n rows l D Hm Hl).
  Qed.
  Lemma same_column_sym (rows rows2 : list (list T)) j j2 : same_column rows rows2 j j2 -> same_column rows2 rows j2 j.
  Proof. intros (L & A). split; [congruence|]. intros l Hl. symmetry. apply A. lia. Qed.
End Coord.
