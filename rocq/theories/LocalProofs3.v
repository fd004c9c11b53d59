(** Which points of a curve a smoothed point depends on. *)
From Coq Require Import String.
From Coq Require Import ZArith List Bool Arith Lia.
From Verif Require Import Num Py Numeric Curve Vec Registry Smooth Savgol Spec ListFacts ArrayProofs VecFacts CurveProofs3 LocalProofs.
Import ListNotations.

Lemma sinj {A} (a b : A) : Some a = Some b -> a = b.
Proof. congruence. Qed.

(** Reflection, mirroring and clamping bring no position further away. *)
Lemma ext_index_near m n i j l : m <> BWrap -> (i < n)%nat -> ext_index m n j = Some l -> (Z.abs (Z.of_nat l - Z.of_nat i) <= Z.abs (j - Z.of_nat i))%Z.
Proof.
  intros Hm Hi E. unfold ext_index in E; cbv zeta in E; destruct m; [| | |contradiction|].
  - set (z := Z.of_nat n) in *. assert (Hz : (0 <= Z.of_nat i < z)%Z) by (unfold z; lia).
    set (q := (j / (2 * z))%Z). assert (Ej : (j = 2 * z * q + j mod (2 * z))%Z) by (apply Z.div_mod; lia).
    assert (Hk : (0 <= j mod (2 * z) < 2 * z)%Z) by (apply Z.mod_pos_bound; lia).
    set (k := (j mod (2 * z))%Z) in *. clearbody k q z. apply sinj in E. subst l.
    destruct (Z.ltb_spec k z).
    + rewrite Z2Nat.id by lia. assert (C : (q = 0 \/ q <= -1 \/ 1 <= q)%Z) by lia. destruct C as [-> | [C|C]]; [lia| |]; assert ((2 * z * q <= - (2 * z)) \/ (2 * z <= 2 * z * q))%Z by nia; lia.
    + rewrite Z2Nat.id by lia. assert (C : (q = 0 \/ q = -1 \/ q <= -2 \/ 1 <= q)%Z) by lia. destruct C as [-> | [-> | [C|C]]]; [lia|lia| |]; assert ((2 * z * q <= - (4 * z)) \/ (2 * z <= 2 * z * q))%Z by nia; lia.
  - inversion E as [E1]. rewrite Z2Nat.id by lia. lia.
  - destruct (Nat.eqb_spec n 1) as [E1|E1]; [inversion E; lia|].
    set (z := (Z.of_nat n - 1)%Z) in *. assert (Hz : (0 <= Z.of_nat i <= z)%Z) by (unfold z; lia). assert (Hz1 : (0 < z)%Z) by (unfold z; lia).
    set (q := (j / (2 * z))%Z). assert (Ej : (j = 2 * z * q + j mod (2 * z))%Z) by (apply Z.div_mod; lia).
    assert (Hk : (0 <= j mod (2 * z) < 2 * z)%Z) by (apply Z.mod_pos_bound; lia).
    replace (Z.of_nat n) with (z + 1)%Z in E by (unfold z; lia).
    set (k := (j mod (2 * z))%Z) in *. clearbody k q z. apply sinj in E. subst l.
    destruct (Z.ltb_spec k (z + 1)).
    + rewrite Z2Nat.id by lia. assert (C : (q = 0 \/ q <= -1 \/ 1 <= q)%Z) by lia. destruct C as [-> | [C|C]]; [lia| |]; assert ((2 * z * q <= - (2 * z)) \/ (2 * z <= 2 * z * q))%Z by nia; lia.
    + rewrite Z2Nat.id by lia. assert (C : (q = 0 \/ q = -1 \/ q <= -2 \/ 1 <= q)%Z) by lia. destruct C as [-> | [-> | [C|C]]]; [lia|lia| |]; assert ((2 * z * q <= - (4 * z)) \/ (2 * z <= 2 * z * q))%Z by nia; lia.
  - destruct (Z.leb_spec 0 j); destruct (Z.ltb_spec j (Z.of_nat n)); cbn [andb] in E; try discriminate. inversion E. rewrite Z2Nat.id by lia. lia.
Qed.

Section Smooth.
  Context {T : Type} {NT : Num T}.

  (** The points within h places of point i; around the end for mode 'wrap'. *)
  Definition within_places (wrap : bool) (n h i l : nat) : Prop :=
    if wrap then exists j, (Z.abs (j - Z.of_nat i) <= Z.of_nat h)%Z /\ Z.of_nat l = (j mod Z.of_nat n)%Z
    else (i <= l + h)%nat /\ (l <= i + h)%nat.
  Definition is_wrap (m : bmode) : bool := match m with BWrap => true | _ => false end.

  Lemma ext_row_local m cval (rows rows2 : list (list T)) n h i j : length rows = length rows2 -> (i < length rows)%nat ->
    (Z.abs (j - Z.of_nat i) <= Z.of_nat h)%Z -> (forall l, within_places (is_wrap m) (length rows) h i l -> nth l rows [] = nth l rows2 []) ->
    ext_row m cval rows n j = ext_row m cval rows2 n j.
  Proof.
    intros E Hi Hj A. unfold ext_row. rewrite <- E. destruct (ext_index m (length rows) j) as [l|] eqn:El; [|reflexivity].
    apply A. destruct (bool_dec (is_wrap m) true) as [Hw|Hw].
    - rewrite Hw. destruct m; try discriminate. cbn [ext_index] in El. inversion El. exists j. split; [exact Hj|]. rewrite Z2Nat.id; [reflexivity|]. apply Z.mod_pos_bound. lia.
    - apply not_true_is_false in Hw. rewrite Hw. unfold within_places. apply (ext_index_near m _ i) in El; [lia|intros ->; discriminate|exact Hi].
  Qed.

  Lemma conv_row_local m cval (w : list T) (rows rows2 : list (list T)) n i : length rows = length rows2 -> (i < length rows)%nat ->
    (forall l, within_places (is_wrap m) (length rows) (length w / 2) i l -> nth l rows [] = nth l rows2 []) ->
    conv_row m cval w rows n i = conv_row m cval w rows2 n i.
  Proof.
    intros E Hi A. unfold conv_row. apply map_ext. intros col. f_equal. apply map_ext_in. intros k Hk. apply in_seq in Hk.
    rewrite (ext_row_local m cval rows rows2 n (length w / 2) i _ E Hi); [reflexivity| |exact A].
    pose proof (Nat.div_mod (length w) 2 ltac:(lia)) as D. pose proof (Nat.mod_upper_bound (length w) 2 ltac:(lia)). lia.
  Qed.
  Lemma conv_row_len m cval (w : list T) rows n i : length (conv_row m cval w rows n i) = n.
  Proof. unfold conv_row. rewrite map_length, seq_length. reflexivity. Qed.

  Lemma convolve1d_local (rows rows2 : list (list T)) n dt w mode m cval y y2 i : bmode_of mode = Ok m ->
    convolve1d rows n dt w mode cval = Ok y -> convolve1d rows2 n dt w mode cval = Ok y2 -> length rows = length rows2 -> (i < length rows)%nat ->
    (forall l, within_places (is_wrap m) (length rows) (length w / 2) i l -> nth l rows [] = nth l rows2 []) -> nth i y [] = nth i y2 [].
  Proof.
    intros Hm E1 E2 E Hi A. unfold convolve1d in E1, E2. destruct w as [|w0 w]; [discriminate|]. rewrite Hm in E1, E2. cbn [rbind] in E1, E2. inversion E1. inversion E2. rewrite <- E.
    set (f := fun i => map (cast dt) (conv_row m cval (w0 :: w) rows n i)). set (f2 := fun i => map (cast dt) (conv_row m cval (w0 :: w) rows2 n i)).
    rewrite (nth_indep _ [] (f 0%nat)) by (rewrite map_length, seq_length; exact Hi).
    rewrite (nth_indep (map f2 _) [] (f2 0%nat)) by (rewrite map_length, seq_length; exact Hi).
    rewrite !map_nth, seq_nth by exact Hi. unfold f, f2. cbn [Nat.add]. f_equal. apply conv_row_local; assumption.
  Qed.
  Lemma convolve1d_shape (rows : list (list T)) n dt w mode cval y : convolve1d rows n dt w mode cval = Ok y ->
    length y = length rows /\ forall p, In p y -> length p = n.
  Proof.
    unfold convolve1d. destruct w as [|w0 w]; [discriminate|]. destruct (bmode_of mode) as [m|e]; cbn [rbind]; [|discriminate]. intros E. inversion E.
    split; [rewrite map_length, seq_length; reflexivity|]. intros p Hp. apply in_map_iff in Hp as (i & <- & _). rewrite map_length. apply conv_row_len.
  Qed.

  Lemma curve_init_arr (rows : list (list T)) n d a : rows <> [] -> (2 <= n)%nat -> (forall p, In p rows -> length p = n) ->
    curve_init (SArray (mkNd [length rows; n] (concat rows)) d) None None None None = Ok a -> c_rows a = map (map (cast d)) rows.
  Proof.
    intros Hne Hn Hr. unfold curve_init. change (2 <? 2)%Z with false. cbv iota.
    assert (Hz : (length rows * n <> 0)%nat) by (destruct rows; [contradiction|]; cbn; lia).
    rewrite as2d_id by assumption. cbn [rbind]. rewrite map_length.
    destruct (Nat.eqb_spec (length rows * n) 0); [contradiction|]. rewrite map_length.
    destruct (Nat.eqb_spec (length rows * n) 0); [contradiction|].
    destruct (Nat.ltb_spec n 2); [lia|]. intros E. inversion E. reflexivity.
  Qed.

  Lemma nth_cast_rows d (rows : list (list T)) i : nth i (map (map (cast d)) rows) [] = map (cast d) (nth i rows []).
  Proof. exact (map_nth (map (cast d)) rows [] i). Qed.

  (** ** The edges of 'savgol' in mode 'interp' *)

  Lemma window_local (rows rows2 : list (list T)) s w : length rows = length rows2 ->
    (forall l, (s <= l)%nat -> (l < s + w)%nat -> nth l rows [] = nth l rows2 []) -> firstn w (skipn s rows) = firstn w (skipn s rows2).
  Proof.
    intros E A. apply (nth_ext _ _ [] []); [rewrite !firstn_length, !skipn_length; congruence|].
    intros k Hk. rewrite firstn_length in Hk. rewrite !nth_firstn_lt by lia. rewrite !nth_skipn_add. apply A; lia.
  Qed.
  Lemma fit_edge_local (rows rows2 : list (list T)) ncol w p d delta start i0 m : length rows = length rows2 ->
    (forall l, (start <= l)%nat -> (l < start + w)%nat -> nth l rows [] = nth l rows2 []) ->
    fit_edge rows ncol w p d delta start i0 m = fit_edge rows2 ncol w p d delta start i0 m.
  Proof. intros E A. unfold fit_edge. cbv zeta. rewrite (window_local rows rows2 start w E A). reflexivity. Qed.
  Lemma fit_edge_shape (rows : list (list T)) ncol w p d delta start i0 m :
    length (fit_edge rows ncol w p d delta start i0 m) = m /\ forall r, In r (fit_edge rows ncol w p d delta start i0 m) -> length r = ncol.
  Proof.
    unfold fit_edge. cbv zeta. split; [rewrite map_length, seq_length; reflexivity|]. intros r Hr. apply in_map_iff in Hr as (i & <- & _). rewrite !map_length, seq_length. reflexivity.
  Qed.

  Lemma nth_three {A} (d : A) (u u2 v v2 x x2 : list A) i h n : length u = h -> length u2 = h -> length v = n -> length v2 = n -> length x = h -> length x2 = h ->
    ((i < h)%nat -> nth i u d = nth i u2 d) -> ((h <= i < h + n)%nat -> nth (i - h) v d = nth (i - h) v2 d) -> ((h + n <= i)%nat -> nth (i - h - n) x d = nth (i - h - n) x2 d) ->
    nth i (u ++ v ++ x) d = nth i (u2 ++ v2 ++ x2) d.
  Proof.
    intros L1 L2 L3 L4 L5 L6 C1 C2 C3. destruct (le_lt_dec h i) as [H|H].
    - rewrite !(app_nth2 _ (_ ++ _)) by lia. rewrite L1, L2. destruct (le_lt_dec (h + n) i) as [H2|H2].
      + rewrite !app_nth2 by lia. rewrite L3, L4. apply C3. exact H2.
      + rewrite !app_nth1 by lia. apply C2. lia.
    - rewrite !(app_nth1 _ (_ ++ _)) by lia. apply C1. exact H.
  Qed.
End Smooth.
