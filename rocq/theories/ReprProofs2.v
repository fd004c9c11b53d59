(** The layout of the text forms; decimal numbers; reading integer curves back. *)
From Coq Require Import ZArith Ascii String List Bool Arith Lia DecimalString.
From Coq Require DecimalZ DecimalPos DecimalFacts.
From Verif Require Import Num Py Numeric Curve Vec Geom Intersect Point Views Repr ReprSpec ReprProofs.
Import ListNotations.
Local Open Scope list_scope.

(** ** Layout *)

Lemma join_cons sep (a : text) l : l <> [] -> join sep (a :: l) = a ++ sep ++ join sep l.
Proof. destruct l; [contradiction|reflexivity]. Qed.

Lemma row_loop_fits ws width prefix : ws <> [] -> forall s line, length line + length (join [" "%char] ws) <= width ->
  row_loop ws (s, line) width prefix = s ++ line ++ join [" "%char] ws.
Proof.
  intros Ne. induction ws as [|w ws IH]; [contradiction|]. intros s line H.
  assert (F : extend_line (s, line) w width prefix = (s, line ++ w)).
  { unfold extend_line. destruct (Nat.ltb_spec width (length line + length w)) as [L|L]; [|reflexivity]. exfalso.
    destruct ws; cbn [join] in H; [|rewrite !app_length in H]; lia. }
  destruct ws as [|w' ws].
  - cbn [row_loop join]. rewrite F. reflexivity.
  - change (row_loop (w :: w' :: ws) (s, line) width prefix) with
      (row_loop (w' :: ws) (fst (extend_line (s, line) w width prefix), snd (extend_line (s, line) w width prefix) ++ [" "%char]) width prefix).
    rewrite F. cbn [fst snd]. rewrite join_cons in * by discriminate. rewrite IH; [|discriminate|].
    + rewrite <- !app_assoc. reflexivity.
    + rewrite !app_length in *. cbn [length] in *. lia.
Qed.

Lemma format_row_fits ws prefix width : ws <> [] -> length prefix + length (join [" "%char] ws) <= width - 1 ->
  format_row ws prefix width = lit "[" ++ join [" "%char] ws ++ lit "]".
Proof.
  intros Ne H. unfold format_row. rewrite row_loop_fits by assumption. cbn [app]. rewrite skipn_app, skipn_all, Nat.sub_diag. reflexivity.
Qed.

Lemma rows_loop_join rs prefix : rs <> [] -> rows_loop rs prefix = prefix ++ join (nl :: prefix) rs.
Proof.
  induction rs as [|r rs IH]; [contradiction|]. intros _. destruct rs as [|r' rs]; [reflexivity|].
  change (rows_loop (r :: r' :: rs) prefix) with (prefix ++ r ++ [nl] ++ rows_loop (r' :: rs) prefix).
  rewrite IH by discriminate. rewrite (join_cons _ r) by discriminate. reflexivity.
Qed.
Lemma format_rows_join rs prefix : rs <> [] -> format_rows rs prefix = lit "[" ++ join (nl :: prefix) rs ++ lit "]".
Proof. intros H. unfold format_rows. rewrite rows_loop_join by exact H. rewrite skipn_app, skipn_all, Nat.sub_diag. reflexivity. Qed.

Definition one_line (l : text) : Prop := ~ In nl l.
Lemma one_line_app a b : one_line a -> one_line b -> one_line (a ++ b).
Proof. intros A B H. apply in_app_or in H as [H|H]; [apply A|apply B]; exact H. Qed.
Lemma one_line_spaces n : one_line (spaces n).
Proof. intros H. apply repeat_spec in H. discriminate. Qed.

Lemma split_one a : one_line a -> forall cur rest, split_lines cur (a ++ nl :: rest) = (cur ++ a ++ [nl]) :: split_lines [] rest.
Proof.
  intros H. induction a as [|c a IH]; intros cur rest; cbn [split_lines app].
  - rewrite Ascii.eqb_refl. reflexivity.
  - destruct (Ascii.eqb_spec c nl) as [->|N]; [exfalso; apply H; left; reflexivity|].
    rewrite IH by (intros X; apply H; right; exact X). rewrite <- app_assoc. reflexivity.
Qed.
Lemma split_last a : one_line a -> forall cur, cur ++ a <> [] -> split_lines cur a = [cur ++ a].
Proof.
  intros H. induction a as [|c a IH]; intros cur Ne; cbn [split_lines].
  - rewrite app_nil_r in *. destruct cur; [contradiction|reflexivity].
  - destruct (Ascii.eqb_spec c nl) as [->|N]; [exfalso; apply H; left; reflexivity|].
    rewrite IH; [rewrite <- app_assoc; reflexivity|intros X; apply H; right; exact X|]. destruct cur; discriminate.
Qed.

Definition visible (l : text) : Prop := exists c, In c l /\ is_space c = false.
Lemma lstrip_visible l : visible l -> exists c r, lstrip l = c :: r /\ is_space c = false /\ visible (lstrip l).
Proof.
  induction l as [|c l IH]; intros (d & Hd & Sd); [destruct Hd|]. cbn [lstrip]. destruct (is_space c) eqn:E.
  - apply IH. destruct Hd as [->|Hd]; [congruence|exists d; auto].
  - exists c, l. repeat split; [exact E|exists c; split; [left; reflexivity|exact E]].
Qed.
Lemma strip_visible l : visible l -> strip l <> [].
Proof.
  intros H. unfold strip, rstrip. destruct (lstrip_visible l H) as (c & r & E & _ & V). intros X.
  assert (V' : visible (rev (lstrip l))). { destruct V as (d & Hd & Sd). exists d. split; [apply in_rev in Hd; exact Hd|exact Sd]. }
  destruct (lstrip_visible _ V') as (c' & r' & E' & _ & _). rewrite E' in X. cbn in X. destruct (rev r'); discriminate.
Qed.
Lemma visible_app_l a b : visible a -> visible (a ++ b).
Proof. intros (c & H & E). exists c. split; [apply in_or_app; left; exact H|exact E]. Qed.
Lemma visible_app_r a b : visible b -> visible (a ++ b).
Proof. intros (c & H & E). exists c. split; [apply in_or_app; right; exact H|exact E]. Qed.
Lemma visible_ne l : visible l -> l <> []. Proof. intros (c & H & _) ->. destruct H. Qed.

Lemma indent_one p a rest : one_line a -> visible a -> text_indent p (a ++ nl :: rest) = p ++ a ++ nl :: text_indent p rest.
Proof.
  intros O V. unfold text_indent. rewrite split_one by exact O. cbn [map concat app].
  destruct (strip (a ++ [nl])) eqn:E; [exfalso; apply (strip_visible (a ++ [nl])); [apply visible_app_l, V|exact E]|].
  rewrite <- !app_assoc. reflexivity.
Qed.
Lemma indent_last p a : one_line a -> visible a -> text_indent p a = p ++ a.
Proof.
  intros O V. unfold text_indent. rewrite split_last; [|exact O|exact (visible_ne _ V)]. cbn [map concat app].
  destruct (strip a) eqn:E; [exfalso; apply (strip_visible a); [exact V|exact E]|]. apply app_nil_r.
Qed.
Lemma indent_join p ind e rs : rs <> [] -> Forall (fun r => one_line r /\ visible r) rs -> one_line ind -> one_line e -> forall c, one_line c ->
  text_indent p (c ++ join (nl :: ind) rs ++ e) = p ++ c ++ join (nl :: p ++ ind) rs ++ e.
Proof.
  intros Ne H Hi He. induction rs as [|r rs IH]; [contradiction|]. intros c Hc. inversion H as [|? ? (O & V) H']. subst.
  destruct rs as [|r' rs].
  - cbn [join]. rewrite indent_last; [reflexivity| |].
    + apply one_line_app; [exact Hc|]. apply one_line_app; assumption.
    + apply visible_app_r, visible_app_l, V.
  - rewrite (join_cons (nl :: ind) r), (join_cons (nl :: p ++ ind) r) by discriminate.
    replace (c ++ (r ++ (nl :: ind) ++ join (nl :: ind) (r' :: rs)) ++ e) with ((c ++ r) ++ nl :: (ind ++ join (nl :: ind) (r' :: rs) ++ e))
      by (rewrite <- !app_assoc; reflexivity).
    rewrite indent_one; [|apply one_line_app; assumption|apply visible_app_r, V].
    rewrite IH; [|discriminate|exact H'|exact Hi]. rewrite <- !app_assoc. cbn [app]. rewrite <- ?app_assoc. cbn [app]. rewrite <- ?app_assoc. reflexivity.
Qed.

Lemma strip_ends s a b m : forallb is_space s = true -> is_space a = false -> is_space b = false -> strip (s ++ a :: m ++ [b]) = a :: m ++ [b].
Proof.
  intros Hs Ha Hb. unfold strip. assert (L : lstrip (s ++ a :: m ++ [b]) = a :: m ++ [b]).
  { induction s as [|c s IH]; cbn [app lstrip]; [rewrite Ha; reflexivity|]. cbn [forallb] in Hs. apply andb_prop in Hs as [Hc Hs]. rewrite Hc. apply IH, Hs. }
  rewrite L. unfold rstrip. change (a :: m ++ [b]) with ((a :: m) ++ [b]). rewrite rev_app_distr. cbn [rev app lstrip]. rewrite Hb.
  cbn [rev]. rewrite rev_app_distr, rev_involutive. reflexivity.
Qed.
Lemma spaces_space n : forallb is_space (spaces n) = true.
Proof. induction n; [reflexivity|]. cbn. exact IHn. Qed.

(** The body of a curve's text. *)
Lemma body_layout rs : rs <> [] -> Forall (fun r => one_line r /\ visible r) rs ->
  strip (text_indent (spaces 6) (format_rows rs [" "%char])) = lit "[" ++ join (nl :: spaces 7) rs ++ lit "]".
Proof.
  intros Ne H. rewrite format_rows_join by exact Ne. rewrite indent_join; [|exact Ne|exact H| | |].
  - change (lit "[" ++ join (nl :: spaces 6 ++ [" "%char]) rs ++ lit "]") with ("["%char :: join (nl :: spaces 7) rs ++ ["]"%char]).
    apply strip_ends; [apply spaces_space|reflexivity|reflexivity].
  - intros [X|[]]; discriminate.
  - intros [X|[]]; discriminate.
  - intros [X|[]]; discriminate.
Qed.

Section Layout.
  Context {T : Type}.
  Variable fmt : list T -> T -> text.

  Definition row_line (all : list T) (r : list T) : text := lit "[" ++ join [" "%char] (map (fmt all) r) ++ lit "]".

  Lemma join_one_line sep ls : one_line sep -> Forall one_line ls -> one_line (join sep ls).
  Proof.
    intros Hs. induction 1 as [|l ls Hl H IH]; [intros []|]. destruct ls as [|l' ls]; [exact Hl|]. rewrite join_cons by discriminate.
    apply one_line_app; [exact Hl|]. apply one_line_app; assumption.
  Qed.
  Lemma row_line_ok all r : (forall x, one_line (fmt all x)) -> one_line (row_line all r) /\ visible (row_line all r).
  Proof.
    intros H. split.
    - apply one_line_app; [intros [X|[]]; discriminate|]. apply one_line_app; [|intros [X|[]]; discriminate].
      apply join_one_line; [intros [X|[]]; discriminate|]. apply Forall_forall. intros w Hw. apply in_map_iff in Hw as (x & <- & _). apply H.
    - exists "["%char. split; [left; reflexivity|reflexivity].
  Qed.

  Lemma curve_layout c (rs : list text) :
    c_rows c <> [] -> c_ndim c <> 0 -> rs <> [] -> Forall (fun r => one_line r /\ visible r) rs ->
    matrix_text fmt (10 * c_ndim c) 4 (c_ndim c) (c_rows c) = format_rows rs [" "%char] ->
    curve_repr fmt c = lit "Curve([" ++ join (nl :: spaces 7) rs ++ lit "], size=" ++ show_Z (Z.of_nat (length (c_rows c)))
      ++ lit ", ndim=" ++ show_Z (Z.of_nat (c_ndim c)) ++ lit ", dtype=" ++ show_dtype (c_dtype c) ++ lit ")".
  Proof.
    intros _ _ Ne H E. unfold curve_repr. rewrite E. change (length (lit "Curve") + 1) with 6. rewrite body_layout by assumption.
    unfold c_size. rewrite <- !app_assoc. reflexivity.
  Qed.

  Lemma not_summarised n m edge thr : 0 < n -> thr = 10 -> m <= thr -> Nat.ltb (thr * n) (m * n) = false /\ summarised (Nat.ltb (thr * n) (m * n)) edge m = false.
  Proof. intros H -> L. assert (E : Nat.ltb (10 * n) (m * n) = false) by (apply Nat.ltb_ge, Nat.mul_le_mono_r, L). rewrite E. split; reflexivity. Qed.

  Lemma map_shown_all {A} edge (f : A -> text) l : shown false edge f l = map f l.
  Proof. reflexivity. Qed.

  Theorem layout_short c :
    (forall r, In r (c_rows c) -> length r = c_ndim c) -> 1 <= c_ndim c -> 1 <= length (c_rows c) <= 10 ->
    (forall x, one_line (fmt (concat (c_rows c)) x)) ->
    (forall r, In r (c_rows c) -> length (join [" "%char] (map (fmt (concat (c_rows c))) r)) <= 71) ->
    curve_repr fmt c = lit "Curve([" ++ join (nl :: spaces 7) (map (row_line (concat (c_rows c))) (c_rows c)) ++ lit "], size=" ++ show_Z (Z.of_nat (length (c_rows c)))
      ++ lit ", ndim=" ++ show_Z (Z.of_nat (c_ndim c)) ++ lit ", dtype=" ++ show_dtype (c_dtype c) ++ lit ")".
  Proof.
    intros Hr Hn Hs Hf Hfit. assert (Ne : c_rows c <> []) by (intros E; rewrite E in Hs; cbn in Hs; lia).
    apply curve_layout; [exact Ne|lia| | |].
    - destruct (c_rows c); [contradiction|discriminate].
    - apply Forall_forall. intros w Hw. apply in_map_iff in Hw as (r & <- & _). apply row_line_ok, Hf.
    - unfold matrix_text. destruct (Nat.eqb_spec (length (c_rows c) * c_ndim c) 0) as [E|E]; [lia|].
      destruct (not_summarised (c_ndim c) (length (c_rows c)) 4 10 ltac:(lia) eq_refl ltac:(lia)) as [-> _].
      f_equal. unfold shown. cbn [summarised andb].
      assert (K : concat (map (kept false 4) (kept false 4 (c_rows c))) = concat (c_rows c)).
      { f_equal. change (kept false 4 (c_rows c)) with (c_rows c). rewrite <- (map_id (c_rows c)) at 2. apply map_ext. reflexivity. }
      rewrite K. apply map_ext_in. intros r Hin. unfold row_line. apply format_row_fits.
      + specialize (Hr r Hin). destruct r; [cbn in Hr; lia|discriminate].
      + cbn [length]. specialize (Hfit r Hin). unfold linewidth. lia.
  Qed.

  Theorem layout_long c (all := concat (firstn 4 (c_rows c) ++ skipn (length (c_rows c) - 4) (c_rows c))) :
    (forall r, In r (c_rows c) -> length r = c_ndim c) -> 1 <= c_ndim c <= 8 -> 10 < length (c_rows c) ->
    (forall x, one_line (fmt all x)) ->
    (forall r, In r (c_rows c) -> length (join [" "%char] (map (fmt all) r)) <= 71) ->
    curve_repr fmt c = lit "Curve([" ++ join (nl :: spaces 7) (map (row_line all) (firstn 4 (c_rows c)) ++ [lit "..."] ++ map (row_line all) (skipn (length (c_rows c) - 4) (c_rows c)))
      ++ lit "], size=" ++ show_Z (Z.of_nat (length (c_rows c)))
      ++ lit ", ndim=" ++ show_Z (Z.of_nat (c_ndim c)) ++ lit ", dtype=" ++ show_dtype (c_dtype c) ++ lit ")".
  Proof.
    intros Hr Hn Hs Hf Hfit. assert (Ne : c_rows c <> []) by (intros E; rewrite E in Hs; cbn in Hs; lia).
    apply curve_layout; [exact Ne|lia| | |].
    - destruct (map (row_line all) (firstn 4 (c_rows c))); discriminate.
    - assert (G : forall l, Forall (fun r => one_line r /\ visible r) (map (row_line all) l)).
      { intros l. apply Forall_forall. intros w Hw. apply in_map_iff in Hw as (r & <- & _). apply row_line_ok, Hf. }
      apply Forall_app. split; [apply G|]. constructor; [|apply G]. split; [intros [X|[X|[X|[]]]]; discriminate|].
      exists "."%char. split; [left; reflexivity|reflexivity].
    - unfold matrix_text. destruct (Nat.eqb_spec (length (c_rows c) * c_ndim c) 0) as [E|E]; [lia|].
      assert (S : Nat.ltb (10 * c_ndim c) (length (c_rows c) * c_ndim c) = true) by (apply Nat.ltb_lt, Nat.mul_lt_mono_pos_r; lia).
      rewrite S. assert (S1 : summarised true 4 (length (c_rows c)) = true) by (unfold summarised; cbn [andb]; apply Nat.ltb_lt; lia).
      assert (S2 : forall r, In r (c_rows c) -> summarised true 4 (length r) = false).
      { intros r Hin. unfold summarised. cbn [andb]. apply Nat.ltb_ge. rewrite (Hr r Hin). lia. }
      f_equal. assert (Hfirst : forall r, In r (firstn 4 (c_rows c)) -> In r (c_rows c)).
      { intros r Hin. rewrite <- (firstn_skipn 4 (c_rows c)). apply in_or_app. left. exact Hin. }
      assert (Hlast : forall r, In r (lastn 4 (c_rows c)) -> In r (c_rows c)).
      { intros r Hin. rewrite <- (firstn_skipn (length (c_rows c) - 4) (c_rows c)). apply in_or_app. right. exact Hin. }
      assert (K : concat (map (kept true 4) (kept true 4 (c_rows c))) = all).
      { unfold all. f_equal. unfold kept at 2. rewrite S1. rewrite <- (map_id (_ ++ _)) at 1.
        rewrite map_map. transitivity (map (fun r : list T => r) (firstn 4 (c_rows c) ++ lastn 4 (c_rows c))); [|apply map_id].
        apply map_ext_in. intros r Hin. unfold kept. rewrite S2; [reflexivity|]. apply in_app_or in Hin as [Hin|Hin]; auto. }
      rewrite K. unfold shown at 1. rewrite S1.
      assert (R : forall r, In r (c_rows c) -> format_row (shown true 4 (fmt all) r) [" "%char; " "%char] (linewidth - 1) = row_line all r).
      { intros r Hin. unfold shown. rewrite S2 by exact Hin. unfold row_line. apply format_row_fits.
        - specialize (Hr r Hin). destruct r; [cbn in Hr; lia|discriminate].
        - cbn [length]. specialize (Hfit r Hin). unfold linewidth. lia. }
      f_equal; [apply map_ext_in; auto|]. f_equal. apply map_ext_in. auto.
  Qed.
End Layout.

(** ** The width of a decimal number *)

Lemma of_uint_acc_bounds d : forall acc,
  (Z.pos acc * 10 ^ Z.of_nat (Decimal.nb_digits d) <= Z.pos (Pos.of_uint_acc d acc) < (Z.pos acc + 1) * 10 ^ Z.of_nat (Decimal.nb_digits d))%Z.
Proof.
  assert (Step : forall d acc acc' (k : Z), (0 <= k < 10)%Z -> Z.pos acc' = (10 * Z.pos acc + k)%Z ->
    (Z.pos acc' * 10 ^ Z.of_nat (Decimal.nb_digits d) <= Z.pos (Pos.of_uint_acc d acc') < (Z.pos acc' + 1) * 10 ^ Z.of_nat (Decimal.nb_digits d))%Z ->
    (Z.pos acc * 10 ^ Z.of_nat (S (Decimal.nb_digits d)) <= Z.pos (Pos.of_uint_acc d acc') < (Z.pos acc + 1) * 10 ^ Z.of_nat (S (Decimal.nb_digits d)))%Z).
  { intros d' acc acc' k Hk E H. rewrite Nat2Z.inj_succ, Z.pow_succ_r by lia. set (P := (10 ^ Z.of_nat (Decimal.nb_digits d'))%Z) in *.
    assert (0 < P)%Z by (apply Z.pow_pos_nonneg; lia). rewrite E in H. nia. }
  induction d; intros acc; [cbn [Decimal.nb_digits Pos.of_uint_acc]; change (10 ^ Z.of_nat 0)%Z with 1%Z; lia|..];
    cbn [Decimal.nb_digits Pos.of_uint_acc];
    match goal with |- context [Pos.of_uint_acc d ?a] => apply (Step d acc a (Z.pos a - 10 * Z.pos acc)%Z); [lia|lia|apply IHd] end.
Qed.

Definition digits (p : positive) : nat := Decimal.nb_digits (Pos.to_uint p).
Lemma to_uint_lead p : match Pos.to_uint p with Decimal.Nil | Decimal.D0 _ => False | _ => True end.
Proof.
  assert (E := DecimalPos.Unsigned.to_of (Pos.to_uint p)). rewrite DecimalPos.Unsigned.of_to in E. cbn [N.to_uint] in E.
  assert (U := DecimalPos.Unsigned.to_uint_nonzero p). destruct (Pos.to_uint p) as [|u|u|u|u|u|u|u|u|u|u] eqn:F; try exact Logic.I; [discriminate|].
  unfold Decimal.unorm in E. cbn [Decimal.nzhead] in E. assert (N := DecimalFacts.nzhead_nonzero u).
  destruct (Decimal.nzhead u) as [|v|v|v|v|v|v|v|v|v|v] eqn:G; try discriminate E; [|exfalso; exact (N v eq_refl)]. exact (U E).
Qed.
Lemma digits_bounds p : (10 ^ (Z.of_nat (digits p) - 1) <= Z.pos p < 10 ^ Z.of_nat (digits p))%Z.
Proof.
  assert (L := to_uint_lead p). assert (E := DecimalPos.Unsigned.of_to p). unfold digits.
  destruct (Pos.to_uint p) as [|u|u|u|u|u|u|u|u|u|u]; try contradiction; cbn [Pos.of_uint] in E; injection E as <-; cbn [Decimal.nb_digits];
    match goal with |- context [Pos.of_uint_acc u ?a] => assert (B := of_uint_acc_bounds u a) end;
    rewrite Nat2Z.inj_succ, Z.pow_succ_r by lia; replace (Z.succ (Z.of_nat (Decimal.nb_digits u)) - 1)%Z with (Z.of_nat (Decimal.nb_digits u)) by lia;
    set (P := (10 ^ Z.of_nat (Decimal.nb_digits u))%Z) in *; assert (0 < P)%Z by (apply Z.pow_pos_nonneg; lia); nia.
Qed.
Lemma digits_mono p q : (p <= q)%positive -> digits p <= digits q.
Proof.
  intros H. assert (A := digits_bounds p). assert (B := digits_bounds q).
  assert (D : (10 ^ (Z.of_nat (digits p) - 1) < 10 ^ Z.of_nat (digits q))%Z) by lia.
  apply Z.pow_lt_mono_r_iff in D; lia.
Qed.
Lemma digits_string u : length (list_ascii_of_string (NilEmpty.string_of_uint u)) = Decimal.nb_digits u.
Proof. induction u; cbn; congruence. Qed.
Lemma show_pos p : length (show_Z (Z.pos p)) = digits p.
Proof.
  unfold show_Z, lit, digits. cbn [Z.to_int NilZero.string_of_int]. assert (L := to_uint_lead p).
  destruct (Pos.to_uint p); try contradiction; unfold NilZero.string_of_uint; apply digits_string.
Qed.
Lemma show_neg p : length (show_Z (Z.neg p)) = S (digits p).
Proof.
  unfold show_Z, lit, digits. cbn [Z.to_int NilZero.string_of_int]. assert (L := to_uint_lead p).
  destruct (Pos.to_uint p); try contradiction; unfold NilZero.string_of_uint; cbn [list_ascii_of_string length]; f_equal; apply digits_string.
Qed.
Lemma digits_pos p : 1 <= digits p.
Proof. assert (L := to_uint_lead p). unfold digits. destruct (Pos.to_uint p); try contradiction; cbn; lia. Qed.
Lemma show_length_between lo x hi : (lo <= x <= hi)%Z -> length (show_Z x) <= Nat.max (length (show_Z hi)) (length (show_Z lo)).
Proof.
  intros H. destruct x as [|p|p].
  - assert (P := show_plain hi). destruct P as [P _]. change (length (show_Z 0)) with 1. destruct (show_Z hi); [contradiction|]. cbn [length]. lia.
  - destruct hi as [|q|q]; try lia. rewrite !show_pos. assert (digits p <= digits q) by (apply digits_mono; lia). lia.
  - destruct lo as [|q|q]; try lia. rewrite !show_neg. assert (digits p <= digits q) by (apply digits_mono; lia). lia.
Qed.

Lemma fold_max_spec l : forall x, (In (fold_left Z.max l x) (x :: l)) /\ (forall y, In y (x :: l) -> (y <= fold_left Z.max l x)%Z).
Proof.
  induction l as [|z l IH]; intros x; cbn [fold_left].
  - split; [left; reflexivity|]. intros y [<-|[]]. lia.
  - destruct (IH (Z.max x z)) as [I1 I2]. split.
    + destruct I1 as [I1|I1]; [|right; right; exact I1]. rewrite <- I1. destruct (Z.max_spec x z) as [[_ ->]|[_ ->]]; [right; left|left]; reflexivity.
    + intros y [<-|[<-|Hy]]; [| |apply I2; right; exact Hy]; specialize (I2 (Z.max x z) (or_introl eq_refl)); lia.
Qed.
Lemma fold_min_spec l : forall x, (In (fold_left Z.min l x) (x :: l)) /\ (forall y, In y (x :: l) -> (fold_left Z.min l x <= y)%Z).
Proof.
  induction l as [|z l IH]; intros x; cbn [fold_left].
  - split; [left; reflexivity|]. intros y [<-|[]]. lia.
  - destruct (IH (Z.min x z)) as [I1 I2]. split.
    + destruct I1 as [I1|I1]; [|right; right; exact I1]. rewrite <- I1. destruct (Z.min_spec x z) as [[_ ->]|[_ ->]]; [left|right; left]; reflexivity.
    + intros y [<-|[<-|Hy]]; [| |apply I2; right; exact Hy]; specialize (I2 (Z.min x z) (or_introl eq_refl)); lia.
Qed.
Lemma int_width_max l x : In x l -> length (show_Z x) <= int_width l.
Proof.
  destruct l as [|y l]; [intros []|]. intros H. cbn [int_width]. apply show_length_between. split; [apply fold_min_spec|apply fold_max_spec]; exact H.
Qed.
Lemma int_width_attained l : l <> [] -> exists y, In y l /\ length (show_Z y) = int_width l.
Proof.
  destruct l as [|y l]; [contradiction|]. intros _. cbn [int_width]. destruct (fold_max_spec l y) as [A _]. destruct (fold_min_spec l y) as [B _].
  destruct (Nat.max_spec (length (show_Z (fold_left Z.max l y))) (length (show_Z (fold_left Z.min l y)))) as [[_ ->]|[_ ->]]; eexists; eauto.
Qed.
Lemma int_fmt_length l x : In x l -> length (int_fmt l x) = int_width l.
Proof. intros H. unfold int_fmt, spaces. rewrite app_length, repeat_length. apply int_width_max in H. lia. Qed.
Lemma plain_one_line l : plain l -> one_line l.
Proof. intros [_ H] X. rewrite forallb_forall in H. apply H in X. discriminate. Qed.
Lemma int_fmt_one_line l x : one_line (int_fmt l x).
Proof. apply one_line_app; [apply one_line_spaces|apply plain_one_line, show_plain]. Qed.
Lemma join_length w ls : ls <> [] -> (forall l, In l ls -> length l = w) -> length (join [" "%char] ls) + 1 = length ls * (w + 1).
Proof.
  intros Ne. induction ls as [|l ls IH]; [contradiction|]. intros H. destruct ls as [|l' ls].
  - cbn [join length]. rewrite (H l (or_introl eq_refl)). lia.
  - rewrite join_cons by discriminate. rewrite !app_length. specialize (IH ltac:(discriminate) (fun z Hz => H z (or_intror Hz))).
    cbn [length] in *. rewrite (H l (or_introl eq_refl)). nia.
Qed.

(** ** Reading integer data back *)

Lemma map_show_inj a b : map show_Z a = map show_Z b -> a = b.
Proof. revert b. induction a as [|x a IH]; intros [|y b] H; try discriminate; [reflexivity|]. cbn in H. injection H as H1 H2. apply show_inj in H1. f_equal; auto. Qed.
Lemma concat_inj {A} n (a b : list (list A)) : (forall r, In r a -> length r = n) -> (forall r, In r b -> length r = n) -> length a = length b ->
  concat a = concat b -> a = b.
Proof.
  revert b. induction a as [|r a IH]; intros [|s b] Ha Hb L H; try discriminate; [reflexivity|]. cbn in H.
  assert (E : length r = length s) by (rewrite (Ha r), (Hb s); [reflexivity|left; reflexivity|left; reflexivity]).
  assert (r = s /\ concat a = concat b) as [-> H'].
  { clear - H E. revert s H E. induction r as [|x r IH]; intros [|y s] H E; try discriminate E; [split; [reflexivity|exact H]|].
    cbn in H. injection H as -> H. destruct (IH s H ltac:(cbn in E; lia)) as [-> ->]. split; reflexivity. }
  f_equal. apply IH; [intros z Hz; apply Ha; right; exact Hz|intros z Hz; apply Hb; right; exact Hz|cbn in L; lia|exact H'].
Qed.
Lemma labelled_inj name a b : labelled name a = labelled name b -> a = b.
Proof. apply app_inv_head. Qed.
Lemma show_dtype_inj a b : show_dtype a = show_dtype b -> a = b.
Proof. destruct a, b; (reflexivity || discriminate). Qed.

(** ** Rows too long for one line *)

Lemma row_loop_later ws width prefix : forall s line, In nl s -> In nl (row_loop ws (s, line) width prefix).
Proof.
  induction ws as [|w ws IH]; intros s line H; [cbn [row_loop fst snd]; apply in_or_app; left; exact H|].
  assert (E : In nl (fst (extend_line (s, line) w width prefix))).
  { unfold extend_line. destruct (_ && _); cbn [fst]; [apply in_or_app; left|]; exact H. }
  destruct ws as [|w' ws]; [cbn [row_loop]; apply in_or_app; left; exact E|].
  change (row_loop (w :: w' :: ws) (s, line) width prefix) with
      (row_loop (w' :: ws) (fst (extend_line (s, line) w width prefix), snd (extend_line (s, line) w width prefix) ++ [" "%char]) width prefix).
  apply IH, E.
Qed.

Lemma row_loop_breaks ws width prefix : ws <> [] -> forall s line, length prefix < length line ->
  width < length line + length (join [" "%char] ws) -> In nl (row_loop ws (s, line) width prefix).
Proof.
  intros Ne. induction ws as [|w ws IH]; [contradiction|]. intros s line Hl H.
  assert (F : width < length line + length w -> In nl (fst (extend_line (s, line) w width prefix))).
  { intros L. unfold extend_line. apply Nat.ltb_lt in L. rewrite L. apply Nat.leb_gt in Hl. rewrite Hl. cbn [negb andb fst].
    apply in_or_app. right. apply in_or_app. right. left. reflexivity. }
  destruct ws as [|w' ws].
  - cbn [row_loop join] in *. apply in_or_app. left. apply F, H.
  - change (row_loop (w :: w' :: ws) (s, line) width prefix) with
      (row_loop (w' :: ws) (fst (extend_line (s, line) w width prefix), snd (extend_line (s, line) w width prefix) ++ [" "%char]) width prefix).
    destruct (Nat.lt_ge_cases width (length line + length w)) as [L|L]; [apply row_loop_later, F, L|].
    unfold extend_line. assert (L' : Nat.ltb width (length line + length w) = false) by (apply Nat.ltb_ge, L).
    rewrite L'. cbn [andb fst snd]. apply IH; [discriminate| |].
    + rewrite !app_length. lia.
    + rewrite join_cons in H by discriminate. rewrite !app_length in *. cbn [length] in *. lia.
Qed.

Lemma join_line ws : Forall one_line ws -> one_line (join [" "%char] ws).
Proof.
  intros H. induction H as [|w ws Hw H IH]; [intros []|]. destruct ws as [|w' ws]; [exact Hw|].
  rewrite join_cons by discriminate. apply one_line_app; [exact Hw|]. apply one_line_app; [intros [E|[]]; discriminate|exact IH].
Qed.

Lemma format_row_breaks ws width : Forall one_line ws -> Forall (fun w => words w <> []) ws -> 2 <= length ws ->
  In nl (format_row ws [" "%char] width) <-> width - 1 < 1 + length (join [" "%char] ws).
Proof.
  intros Ho Hw L. split.
  - intros H. destruct (Nat.lt_ge_cases (width - 1) (1 + length (join [" "%char] ws))) as [K|K]; [exact K|exfalso].
    rewrite format_row_fits in H; [|intros ->; cbn in L; lia|exact K].
    apply (one_line_app (lit "[") (join [" "%char] ws ++ lit "]")) in H; [exact H|intros [E|[]]; discriminate|].
    apply one_line_app; [apply join_line, Ho|intros [E|[]]; discriminate].
  - intros H. unfold format_row. right. apply in_or_app. left.
    assert (S := row_loop_starts ws (width - 1) [" "%char] Hw ltac:(intros ->; cbn in L; lia)). apply skip_starts in S.
    assert (B : In nl (row_loop ws ([], [" "%char]) (width - 1) [" "%char])).
    { destruct ws as [|w [|w' ws]]; [cbn in L; lia|cbn in L; lia|].
      change (row_loop (w :: w' :: ws) ([], [" "%char]) (width - 1) [" "%char]) with
        (row_loop (w' :: ws) (fst (extend_line ([], [" "%char]) w (width - 1) [" "%char]), snd (extend_line ([], [" "%char]) w (width - 1) [" "%char]) ++ [" "%char]) (width - 1) [" "%char]).
      unfold extend_line. rewrite Nat.leb_refl. cbn [negb]. rewrite andb_false_r. cbn [fst snd].
      apply row_loop_breaks; [discriminate| |].
      - rewrite !app_length. cbn [length]. lia.
      - rewrite join_cons in H by discriminate. rewrite !app_length in *. cbn [length] in *. lia. }
    unfold text in *. rewrite S in B. cbn [length app] in B. destruct B as [B|B]; [discriminate|exact B].
Qed.
