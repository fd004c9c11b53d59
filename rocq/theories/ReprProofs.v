(** Reading back the text forms. *)
From Coq Require Import ZArith Ascii String List Bool Arith Lia DecimalString.
From Coq Require DecimalZ DecimalPos DecimalFacts.
From Verif Require Import Num Py Numeric Curve Vec Geom Intersect Point Views Repr ReprSpec.
Import ListNotations.
Local Open Scope list_scope.

(** ** Words *)

Lemma words_from_app cur a d b : separates d = true -> words_from cur (a ++ d :: b) = words_from cur a ++ words b.
Proof.
  intros Hd. revert cur. induction a as [|c a IH]; intros cur; cbn [app words_from].
  - rewrite Hd. destruct cur; reflexivity.
  - destruct (separates c) eqn:E.
    + rewrite IH. destruct cur; reflexivity.
    + apply IH.
Qed.
Lemma words_sep a d b : separates d = true -> words (a ++ d :: b) = words a ++ words b.
Proof. apply words_from_app. Qed.
Lemma words_sep_l d b : separates d = true -> words (d :: b) = words b.
Proof. intros H. exact (words_sep [] d b H). Qed.
Lemma words_sep_r a d : separates d = true -> words (a ++ [d]) = words a.
Proof. intros H. rewrite words_sep by exact H. cbn. apply app_nil_r. Qed.

(** A text of separators. *)
Lemma words_blank s b : forallb separates s = true -> words (s ++ b) = words b.
Proof. induction s as [|c s IH]; cbn [forallb app]; intros H; [reflexivity|]. apply andb_prop in H as [Hc H]. rewrite words_sep_l by exact Hc. apply IH, H. Qed.
Lemma words_blank_r s a : forallb separates s = true -> words (a ++ s) = words a.
Proof.
  revert a. induction s as [|c s IH]; intros a H; [rewrite app_nil_r; reflexivity|]. cbn [forallb] in H. apply andb_prop in H as [Hc H].
  rewrite words_sep by exact Hc. assert (E := words_blank s [] H). rewrite app_nil_r in E. rewrite E. cbn. apply app_nil_r.
Qed.

(** Ends in a separator, or empty. *)
Definition ends_sep (l : text) : Prop := l = [] \/ exists a d, l = a ++ [d] /\ separates d = true.
Lemma words_ends l b : ends_sep l -> words (l ++ b) = words l ++ words b.
Proof.
  intros [-> | (a & d & -> & H)]; [reflexivity|]. rewrite <- app_assoc. cbn [app]. rewrite words_sep by exact H. rewrite words_sep_r by exact H. reflexivity.
Qed.
(** Begins with a separator, or empty. *)
Lemma words_begins a d b : separates d = true -> words (a ++ d :: b) = words a ++ words (d :: b).
Proof. intros H. rewrite words_sep, words_sep_l by exact H. reflexivity. Qed.

Lemma separates_space : separates " "%char = true. Proof. reflexivity. Qed.
Lemma separates_nl : separates nl = true. Proof. reflexivity. Qed.
Lemma spaces_sep n : forallb separates (spaces n) = true.
Proof. induction n; [reflexivity|]. cbn. exact IHn. Qed.
Lemma is_space_sep c : is_space c = true -> separates c = true.
Proof. unfold is_space. intros H. apply orb_prop in H. destruct H as [H|H]; apply Ascii.eqb_eq in H; subst c; reflexivity. Qed.

Lemma lstrip_split l : exists s, l = s ++ lstrip l /\ forallb is_space s = true.
Proof.
  induction l as [|c l (s & E & H)]; [exists []; split; reflexivity|]. cbn [lstrip]. destruct (is_space c) eqn:Ec.
  - exists (c :: s). cbn [app forallb]. rewrite Ec, H. split; [f_equal; exact E|reflexivity].
  - exists []. split; reflexivity.
Qed.
Lemma forallb_space_sep s : forallb is_space s = true -> forallb separates s = true.
Proof. rewrite !forallb_forall. intros H x Hx. apply is_space_sep, H, Hx. Qed.
Lemma forallb_rev {A} (f : A -> bool) l : forallb f (rev l) = forallb f l.
Proof.
  apply eq_true_iff_eq. rewrite !forallb_forall. split; intros H x Hx; apply H; [apply in_rev; rewrite rev_involutive|apply in_rev in Hx]; exact Hx.
Qed.
Lemma rstrip_split l : exists s, l = rstrip l ++ s /\ forallb is_space s = true.
Proof.
  destruct (lstrip_split (rev l)) as (s & E & H). exists (rev s). split; [|rewrite forallb_rev; exact H].
  unfold rstrip. rewrite <- (rev_involutive l) at 1. rewrite E at 1. apply rev_app_distr.
Qed.
Lemma words_rstrip l : words (rstrip l) = words l.
Proof. destruct (rstrip_split l) as (s & E & H). rewrite E at 2. symmetry. apply words_blank_r, forallb_space_sep, H. Qed.
Lemma words_lstrip l : words (lstrip l) = words l.
Proof. destruct (lstrip_split l) as (s & E & H). rewrite E at 2. symmetry. apply words_blank, forallb_space_sep, H. Qed.
Lemma words_strip l : words (strip l) = words l.
Proof. unfold strip. rewrite words_rstrip. apply words_lstrip. Qed.

(** ** Rows *)

(** The words of the texts, one after the other. *)
Definition all_words (ws : list text) : list text := concat (map words ws).

Lemma row_loop_words ws width prefix : forallb separates prefix = true -> forall st, ends_sep (fst st ++ snd st) ->
  words (row_loop ws st width prefix) = words (fst st ++ snd st) ++ all_words ws.
Proof.
  intros Hp. assert (Step : forall st w, ends_sep (fst st ++ snd st) ->
    let st' := extend_line st w width prefix in words (fst st' ++ snd st') = words (fst st ++ snd st) ++ words w).
  { intros [s line] w He. cbn [fst snd] in He. unfold extend_line. destruct (_ && _); cbn [fst snd].
    - rewrite <- !app_assoc. cbn [app]. rewrite app_assoc, words_sep by reflexivity. rewrite (words_blank prefix) by exact Hp.
      destruct (rstrip_split line) as (t & E & H). f_equal. rewrite E at 2. rewrite (app_assoc s (rstrip line) t), (words_blank_r t) by apply forallb_space_sep, H. reflexivity.
    - rewrite app_assoc. apply words_ends, He. }
  induction ws as [|w ws IH]; intros st He.
  - cbn. rewrite app_nil_r. reflexivity.
  - destruct ws as [|w' ws].
    + cbn [row_loop]. rewrite Step by exact He. unfold all_words. cbn. rewrite app_nil_r. reflexivity.
    + change (row_loop (w :: w' :: ws) st width prefix) with
        (row_loop (w' :: ws) (fst (extend_line st w width prefix), snd (extend_line st w width prefix) ++ [" "%char]) width prefix).
      rewrite IH; cbn [fst snd].
      * rewrite app_assoc, words_sep_r by reflexivity. rewrite Step by exact He. unfold all_words. cbn [map concat]. rewrite <- !app_assoc. reflexivity.
      * right. exists (fst (extend_line st w width prefix) ++ snd (extend_line st w width prefix)), " "%char. rewrite app_assoc. auto.
Qed.

(** The first line begins with the indentation. *)
Definition starts (p l : text) : Prop := exists r, l = p ++ r.
Lemma starts_app p l r : starts p l -> starts p (l ++ r).
Proof. intros (x & ->). exists (x ++ r). rewrite app_assoc. reflexivity. Qed.

Lemma rstrip_keep a b : forallb is_space b = false -> exists r, rstrip (a ++ b) = a ++ r.
Proof.
  intros H. destruct (rstrip_split (a ++ b)) as (s & E & Hs).
  destruct (app_eq_app _ _ _ _ E) as (l & [[E1 E2]|[E1 E2]]).
  - (* a = rstrip ++ l: then b is a suffix of s *)
    exfalso. rewrite E2, forallb_app in Hs. apply andb_prop in Hs as [_ Hs]. congruence.
  - exists l. exact E1.
Qed.

Lemma row_loop_starts ws width prefix : Forall (fun w => words w <> []) ws -> ws <> [] ->
  starts prefix (row_loop ws ([], prefix) width prefix).
Proof.
  intros Hw Ne.
  assert (NB : forall w, words w <> [] -> forallb is_space w = false).
  { intros w H. destruct (forallb is_space w) eqn:E; [|reflexivity]. exfalso. apply H. apply forallb_space_sep in E.
    assert (X := words_blank w [] E). rewrite app_nil_r in X. exact X. }
  (* afterwards: the finished text, or the line, keeps the prefix and a word *)
  assert (Later : forall ws st, (starts prefix (fst st) \/ (fst st = [] /\ exists m, snd st = prefix ++ m /\ forallb is_space m = false)) ->
    starts prefix (row_loop ws st width prefix)).
  { clear ws Hw Ne. intros ws. induction ws as [|w ws IH]; intros [s line] H; cbn [fst snd] in H.
    - cbn. destruct H as [H|(-> & m & -> & _)]; [apply starts_app, H|exists m; reflexivity].
    - assert (Inv : let st' := extend_line (s, line) w width prefix in
        starts prefix (fst st') \/ (fst st' = [] /\ exists m, snd st' = prefix ++ m /\ forallb is_space m = false)).
      { unfold extend_line. destruct (_ && _); cbn [fst snd].
        - left. destruct H as [H|(-> & m & -> & Hm)]; [apply starts_app, H|]. destruct (rstrip_keep prefix m Hm) as (r & ->).
          exists (r ++ [nl]). cbn. rewrite <- app_assoc. reflexivity.
        - destruct H as [H|(-> & m & -> & Hm)]; [left; exact H|right]. split; [reflexivity|]. exists (m ++ w). rewrite <- app_assoc. split; [reflexivity|].
          rewrite forallb_app, Hm. reflexivity. }
      destruct ws as [|w' ws].
      + cbn [row_loop]. destruct Inv as [Inv|(E & m & E' & _)]; [apply starts_app, Inv|]. rewrite E, E'. exists m. reflexivity.
      + change (row_loop (w :: w' :: ws) (s, line) width prefix) with
          (row_loop (w' :: ws) (fst (extend_line (s, line) w width prefix), snd (extend_line (s, line) w width prefix) ++ [" "%char]) width prefix).
        apply IH. cbn [fst snd]. destruct Inv as [Inv|(E & m & E' & Hm)]; [left; exact Inv|right]. split; [exact E|].
        exists (m ++ [" "%char]). rewrite E', <- app_assoc, forallb_app, Hm. split; reflexivity. }
  destruct ws as [|w ws]; [contradiction|]. apply Forall_inv in Hw.
  assert (First : extend_line ([], prefix) w width prefix = ([], prefix ++ w)).
  { unfold extend_line. rewrite Nat.leb_refl. cbn [negb]. rewrite andb_false_r. reflexivity. }
  destruct ws as [|w' ws].
  - cbn [row_loop]. rewrite First. exists w. reflexivity.
  - change (row_loop (w :: w' :: ws) ([], prefix) width prefix) with
      (row_loop (w' :: ws) (fst (extend_line ([], prefix) w width prefix), snd (extend_line ([], prefix) w width prefix) ++ [" "%char]) width prefix).
    apply Later. rewrite First. right. cbn [fst snd]. split; [reflexivity|]. exists (w ++ [" "%char]). rewrite <- app_assoc. split; [reflexivity|].
    rewrite forallb_app, (NB w Hw). reflexivity.
Qed.

Lemma skip_starts p l : starts p l -> l = p ++ skipn (length p) l.
Proof. intros (r & ->). rewrite skipn_app, skipn_all, Nat.sub_diag. reflexivity. Qed.

Lemma format_row_words ws prefix width : forallb separates prefix = true -> Forall (fun w => words w <> []) ws -> ws <> [] ->
  words (format_row ws prefix width) = all_words ws.
Proof.
  intros Hp Hw Ne. unfold format_row. rewrite words_sep_l by reflexivity. rewrite words_sep_r by reflexivity.
  assert (S := row_loop_starts ws (width - 1) prefix Hw Ne). apply skip_starts in S.
  assert (W := row_loop_words ws (width - 1) prefix Hp ([], prefix)).
  assert (X : words prefix = []). { assert (Y := words_blank prefix [] Hp). rewrite app_nil_r in Y. exact Y. }
  cbn [fst snd app] in W. rewrite X in W. unfold text in *. rewrite S in W. rewrite words_blank in W by exact Hp. cbn [app] in W. apply W.
  destruct prefix as [|c p] using rev_ind; [left; reflexivity|right]. exists p, c. split; [reflexivity|].
  rewrite forallb_app in Hp. apply andb_prop in Hp as [_ Hp]. cbn in Hp. rewrite andb_true_r in Hp. exact Hp.
Qed.

Lemma rows_loop_words rs prefix : forallb separates prefix = true -> words (rows_loop rs prefix) = all_words rs.
Proof.
  intros Hp. unfold all_words. induction rs as [|r rs IH]; [reflexivity|]. destruct rs as [|r' rs].
  - cbn [rows_loop map concat]. rewrite words_blank, app_nil_r by exact Hp. reflexivity.
  - change (rows_loop (r :: r' :: rs) prefix) with (prefix ++ r ++ nl :: rows_loop (r' :: rs) prefix).
    rewrite words_blank by exact Hp. rewrite words_sep by reflexivity. rewrite IH. reflexivity.
Qed.
Lemma format_rows_words rs prefix : forallb separates prefix = true -> rs <> [] -> words (format_rows rs prefix) = all_words rs.
Proof.
  intros Hp Ne. unfold format_rows. rewrite words_sep_l by reflexivity. rewrite words_sep_r by reflexivity.
  rewrite <- (rows_loop_words rs prefix Hp). assert (S : starts prefix (rows_loop rs prefix)).
  { destruct rs as [|r [|r' rs]]; [contradiction| |]; cbn [rows_loop]; eexists; reflexivity. }
  apply skip_starts in S. rewrite S at 2. rewrite words_blank by exact Hp. reflexivity.
Qed.


(** ** textwrap.indent *)

Lemma split_lines_words cur l : words (cur ++ l) = all_words (split_lines cur l).
Proof.
  unfold all_words. revert cur. induction l as [|c l IH]; intros cur; cbn [split_lines].
  - rewrite app_nil_r. destruct cur; [reflexivity|]. cbn [map concat]. rewrite app_nil_r. reflexivity.
  - destruct (Ascii.eqb_spec c nl) as [->|N].
    + cbn [map concat]. rewrite words_sep, words_sep_r by reflexivity. f_equal. apply (IH []).
    + rewrite <- IH, <- app_assoc. reflexivity.
Qed.
Lemma split_lines_ends cur l : Forall (fun x => exists a, x = a ++ [nl]) (removelast (split_lines cur l)).
Proof.
  revert cur. induction l as [|c l IH]; intros cur; cbn [split_lines].
  - destruct cur; constructor.
  - destruct (Ascii.eqb_spec c nl) as [->|N]; [|apply IH].
    specialize (IH []). destruct (split_lines [] l) as [|x xs]; [constructor|]. cbn [removelast]. constructor; [exists cur; reflexivity|exact IH].
Qed.

Lemma concat_lines_words ls : Forall (fun x => exists a, x = a ++ [nl]) (removelast ls) -> words (concat ls) = all_words ls.
Proof.
  unfold all_words. induction ls as [|x ls IH]; intros H; [reflexivity|]. destruct ls as [|y ls].
  - cbn. rewrite !app_nil_r. reflexivity.
  - change (removelast (x :: y :: ls)) with (x :: removelast (y :: ls)) in H. inversion H as [|? ? (a & E) H']. subst.
    change (concat ((a ++ [nl]) :: y :: ls)) with ((a ++ [nl]) ++ concat (y :: ls)).
    change (concat (map words ((a ++ [nl]) :: y :: ls))) with (words (a ++ [nl]) ++ concat (map words (y :: ls))).
    rewrite <- IH by exact H'. apply words_ends. right. exists a, nl. split; reflexivity.
Qed.

Lemma text_indent_words p l : forallb separates p = true -> words (text_indent p l) = words l.
Proof.
  intros Hp. unfold text_indent. set (f := fun line => match strip line with [] => line | _ => p ++ line end).
  assert (E : all_words (map f (split_lines [] l)) = all_words (split_lines [] l)).
  { unfold all_words. rewrite map_map. f_equal. apply map_ext. intros x. unfold f. destruct (strip x); [reflexivity|]. apply words_blank, Hp. }
  rewrite concat_lines_words, E; [symmetry; apply (split_lines_words [])|].
  assert (H := split_lines_ends [] l). revert H. generalize (split_lines [] l) as ls. induction ls as [|x ls IH]; intros H; [constructor|].
  destruct ls as [|y ls]; [constructor|]. change (removelast (map f (x :: y :: ls))) with (f x :: removelast (map f (y :: ls))).
  change (removelast (x :: y :: ls)) with (x :: removelast (y :: ls)) in H. inversion H as [|? ? (a & E') H']. subst. constructor; [|apply IH, H'].
  unfold f. destruct (strip (a ++ [nl])); [exists a; reflexivity|]. exists (p ++ a). rewrite app_assoc. reflexivity.
Qed.

(** ** Numbers *)

Lemma separates_digits d : forallb (fun c => negb (separates c)) (list_ascii_of_string (NilEmpty.string_of_uint d)) = true.
Proof. induction d; cbn; try exact IHd; reflexivity. Qed.

Definition plain (l : text) : Prop := l <> [] /\ forallb (fun c => negb (separates c)) l = true.

Lemma words_from_plain cur l : forallb (fun c => negb (separates c)) l = true -> words_from cur l = match cur ++ l with [] => [] | w => [w] end.
Proof.
  revert cur. induction l as [|c l IH]; intros cur H; cbn [words_from forallb] in *.
  - rewrite app_nil_r. destruct cur; reflexivity.
  - apply andb_prop in H as [Hc H]. apply negb_true_iff in Hc. rewrite Hc, IH by exact H. rewrite <- app_assoc. reflexivity.
Qed.
Lemma words_plain l : plain l -> words l = [l].
Proof. intros [Ne H]. unfold words. rewrite words_from_plain by exact H. cbn. destruct l; [contradiction|reflexivity]. Qed.

Lemma show_plain z : plain (show_Z z).
Proof.
  unfold show_Z, lit. destruct (Z.to_int z) as [u|u]; unfold NilZero.string_of_int, NilZero.string_of_uint; destruct u; cbn [list_ascii_of_string NilEmpty.string_of_uint];
    split; try discriminate; try reflexivity; cbn; apply separates_digits.
Qed.
Lemma list_ascii_inj s s' : list_ascii_of_string s = list_ascii_of_string s' -> s = s'.
Proof. intros H. rewrite <- (string_of_list_ascii_of_string s), <- (string_of_list_ascii_of_string s'), H. reflexivity. Qed.
Lemma show_inj z z' : show_Z z = show_Z z' -> z = z'.
Proof.
  unfold show_Z, lit. intros H. apply list_ascii_inj in H. apply DecimalZ.to_int_inj.
  assert (N : forall x : Z, Z.to_int x <> Decimal.Pos Decimal.Nil /\ Z.to_int x <> Decimal.Neg Decimal.Nil).
  { intros x. split; intros E; assert (F := DecimalZ.of_to x); rewrite E in F; cbn in F; subst x; discriminate. }
  assert (E : forall x, NilZero.int_of_string (NilZero.string_of_int (Z.to_int x)) = Some (Z.to_int x)).
  { intros x. apply NilZero.isi; apply N. }
  assert (X := E z). rewrite H, E in X. congruence.
Qed.
Lemma int_fmt_words l x : words (int_fmt l x) = [show_Z x].
Proof. unfold int_fmt. rewrite words_blank by apply spaces_sep. apply words_plain, show_plain. Qed.

(** ** Arrays *)

Section Arrays.
  Context {T : Type} {NT : Num T}.
  Variable fmt : list T -> T -> text.
  Variable core : list T -> T -> text.
  Hypothesis Hfmt : forall l x, words (fmt l x) = [core l x].

  Lemma all_words_app a b : all_words (a ++ b) = all_words a ++ all_words b.
  Proof. unfold all_words. rewrite map_app, concat_app. reflexivity. Qed.
  Lemma all_words_fmt l r : all_words (map (fmt l) r) = map (core l) r.
  Proof. unfold all_words. induction r as [|x r IH]; [reflexivity|]. cbn [map concat]. rewrite Hfmt, IH. reflexivity. Qed.
  Lemma words_fmt_ne l r : Forall (fun w => words w <> []) (map (fmt l) r).
  Proof. apply Forall_forall. intros w Hw. apply in_map_iff in Hw as (x & <- & _). rewrite Hfmt. discriminate. Qed.
  Lemma words_dots : words (lit "...") = [lit "..."]. Proof. reflexivity. Qed.

  (** The words of one axis. *)
  Definition axis {A} (summary : bool) (edge : nat) (f : A -> list text) (l : list A) : list text :=
    if summarised summary edge (length l) then concat (map f (firstn edge l)) ++ [lit "..."] ++ concat (map f (lastn edge l))
    else concat (map f l).
  Lemma shown_words {A} summary edge (f : A -> text) l :
    all_words (shown summary edge f l) = axis summary edge (fun x => words (f x)) l.
  Proof.
    unfold shown, axis. destruct (summarised _ _ _).
    - rewrite !all_words_app. unfold all_words. rewrite !map_map. reflexivity.
    - unfold all_words. rewrite map_map. reflexivity.
  Qed.
  Lemma axis_ext {A} summary edge (f g : A -> list text) l : (forall x, In x l -> f x = g x) -> axis summary edge f l = axis summary edge g l.
  Proof.
    intros H. unfold axis, lastn. destruct (summarised _ _ _).
    - f_equal; [|f_equal]; f_equal; apply map_ext_in; intros x Hx; apply H.
      + rewrite <- (firstn_skipn edge l). apply in_or_app. left. exact Hx.
      + rewrite <- (firstn_skipn (length l - edge) l). apply in_or_app. right. exact Hx.
    - f_equal. apply map_ext_in, H.
  Qed.
  Lemma shown_nil {A} summary edge (f : A -> text) l : l <> [] -> shown summary edge f l <> [].
  Proof. intros H. unfold shown. destruct (summarised _ _ _); [destruct (map f (firstn edge l)); discriminate|]. destruct l; [contradiction|discriminate]. Qed.
  Lemma shown_fmt_ne summary edge l r : Forall (fun w => words w <> []) (shown summary edge (fmt l) r).
  Proof.
    unfold shown. destruct (summarised _ _ _); [|apply words_fmt_ne]. apply Forall_app. split; [apply words_fmt_ne|].
    constructor; [discriminate|apply words_fmt_ne].
  Qed.

  Lemma array_words threshold edge l :
    words (array_text fmt threshold edge l)
    = axis (Nat.ltb threshold (length l)) edge (fun x => [core (kept (Nat.ltb threshold (length l)) edge l) x]) l.
  Proof.
    destruct l as [|x l].
    - unfold axis, summarised. cbn [length]. rewrite Nat.mul_comm. destruct (Nat.ltb threshold 0); cbn; reflexivity.
    - unfold array_text. set (r := x :: l). rewrite format_row_words.
      + rewrite shown_words. apply axis_ext. intros y _. apply Hfmt.
      + reflexivity.
      + apply shown_fmt_ne.
      + apply shown_nil. discriminate.
  Qed.

  Lemma matrix_words threshold edge n rows : (forall r, In r rows -> length r = n) ->
    let summary := Nat.ltb threshold (length rows * n) in
    words (matrix_text fmt threshold edge n rows)
    = if Nat.eqb (length rows * n) 0 then []
      else axis summary edge (axis summary edge (fun x => [core (concat (map (kept summary edge) (kept summary edge rows))) x])) rows.
  Proof.
    intros Hr summary. unfold matrix_text. fold summary. destruct (Nat.eqb_spec (length rows * n) 0) as [E|E]; [reflexivity|].
    set (all := concat _). rewrite format_rows_words.
    - rewrite shown_words. apply axis_ext. intros r Hin. rewrite format_row_words.
      + rewrite shown_words. apply axis_ext. intros y _. apply Hfmt.
      + reflexivity.
      + apply shown_fmt_ne.
      + apply shown_nil. intros ->. apply Hr in Hin. cbn in Hin. subst n. lia.
    - reflexivity.
    - apply shown_nil. intros ->. cbn in E. lia.
  Qed.

  Definition labelled (name : string) (v : text) : text := lit name ++ v.

  Lemma plain_app a b : plain a -> plain b -> plain (a ++ b).
  Proof. intros [Na Ha] [Nb Hb]. split; [destruct a; [contradiction|discriminate]|]. rewrite forallb_app, Ha, Hb. reflexivity. Qed.
  Lemma plain_size : plain (lit "size="). Proof. split; [discriminate|reflexivity]. Qed.
  Lemma plain_ndim : plain (lit "ndim="). Proof. split; [discriminate|reflexivity]. Qed.
  Lemma plain_dtype : plain (lit "dtype="). Proof. split; [discriminate|reflexivity]. Qed.
  Lemma plain_index : plain (lit "index="). Proof. split; [discriminate|reflexivity]. Qed.
  Lemma plain_show_dtype d : plain (show_dtype d). Proof. destruct d; (split; [discriminate|reflexivity]). Qed.

  Lemma words_comma a b : words (a ++ lit ", " ++ b) = words a ++ words b.
  Proof. change (lit ", " ++ b) with (","%char :: " "%char :: b). rewrite words_sep, words_sep_l by reflexivity. reflexivity. Qed.
  Lemma words_paren name a : plain name -> words (name ++ lit "(" ++ a ++ lit ")") = name :: words a.
  Proof.
    intros P. change (lit "(" ++ a ++ lit ")") with ("("%char :: (a ++ [")"%char])). rewrite words_sep, words_sep_r by reflexivity.
    rewrite words_plain by exact P. reflexivity.
  Qed.
  Lemma words_field name w : plain (lit name) -> plain w -> words (lit name ++ w) = [labelled name w].
  Proof. intros P Q. rewrite words_plain by (apply plain_app; assumption). reflexivity. Qed.
  (** label=[...]. *)
  Lemma words_labelled name a : plain (lit name) -> starts (lit "[") a -> words (lit name ++ a) = lit name :: words a.
  Proof. intros P (r & ->). change (lit "[" ++ r) with ("["%char :: r). rewrite words_begins by reflexivity. rewrite words_plain by exact P. reflexivity. Qed.

  Theorem curve_words c :
    words (curve_repr fmt c)
    = lit "Curve" :: words (matrix_text fmt (10 * c_ndim c) 4 (c_ndim c) (c_rows c))
      ++ [labelled "size=" (show_Z (Z.of_nat (length (c_rows c)))); labelled "ndim=" (show_Z (Z.of_nat (c_ndim c)));
          labelled "dtype=" (show_dtype (c_dtype c))].
  Proof.
    unfold curve_repr. set (S := strip _).
    transitivity (words (lit "Curve" ++ lit "(" ++ (S ++ lit ", " ++ (lit "size=" ++ show_Z (Z.of_nat (c_size c)))
      ++ lit ", " ++ (lit "ndim=" ++ show_Z (Z.of_nat (c_ndim c))) ++ lit ", " ++ (lit "dtype=" ++ show_dtype (c_dtype c))) ++ lit ")")).
    { f_equal. rewrite <- !app_assoc. reflexivity. }
    rewrite words_paren by (split; [discriminate|reflexivity]). rewrite words_comma, words_comma, words_comma. unfold S. rewrite words_strip, text_indent_words by apply spaces_sep.
    rewrite (words_field "size=" _ plain_size (show_plain _)), (words_field "ndim=" _ plain_ndim (show_plain _)), (words_field "dtype=" _ plain_dtype (plain_show_dtype _)).
    reflexivity.
  Qed.

  Theorem point_words fmt0 p :
    words (point_repr fmt fmt0 p)
    = lit "Point" :: words (data_text fmt fmt0 (p_data p))
      ++ [labelled "ndim=" (show_Z (Z.of_nat (match p_data p with A0 _ => 1 | A1 l => length l end))); labelled "dtype=" (show_dtype (p_dtype p))].
  Proof.
    unfold point_repr. set (n := Z.of_nat _).
    transitivity (words (lit "Point" ++ lit "(" ++ (data_text fmt fmt0 (p_data p) ++ lit ", " ++ (lit "ndim=" ++ show_Z n)
      ++ lit ", " ++ (lit "dtype=" ++ show_dtype (p_dtype p))) ++ lit ")")).
    { f_equal. rewrite <- !app_assoc. reflexivity. }
    rewrite words_paren by (split; [discriminate|reflexivity]). rewrite words_comma, words_comma.
    rewrite (words_field "ndim=" _ plain_ndim (show_plain _)), (words_field "dtype=" _ plain_dtype (plain_show_dtype _)). reflexivity.
  Qed.

  Lemma array_starts threshold edge l : starts (lit "[") (array_text fmt threshold edge l).
  Proof. destruct l; [exists (lit "]"); reflexivity|]. unfold array_text, format_row. eexists. reflexivity. Qed.

  Theorem cpoint_words p : words (cpoint_repr fmt p)
    = lit "CurvePoint" :: words (array_text fmt 1000 3 (cp_data p)) ++ [labelled "index=" (show_Z (cp_idx p))].
  Proof.
    unfold cpoint_repr.
    transitivity (words (lit "CurvePoint" ++ lit "(" ++ (array_text fmt 1000 3 (cp_data p) ++ lit ", " ++ (lit "index=" ++ show_Z (cp_idx p))) ++ lit ")")).
    { f_equal. rewrite <- !app_assoc. reflexivity. }
    rewrite words_paren by (split; [discriminate|reflexivity]). rewrite words_comma.
    rewrite (words_field "index=" _ plain_index (show_plain _)). reflexivity.
  Qed.

  Theorem segment_words s : words (segment_repr fmt s)
    = lit "Segment" :: (lit "p1=" :: words (array_text fmt 1000 3 (sg_p1 s))) ++ lit "p2=" :: words (array_text fmt 1000 3 (sg_p2 s)).
  Proof.
    unfold segment_repr.
    transitivity (words (lit "Segment" ++ lit "(" ++ ((lit "p1=" ++ array_text fmt 1000 3 (sg_p1 s)) ++ lit ", " ++ (lit "p2=" ++ array_text fmt 1000 3 (sg_p2 s))) ++ lit ")")).
    { f_equal. rewrite <- !app_assoc. reflexivity. }
    rewrite words_paren by (split; [discriminate|reflexivity]). rewrite words_comma.
    rewrite !words_labelled by ((split; [discriminate|reflexivity]) || apply array_starts). reflexivity.
  Qed.

  Theorem csegment_words s i : words (csegment_repr fmt s i)
    = lit "CurveSegment" :: (lit "p1=" :: words (array_text fmt 1000 3 (sg_p1 s))) ++ (lit "p2=" :: words (array_text fmt 1000 3 (sg_p2 s)))
      ++ [labelled "index=" (show_Z i)].
  Proof.
    unfold csegment_repr.
    transitivity (words (lit "CurveSegment" ++ lit "(" ++ ((lit "p1=" ++ array_text fmt 1000 3 (sg_p1 s)) ++ lit ", " ++ (lit "p2=" ++ array_text fmt 1000 3 (sg_p2 s))
      ++ lit ", " ++ (lit "index=" ++ show_Z i)) ++ lit ")")).
    { f_equal. rewrite <- !app_assoc. reflexivity. }
    rewrite words_paren by (split; [discriminate|reflexivity]). rewrite words_comma, words_comma.
    rewrite !words_labelled by ((split; [discriminate|reflexivity]) || apply array_starts).
    rewrite (words_field "index=" _ plain_index (show_plain _)). reflexivity.
  Qed.

  Lemma plain_itype t : plain (itype_name t). Proof. destruct t; (split; [discriminate|reflexivity]). Qed.
  Theorem inter_words fmt0 x p t : in_point x = Ok p -> inter_repr fmt fmt0 x = Ok t ->
    words t = lit "SegmentsIntersection" :: words (segref_repr fmt (in_seg1 x)) ++ words (segref_repr fmt (in_seg2 x)) ++ words (idata_repr fmt fmt0 p)
      ++ [labelled "type=" (itype_name (i_type (in_info x)))].
  Proof.
    intros E H. unfold inter_repr in H. rewrite E in H. cbn [rbind] in H. injection H as <-.
    set (s1 := segref_repr fmt (in_seg1 x)). set (s2 := segref_repr fmt (in_seg2 x)). set (d := idata_repr fmt fmt0 p). set (n := itype_name _).
    transitivity (words (lit "SegmentsIntersection" ++ lit "(" ++ (s1 ++ lit ", " ++ s2 ++ lit ", " ++ d ++ lit ", " ++ (lit "type=" ++ n)) ++ lit ")")).
    { f_equal. rewrite <- !app_assoc. reflexivity. }
    rewrite words_paren by (split; [discriminate|reflexivity]). rewrite !words_comma.
    rewrite (words_field "type=" n); [reflexivity|split; [discriminate|reflexivity]|apply plain_itype].
  Qed.
End Arrays.
