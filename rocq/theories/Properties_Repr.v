(** C90: what the text forms of curves, points, segments and intersections show. *)
From Coq Require Import ZArith QArith Ascii String List Bool Arith Lia DecimalString.
From Coq Require DecimalZ.
From Verif Require Import Num Py Numeric Curve Vec Geom Intersect Point Views Repr ReprSpec ReprProofs ReprProofs2.
Import ListNotations.
Local Open Scope nat_scope.
Local Open Scope list_scope.

(** Row tables. *)
Definition rectangular {T} (c : curve T) : Prop := forall r, In r (c_rows c) -> length r = c_ndim c.
(** The three fields after the numbers. *)
Definition curve_fields {T} (c : curve T) : list (list ascii) :=
  [word "size=" ++ show_Z (Z.of_nat (length (c_rows c))); word "ndim=" ++ show_Z (Z.of_nat (c_ndim c));
   word "dtype=" ++ word (match c_dtype c with DInt => "int64" | DFloat => "float64" end)].

Lemma axis_all {A} edge (f : A -> list text) l : axis false edge f l = concat (map f l).
Proof. reflexivity. Qed.
Lemma singles {A B} (f : A -> B) l : concat (map (fun x => [f x]) l) = map f l.
Proof. induction l as [|x l IH]; [reflexivity|]. cbn. rewrite IH. reflexivity. Qed.
Lemma concat_maps {A B} (f : A -> B) (ls : list (list A)) : concat (map (fun l => concat (map (fun x => [f x]) l)) ls) = map f (concat ls).
Proof. rewrite concat_map. f_equal. apply map_ext. intros l. apply singles. Qed.
Lemma fields_eq {T} (c : curve T) : [labelled "size=" (show_Z (Z.of_nat (length (c_rows c)))); labelled "ndim=" (show_Z (Z.of_nat (c_ndim c)));
          labelled "dtype=" (show_dtype (c_dtype c))] = curve_fields c.
Proof. unfold curve_fields. destruct (c_dtype c); reflexivity. Qed.

(** Examples. *)
Definition three : curve Z := mkCurve [[1; -20]; [3; 4]; [100; 5]]%Z 2 DInt None.
Definition twelve : curve Z := mkCurve (map (fun k => [Z.of_nat k; (10 - Z.of_nat k * Z.of_nat k)%Z]) (seq 0 12)) 2 DInt None.
Definition broad : curve Z := mkCurve (map (fun k => map (fun j => (Z.of_nat k * Z.of_nat j)%Z) (seq 0 9)) (seq 0 11)) 9 DFloat None.
Definition lines (ls : list string) : list ascii := join ["010"%char] (map word ls).
Lemma int_one_word (l : list Z) x : one_word (int_fmt l x) (show_Z x).
Proof. apply int_fmt_words. Qed.
Lemma three_rectangular : rectangular three.
Proof. intros r [<-|[<-|[<-|[]]]]; reflexivity. Qed.
Lemma twelve_rectangular : rectangular twelve.
Proof. intros r Hr. cbn [c_rows twelve] in Hr. apply in_map_iff in Hr as (k & <- & _). reflexivity. Qed.
Lemma broad_rectangular : rectangular broad.
Proof. intros r Hr. cbn [c_rows broad] in Hr. apply in_map_iff in Hr as (k & <- & _). reflexivity. Qed.

Lemma app_split {A} (a b t t' : list A) : length t = length t' -> a ++ t = b ++ t' -> a = b /\ t = t'.
Proof.
  intros L E. assert (L' : length a = length b). { apply (f_equal (@length _)) in E. rewrite !app_length in E. lia. }
  revert b E L'. induction a as [|x a IH]; intros [|y b] E L'; try discriminate L'; [split; [reflexivity|exact E]|].
  cbn [app] in E. injection E as -> E. destruct (IH b E ltac:(cbn in L'; lia)) as [-> ->]. split; reflexivity.
Qed.

Section Curves.
  Context {T : Type}.
  Variable fmt : list T -> T -> list ascii.
  Variable core : list T -> T -> list ascii.
  Hypothesis Hfmt : forall l x, one_word (fmt l x) (core l x).

  (** Up to ten points: every coordinate of every point, in order. *)
Theorem C90_short (c : curve T) : rectangular c -> length (c_rows c) <= 10 ->
    words (curve_repr fmt c) = word "Curve" :: map (core (concat (c_rows c))) (concat (c_rows c)) ++ curve_fields c.
  Proof.
    intros Hr Hs. rewrite curve_words, fields_eq. change (word "Curve") with (lit "Curve"). f_equal. f_equal.
    rewrite (matrix_words fmt core Hfmt) by exact Hr. cbv zeta. destruct (Nat.eqb_spec (length (c_rows c) * c_ndim c) 0) as [E|E].
    - symmetry. destruct (c_rows c) as [|r rows] eqn:F; [reflexivity|]. assert (n0 : c_ndim c = 0) by (cbn in E; lia).
      assert (Z : concat (r :: rows) = []).
      { assert (G : forall r', In r' (r :: rows) -> r' = []). { intros r' Hin. rewrite <- F in Hin. apply Hr in Hin. rewrite n0 in Hin. destruct r'; [reflexivity|discriminate]. }
        clear - G. revert G. generalize (r :: rows) as ls. induction ls as [|a ls IH]; intros G; [reflexivity|]. cbn. rewrite (G a (or_introl eq_refl)). apply IH. intros b Hb. apply G. right. exact Hb. }
      rewrite Z. reflexivity.
    - assert (S : Nat.ltb (10 * c_ndim c) (length (c_rows c) * c_ndim c) = false) by (apply Nat.ltb_ge, Nat.mul_le_mono_r, Hs).
      rewrite S. assert (K : concat (map (kept false 4) (kept false 4 (c_rows c))) = concat (c_rows c)).
      { f_equal. change (kept false 4 (c_rows c)) with (c_rows c). rewrite <- (map_id (c_rows c)) at 2. apply map_ext. reflexivity. }
      rewrite K. rewrite axis_all. apply (concat_maps (core (concat (c_rows c)))).
  Qed.

  (** More than ten points: the first four and the last four, with dots between. *)
Theorem C90_long (c : curve T) (head := firstn 4 (c_rows c)) (tail := skipn (length (c_rows c) - 4) (c_rows c)) :
    rectangular c -> 10 < length (c_rows c) -> 1 <= c_ndim c <= 8 ->
    words (curve_repr fmt c)
    = word "Curve" :: map (core (concat (head ++ tail))) (concat head) ++ [word "..."] ++ map (core (concat (head ++ tail))) (concat tail) ++ curve_fields c.
  Proof.
    intros Hr Hs Hn. rewrite curve_words, fields_eq. change (word "Curve") with (lit "Curve"). f_equal. rewrite !app_assoc. f_equal.
    rewrite (matrix_words fmt core Hfmt) by exact Hr. cbv zeta. destruct (Nat.eqb_spec (length (c_rows c) * c_ndim c) 0) as [E|E]; [lia|].
    assert (S : Nat.ltb (10 * c_ndim c) (length (c_rows c) * c_ndim c) = true) by (apply Nat.ltb_lt, Nat.mul_lt_mono_pos_r; lia).
    rewrite S. assert (S1 : summarised true 4 (length (c_rows c)) = true) by (unfold summarised; cbn [andb]; apply Nat.ltb_lt; lia).
    assert (S2 : forall r, In r (c_rows c) -> summarised true 4 (length r) = false).
    { intros r Hin. unfold summarised. cbn [andb]. apply Nat.ltb_ge. rewrite (Hr r Hin). lia. }
    assert (Hfirst : forall r, In r head -> In r (c_rows c)).
    { intros r Hin. rewrite <- (firstn_skipn 4 (c_rows c)). apply in_or_app. left. exact Hin. }
    assert (Hlast : forall r, In r tail -> In r (c_rows c)).
    { intros r Hin. rewrite <- (firstn_skipn (length (c_rows c) - 4) (c_rows c)). apply in_or_app. right. exact Hin. }
    assert (K : concat (map (kept true 4) (kept true 4 (c_rows c))) = concat (head ++ tail)).
    { f_equal. unfold kept at 2. rewrite S1. transitivity (map (fun r : list T => r) (head ++ tail)); [|apply map_id].
      apply map_ext_in. intros r Hin. unfold kept. rewrite S2; [reflexivity|]. apply in_app_or in Hin as [Hin|Hin]; auto. }
    rewrite K. set (all := concat (head ++ tail)). unfold axis at 1. rewrite S1. change (lastn 4 (c_rows c)) with tail. fold head.
    assert (R : forall rs, (forall r, In r rs -> In r (c_rows c)) -> concat (map (axis true 4 (fun x => [core all x])) rs) = map (core all) (concat rs)).
    { intros rs H. rewrite <- (concat_maps (core all)). f_equal. apply map_ext_in. intros r Hin. unfold axis. rewrite S2 by auto. reflexivity. }
    rewrite !R by assumption. rewrite <- app_assoc. reflexivity.
  Qed.

  (** More than ten points in more than eight dimensions: of each point shown the
      first four and the last four coordinates. *)
Theorem C90_wide (c : curve T) (ends := fun (l : list T) => firstn 4 l ++ skipn (length l - 4) l)
      (head := firstn 4 (c_rows c)) (tail := skipn (length (c_rows c) - 4) (c_rows c)) (all := concat (map ends (head ++ tail)))
      (line := fun l => map (core all) (firstn 4 l) ++ [word "..."] ++ map (core all) (skipn (length l - 4) l)) :
    rectangular c -> 10 < length (c_rows c) -> 8 < c_ndim c ->
    words (curve_repr fmt c) = word "Curve" :: concat (map line head) ++ [word "..."] ++ concat (map line tail) ++ curve_fields c.
  Proof.
    intros Hr Hs Hn. rewrite curve_words, fields_eq. change (word "Curve") with (lit "Curve"). f_equal. rewrite !app_assoc. f_equal.
    rewrite (matrix_words fmt core Hfmt) by exact Hr. cbv zeta. destruct (Nat.eqb_spec (length (c_rows c) * c_ndim c) 0) as [E|E]; [lia|].
    assert (S : Nat.ltb (10 * c_ndim c) (length (c_rows c) * c_ndim c) = true) by (apply Nat.ltb_lt, Nat.mul_lt_mono_pos_r; lia).
    rewrite S. assert (S1 : summarised true 4 (length (c_rows c)) = true) by (unfold summarised; cbn [andb]; apply Nat.ltb_lt; lia).
    assert (S2 : forall r, In r (c_rows c) -> summarised true 4 (length r) = true).
    { intros r Hin. unfold summarised. cbn [andb]. apply Nat.ltb_lt. rewrite (Hr r Hin). lia. }
    assert (Hfirst : forall r, In r head -> In r (c_rows c)).
    { intros r Hin. rewrite <- (firstn_skipn 4 (c_rows c)). apply in_or_app. left. exact Hin. }
    assert (Hlast : forall r, In r tail -> In r (c_rows c)).
    { intros r Hin. rewrite <- (firstn_skipn (length (c_rows c) - 4) (c_rows c)). apply in_or_app. right. exact Hin. }
    assert (K : concat (map (kept true 4) (kept true 4 (c_rows c))) = all).
    { unfold all. f_equal. unfold kept at 2. rewrite S1. change (lastn 4 (c_rows c)) with tail. fold head.
      apply map_ext_in. intros r Hin. unfold kept. rewrite S2; [reflexivity|]. apply in_app_or in Hin as [Hin|Hin]; auto. }
    rewrite K. unfold axis at 1. rewrite S1. change (lastn 4 (c_rows c)) with tail. fold head.
    assert (R : forall rs, (forall r, In r rs -> In r (c_rows c)) -> concat (map (axis true 4 (fun x => [core all x])) rs) = concat (map line rs)).
    { intros rs H. f_equal. apply map_ext_in. intros r Hin. unfold axis, line. rewrite S2 by auto. rewrite !singles. reflexivity. }
    rewrite !R by assumption. rewrite <- app_assoc. reflexivity.
  Qed.

  (** Points, points of a curve, segments: up to 1000 coordinates, all of them. *)
  Lemma array_short l : length l <= 1000 -> words (array_text fmt 1000 3 l) = map (core l) l.
  Proof.
    intros H. rewrite (array_words fmt core Hfmt). assert (S : Nat.ltb 1000 (length l) = false) by (apply Nat.ltb_ge, H). rewrite S. apply singles.
  Qed.
Theorem C90_point fmt0 (l : list T) d : length l <= 1000 ->
    words (point_repr fmt fmt0 (mkPoint (A1 l) d))
    = word "Point" :: map (core l) l ++ [word "ndim=" ++ show_Z (Z.of_nat (length l)); word "dtype=" ++ word (match d with DInt => "int64" | DFloat => "float64" end)].
  Proof.
    intros H. rewrite point_words. cbn [p_data p_dtype data_text]. rewrite array_short by exact H. destruct d; reflexivity.
  Qed.
Theorem C90_curve_point (p : cpoint T) : length (cp_data p) <= 1000 ->
    words (cpoint_repr fmt p) = word "CurvePoint" :: map (core (cp_data p)) (cp_data p) ++ [word "index=" ++ show_Z (cp_idx p)].
  Proof. intros H. rewrite cpoint_words, array_short by exact H. reflexivity. Qed.
Theorem C90_segment (s : segment T) : length (sg_p1 s) <= 1000 -> length (sg_p2 s) <= 1000 ->
    words (segment_repr fmt s) = [word "Segment"; word "p1="] ++ map (core (sg_p1 s)) (sg_p1 s) ++ [word "p2="] ++ map (core (sg_p2 s)) (sg_p2 s).
  Proof. intros H H'. rewrite segment_words, !array_short by assumption. reflexivity. Qed.
Theorem C90_curve_segment (s : segment T) i : length (sg_p1 s) <= 1000 -> length (sg_p2 s) <= 1000 ->
    words (csegment_repr fmt s i) = [word "CurveSegment"; word "p1="] ++ map (core (sg_p1 s)) (sg_p1 s) ++ [word "p2="] ++ map (core (sg_p2 s)) (sg_p2 s)
      ++ [word "index=" ++ show_Z i].
  Proof. intros H H'. rewrite csegment_words, !array_short by assumption. reflexivity. Qed.

  (** An intersection: its segments, the point (None if there is no intersection)
      and the type; there is a text unless the point is an error. *)
Theorem C90_intersection {NT : Num T} fmt0 (x : inter T) :
    (forall p, in_point x = Ok p -> exists t, inter_repr fmt fmt0 x = Ok t /\
      words t = word "SegmentsIntersection" :: words (segref_repr fmt (in_seg1 x)) ++ words (segref_repr fmt (in_seg2 x))
        ++ (match p with IDNone => [word "None"] | IDPoint q => words (point_repr fmt fmt0 (mkPoint (A1 q) DFloat)) | IDSegment s => words (segment_repr fmt s) end)
        ++ [word "type=" ++ word (match i_type (in_info x) with INone => "NONE" | IExact => "EXACT" | IOverlap => "OVERLAP" | IAlmost => "ALMOST" end)])
    /\ (forall e, in_point x = Raise e -> inter_repr fmt fmt0 x = Raise e).
  Proof.
    split.
    - intros p E. destruct (inter_repr fmt fmt0 x) as [t|e] eqn:F; [|unfold inter_repr in F; rewrite E in F; discriminate].
      exists t. split; [reflexivity|]. rewrite (inter_words fmt fmt0 x p t E F). destruct p, (i_type (in_info x)); reflexivity.
    - intros e E. unfold inter_repr. rewrite E. reflexivity.
  Qed.
End Curves.

(** The lines of a curve's text when no row is too long to fit (71 characters). *)
Theorem C90_lines {T} (fmt : list T -> T -> list ascii) (c : curve T) (all := concat (c_rows c)) :
  rectangular c -> 1 <= c_ndim c -> 1 <= length (c_rows c) <= 10 ->
  (forall x, ~ In "010"%char (fmt all x)) ->
  (forall r, In r (c_rows c) -> length (join (word " ") (map (fmt all) r)) <= 71) ->
  curve_repr fmt c
  = word "Curve([" ++ join ("010"%char :: word "       ") (map (fun r => word "[" ++ join (word " ") (map (fmt all) r) ++ word "]") (c_rows c))
    ++ word "], " ++ join (word ", ") (curve_fields c) ++ word ")".
Proof.
  intros Hr Hn Hs Hf Hfit. rewrite layout_short by assumption. unfold curve_fields. cbn [join]. rewrite <- !app_assoc.
  destruct (c_dtype c); reflexivity.
Qed.
Theorem C90_lines_long {T} (fmt : list T -> T -> list ascii) (c : curve T)
    (head := firstn 4 (c_rows c)) (tail := skipn (length (c_rows c) - 4) (c_rows c)) (all := concat (head ++ tail))
    (line := fun r => word "[" ++ join (word " ") (map (fmt all) r) ++ word "]") :
  rectangular c -> 1 <= c_ndim c <= 8 -> 10 < length (c_rows c) ->
  (forall x, ~ In "010"%char (fmt all x)) ->
  (forall r, In r (c_rows c) -> length (join (word " ") (map (fmt all) r)) <= 71) ->
  curve_repr fmt c
  = word "Curve([" ++ join ("010"%char :: word "       ") (map line head ++ [word "..."] ++ map line tail)
    ++ word "], " ++ join (word ", ") (curve_fields c) ++ word ")".
Proof.
  intros Hr Hn Hs Hf Hfit. rewrite layout_long by assumption. unfold curve_fields. cbn [join]. rewrite <- !app_assoc.
  destruct (c_dtype c); reflexivity.
Qed.

(** Integers are printed in decimal and right-aligned: all numbers of an array
    take the room of the longest. *)
Theorem C90_decimal (z : Z) :
  option_map Z.of_int (NilZero.int_of_string (string_of_list_ascii (show_Z z))) = Some z.
Proof.
  unfold show_Z, lit. rewrite string_of_list_ascii_of_string. rewrite NilZero.isi.
  - cbn. f_equal. apply DecimalZ.of_to.
  - intros E; assert (F := DecimalZ.of_to z); rewrite E in F; cbn in F; subst z; discriminate.
  - intros E; assert (F := DecimalZ.of_to z); rewrite E in F; cbn in F; subst z; discriminate.
Qed.
Theorem C90_aligned (l : list Z) : l <> [] -> exists w,
  (forall x, In x l -> length (int_fmt l x) = w /\ exists b, int_fmt l x = repeat " "%char b ++ show_Z x) /\ (exists y, In y l /\ int_fmt l y = show_Z y).
Proof.
  intros H. exists (int_width l). split.
  - intros x Hx. split; [apply int_fmt_length, Hx|]. eexists. reflexivity.
  - destruct (int_width_attained l H) as (y & Hy & E). exists y. split; [exact Hy|]. unfold int_fmt. rewrite E, Nat.sub_diag. reflexivity.
Qed.
Theorem C90_table (c : curve Z) w (all := concat (c_rows c)) :
  rectangular c -> 1 <= c_ndim c -> 1 <= length (c_rows c) <= 10 ->
  (forall x, In x all -> length (show_Z x) <= w) -> c_ndim c * (w + 1) <= 72 ->
  curve_repr int_fmt c
  = word "Curve([" ++ join ("010"%char :: word "       ") (map (fun r => word "[" ++ join (word " ") (map (int_fmt all) r) ++ word "]") (c_rows c))
    ++ word "], " ++ join (word ", ") (curve_fields c) ++ word ")".
Proof.
  intros Hr Hn Hs Hw Hfit. apply C90_lines; [exact Hr|exact Hn|exact Hs|apply int_fmt_one_line|]. intros r Hin. fold all.
  assert (Ne : r <> []) by (intros ->; apply Hr in Hin; cbn in Hin; lia).
  assert (Hall : forall x, In x r -> In x all) by (intros x Hx; apply in_concat; exists r; auto).
  assert (Hiw : int_width all <= w).
  { destruct (int_width_attained all) as (y & Hy & <-); [|apply Hw, Hy]. intros E. destruct r as [|x r]; [contradiction|]. specialize (Hall x (or_introl eq_refl)). rewrite E in Hall. destruct Hall. }
  assert (L := join_length (int_width all) (map (int_fmt all) r)). rewrite map_length, (Hr r Hin) in L.
  assert (L' : length (join [" "%char] (map (int_fmt all) r)) + 1 = c_ndim c * (int_width all + 1)).
  { apply L; [destruct r; [contradiction|discriminate]|]. intros z Hz. apply in_map_iff in Hz as (x & <- & Hx). apply int_fmt_length, Hall, Hx. }
  assert (c_ndim c * (int_width all + 1) <= c_ndim c * (w + 1)) by (apply Nat.mul_le_mono_l; lia).
  clear L. assert (Q : length (join [" "%char] (map (int_fmt all) r)) <= 71) by lia. exact Q.
Qed.

(** The text of an integer curve of up to ten points determines its points. *)
Theorem C90_injective (c c' : curve Z) : rectangular c -> rectangular c' -> length (c_rows c) <= 10 -> length (c_rows c') <= 10 ->
  curve_repr int_fmt c = curve_repr int_fmt c' -> c_rows c = c_rows c' /\ c_ndim c = c_ndim c' /\ c_dtype c = c_dtype c'.
Proof.
  intros R R' S S' E. assert (W := f_equal words E).
  rewrite !(C90_short int_fmt (fun _ x => show_Z x) int_fmt_words) in W by assumption. injection W as W. unfold curve_fields in W.
  apply app_split in W; [|reflexivity]. destruct W as [EA F].
  injection F as F1 F2 F3. apply map_show_inj in EA.
  apply show_inj in F1. apply show_inj in F2. apply Nat2Z.inj in F1, F2.
  split; [|split; [exact F2|destruct (c_dtype c), (c_dtype c'); (reflexivity || discriminate)]].
  apply (concat_inj (c_ndim c)); [exact R|rewrite F2; exact R'|exact F1|exact EA].
Qed.

(** So does the text of an integer point, a point of a curve or a segment. *)
Theorem C90_point_injective (p p' : point Z) :
  (forall l, p_data p = A1 l -> length l <= 1000) -> (forall l, p_data p' = A1 l -> length l <= 1000) ->
  point_repr int_fmt show_Z p = point_repr int_fmt show_Z p' -> p = p'.
Proof.
  destruct p as [d t], p' as [d' t']. cbn [p_data]. intros L L' E.
  assert (W := f_equal words E). rewrite !point_words in W. cbn [p_data p_dtype] in W. injection W as W.
  apply app_split in W; [|reflexivity]. destruct W as [W F]. injection F as _ F2. apply show_dtype_inj in F2. subst t'. f_equal.
  assert (NB : forall x r, show_Z x <> "["%char :: r).
  { intros x r X. destruct (show_plain x) as [_ P]. rewrite X in P. discriminate. }
  assert (AS : forall l, exists r, array_text int_fmt 1000 3 l = "["%char :: r) by (intros l; exact (array_starts int_fmt 1000 3 l)).
  unfold point_repr in E. cbn [p_data p_dtype] in E. apply app_inv_head in E.
  destruct d as [x|l], d' as [x'|l']; cbn [data_text] in *.
  - rewrite !words_plain in W by apply show_plain. injection W as W. f_equal. apply show_inj, W.
  - exfalso. destruct (AS l') as (r & Er). rewrite Er in E. destruct (show_Z x) as [|a s] eqn:Es; [apply (proj1 (show_plain x)), Es|]. cbn [app] in E. injection E as Ea _. subst a. exact (NB x s Es).
  - exfalso. destruct (AS l) as (r & Er). rewrite Er in E. destruct (show_Z x') as [|a s] eqn:Es; [apply (proj1 (show_plain x')), Es|]. cbn [app] in E. injection E as Ea _. subst a. exact (NB x' s Es).
  - rewrite !(array_short int_fmt (fun _ x => show_Z x) int_fmt_words) in W by auto. apply map_show_inj in W. subst. reflexivity.
Qed.
Theorem C90_curve_point_injective (p p' : cpoint Z) : length (cp_data p) <= 1000 -> length (cp_data p') <= 1000 ->
  cpoint_repr int_fmt p = cpoint_repr int_fmt p' -> cp_data p = cp_data p' /\ cp_idx p = cp_idx p'.
Proof.
  intros L L' E. assert (W := f_equal words E). rewrite !(C90_curve_point int_fmt (fun _ x => show_Z x) int_fmt_words) in W by assumption.
  injection W as W. apply app_split in W; [|reflexivity]. destruct W as [W F]. split; [apply map_show_inj, W|].
  injection F as F. apply show_inj, F.
Qed.
Theorem C90_segment_injective (s s' : segment Z) :
  length (sg_p1 s) = length (sg_p2 s) -> length (sg_p1 s') = length (sg_p2 s') -> length (sg_p1 s) <= 1000 -> length (sg_p1 s') <= 1000 ->
  (segment_repr int_fmt s = segment_repr int_fmt s' -> s = s')
  /\ (forall i i', csegment_repr int_fmt s i = csegment_repr int_fmt s' i' -> s = s' /\ i = i').
Proof.
  destruct s as [a b], s' as [a' b']. cbn [sg_p1 sg_p2]. intros D D' L L'.
  assert (Core : map show_Z a ++ [word "p2="] ++ map show_Z b = map show_Z a' ++ [word "p2="] ++ map show_Z b' -> a = a' /\ b = b').
  { intros W. assert (N : length a = length a'). { apply (f_equal (@length _)) in W. rewrite !app_length in W. cbn [length] in W. rewrite !map_length in W. lia. }
    apply app_split in W; [|rewrite !app_length, !map_length; lia]. destruct W as [W1 W2]. injection W2 as W2. split; apply map_show_inj; assumption. }
  split.
  - intros E. assert (W := f_equal words E). rewrite !(C90_segment int_fmt (fun _ x => show_Z x) int_fmt_words) in W by (cbn [sg_p1 sg_p2]; lia).
    cbn [sg_p1 sg_p2 app] in W. injection W as W. destruct (Core W) as [-> ->]. reflexivity.
  - intros i i' E. assert (W := f_equal words E). rewrite !(C90_curve_segment int_fmt (fun _ x => show_Z x) int_fmt_words) in W by (cbn [sg_p1 sg_p2]; lia).
    cbn [sg_p1 sg_p2] in W. rewrite !app_assoc in W. apply app_split in W; [|reflexivity]. destruct W as [W F]. injection F as F. apply show_inj in F. subst i'.
    rewrite <- !app_assoc in W. cbn [app] in W. injection W as W. destruct (Core W) as [-> ->]. split; reflexivity.
Qed.

(** The parameters are not shown: curves with the same points, dimension and type
    have the same text. *)
Theorem C90_parameters_hidden {T} (fmt : list T -> T -> list ascii) (c : curve T) t :
  curve_repr fmt (mkCurve (c_rows c) (c_ndim c) (c_dtype c) t) = curve_repr fmt c.
Proof. reflexivity. Qed.

(** The text of an empty curve. *)
Theorem C90_empty {T} (fmt : list T -> T -> list ascii) (c : curve T) : length (c_rows c) = 0 \/ c_ndim c = 0 ->
  curve_repr fmt c = word "Curve([], " ++ join (word ", ") (curve_fields c) ++ word ")".
Proof.
  intros H. unfold curve_repr, matrix_text.
  assert (E : Nat.eqb (length (c_rows c) * c_ndim c) 0 = true) by (apply Nat.eqb_eq; destruct H as [H|H]; rewrite H; lia).
  rewrite E. unfold curve_fields, c_size. cbn [join]. rewrite <- !app_assoc. destruct (c_dtype c); reflexivity.
Qed.

(** A point of two or more coordinates is broken into lines exactly if its numbers
    with the spaces between them take more than 73 characters. *)
Theorem C90_break {T} (fmt : list T -> T -> list ascii) fmt0 core (l : list T) d :
  (forall l x, one_word (fmt l x) (core l x)) -> (forall x, ~ In "010"%char (fmt l x)) -> 2 <= length l <= 1000 ->
  (In "010"%char (point_repr fmt fmt0 (mkPoint (A1 l) d)) <-> 73 < length (join (word " ") (map (fmt l) l))).
Proof.
  intros Hf Hn L. assert (E : array_text fmt 1000 3 l = format_row (map (fmt l) l) [" "%char] 75).
  { unfold array_text. destruct l as [|x l]; [cbn in L; lia|]. replace (Nat.ltb 1000 (length (x :: l))) with false by (symmetry; apply Nat.ltb_ge; lia). reflexivity. }
  assert (B : In nl (format_row (map (fmt l) l) [" "%char] 75) <-> 74 < 1 + length (join [" "%char] (map (fmt l) l))).
  { apply (format_row_breaks _ 75).
    - apply Forall_forall. intros w Hw. apply in_map_iff in Hw as (x & <- & _). apply Hn.
    - apply Forall_forall. intros w Hw. apply in_map_iff in Hw as (x & <- & _). rewrite (Hf l x). discriminate.
    - rewrite map_length. lia. }
  rewrite <- E in B. unfold point_repr. cbn [p_data p_dtype data_text].
  assert (P : one_line (lit ", ndim=" ++ show_Z (Z.of_nat (length l)) ++ lit ", dtype=" ++ show_dtype d ++ lit ")")).
  { apply one_line_app; [intros Q; repeat destruct Q as [Q|Q]; discriminate || destruct Q|].
    apply one_line_app; [apply plain_one_line, show_plain|].
    apply one_line_app; [intros Q; repeat destruct Q as [Q|Q]; discriminate || destruct Q|].
    apply one_line_app; [destruct d; intros Q; repeat destruct Q as [Q|Q]; discriminate || destruct Q|].
    intros Q; repeat destruct Q as [Q|Q]; discriminate || destruct Q. }
  change (word " ") with [" "%char]. unfold nl in *. split.
  - intros H. apply in_app_or in H as [H|H]; [exfalso; repeat destruct H as [H|H]; discriminate || destruct H|].
    apply in_app_or in H as [H|H]; [apply B in H; lia|destruct (P H)].
  - intros H. apply in_or_app. right. apply in_or_app. left. apply B. lia.
Qed.

(** More than ten points: the text does not determine the curve. *)
Definition eleven (y : Z) : curve Z :=
  mkCurve (map (fun k => [Z.of_nat k; if Nat.eqb k 5 then y else 0%Z]) (seq 0 11)) 2 DInt None.
Theorem C90_long_refuted :
  ~ (forall c c' : curve Z, rectangular c -> rectangular c' -> curve_repr int_fmt c = curve_repr int_fmt c' -> c_rows c = c_rows c').
Proof.
  intros H. assert (R : forall y, rectangular (eleven y)).
  { intros y r Hr. unfold eleven in Hr. cbn [c_rows] in Hr. apply in_map_iff in Hr as (k & <- & _). reflexivity. }
  specialize (H (eleven 0) (eleven 7) (R _) (R _) ltac:(vm_compute; reflexivity)). discriminate.
Qed.

(** C90: concrete cases. *)
Example C90_short_ex : words (curve_repr int_fmt three)
  = map word ["Curve"; "1"; "-20"; "3"; "4"; "100"; "5"; "size=3"; "ndim=2"; "dtype=int64"]%string.
Proof.
  rewrite (C90_short int_fmt (fun _ x => show_Z x) int_one_word three three_rectangular) by (cbn; lia). vm_compute. reflexivity.
Qed.
Example C90_long_ex : words (curve_repr int_fmt twelve)
  = map word ["Curve"; "0"; "10"; "1"; "9"; "2"; "6"; "3"; "1"; "..."; "8"; "-54"; "9"; "-71"; "10"; "-90"; "11"; "-111"; "size=12"; "ndim=2"; "dtype=int64"]%string.
Proof.
  rewrite (C90_long int_fmt (fun _ x => show_Z x) int_one_word twelve twelve_rectangular) by (cbn; lia). vm_compute. reflexivity.
Qed.
Example C90_wide_ex : firstn 11 (words (curve_repr int_fmt broad))
  = map word ["Curve"; "0"; "0"; "0"; "0"; "..."; "0"; "0"; "0"; "0"; "0"]%string.
Proof.
  rewrite (C90_wide int_fmt (fun _ x => show_Z x) int_one_word broad broad_rectangular) by (cbn; lia). vm_compute. reflexivity.
Qed.
Example C90_point_ex : words (point_repr int_fmt show_Z (mkPoint (A1 [3; -4]%Z) DInt)) = map word ["Point"; "3"; "-4"; "ndim=2"; "dtype=int64"]%string.
Proof. rewrite (C90_point int_fmt (fun _ x => show_Z x) int_one_word show_Z [3; -4]%Z DInt) by (apply Nat.leb_le; reflexivity). vm_compute. reflexivity. Qed.
Example C90_curve_point_ex (r : cref Z) : words (cpoint_repr int_fmt (mkCPoint r 7 [3; -4]%Z)) = map word ["CurvePoint"; "3"; "-4"; "index=7"]%string.
Proof. rewrite (C90_curve_point int_fmt (fun _ x => show_Z x) int_one_word) by (apply Nat.leb_le; reflexivity). vm_compute. reflexivity. Qed.
Example C90_segment_ex : segment_repr int_fmt (mkSeg [0; 1]%Z [-10; 2]%Z) = word "Segment(p1=[0 1], p2=[-10   2])".
Proof. vm_compute. reflexivity. Qed.
Example C90_segment_words_ex : words (segment_repr int_fmt (mkSeg [0; 1]%Z [-10; 2]%Z)) = map word ["Segment"; "p1="; "0"; "1"; "p2="; "-10"; "2"]%string.
Proof. rewrite (C90_segment int_fmt (fun _ x => show_Z x) int_one_word) by (apply Nat.leb_le; reflexivity). vm_compute. reflexivity. Qed.
Example C90_curve_segment_ex : words (csegment_repr int_fmt (mkSeg [0; 1]%Z [-10; 2]%Z) 3) = map word ["CurveSegment"; "p1="; "0"; "1"; "p2="; "-10"; "2"; "index=3"]%string.
Proof. rewrite (C90_curve_segment int_fmt (fun _ x => show_Z x) int_one_word) by (apply Nat.leb_le; reflexivity). vm_compute. reflexivity. Qed.
Example C90_lines_ex : curve_repr int_fmt three
  = lines ["Curve([[  1 -20]"; "       [  3   4]"; "       [100   5]], size=3, ndim=2, dtype=int64)"]%string.
Proof.
  rewrite (C90_lines int_fmt three three_rectangular); [vm_compute; reflexivity|cbn; lia|cbn; lia|apply int_fmt_one_line|].
  intros r [<-|[<-|[<-|[]]]]; apply Nat.leb_le; reflexivity.
Qed.
Example C90_lines_long_ex : curve_repr int_fmt twelve
  = lines ["Curve([[   0   10]"; "       [   1    9]"; "       [   2    6]"; "       [   3    1]"; "       ...";
           "       [   8  -54]"; "       [   9  -71]"; "       [  10  -90]"; "       [  11 -111]], size=12, ndim=2, dtype=int64)"]%string.
Proof.
  rewrite (C90_lines_long int_fmt twelve twelve_rectangular); [vm_compute; reflexivity|cbn; lia|cbn; lia|apply int_fmt_one_line|].
  intros r Hr. apply Nat.leb_le. cbn [c_rows twelve] in Hr. revert r Hr. apply Forall_forall. repeat constructor.
Qed.
Example C90_decimal_ex : show_Z (-120) = word "-120" /\ show_Z 0 = word "0".
Proof. split; vm_compute; reflexivity. Qed.
Example C90_aligned_ex : map (int_fmt [7; -12; 345]%Z) [7; -12; 345]%Z = map word ["  7"; "-12"; "345"]%string.
Proof. vm_compute. reflexivity. Qed.
Example C90_table_ex : (forall x, In x (concat (c_rows three)) -> length (show_Z x) <= 3) /\ c_ndim three * (3 + 1) <= 72.
Proof. split; [|cbn; lia]. apply Forall_forall. repeat (constructor; [apply Nat.leb_le; reflexivity|]). constructor. Qed.
Example C90_injective_ex : curve_repr int_fmt three <> curve_repr int_fmt (mkCurve [[1; -20]; [3; 4]; [100; 6]]%Z 2 DInt None).
Proof.
  intros E. assert (R : rectangular (mkCurve [[1; -20]; [3; 4]; [100; 6]]%Z 2 DInt None)) by (intros r [<-|[<-|[<-|[]]]]; reflexivity).
  destruct (C90_injective _ _ three_rectangular R ltac:(cbn; lia) ltac:(cbn; lia) E) as [X _]. discriminate.
Qed.
Example C90_point_injective_ex : point_repr int_fmt show_Z (mkPoint (A0 5%Z) DInt) = word "Point(5, ndim=1, dtype=int64)"
  /\ point_repr int_fmt show_Z (mkPoint (A1 [5]%Z) DInt) = word "Point([5], ndim=1, dtype=int64)".
Proof. split; vm_compute; reflexivity. Qed.
Example C90_segment_injective_ex : segment_repr int_fmt (mkSeg [1; 2]%Z [3; 4]%Z) <> segment_repr int_fmt (mkSeg [1; 2]%Z [4; 3]%Z).
Proof.
  intros E. destruct (C90_segment_injective (mkSeg [1; 2]%Z [3; 4]%Z) (mkSeg [1; 2]%Z [4; 3]%Z) eq_refl eq_refl
    ltac:(apply Nat.leb_le; reflexivity) ltac:(apply Nat.leb_le; reflexivity)) as [H _]. specialize (H E). discriminate.
Qed.
(** A formatter of fractions. *)
Definition frac_fmt (l : list Q) (x : Q) : list ascii := show_Z (Qnum x) ++ word "/" ++ show_Z (Zpos (Qden x)).
Definition crossing : inter Q :=
  mkInter (SegOf true 2 (mkSeg [0; 0]%Q [2; 2]%Q)) (SegObj (mkSeg [0; 2]%Q [2; 0]%Q)) (mkInfo (IDPoint [1; 1]%Q) IExact).
Example C90_intersection_ex : exists t, inter_repr frac_fmt (frac_fmt []) crossing = Ok t /\ words t
  = map word ["SegmentsIntersection"; "CurveSegment"; "p1="; "0/1"; "0/1"; "p2="; "2/1"; "2/1"; "index=2"; "Segment"; "p1="; "0/1"; "2/1"; "p2="; "2/1"; "0/1";
      "Point"; "1/1"; "1/1"; "ndim=2"; "dtype=float64"; "type=EXACT"]%string.
Proof.
  destruct (proj1 (C90_intersection frac_fmt (frac_fmt []) crossing) (IDPoint [1; 1]%Q) eq_refl) as (t & E & W). exists t. split; [exact E|].
  rewrite W. vm_compute. reflexivity.
Qed.
Example C90_no_intersection_ex : inter_repr frac_fmt (frac_fmt []) (mkInter (SegObj (mkSeg [0]%Q [1]%Q)) (SegObj (mkSeg [2]%Q [3]%Q)) (mkInfo IDNone INone))
  = Ok (word "SegmentsIntersection(Segment(p1=[0/1], p2=[1/1]), Segment(p1=[2/1], p2=[3/1]), None, type=NONE)").
Proof. vm_compute. reflexivity. Qed.
Example C90_parameters_hidden_ex : curve_repr int_fmt (mkCurve (c_rows three) 2 DInt (Some [0; 1; 5]%Z)) = curve_repr int_fmt three.
Proof. exact (C90_parameters_hidden int_fmt three (Some [0; 1; 5]%Z)). Qed.

Print Assumptions C90_short.
Print Assumptions C90_long.
Print Assumptions C90_wide.
Print Assumptions C90_point.
Print Assumptions C90_curve_point.
Print Assumptions C90_segment.
Print Assumptions C90_curve_segment.
Print Assumptions C90_intersection.
Print Assumptions C90_lines.
Print Assumptions C90_lines_long.
Print Assumptions C90_decimal.
Print Assumptions C90_aligned.
Print Assumptions C90_table.
Print Assumptions C90_injective.
Print Assumptions C90_point_injective.
Print Assumptions C90_curve_point_injective.
Print Assumptions C90_segment_injective.
Print Assumptions C90_parameters_hidden.
Print Assumptions C90_long_refuted.
Print Assumptions C90_empty.
Print Assumptions C90_break.
Example C90_empty_ex : curve_repr int_fmt (mkCurve [] 3 DFloat None) = word "Curve([], size=0, ndim=3, dtype=float64)".
Proof. vm_compute. reflexivity. Qed.
(** 37 digits with 36 spaces between them fit on a line, 38 do not. *)
Example C90_break_ex :
  ~ In "010"%char (point_repr int_fmt show_Z (mkPoint (A1 (repeat 7%Z 37)) DInt)) /\
  In "010"%char (point_repr int_fmt show_Z (mkPoint (A1 (repeat 7%Z 38)) DInt)).
Proof.
  split; [intros H|]; [apply (C90_break int_fmt show_Z (fun _ x => show_Z x)) in H|apply (C90_break int_fmt show_Z (fun _ x => show_Z x))];
    try (intros; apply int_one_word); try (intros; apply int_fmt_one_line); rewrite ?repeat_length; try (vm_compute; lia).
  vm_compute in H. lia.
Qed.
