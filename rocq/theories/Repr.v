(** The text forms of points, segments, curves and intersections: the methods
    __repr__ with numpy's array2string (separator ' ', line width 75).

    How a single number is printed (FloatingFormat, IntegerFormat) is a parameter
    [fmt]: the text of a number depends on all numbers shown in the array.  For
    integers it is modelled ([int_fmt]).  Names of subclasses are not modelled. *)
From Coq Require Import ZArith Ascii String List Bool Arith DecimalString.
From Verif Require Import Num Py Numeric Curve Vec Geom Intersect Point Views.
Import ListNotations.
Local Open Scope list_scope.

(** A Python string as a list of characters (the text forms of
    /repo/skcurve/_base.py:153-156, 1170-1177). *)
Definition text : Type := list ascii.
(** A string literal of the code, as in /repo/skcurve/_base.py:156. *)
Definition lit (s : string) : text := list_ascii_of_string s.
(** The newline of array2string: /repo/skcurve/_base.py:1175. *)
Definition nl : ascii := "010"%char.
(** Blanks: ' ' * n at /repo/skcurve/_base.py:1176. *)
Definition spaces (n : nat) : text := repeat " "%char n.
(** str.isspace for the characters that occur: /repo/skcurve/_base.py:1176. *)
Definition is_space (c : ascii) : bool := Ascii.eqb c " "%char || Ascii.eqb c nl.
(** str.lstrip: /repo/skcurve/_base.py:1176. *)
Fixpoint lstrip (l : text) : text :=
  match l with
  | [] => []
  | c :: l' => if is_space c then lstrip l' else l
  end.
(** str.rstrip, in array2string: /repo/skcurve/_base.py:1175-1176. *)
Definition rstrip (l : text) : text := rev (lstrip (rev l)).
(** str.strip: /repo/skcurve/_base.py:1176. *)
Definition strip (l : text) : text := rstrip (lstrip l).

(** str.splitlines(True), of textwrap.indent: /repo/skcurve/_base.py:1176; [cur]
    is the line read so far. *)
Fixpoint split_lines (cur l : text) : list text :=
  match l with
  | [] => match cur with [] => [] | _ => [cur] end
  | c :: l' => if Ascii.eqb c nl then (cur ++ [c]) :: split_lines [] l' else split_lines (cur ++ [c]) l'
  end.
(** textwrap.indent: /repo/skcurve/_base.py:1176. *)
Definition text_indent (prefix l : text) : text :=
  concat (map (fun line => match strip line with [] => line | _ => prefix ++ line end) (split_lines [] l)).

(** str() of an integer: /repo/skcurve/_base.py:156, 415, 947, 1177. *)
Definition show_Z (z : Z) : text := lit (NilZero.string_of_int (Z.to_int z)).
(** str() of an int64 or float64 dtype: /repo/skcurve/_base.py:156, 1177. *)
Definition show_dtype (d : dtype) : text :=
  match d with DInt => lit "int64" | DFloat => lit "float64" end.

(** The last k elements: the indices -k..-1 of numpy's _formatArray, called by
    /repo/skcurve/_base.py:1175. *)
Definition lastn {A} (k : nat) (l : list A) : list A := skipn (length l - k) l.

(** The entries of one axis that are shown: all, or [edge] at both ends
    (_leading_trailing, _formatArray): /repo/skcurve/_base.py:1173-1175. *)
Definition summarised (summary : bool) (edge n : nat) : bool := summary && Nat.ltb (2 * edge) n.
(** The items written for one axis, with '...' for those left out:
    /repo/skcurve/_base.py:1173-1175. *)
Definition shown {A} (summary : bool) (edge : nat) (f : A -> text) (l : list A) : list text :=
  if summarised summary edge (length l) then map f (firstn edge l) ++ [lit "..."] ++ map f (lastn edge l)
  else map f l.
(** The entries of one axis that _leading_trailing keeps:
    /repo/skcurve/_base.py:1173-1175. *)
Definition kept {A} (summary : bool) (edge : nat) (l : list A) : list A :=
  if summarised summary edge (length l) then firstn edge l ++ lastn edge l else l.

(** _extendLine of array2string: /repo/skcurve/_base.py:155, 1175.  The state is
    the text finished and the line being written. *)
Definition extend_line (st : text * text) (word : text) (width : nat) (prefix : text) : text * text :=
  let '(s, line) := st in
  if Nat.ltb width (length line + length word) && negb (Nat.leb (length line) (length prefix))
  then (s ++ rstrip line ++ [nl], prefix ++ word)
  else (s, line ++ word).

(** The loop over the words of one row: /repo/skcurve/_base.py:155, 1175. *)
Fixpoint row_loop (words : list text) (st : text * text) (width : nat) (prefix : text) : text :=
  match words with
  | [] => fst st ++ snd st
  | [w] => let st' := extend_line st w width prefix in fst st' ++ snd st'
  | w :: rest => let st' := extend_line st w width prefix in row_loop rest (fst st', snd st' ++ [" "%char]) width prefix
  end.

(** One row (the last axis in _formatArray): /repo/skcurve/_base.py:155, 1175. *)
Definition format_row (words : list text) (indent : text) (width : nat) : text :=
  "["%char :: skipn (length indent) (row_loop words ([], indent) (width - 1) indent) ++ ["]"%char].

(** The rows of a matrix (the first axis in _formatArray):
    /repo/skcurve/_base.py:1175. *)
Fixpoint rows_loop (rows : list text) (indent : text) : text :=
  match rows with
  | [] => []
  | [r] => indent ++ r
  | r :: rest => indent ++ r ++ [nl] ++ rows_loop rest indent
  end.
(** The brackets around the rows: /repo/skcurve/_base.py:1175. *)
Definition format_rows (rows : list text) (indent : text) : text :=
  "["%char :: skipn (length indent) (rows_loop rows indent) ++ ["]"%char].

(** The longest line of numpy's output (default of numpy.printoptions):
    /repo/skcurve/_base.py:154, 1173. *)
Definition linewidth : nat := 75.

Section Repr.
  Context {T : Type} {NT : Num T}.
  (** The text of a number among the shown numbers of its array; the text of a
      0-D array. *)
  Variable fmt : list T -> T -> text.
  Variable fmt0 : T -> text.

  (** str() of a 1-D array: /repo/skcurve/_base.py:155, 414, 525-526, 945-946. *)
  Definition array_text (threshold edge : nat) (l : list T) : text :=
    match l with
    | [] => lit "[]"
    | _ =>
        let summary := Nat.ltb threshold (length l) in
        format_row (shown summary edge (fmt (kept summary edge l)) l) [" "%char] linewidth
    end.

  (** str() of a matrix with [n] columns: /repo/skcurve/_base.py:1175. *)
  Definition matrix_text (threshold edge n : nat) (rows : list (list T)) : text :=
    if Nat.eqb (length rows * n) 0 then lit "[]"
    else
      let summary := Nat.ltb threshold (length rows * n) in
      let f := fmt (concat (map (kept summary edge) (kept summary edge rows))) in
      format_rows
        (shown summary edge (fun r => format_row (shown summary edge f r) [" "%char; " "%char] (linewidth - 1)) rows)
        [" "%char].

  (** str(self._data) of a point with numpy's default threshold 1000 and 3 edge
      items: /repo/skcurve/_base.py:154-155. *)
  Definition data_text (a : arr T) : text :=
    match a with A0 x => fmt0 x | A1 l => array_text 1000 3 l end.

  (** Point.__repr__: /repo/skcurve/_base.py:153-156; Point.ndim at 294-303 is the
      size of the data. *)
  Definition point_repr (p : point T) : text :=
    lit "Point(" ++ data_text (p_data p) ++ lit ", ndim=" ++ show_Z (Z.of_nat (match p_data p with A0 _ => 1 | A1 l => length l end))
    ++ lit ", dtype=" ++ show_dtype (p_dtype p) ++ lit ")".

  (** CurvePoint.__repr__: /repo/skcurve/_base.py:412-415. *)
  Definition cpoint_repr (p : cpoint T) : text :=
    lit "CurvePoint(" ++ array_text 1000 3 (cp_data p) ++ lit ", index=" ++ show_Z (cp_idx p) ++ lit ")".

  (** Segment.__repr__: /repo/skcurve/_base.py:523-527. *)
  Definition segment_repr (s : segment T) : text :=
    lit "Segment(p1=" ++ array_text 1000 3 (sg_p1 s) ++ lit ", p2=" ++ array_text 1000 3 (sg_p2 s) ++ lit ")".

  (** CurveSegment.__repr__: /repo/skcurve/_base.py:943-947. *)
  Definition csegment_repr (s : segment T) (idx : Z) : text :=
    lit "CurveSegment(p1=" ++ array_text 1000 3 (sg_p1 s) ++ lit ", p2=" ++ array_text 1000 3 (sg_p2 s) ++ lit ", index=" ++ show_Z idx ++ lit ")".

  (** Curve.__repr__: /repo/skcurve/_base.py:1170-1177. *)
  Definition curve_repr (c : curve T) : text :=
    let name := lit "Curve" in
    let arr := matrix_text (10 * c_ndim c) 4 (c_ndim c) (c_rows c) in
    name ++ lit "(" ++ strip (text_indent (spaces (length name + 1)) arr)
    ++ lit ", size=" ++ show_Z (Z.of_nat (c_size c)) ++ lit ", ndim=" ++ show_Z (Z.of_nat (c_ndim c))
    ++ lit ", dtype=" ++ show_dtype (c_dtype c) ++ lit ")".

  (** IntersectionType.name: /repo/skcurve/_intersect.py:50-57, 111. *)
  Definition itype_name (t : itype) : text :=
    match t with INone => lit "NONE" | IExact => lit "EXACT" | IOverlap => lit "OVERLAP" | IAlmost => lit "ALMOST" end.
  (** str() of a segment: /repo/skcurve/_intersect.py:108-109. *)
  Definition segref_repr (r : segref T) : text :=
    match r with SegObj s => segment_repr s | SegOf _ i s => csegment_repr s i end.
  (** str() of the intersection point: /repo/skcurve/_intersect.py:110. *)
  Definition idata_repr (d : idata T) : text :=
    match d with
    | IDNone => lit "None"
    | IDPoint p => point_repr (mkPoint (A1 p) DFloat)
    | IDSegment s => segment_repr s
    end.
  (** SegmentsIntersection.__repr__: /repo/skcurve/_intersect.py:105-112. *)
  Definition inter_repr (x : inter T) : res text :=
    do p <- in_point x ;
    Ok (lit "SegmentsIntersection(" ++ segref_repr (in_seg1 x) ++ lit ", " ++ segref_repr (in_seg2 x) ++ lit ", "
        ++ idata_repr p ++ lit ", type=" ++ itype_name (i_type (in_info x)) ++ lit ")").
End Repr.

(** IntegerFormat of array2string, for integer data: /repo/skcurve/_base.py:155,
    1175: '%{w}d' with the width of the largest or the smallest number. *)
Definition int_width (l : list Z) : nat :=
  match l with
  | [] => 0
  | x :: l' => Nat.max (length (show_Z (fold_left Z.max l' x))) (length (show_Z (fold_left Z.min l' x)))
  end.
(** The text of one integer: /repo/skcurve/_base.py:155, 1175. *)
Definition int_fmt (l : list Z) (x : Z) : text :=
  let w := show_Z x in spaces (int_width l - length w) ++ w.
