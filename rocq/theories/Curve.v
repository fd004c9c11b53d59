(** Model of the containers of /repo/skcurve/_base.py: Curve (construction,
    selection, concatenation, insertion, deletion, search) and CurvePoint
    indexing, together with chordlen / nonsingular / coorientplane of
    /repo/skcurve/_diffgeom.py that Curve methods rely on. *)

From Coq Require Import ZArith List Bool Arith.
From Verif Require Import Num Py Numeric.
Import ListNotations.
Local Open Scope num_scope.

Section CurveModel.
  Context {T : Type} {NT : Num T}.

  (** The state of a Curve object: /repo/skcurve/_base.py:1165-1168 ([_data]
      of shape size x ndim with its dtype, and [_tdata] or None).  [c_ndim] is
      kept separately because an empty array still has a second dimension. *)
  Record curve : Type := mkCurve {
    c_rows : list (list T);
    c_ndim : nat;
    c_dtype : dtype;
    c_t : option (list T)
  }.

  (** Curve.size / __len__: /repo/skcurve/_base.py:1179-1189, 1461-1471. *)
  Definition c_size (c : curve) : nat := length (c_rows c).

  (** Curve.isparametric: /repo/skcurve/_base.py:1550-1566. *)
  Definition isparametric (c : curve) : bool :=
    match c_t c with Some _ => true | None => false end.

  (** Curve.__bool__: /repo/skcurve/_base.py:1191-1201. *)
  Definition c_bool (c : curve) : bool :=
    negb (Nat.eqb (c_size c) 0) && negb (Nat.eqb (c_ndim c) 0).

  (** Curve(ndarray2d, tdata=td) with all other arguments defaulted, the form
      in which every Curve method builds its result:
      /repo/skcurve/_base.py:1142-1168 for a 2-D array of [length rows] rows
      and [n] columns (axis = 0, ndmin = None, dtype = that of the array). *)
  Definition mk_curve (rows : list (list T)) (n : nat) (dt : dtype)
             (td : option (list T)) : res curve :=
    let '(rows', n') := if Nat.eqb (length rows * n) 0 then ([], 2) else (rows, n) in
    if negb (Nat.eqb (length rows' * n') 0) && Nat.ltb n' 2 then Raise ValueError
    else match td with
         | None => Ok (mkCurve rows' n' dt None)
         | Some t => if Nat.eqb (length t) (length rows')
                     then Ok (mkCurve rows' n' dt (Some t)) else Raise ValueError
         end.

  (** The accepted kinds of the curve_data argument: a numpy array, an
      array-like sequence (already converted by np.asarray, with the dtype
      numpy infers), or another Curve.
      /repo/skcurve/_base.py:1095-1136. *)
  Inductive source : Type :=
  | SArray (a : ndarray T) (dt : dtype)
  | SSeq (a : ndarray T)
  | SCurve (c : curve).

  (** Curve.__init__: /repo/skcurve/_base.py:1095-1168.  Warnings are in Warn.v;
      non-numeric dtypes are not modelled (line 1139 builds a ValueError
      without raising it). *)
  Definition curve_init (src : source) (tdata : option (ndarray T)) (axis : option Z)
             (ndmin : option Z) (dt : option dtype) : res curve :=
    let nm := match ndmin with None => 2%Z | Some k => k end in
    let is_ndmin := match ndmin with None => false | Some _ => true end in
    if (nm <? 2)%Z then Raise ValueError
    else
      let nmin := Z.to_nat nm in
      let '(arr, arr_dt, td, ax) :=
        match src with
        | SCurve c =>
            (mkNd [c_size c; c_ndim c] (concat (c_rows c)), Some (c_dtype c),
             match c_t c with Some t => Some (mkNd [length t] t) | None => None end, 0%Z)
        | SArray a d => (a, Some d, tdata, match axis with None => 0%Z | Some k => k end)
        | SSeq a => (a, None, tdata, match axis with None => 1%Z | Some k => k end)
        end in
      let d := match dt with
               | Some d => d
               | None => match arr_dt with Some d => d | None => DFloat end
               end in
      do (rows0, n0_) <- as2d arr ax ;
      let rows1 := map (map (cast d)) rows0 in
      let '(rows2, n2) :=
        if Nat.eqb (length rows1 * n0_) 0 then ([], nmin) else (rows1, n0_) in
      if negb (Nat.eqb (length rows2 * n2) 0) && Nat.ltb n2 2 then Raise ValueError
      else
        let '(rows3, n3) :=
          if is_ndmin && negb (Nat.eqb (length rows2) 0) && Nat.ltb n2 nmin
          then (map (fun r => r ++ repeat n0 (nmin - n2)) rows2, nmin)
          else (rows2, n2) in
        match td with
        | None => Ok (mkCurve rows3 n3 d None)
        | Some t =>
            if negb (Nat.eqb (nd_ndim t) 1) then Raise ValueError
            else if negb (Nat.eqb (nd_size t) (length rows3)) then Raise ValueError
            else Ok (mkCurve rows3 n3 d (Some (nd_flat t)))
        end.

  (** ** Selection *)

  (** CurvePoint(curve, index) / curve[i]: /repo/skcurve/_base.py:403-410 and
      1225-1226, 1235-1236.  Result: the stored idx and the coordinates. *)
  Definition getitem_int (c : curve) (i : Z) : res (Z * list T) :=
    let idx := if (i <? 0)%Z then (Z.of_nat (c_size c) + i)%Z else i in
    do row <- np_get (c_rows c) idx ; Ok (idx, row).

  (** [f] applied to the parameters if there are any (the pattern
      "if self.isparametric: tdata = ... else: tdata = None",
      e.g. /repo/skcurve/_base.py:1229-1232). *)
  Definition on_t (c : curve) (f : list T -> res (list T)) : res (option (list T)) :=
    match c_t c with
    | None => Ok None
    | Some t => rmap Some (f t)
    end.

  (** curve[slice]: /repo/skcurve/_base.py:1228-1233, 1238-1239. *)
  Definition getitem_slice (c : curve) (s : slice) : res curve :=
    do td <- on_t c (fun t => np_slice t s) ;
    do rows <- np_slice (c_rows c) s ;
    mk_curve rows (c_ndim c) (c_dtype c) td.

  (** curve[[i0, i1, ...]]: /repo/skcurve/_base.py:1228-1233, 1241-1248, for a
      1-D integer array.  (An empty Python list has float dtype in numpy and is
      rejected by numpy with IndexError; here the list is an integer array.) *)
  Definition getitem_list (c : curve) (ix : list Z) : res curve :=
    do td <- on_t c (fun t => np_take t ix) ;
    do rows <- np_take (c_rows c) ix ;
    mk_curve rows (c_ndim c) (c_dtype c) td.

  (** curve[mask]: /repo/skcurve/_base.py:1228-1233, 1241-1248, boolean array. *)
  Definition getitem_mask (c : curve) (m : list bool) : res curve :=
    do td <- on_t c (fun t => np_mask t m) ;
    do rows <- np_mask (c_rows c) m ;
    mk_curve rows (c_ndim c) (c_dtype c) td.

  (** CurvePoint.subcurve: /repo/skcurve/_base.py:488-495, for two points of
      the same curve with stored indices [i] and [j]. *)
  Definition subcurve (c : curve) (i j : Z) (endpoint : bool) : res curve :=
    let inc := if endpoint then 1%Z else 0%Z in
    getitem_slice c (mkSlice (Some i) (Some (j + inc)%Z) None).

  (** CurveSegment(curve, index): /repo/skcurve/_base.py:929-941.  Result: the
      stored idx and the two end points; only the upper bound is checked. *)
  Definition curve_segment (c : curve) (i : Z) : res (Z * list T * list T) :=
    let n := Z.of_nat (c_size c) in
    let idx := if (i <? 0)%Z then (n - 1 + i)%Z else i in
    if (n - 1 <=? idx)%Z then Raise ValueError
    else
      do p <- getitem_int c idx ;
      do q <- getitem_int c (idx + 1) ;
      Ok (idx, snd p, snd q).

  (** Curve.segments: /repo/skcurve/_base.py:1637. *)
  Definition c_segments (c : curve) : res (list (Z * list T * list T)) :=
    rseq (map (fun k => curve_segment c (Z.of_nat k)) (seq 0 (c_size c - 1))).

  (** ** Equality and search *)

  (** The points of a curve that equal [p] (dtype [pd]), as a mask:
      allequal(point.data, data, axis=1), /repo/skcurve/_base.py:1274, 1387, 1419. *)
  Definition match_mask (pd dt : dtype) (p : list T) (rows : list (list T)) : list bool :=
    map (allequal pd dt p) rows.

  (** point in curve: /repo/skcurve/_base.py:1267-1274. *)
  Definition contains_point (c : curve) (p : list T) (pd : dtype) : bool :=
    if negb (Nat.eqb (c_ndim c) (length p)) then false
    else existsb id (match_mask pd (c_dtype c) p (c_rows c)).

  (** other in curve: /repo/skcurve/_base.py:1267-1271, 1275-1290. *)
  Definition contains_curve (c other : curve) : bool :=
    if negb (Nat.eqb (c_ndim c) (c_ndim other)) then false
    else
      let sz := c_size c in
      let osz := c_size other in
      if Nat.eqb sz osz then allequal2 (c_dtype c) (c_dtype other) (c_rows c) (c_rows other)
      else if Nat.ltb sz osz then false
      else existsb (fun i => allequal2 (c_dtype c) (c_dtype other)
                               (firstn osz (skipn i (c_rows c))) (c_rows other))
                   (seq 0 (sz - osz + 1)).

  (** Curve.__eq__: /repo/skcurve/_base.py:1307-1315. *)
  Definition c_eq (c other : curve) : bool :=
    if negb (Nat.eqb (c_ndim c) (c_ndim other)) then false
    else if negb (Nat.eqb (c_size c) (c_size other)) then false
    else allequal2 (c_dtype c) (c_dtype other) (c_rows c) (c_rows other).

  (** Position of the first True of a mask (np.flatnonzero(mask)[0]):
      /repo/skcurve/_base.py:1389-1397. *)
  Fixpoint first_true (m : list bool) : option nat :=
    match m with
    | [] => None
    | true :: _ => Some 0
    | false :: m' => option_map S (first_true m')
    end.

  (** Curve.index: /repo/skcurve/_base.py:1380-1397.  "if start:" adds the raw
      start (also a negative one) to the positions inside the sliced data. *)
  Definition c_index (c : curve) (p : list T) (pd : dtype) (start stop : option Z) : res Z :=
    if negb (Nat.eqb (c_ndim c) (length p)) then Raise ValueError
    else
      do data <- (match start, stop with
                  | None, None => Ok (c_rows c)
                  | _, _ => np_slice (c_rows c) (mkSlice start stop None)
                  end) ;
      match first_true (match_mask pd (c_dtype c) p data) with
      | None => Raise ValueError
      | Some k =>
          Ok (match start with
              | Some s => if (s =? 0)%Z then Z.of_nat k else (Z.of_nat k + s)%Z
              | None => Z.of_nat k
              end)
      end.

  (** Curve.count: /repo/skcurve/_base.py:1418-1419. *)
  Definition c_count (c : curve) (p : list T) (pd : dtype) : res nat :=
    if negb (Nat.eqb (c_ndim c) (length p)) then Raise ValueError
    else Ok (length (filter id (match_mask pd (c_dtype c) p (c_rows c)))).

  (** ** Operations building new curves *)

  (** Curve.__add__: /repo/skcurve/_base.py:1336-1346. *)
  Definition c_add (c other : curve) : res curve :=
    if negb (Nat.eqb (c_ndim c) (c_ndim other)) then Raise ValueError
    else
      let td := match c_t c, c_t other with
                | Some t1, Some t2 => Some (t1 ++ t2)
                | _, _ => None
                end in
      mk_curve (c_rows c ++ c_rows other) (c_ndim c) (promote (c_dtype c) (c_dtype other)) td.

  (** Curve.__copy__ / __deepcopy__ / Curve(curve): /repo/skcurve/_base.py:1348-1352. *)
  Definition c_copy (c : curve) : res curve :=
    curve_init (SCurve c) None None None None.

  (** Curve.reverse: /repo/skcurve/_base.py:1653-1658. *)
  Definition c_reverse (c : curve) : res curve :=
    mk_curve (rev (c_rows c)) (c_ndim c) (c_dtype c) (option_map (@rev T) (c_t c)).

  (** What can be inserted: a Point or a Curve (/repo/skcurve/_base.py:1753-1758). *)
  Inductive item : Type :=
  | IPoint (p : list T)
  | ICurve (c : curve).

  (** Point.ndim and Curve.ndim in _check_ndim: /repo/skcurve/_base.py:2299-2301. *)
  Definition item_ndim (x : item) : nat :=
    match x with IPoint p => length p | ICurve c => c_ndim c end.

  (** /repo/skcurve/_base.py:1753-1756. *)
  Definition item_rows (x : item) : list (list T) :=
    match x with IPoint p => [p] | ICurve c => c_rows c end.

  (** Curve.insert: /repo/skcurve/_base.py:1751-1766.  numpy.insert converts the
      inserted values to the dtype of the curve. *)
  Definition c_insert (c : curve) (ix : indexer) (x : item) : res curve :=
    if negb (Nat.eqb (c_ndim c) (item_ndim x)) then Raise ValueError
    else
      do rows <- np_insert_ix (c_rows c) ix (map (map (cast (c_dtype c))) (item_rows x)) ;
      mk_curve rows (c_ndim c) (c_dtype c) None.

  (** Curve.append: /repo/skcurve/_base.py:1804. *)
  Definition c_append (c : curve) (x : item) : res curve :=
    c_insert c (IxInt (Z.of_nat (c_size c))) x.

  (** Curve.delete: /repo/skcurve/_base.py:1847-1858. *)
  Definition c_delete (c : curve) (ix : indexer) : res curve :=
    do td <- on_t c (fun t => np_delete t ix) ;
    do rows <- np_delete (c_rows c) ix ;
    mk_curve rows (c_ndim c) (c_dtype c) td.

  (** Curve.values(axis): /repo/skcurve/_base.py:1887-1894. *)
  Definition c_values (c : curve) (axis : Z) : res (list T) :=
    if (Z.of_nat (c_ndim c) <=? axis)%Z then Raise ValueError
    else match norm_index (c_ndim c) axis with
         | None => Raise IndexError
         | Some k => Ok (map (fun r => nth k r n0) (c_rows c))
         end.

  (** list(Curve.values()): /repo/skcurve/_base.py:1895-1896. *)
  Definition c_values_all (c : curve) : list (list T) :=
    map (fun k => map (fun r => nth k r n0) (c_rows c)) (seq 0 (c_ndim c)).

  (** Curve.insertdim: /repo/skcurve/_base.py:1937-1946, for one integer axis and
      a 1-D vector of values (length size, or 1 which numpy broadcasts). *)
  Definition c_insertdim (c : curve) (axis : Z) (values : option (list T)) : res curve :=
    let n := Z.of_nat (c_ndim c) in
    let vals := match values with
                | None => repeat n0 (c_size c)
                | Some v => map (cast (c_dtype c)) v
                end in
    if ((axis <? - n) || (n <? axis))%Z then Raise IndexError
    else
      let k := Z.to_nat (if (axis <? 0)%Z then axis + n else axis)%Z in
      do vals' <- (if Nat.eqb (length vals) (c_size c) then Ok vals
                   else match vals with
                        | [v] => Ok (repeat v (c_size c))
                        | _ => Raise ValueError
                        end) ;
      mk_curve (map (fun '(r, v) => firstn k r ++ v :: skipn k r)
                    (combine (c_rows c) vals'))
               (S (c_ndim c)) (c_dtype c) None.

  (** Curve.appenddim: /repo/skcurve/_base.py:1984. *)
  Definition c_appenddim (c : curve) (values : option (list T)) : res curve :=
    c_insertdim c (Z.of_nat (c_ndim c)) values.

  (** Curve.deletedim: /repo/skcurve/_base.py:2024-2033. *)
  Definition c_deletedim (c : curve) (ix : indexer) : res curve :=
    if Nat.eqb (c_ndim c) 2 then Raise ValueError
    else
      do ps <- indexer_positions ix (c_ndim c) ;
      let m := keep_mask (c_ndim c) ps in
      mk_curve (map (fun r => mask_select r m) (c_rows c))
               (length (filter id m)) (c_dtype c) None.

  (** ** unique *)

  (** Two rows are duplicates for numpy.unique(axis=0): all coordinates ==.
      Inside np.unique, /repo/skcurve/_base.py:2054. *)
  Fixpoint row_eqb (u v : list T) : bool :=
    match u, v with
    | [], [] => true
    | a :: u', b :: v' => (a =? b) && row_eqb u' v'
    | _, _ => false
    end.

  (** Lexicographic order of rows, the order in which numpy.unique lists its
      result.
      Inside np.unique, /repo/skcurve/_base.py:2054. *)
  Fixpoint row_ltb (u v : list T) : bool :=
    match u, v with
    | a :: u', b :: v' => (a <? b) || ((a =? b) && row_ltb u' v')
    | _, _ => false
    end.

  (** Indices of the first occurrences of the distinct rows.
      Inside np.unique, /repo/skcurve/_base.py:2054. *)
  Definition first_occurrences (rows : list (list T)) : list nat :=
    filter (fun i => negb (existsb (fun j => row_eqb (nth j rows []) (nth i rows []))
                                   (seq 0 i)))
           (seq 0 (length rows)).

  (** Insertion sort of indices by a strict comparison.
      Inside np.unique, /repo/skcurve/_base.py:2054. *)
  Fixpoint insert_by (ltb : nat -> nat -> bool) (x : nat) (l : list nat) : list nat :=
    match l with
    | [] => [x]
    | y :: l' => if ltb y x then y :: insert_by ltb x l' else x :: l
    end.

  (** np.sort inside np.unique, /repo/skcurve/_base.py:2054. *)
  Definition sort_by (ltb : nat -> nat -> bool) (l : list nat) : list nat :=
    fold_right (insert_by ltb) [] l.

  (** The index array of numpy.unique(data, axis=0, return_index=True): the
      first occurrences, in lexicographic order of the rows
      (/repo/skcurve/_base.py:2054). *)
  Definition np_unique_index (rows : list (list T)) : list nat :=
    sort_by (fun i j => row_ltb (nth i rows []) (nth j rows [])) (first_occurrences rows).

  (** Curve.unique: /repo/skcurve/_base.py:2054-2062. *)
  Definition c_unique (c : curve) : res curve :=
    let s_index := sort_by Nat.ltb (np_unique_index (c_rows c)) in
    let ix := map Z.of_nat s_index in
    do td <- on_t c (fun t => np_take t ix) ;
    do rows <- np_take (c_rows c) ix ;
    mk_curve rows (c_ndim c) (c_dtype c) td.

  (** ** drop *)

  (** What an [isa] checker may return: a boolean vector, a boolean MxN array,
      an index vector, or a numeric MxN array.
      /repo/skcurve/_base.py:2107-2115. *)
  Inductive drop_spec : Type :=
  | DropMask (m : list bool)
  | DropMask2 (m : list (list bool))
  | DropIndices (l : list Z)
  | DropNumeric2.

  (** Curve.drop: /repo/skcurve/_base.py:2107-2121 for the value returned by the
      checker (the TypeError for non-callables is a Python type test). *)
  Definition c_drop (c : curve) (isa : list (list T) -> drop_spec) : res curve :=
    let by_mask (m : list bool) :=
      do td <- on_t c (fun t => np_mask t (map negb m)) ;
      do rows <- np_mask (c_rows c) (map negb m) ;
      mk_curve rows (c_ndim c) (c_dtype c) td in
    match isa (c_rows c) with
    | DropNumeric2 => Raise ValueError
    | DropMask2 mm => by_mask (map (existsb id) mm)
    | DropMask m => by_mask m
    | DropIndices l => c_delete c (IxList l)
    end.

  (** ** Chord lengths, nonsingular, coorientplane *)

  Context {ST : NumSqrt T}.

  (** np.sum: /repo/skcurve/_diffgeom.py:91. *)
  Definition vsum (l : list T) : T := fold_right nadd n0 l.

  (** np.diff of two neighbouring rows.
      /repo/skcurve/_diffgeom.py:91. *)
  Fixpoint row_diff (u v : list T) : list T :=
    match u, v with
    | a :: u', b :: v' => (b - a) :: row_diff u' v'
    | _, _ => []
    end.

  (** np.diff(data, axis=0): /repo/skcurve/_diffgeom.py:91. *)
  Fixpoint diff_rows (rows : list (list T)) : list (list T) :=
    match rows with
    | a :: ((b :: _) as rest) => row_diff a b :: diff_rows rest
    | _ => []
    end.

  (** chordlen of a non-empty curve: /repo/skcurve/_diffgeom.py:91. *)
  Definition chordlen_rows (rows : list (list T)) : list T :=
    map (fun d => nsqrt (vsum (map (fun x => x * x) d))) (diff_rows rows).

  (** The element-wise test of nonsingular: /repo/skcurve/_diffgeom.py:62-64. *)
  Definition is_singular_mask (rows : list (list T)) : list bool :=
    map (fun '(r, l) => existsb (fun x => nisnan x || nisinf x) r || isclose l n0)
        (combine rows (n1 :: chordlen_rows rows)).

  (** nonsingular: /repo/skcurve/_diffgeom.py:60-66.  For an empty curve
      chordlen is a 0-d array, np.hstack gives two entries and the broadcast
      of shapes (0,) and (2,) raises ValueError. *)
  Definition c_nonsingular (c : curve) : res curve :=
    if negb (c_bool c) then Raise ValueError
    else c_drop c (fun rows => DropMask (is_singular_mask rows)).

  (** coorientplane test: /repo/skcurve/_diffgeom.py:196-205 (2x2 determinant). *)
  Definition is_cooriented (c : curve) (axis1 axis2 : Z) : res bool :=
    if negb (c_bool c) || Nat.eqb (c_size c) 1 then Ok true
    else
      do pb <- getitem_int c 0 ;
      do pe <- getitem_int c (-1) ;
      do a <- np_get (snd pb) axis1 ;
      do b <- np_get (snd pe) axis1 ;
      do x <- np_get (snd pb) axis2 ;
      do y <- np_get (snd pe) axis2 ;
      Ok (n0 <? a * y - b * x).

  (** Curve.coorientplane: /repo/skcurve/_base.py:1688-1693. *)
  Definition c_coorientplane (c : curve) (axis1 axis2 : Z) : res curve :=
    do ok <- is_cooriented c axis1 axis2 ;
    if negb ok then c_reverse c
    else curve_init (SCurve c) None None None None.
End CurveModel.
Arguments curve T : clear implicits.
Arguments source T : clear implicits.
Arguments item T : clear implicits.
