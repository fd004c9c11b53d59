(** Properties C01-C13: the Curve container (construction, selection,
    concatenation, insertion, deletion, search).  Specification vocabulary:
    Spec.v.  Every theorem holds for any scalar type. *)
From Coq Require Import ZArith List Bool Arith Lia QArith.
From Verif Require Import Num Py Numeric Curve Program Spec Fixtures.
From Verif Require Import ListFacts SliceProofs CurveProofs CurveProofs2 CurveProofs3 ProgramProofs.
Import ListNotations.
Local Open Scope nat_scope.

(** ** C01 Every reachable curve is well formed *)

Theorem C01_reachable_wellformed :
  forall (T : Type) (NT : Num T) (ST : NumSqrt T) (prog : list (op T)),
    Forall valid_op prog -> Forall wf (run prog).
Proof. exact (fun T NT ST => run_wf). Qed.
Print Assumptions C01_reachable_wellformed.

(** No operation of the example program takes a square root. *)
#[local] Instance QSqrt_dummy : NumSqrt Q := { nsqrt x := x }.

(** A program with two successful constructions, a failing one (1-D points),
    a slice, an insertion and an addition with a wrong operand: five curves. *)
Definition C01_prog : list (op Q) :=
  [ ONewArray (mkNd [3; 2] [0; 0; 1; 0; 1; 1]%Q) DFloat (Some (mkNd [3] [0; 1; 2]%Q)) None None None;
    ONewSeq (mkNd [2; 2] [5; 7; 6; 8]%Q) None None None None;
    ONewSeq (mkNd [1; 4] [5; 7; 6; 8]%Q) None None None None;
    OSlice 0 (mkSlice None None (Some (-1)%Z));
    OInsertCurve 0 (IxInt 1) 1;
    OAppendDim 3 None;
    OAdd 3 4 ].
Example C01_prog_valid : Forall valid_op C01_prog.
Proof. repeat constructor; cbn; intros; try congruence; inversion H; subst; reflexivity. Qed.
Example C01_prog_run :
  map (@c_rows Q) (run C01_prog) =
  [ [[0; 0]; [1; 0]; [1; 1]]; [[5; 6]; [7; 8]]; [[1; 1]; [1; 0]; [0; 0]];
    [[0; 0]; [5; 6]; [7; 8]; [1; 0]; [1; 1]];
    [[0; 0; 0]; [5; 6; 0]; [7; 8; 0]; [1; 0; 0]; [1; 1; 0]] ]%Q.
Proof. reflexivity. Qed.

(** The constructor accepts every rectangular array with at least two columns
    and holds exactly its rows (so C01 is not about an empty set). *)
Theorem C01_constructor_holds_rows :
  forall (T : Type) (NT : Num T) (rows : list (list T)) (n : nat) (td : option (list T)),
    rows <> [] -> 2 <= n -> (forall r, In r rows -> length r = n) ->
    (forall t, td = Some t -> length t = length rows) ->
    curve_init (SArray (mkNd [length rows; n] (concat rows)) DFloat)
      (option_map (fun t => mkNd [length t] t) td) None None None
    = Ok (mkCurve rows n DFloat td).
Proof. exact (fun T NT => curve_init_rows). Qed.
Print Assumptions C01_constructor_holds_rows.

Theorem C01_constructor_rejects_narrow :
  forall (T : Type) (NT : Num T) (rows : list (list T)) td ax nm d,
    rows <> [] -> (forall r, In r rows -> length r = 1) -> (ax = None \/ ax = Some 0%Z) ->
    curve_init (SArray (mkNd [length rows; 1] (concat rows)) DFloat) td ax nm d = Raise ValueError.
Proof. exact (fun T NT => curve_init_narrow). Qed.
Print Assumptions C01_constructor_rejects_narrow.

Theorem C01_constructor_rejects_tdata :
  forall (T : Type) (NT : Num T) (rows : list (list T)) (n : nat) (t : list T),
    rows <> [] -> 2 <= n -> (forall r, In r rows -> length r = n) -> length t <> length rows ->
    curve_init (SArray (mkNd [length rows; n] (concat rows)) DFloat)
      (Some (mkNd [length t] t)) None None None = Raise ValueError.
Proof. exact (fun T NT => curve_init_bad_t). Qed.
Print Assumptions C01_constructor_rejects_tdata.

Example C01_constructor_ex :
  curve_init (SArray (mkNd [2; 2] [5; 6; 7; 8]%Q) DFloat) (Some (mkNd [2] [4; 9]%Q)) None None None = Ok q2t
  /\ curve_init (SArray (mkNd [2; 2] [5; 6; 7; 8]%Q) DFloat) (Some (mkNd [3] [4; 9; 9]%Q)) None None None
     = Raise ValueError
  /\ curve_init (SArray (mkNd [4; 1] [5; 6; 7; 8]%Q) DFloat) None None None None = Raise ValueError.
Proof. repeat split. Qed.

(** ** C02 Integer indexing *)

Theorem C02_int_index :
  forall (T : Type) (c : curve T) (i : Z) (k : nat) (r : list T),
    py_index (c_size c) i k -> nth_error (c_rows c) k = Some r ->
    getitem_int c i = Ok (Z.of_nat k, r).
Proof. exact (fun T => getitem_int_ok). Qed.
Print Assumptions C02_int_index.

(** Exactly the integers in [-2*size, size) are accepted, with the stored idx
    size + i for a negative i and the point at the position i mod size; all
    others raise IndexError. *)
Theorem C02_int_index_iff :
  forall (T : Type) (c : curve T) (i : Z), let n := Z.of_nat (c_size c) in
    ((- 2 * n <= i < n)%Z -> exists r, nth_error (c_rows c) (Z.to_nat (i mod n)) = Some r /\
       getitem_int c i = Ok ((if (i <? 0)%Z then n + i else i)%Z, r)) /\
    (~ (- 2 * n <= i < n)%Z -> getitem_int c i = Raise IndexError).
Proof.
  intros T c i n. split; intros H.
  - assert (Hp : (0 < n)%Z) by lia. pose proof (Z.mod_pos_bound i n Hp) as Hm.
    destruct (nth_error_ex (c_rows c) (Z.to_nat (i mod n))) as [r Hr]; [unfold n, c_size in *; lia|]. exists r. split; [assumption|].
    destruct (Z.ltb_spec i (- n)).
    + rewrite (getitem_int_double_wrap c i (Z.to_nat (i mod n)) r); [|fold n|assumption].
      * fold n. destruct (Z.ltb_spec i 0); [|lia]. do 2 f_equal. replace (i mod n)%Z with (i + 2 * n)%Z; [lia|].
        apply (Z.mod_unique i n (-2)); lia.
      * replace (i mod n)%Z with (i + 2 * n)%Z; [lia|]. apply (Z.mod_unique i n (-2)); lia.
    + destruct (Z.ltb_spec i 0).
      * assert (Em : (i mod n = i + n)%Z) by (symmetry; apply (Z.mod_unique i n (-1)); lia).
        rewrite (getitem_int_ok c i (Z.to_nat (i mod n)) r); [do 2 f_equal; rewrite Em; lia| |assumption].
        split; [unfold n in *; lia|]. right. fold n. rewrite Em. lia.
      * rewrite Z.mod_small in * by lia. rewrite (getitem_int_ok c i (Z.to_nat i) r); [do 2 f_equal; lia| |assumption].
        split; [unfold n in *; lia|]. left. lia.
  - apply getitem_int_raise. fold n. lia.
Qed.
Print Assumptions C02_int_index_iff.

(** Every integer in [-2*size, -size) is accepted (instead of IndexError), for
    every non-empty curve, and reports a negative idx. *)
Theorem C02_int_index_error_refuted :
  forall (T : Type) (c : curve T) (i : Z),
    (- 2 * Z.of_nat (c_size c) <= i < - Z.of_nat (c_size c))%Z ->
    exists idx r, getitem_int c i = Ok (idx, r) /\ (idx < 0)%Z.
Proof.
  intros T c i H. set (k := Z.to_nat (i + 2 * Z.of_nat (c_size c))).
  destruct (nth_error_ex (c_rows c) k) as [r Hr]; [unfold k, c_size in *; lia|].
  assert (k < c_size c) by (unfold k; lia).
  exists (Z.of_nat k - Z.of_nat (c_size c))%Z, r. split; [|lia].
  apply getitem_int_double_wrap; [unfold k; lia|assumption].
Qed.
Print Assumptions C02_int_index_error_refuted.

Example C02_ex :
  getitem_int q4 (-2) = Ok (2%Z, [1; 1]%Q) /\ getitem_int q4 4 = Raise IndexError
  /\ getitem_int q4 (-9) = Raise IndexError /\ getitem_int q4 (-6) = Ok ((-2)%Z, [1; 1]%Q).
Proof. repeat split. Qed.

(** ** C03 Slicing *)

Theorem C03_slice :
  forall (T : Type) (c : curve T) (s : slice),
    wf c -> s_step s <> Some 0%Z ->
    exists c', getitem_slice c s = Ok c' /\ selects c (slice_spec s (c_size c)) c' /\ wf c'.
Proof. exact (fun T => getitem_slice_ok). Qed.
Print Assumptions C03_slice.

Theorem C03_slice_zero_step :
  forall (T : Type) (c : curve T) (s : slice),
    s_step s = Some 0%Z -> getitem_slice c s = Raise ValueError.
Proof. exact (fun T => getitem_slice_zero). Qed.
Print Assumptions C03_slice_zero_step.

(** An empty slice of a spatial curve is a plane curve: the dimension is lost. *)
Theorem C03_slice_keeps_ndim_refuted :
  exists (c : curve Q) (s : slice) c', wf c /\ getitem_slice c s = Ok c' /\ c_ndim c' <> c_ndim c.
Proof.
  exists q3d, (mkSlice (Some 0%Z) (Some 0%Z) None), (mkCurve [] 2 DFloat None).
  split; [|split; [reflexivity|discriminate]].
  split; [|split]; cbn; [lia| |discriminate].
  intros p [<-|[<-|[<-|[]]]]; reflexivity.
Qed.
Print Assumptions C03_slice_keeps_ndim_refuted.

Example C03_ex :
  getitem_slice q4 (mkSlice (Some (-1)%Z) None (Some (-2)%Z))
  = Ok (mkCurve [[1; 0]; [1; 0]]%Q 2 DFloat (Some [3; 1]%Q))
  /\ slice_spec (mkSlice (Some (-1)%Z) None (Some (-2)%Z)) 4 = [3; 1].
Proof. repeat split. Qed.

(** ** C04 Index arrays and masks *)

Theorem C04_index_list :
  forall (T : Type) (c : curve T) (ix : list Z) (ks : list nat),
    wf c -> Forall2 (py_index (c_size c)) ix ks ->
    exists c', getitem_list c ix = Ok c' /\ selects c ks c' /\ wf c'.
Proof. exact (fun T => getitem_list_ok). Qed.
Print Assumptions C04_index_list.

Theorem C04_index_list_error :
  forall (T : Type) (c : curve T) (ix : list Z) (i : Z),
    wf c -> In i ix -> (i < - Z.of_nat (c_size c) \/ Z.of_nat (c_size c) <= i)%Z ->
    getitem_list c ix = Raise IndexError.
Proof. exact (fun T => getitem_list_raise). Qed.
Print Assumptions C04_index_list_error.

Theorem C04_mask :
  forall (T : Type) (c : curve T) (m : list bool),
    wf c -> length m = c_size c ->
    exists c', getitem_mask c m = Ok c'
      /\ selects c (positions (c_size c) (fun k => nth k m false)) c' /\ wf c'.
Proof. exact (fun T => getitem_mask_ok). Qed.
Print Assumptions C04_mask.

Theorem C04_mask_error :
  forall (T : Type) (c : curve T) (m : list bool),
    wf c -> length m <> c_size c -> getitem_mask c m = Raise IndexError.
Proof. exact (fun T => getitem_mask_raise). Qed.
Print Assumptions C04_mask_error.

Example C04_ex :
  getitem_list q4 [-1; 0; 2; 2]%Z
  = Ok (mkCurve [[1; 0]; [0; 0]; [1; 1]; [1; 1]]%Q 2 DFloat (Some [3; 0; 2; 2]%Q))
  /\ getitem_list q4 [0; 4]%Z = Raise IndexError
  /\ getitem_mask q4 [true; false; false; true]
     = Ok (mkCurve [[0; 0]; [1; 0]]%Q 2 DFloat (Some [0; 3]%Q))
  /\ getitem_mask q4 [true] = Raise IndexError.
Proof. repeat split. Qed.

(** ** C05 Concatenation *)

Theorem C05_add :
  forall (T : Type) (c1 c2 : curve T),
    wf c1 -> wf c2 -> c_ndim c1 = c_ndim c2 ->
    exists c, c_add c1 c2 = Ok c
      /\ c_rows c = c_rows c1 ++ c_rows c2
      /\ c_size c = c_size c1 + c_size c2
      /\ c_t c = match c_t c1, c_t c2 with Some t1, Some t2 => Some (t1 ++ t2) | _, _ => None end
      /\ (c_rows c <> [] -> c_ndim c = c_ndim c1) /\ wf c.
Proof.
  intros T c1 c2 H1 H2 E. pose proof (c_add_ok c1 c2 H1 H2 E) as H.
  eexists. split; [exact H|]. cbn. repeat split.
  - apply app_length.
  - unfold add_ndim. cbn. destruct (c_rows c1 ++ c_rows c2); [intros G; contradiction|reflexivity].
  - eapply (c_add_wf c1 c2); [exact H1|exact H2|exact H].
  - eapply (c_add_wf c1 c2); [exact H1|exact H2|exact H].
  - eapply (c_add_wf c1 c2); [exact H1|exact H2|exact H].
Qed.
Print Assumptions C05_add.

Theorem C05_add_ndim_error :
  forall (T : Type) (c1 c2 : curve T), c_ndim c1 <> c_ndim c2 -> c_add c1 c2 = Raise ValueError.
Proof. exact (fun T => c_add_raise). Qed.
Print Assumptions C05_add_ndim_error.

(** Associativity holds exactly if the middle operand keeps its dimension (it
    is plane or has points), or the outer operands are both empty or both not. *)
Theorem C05_add_assoc_iff :
  forall (T : Type) (a b d : curve T),
    wf a -> wf b -> wf d -> c_ndim a = c_ndim b -> c_ndim b = c_ndim d ->
    ((do x <- c_add a b ; c_add x d) = (do y <- c_add b d ; c_add a y) <->
     c_ndim b = 2 \/ c_rows b <> [] \/ (c_rows a = [] <-> c_rows d = [])).
Proof.
  intros T a b d Ha Hb Hd E1 E2. destruct (Nat.eq_dec (c_ndim b) 2) as [E|N].
  { split; [tauto|]. intros _. apply c_add_assoc; tauto. }
  destruct (c_rows b) as [|rb rows] eqn:Eb.
  - rewrite (c_add_assoc_empty a b d Ha Hb Hd E1 E2 N Eb). tauto.
  - split; [intros _; right; left; discriminate|]. intros _. apply c_add_assoc; try assumption. right. rewrite Eb. discriminate.
Qed.
Print Assumptions C05_add_assoc_iff.

Theorem C05_add_assoc_refuted :
  exists a b d : curve Q, wf a /\ wf b /\ wf d /\ c_ndim a = c_ndim b /\ c_ndim b = c_ndim d /\
    (do x <- c_add a b ; c_add x d) <> (do y <- c_add b d ; c_add a y).
Proof.
  exists qe3, qe3, q3d.
  assert (We : wf qe3) by (split; [|split]; cbn; [lia|tauto|discriminate]).
  repeat (split; [assumption|]). split.
  { split; [|split]; cbn; [lia| |discriminate]. intros p [<-|[<-|[<-|[]]]]; reflexivity. }
  repeat (split; [reflexivity|]). discriminate.
Qed.
Print Assumptions C05_add_assoc_refuted.

Example C05_ex :
  c_add q4 q2t = Ok (mkCurve [[0; 0]; [1; 0]; [1; 1]; [1; 0]; [5; 6]; [7; 8]]%Q 2 DFloat (Some [0; 1; 2; 3; 4; 9]%Q))
  /\ c_add q4 q2 = Ok (mkCurve [[0; 0]; [1; 0]; [1; 1]; [1; 0]; [5; 6]; [7; 8]]%Q 2 DFloat None)
  /\ c_add q4 q3d = Raise ValueError.
Proof. repeat split. Qed.

(** ** C06 Split and join *)

Theorem C06_split_join :
  forall (T : Type) (c : curve T) (k : Z),
    wf c ->
    c_ndim c = 2 \/ (0 < k < Z.of_nat (c_size c))%Z \/ (- Z.of_nat (c_size c) < k < 0)%Z ->
    exists a b,
      getitem_slice c (mkSlice None (Some k) None) = Ok a /\
      getitem_slice c (mkSlice (Some k) None None) = Ok b /\
      c_add a b = Ok c.
Proof. exact (fun T => split_join). Qed.
Print Assumptions C06_split_join.

Example C06_ex :
  getitem_slice q4 (mkSlice None (Some (-3)%Z) None) = Ok (mkCurve [[0; 0]]%Q 2 DFloat (Some [0]%Q))
  /\ getitem_slice q4 (mkSlice (Some (-3)%Z) None None)
     = Ok (mkCurve [[1; 0]; [1; 1]; [1; 0]]%Q 2 DFloat (Some [1; 2; 3]%Q)).
Proof. repeat split. Qed.

(** ** C07 reverse *)

Theorem C07_reverse :
  forall (T : Type) (c : curve T),
    wf c ->
    exists c', c_reverse c = Ok c' /\ c_rows c' = rev (c_rows c)
      /\ c_t c' = option_map (@rev T) (c_t c) /\ c_dtype c' = c_dtype c
      /\ (c_rows c <> [] -> c_ndim c' = c_ndim c) /\ wf c'.
Proof.
  intros T c Hwf. pose proof (c_reverse_ok c Hwf) as H. eexists. split; [exact H|].
  cbn. repeat (split; [reflexivity|]). split.
  - destruct (c_rows c); [intros G; contradiction|reflexivity].
  - exact (c_reverse_wf _ _ Hwf H).
Qed.
Print Assumptions C07_reverse.

Theorem C07_reverse_involutive :
  forall (T : Type) (c : curve T),
    wf c -> c_ndim c = 2 \/ c_rows c <> [] -> (do x <- c_reverse c ; c_reverse x) = Ok c.
Proof. exact (fun T => c_reverse_involutive). Qed.
Print Assumptions C07_reverse_involutive.

Example C07_ex :
  c_reverse q4 = Ok (mkCurve [[1; 0]; [1; 1]; [1; 0]; [0; 0]]%Q 2 DFloat (Some [3; 2; 1; 0]%Q)).
Proof. reflexivity. Qed.

(** ** C08 insert *)

Theorem C08_insert :
  forall (T : Type) (NT : Num T) (c : curve T) (i : Z) (k : nat) (x : item T),
    wf c -> (forall c2, x = ICurve c2 -> wf c2) -> c_ndim c = item_ndim x ->
    k <= c_size c -> (i = Z.of_nat k \/ (i < 0 /\ i = Z.of_nat k - Z.of_nat (c_size c)))%Z ->
    exists c', c_insert c (IxInt i) x = Ok c' /\
      c_rows c' = firstn k (c_rows c) ++ map (map (cast (c_dtype c))) (item_rows x) ++ skipn k (c_rows c)
      /\ c_t c' = None /\ c_dtype c' = c_dtype c
      /\ (c_rows c' <> [] -> c_ndim c' = c_ndim c) /\ wf c'.
Proof. exact (fun T NT => c_insert_int_ok). Qed.
Print Assumptions C08_insert.

(** For a float curve the inserted points are the given ones, unchanged. *)
Theorem C08_insert_float :
  forall (T : Type) (NT : Num T) (c : curve T) (i : Z) (k : nat) (x : item T),
    wf c -> (forall c2, x = ICurve c2 -> wf c2) -> c_ndim c = item_ndim x -> c_dtype c = DFloat ->
    k <= c_size c -> (i = Z.of_nat k \/ (i < 0 /\ i = Z.of_nat k - Z.of_nat (c_size c)))%Z ->
    exists c', c_insert c (IxInt i) x = Ok c' /\
      c_rows c' = firstn k (c_rows c) ++ item_rows x ++ skipn k (c_rows c) /\ c_t c' = None.
Proof.
  intros T NT c i k x Hwf Hx E Hd Hk Hi.
  destruct (c_insert_int_ok c i k x Hwf Hx E Hk Hi) as (c' & H & R & Ht & _).
  exists c'. split; [assumption|]. split; [|assumption].
  unfold new_rows in R. rewrite Hd, map_cast_float in R. assumption.
Qed.
Print Assumptions C08_insert_float.

Theorem C08_insert_index_error :
  forall (T : Type) (NT : Num T) (c : curve T) (i : Z) (x : item T),
    c_ndim c = item_ndim x -> (i < - Z.of_nat (c_size c) \/ Z.of_nat (c_size c) < i)%Z ->
    c_insert c (IxInt i) x = Raise IndexError.
Proof. exact (fun T NT => c_insert_int_raise). Qed.
Print Assumptions C08_insert_index_error.

Theorem C08_insert_ndim_error :
  forall (T : Type) (NT : Num T) (c : curve T) (ix : indexer) (x : item T),
    c_ndim c <> item_ndim x -> c_insert c ix x = Raise ValueError.
Proof. exact (fun T NT => c_insert_ndim). Qed.
Print Assumptions C08_insert_ndim_error.

Example C08_ex :
  c_insert q4 (IxInt (-1)) (ICurve q2)
  = Ok (mkCurve [[0; 0]; [1; 0]; [1; 1]; [5; 6]; [7; 8]; [1; 0]]%Q 2 DFloat None)
  /\ c_insert q4 (IxInt 4) (IPoint [9; 9]%Q)
     = Ok (mkCurve [[0; 0]; [1; 0]; [1; 1]; [1; 0]; [9; 9]]%Q 2 DFloat None)
  /\ c_insert q4 (IxInt 5) (IPoint [9; 9]%Q) = Raise IndexError
  /\ c_insert q4 (IxInt 0) (ICurve q3d) = Raise ValueError.
Proof. repeat split. Qed.

(** ** C09 delete *)

Theorem C09_delete :
  forall (T : Type) (c : curve T) (ix : indexer),
    wf c -> in_range ix (c_size c) ->
    exists c' ks, c_delete c ix = Ok c' /\ selects c ks c' /\ ascending ks
      /\ (forall k, In k ks <-> (k < c_size c /\ ~ addressed ix (c_size c) k)) /\ wf c'.
Proof. exact (fun T => c_delete_spec). Qed.
Print Assumptions C09_delete.

Theorem C09_delete_error :
  forall (T : Type) (c : curve T) (ix : indexer),
    wf c -> ~ in_range ix (c_size c) ->
    c_delete c ix = Raise (match ix with IxSlice _ => ValueError | _ => IndexError end).
Proof. exact (fun T => c_delete_raise). Qed.
Print Assumptions C09_delete_error.

Example C09_ex :
  c_delete q4 (IxList [-1; 0; 3]%Z) = Ok (mkCurve [[1; 0]; [1; 1]]%Q 2 DFloat (Some [1; 2]%Q))
  /\ in_range (IxList [-1; 0; 3]%Z) (c_size q4)
  /\ c_delete q4 (IxSlice (mkSlice (Some 1%Z) None (Some 2%Z)))
     = Ok (mkCurve [[0; 0]; [1; 1]]%Q 2 DFloat (Some [0; 2]%Q))
  /\ c_delete q4 (IxInt 4) = Raise IndexError.
Proof. repeat split; try (cbn in *; intuition lia). Qed.

(** ** C10 delete undoes insert; append *)

Theorem C10_delete_insert :
  forall (T : Type) (NT : Num T) (c : curve T) (i : Z) (k : nat) (x : item T),
    wf c -> (forall c2, x = ICurve c2 -> wf c2) -> c_ndim c = item_ndim x ->
    k <= c_size c -> (i = Z.of_nat k \/ (i < 0 /\ i = Z.of_nat k - Z.of_nat (c_size c)))%Z ->
    exists c1 c2, c_insert c (IxInt i) x = Ok c1
      /\ c_delete c1 (IxSlice (mkSlice (Some (Z.of_nat k))
                        (Some (Z.of_nat (k + length (item_rows x)))) None)) = Ok c2
      /\ c_rows c2 = c_rows c /\ c_dtype c2 = c_dtype c /\ c_t c2 = None.
Proof. exact (fun T NT => insert_delete_rows). Qed.
Print Assumptions C10_delete_insert.

Theorem C10_append :
  forall (T : Type) (NT : Num T) (c : curve T) (x : item T),
    wf c -> (forall c2, x = ICurve c2 -> wf c2) -> c_ndim c = item_ndim x ->
    exists c', c_append c x = Ok c'
      /\ c_rows c' = c_rows c ++ map (map (cast (c_dtype c))) (item_rows x)
      /\ c_t c' = None /\ c_dtype c' = c_dtype c /\ (c_rows c' <> [] -> c_ndim c' = c_ndim c) /\ wf c'.
Proof. exact (fun T NT => c_append_rows). Qed.
Print Assumptions C10_append.

(** On float curves, append is concatenation without parameters. *)
Theorem C10_append_is_add :
  forall (T : Type) (NT : Num T) (c c2 : curve T),
    wf c -> wf c2 -> c_ndim c = c_ndim c2 -> c_dtype c = DFloat ->
    exists a b, c_append c (ICurve c2) = Ok a /\ c_add c c2 = Ok b /\ c_rows a = c_rows b
      /\ c_ndim a = c_ndim b.
Proof.
  intros T NT c c2 Hwf Hwf2 E Hd.
  destruct (c_append_rows c (ICurve c2)) as (a & Ha & R & _ & _ & Hn & W); [assumption| |assumption|].
  { intros c3 H. injection H as <-. assumption. }
  exists a. eexists. split; [exact Ha|]. split; [apply c_add_ok; assumption|].
  unfold new_rows in R. rewrite Hd, map_cast_float in R. cbn [item_rows] in R.
  cbn [c_rows c_ndim]. split; [assumption|]. unfold add_ndim. rewrite R in Hn.
  destruct (c_rows c ++ c_rows c2) eqn:El; [|apply Hn; discriminate].
  clear - Ha El Hd R. unfold c_append, c_insert in Ha.
  destruct (negb _); [discriminate|]. apply rbind_ok in Ha. destruct Ha as (rows & _ & Ha).
  unfold mk_curve in Ha. destruct (Nat.eqb_spec (length rows * c_ndim c) 0) as [Ez|Ez].
  - cbn in Ha. injection Ha as <-. reflexivity.
  - destruct (negb _ && _)%bool; [discriminate|]. injection Ha as <-. cbn in R. subst rows. cbn in Ez. lia.
Qed.
Print Assumptions C10_append_is_add.

Example C10_ex :
  c_append q4 (ICurve q2) = Ok (mkCurve [[0; 0]; [1; 0]; [1; 1]; [1; 0]; [5; 6]; [7; 8]]%Q 2 DFloat None)
  /\ (do c1 <- c_insert q4 (IxInt (-2)) (ICurve q2) ;
      c_delete c1 (IxSlice (mkSlice (Some 2%Z) (Some 4%Z) None)))
     = Ok (mkCurve (c_rows q4) 2 DFloat None).
Proof. repeat split. Qed.

(** ** C11 in, count, index *)

(** [close_points pd dt p r]: same number of coordinates, all pairs equal in
    the library's sense ([isequal], see C14). *)
Theorem C11_in_count_index :
  forall (T : Type) (NT : Num T) (c : curve T) (p : list T) (pd : dtype),
    c_ndim c = length p ->
    (contains_point c p pd = true <-> exists n, c_count c p pd = Ok n /\ 0 < n) /\
    (contains_point c p pd = true <-> exists i, c_index c p pd None None = Ok i) /\
    (contains_point c p pd = false <-> c_index c p pd None None = Raise ValueError).
Proof. exact (fun T NT => search_agree). Qed.
Print Assumptions C11_in_count_index.

Theorem C11_contains :
  forall (T : Type) (NT : Num T) (c : curve T) (p : list T) (pd : dtype),
    contains_point c p pd = true <->
    (c_ndim c = length p /\ exists r, In r (c_rows c) /\
      Forall2 (fun a b => isequal pd (c_dtype c) a b = true) p r).
Proof. exact (fun T NT => contains_point_spec). Qed.
Print Assumptions C11_contains.

Theorem C11_count :
  forall (T : Type) (NT : Num T) (c : curve T) (p : list T) (pd : dtype),
    c_ndim c = length p ->
    exists ks, c_count c p pd = Ok (length ks) /\ ascending ks /\
      forall k, In k ks <-> exists r, nth_error (c_rows c) k = Some r /\
        Forall2 (fun a b => isequal pd (c_dtype c) a b = true) p r.
Proof. exact (fun T NT => c_count_spec). Qed.
Print Assumptions C11_count.

Theorem C11_index_first :
  forall (T : Type) (NT : Num T) (c : curve T) (p : list T) (pd : dtype),
    c_ndim c = length p ->
    match c_index c p pd None None with
    | Ok i => exists k r, i = Z.of_nat k /\ nth_error (c_rows c) k = Some r
                /\ close_points pd (c_dtype c) p r
                /\ forall j r', j < k -> nth_error (c_rows c) j = Some r' -> ~ close_points pd (c_dtype c) p r'
    | Raise e => e = ValueError /\ forall r, In r (c_rows c) -> ~ close_points pd (c_dtype c) p r
    end.
Proof. exact (fun T NT => c_index_full). Qed.
Print Assumptions C11_index_first.

Theorem C11_ndim_mismatch :
  forall (T : Type) (NT : Num T) (c : curve T) (p : list T) (pd : dtype) s e,
    c_ndim c <> length p ->
    contains_point c p pd = false /\ c_count c p pd = Raise ValueError
    /\ c_index c p pd s e = Raise ValueError.
Proof.
  intros T NT c p pd s e H. unfold contains_point, c_count, c_index.
  destruct (Nat.eqb_spec (c_ndim c) (length p)); [contradiction|]. repeat split.
Qed.
Print Assumptions C11_ndim_mismatch.

Example C11_ex :
  contains_point q4 [1; 0]%Q DFloat = true /\ c_count q4 [1; 0]%Q DFloat = Ok 2
  /\ c_index q4 [1; 0]%Q DFloat None None = Ok 1%Z
  /\ contains_point q4 [3; 0]%Q DFloat = false
  /\ c_index q4 [3; 0]%Q DFloat None None = Raise ValueError.
Proof. repeat split. Qed.

(** ** C12 index within an interval *)

(** The number reported for the position [k]: as Python counts, from the front
    or from the end, except that a start below -size is added as it is. *)
Theorem C12_index_interval :
  forall (T : Type) (NT : Num T) (c : curve T) (p : list T) (pd : dtype) (start stop : option Z),
    c_ndim c = length p ->
    let n := Z.of_nat (c_size c) in
    let ks := slice_spec (mkSlice start stop None) (c_size c) in
    match c_index c p pd start stop with
    | Ok i => exists k r, In k ks /\ nth_error (c_rows c) k = Some r
                /\ close_points pd (c_dtype c) p r
                /\ (forall j r', In j ks -> j < k -> nth_error (c_rows c) j = Some r' -> ~ close_points pd (c_dtype c) p r')
                /\ i = match start with
                       | Some s => if (s <? - n)%Z then (Z.of_nat k + s)%Z else if (s <? 0)%Z then (Z.of_nat k - n)%Z else Z.of_nat k
                       | None => Z.of_nat k
                       end
    | Raise e => e = ValueError /\
                forall j r, In j ks -> nth_error (c_rows c) j = Some r -> ~ close_points pd (c_dtype c) p r
    end.
Proof.
  intros T NT c p pd start stop E n ks. pose proof (c_index_interval c p pd start stop E) as H. cbv zeta in H. fold ks in H.
  destruct (c_index c p pd start stop) as [i|e]; [|exact H].
  destruct H as (k & r & H1 & -> & H2 & H3 & H4). exists k, r. auto.
Qed.
Print Assumptions C12_index_interval.

(** The result addresses the point found exactly if start >= -size. *)
Theorem C12_index_interval_iff :
  forall (T : Type) (NT : Num T) (c : curve T) (p : list T) (pd : dtype) (start stop : option Z) i,
    c_ndim c = length p -> c_index c p pd start stop = Ok i ->
    let ks := slice_spec (mkSlice start stop None) (c_size c) in
    (exists k r, In k ks /\ py_index (c_size c) i k /\ nth_error (c_rows c) k = Some r /\ close_points pd (c_dtype c) p r /\
       forall j r', In j ks -> j < k -> nth_error (c_rows c) j = Some r' -> ~ close_points pd (c_dtype c) p r') <->
    (forall s, start = Some s -> (- Z.of_nat (c_size c) <= s)%Z).
Proof.
  intros T NT c p pd start stop i E Ei ks. pose proof (C12_index_interval T NT c p pd start stop E) as H. cbv zeta in H. fold ks in H. rewrite Ei in H.
  destruct H as (k & r & H1 & H2 & H3 & H4 & H5).
  assert (Hk : k < c_size c) by (apply nth_error_Some; congruence).
  split.
  - intros (k' & r' & K1 & (Kn & K2) & K3 & K4 & K5) s ->.
    assert (k' = k).
    { destruct (Nat.lt_trichotomy k' k) as [L|[L|L]]; [|assumption|].
      - destruct (H4 k' r' K1 L K3 K4).
      - destruct (K5 k r H1 L H2 H3). }
    subst k'. destruct (Z.ltb_spec s (- Z.of_nat (c_size c))); [|lia]. subst i. lia.
  - intros Hs. exists k, r. split; [assumption|]. split; [|auto]. split; [assumption|]. subst i. destruct start as [s|]; [|left; reflexivity].
    specialize (Hs s eq_refl). destruct (Z.ltb_spec s (- Z.of_nat (c_size c))); [lia|]. destruct (Z.ltb_spec s 0); lia.
Qed.
Print Assumptions C12_index_interval_iff.

Theorem C12_index_interval_refuted :
  exists (c : curve Q) p start i r,
    wf c /\ c_ndim c = length p /\ c_index c p DFloat (Some start) None = Ok i
    /\ ~ (exists k, py_index (c_size c) i k)
    /\ getitem_int c i = Ok r /\ ~ close_points DFloat DFloat p (snd r).
Proof.
  exists q4, [0; 0]%Q, (-5)%Z, (-5)%Z, ((-1)%Z, [1; 0]%Q).
  split. { split; [|split]; cbn; [lia| |intros t E; injection E as <-; reflexivity].
           intros p [<-|[<-|[<-|[<-|[]]]]]; reflexivity. }
  split; [reflexivity|]. split; [reflexivity|]. split.
  { intros (k & H1 & H2). cbn in *. lia. }
  split; [reflexivity|]. intros H. inversion H; subst. vm_compute in H3. discriminate.
Qed.
Print Assumptions C12_index_interval_refuted.

Example C12_ex :
  c_index q4 [1; 0]%Q DFloat (Some 2%Z) None = Ok 3%Z
  /\ c_index q4 [1; 0]%Q DFloat (Some (-3)%Z) (Some (-1)%Z) = Ok (-3)%Z
  /\ slice_spec (mkSlice (Some (-3)%Z) (Some (-1)%Z) None) 4 = [1; 2].
Proof. repeat split. Qed.

(** ** C13 sub-curve containment *)

Theorem C13_contains_curve :
  forall (T : Type) (NT : Num T) (c other : curve T),
    wf c -> wf other ->
    (contains_curve c other = true <->
     (c_ndim c = c_ndim other /\
      exists pre run post, c_rows c = pre ++ run ++ post
        /\ Forall2 (Forall2 (fun a b => isequal (c_dtype c) (c_dtype other) a b = true)) run (c_rows other))).
Proof. exact (fun T NT => contains_curve_spec). Qed.
Print Assumptions C13_contains_curve.

Example C13_ex :
  contains_curve q4 (mkCurve [[1; 1]; [1; 0]]%Q 2 DFloat None) = true
  /\ contains_curve q4 (mkCurve [[0; 0]; [1; 1]]%Q 2 DFloat None) = false
  /\ contains_curve q4 (mkCurve [[0; 0]; [1; 0]; [1; 1]; [1; 0]; [0; 0]]%Q 2 DFloat None) = false.
Proof. repeat split. Qed.
