(** Properties C14-C23: equality, unique, drop, nonsingular, dimensions,
    values, as2d, copies, coorientplane, subcurve and segments. *)
From Coq Require Import ZArith List Bool Arith Lia QArith PrimFloat Reals Lra.
From Verif Require Import Num Py Numeric Curve Spec Fixtures.
From Verif Require Import ListFacts SliceProofs ArrayProofs CurveProofs CurveProofs2 CurveProofs3.
Import ListNotations.
Local Open Scope nat_scope.

(** ** C14 Equality *)

(** Meaning of the element test over the reals: |a-b| <= 1e-8 + 1e-5*|b|, or
    exact equality when both sides are integer typed. *)
Theorem C14_isequal_meaning :
  forall (d1 d2 : dtype) (a b : R),
    isequal d1 d2 a b = true <->
    match d1, d2 with
    | DInt, DInt => a = b
    | _, _ => (Rabs (a - b) <= / 100000000 + / 100000 * Rabs b)%R
    end.
Proof.
  intros d1 d2 a b. unfold isequal.
  destruct d1, d2; cbn [is_int andb]; try apply isclose_R. apply Reqb_iff.
Qed.
Print Assumptions C14_isequal_meaning.

Theorem C14_curve_eq :
  forall (T : Type) (NT : Num T) (c other : curve T),
    wf c -> wf other ->
    (c_eq c other = true <->
     (c_ndim c = c_ndim other /\
      Forall2 (Forall2 (fun a b => isequal (c_dtype c) (c_dtype other) a b = true)) (c_rows c) (c_rows other))).
Proof. exact (fun T NT => c_eq_spec). Qed.
Print Assumptions C14_curve_eq.

Theorem C14_curve_eq_refl : forall c : curve R, wf c -> c_eq c c = true.
Proof. exact c_eq_R_refl. Qed.
Print Assumptions C14_curve_eq_refl.

Theorem C14_curve_eq_size :
  forall (T : Type) (NT : Num T) (c other : curve T),
    c_ndim c <> c_ndim other \/ c_size c <> c_size other -> c_eq c other = false.
Proof.
  intros T NT c other [H|H]; unfold c_eq.
  - destruct (Nat.eqb_spec (c_ndim c) (c_ndim other)); [contradiction|reflexivity].
  - destruct (Nat.eqb_spec (c_ndim c) (c_ndim other)); [|reflexivity]. cbn [negb].
    destruct (Nat.eqb_spec (c_size c) (c_size other)); [contradiction|reflexivity].
Qed.
Print Assumptions C14_curve_eq_size.

(** The closeness is not symmetric (binary64): 100000 and 100001.00001. *)
Theorem C14_symmetric_refuted :
  exists a b : float, isequal DFloat DFloat a b = true /\ isequal DFloat DFloat b a = false.
Proof. exists (fz 100000), (fq 10000100001 100000). split; vm_compute; reflexivity. Qed.
Print Assumptions C14_symmetric_refuted.

(** ... nor transitive. *)
Theorem C14_transitive_refuted :
  exists a b d : float, isequal DFloat DFloat a b = true /\ isequal DFloat DFloat b d = true
    /\ isequal DFloat DFloat a d = false.
Proof. exists (fz 100000), (fq 1000009 10), (fq 1000018 10). repeat split; vm_compute; reflexivity. Qed.
Print Assumptions C14_transitive_refuted.

(** ... and a curve with a NaN coordinate is not equal to itself. *)
Theorem C14_refl_nan_refuted : exists c : curve float, wf c /\ c_eq c c = false.
Proof.
  exists fnan. split; [|vm_compute; reflexivity].
  split; [|split]; cbn [fnan c_ndim c_rows c_t]; [lia| |discriminate].
  intros p [<-|[<-|[<-|[]]]]; reflexivity.
Qed.
Print Assumptions C14_refl_nan_refuted.

Example C14_ex : c_eq q4 q4 = true /\ c_eq q4 q2 = false
  /\ c_eq q2 (mkCurve [[5; 6]; [7; 80000001 # 10000000]]%Q 2 DFloat None) = true.
Proof. repeat split. Qed.

(** ** C15 unique *)

(** The kept positions are exactly those of points (rows) that do not occur
    earlier, where rows are compared coordinate-wise by ==. *)
Theorem C15_unique :
  forall (T : Type) (NT : Num T) (c : curve T),
    wf c ->
    exists c' ks, c_unique c = Ok c' /\ selects c ks c' /\ ascending ks /\ wf c' /\
      forall k, In k ks <->
        k < c_size c /\ forall j, j < k -> row_eqb (nth j (c_rows c) []) (nth k (c_rows c) []) = false.
Proof.
  intros T NT c Hwf. destruct (c_unique_ok c Hwf) as (c' & H & S & W).
  exists c', (first_occurrences (c_rows c)). split; [assumption|]. split; [assumption|].
  split; [apply ascending_sorted, first_occ_sorted|]. split; [assumption|]. intros k. apply first_occ_In.
Qed.
Print Assumptions C15_unique.

Theorem C15_unique_points :
  forall c : curve R, wf c ->
    exists c', c_unique c = Ok c' /\ NoDup (c_rows c') /\
      (forall p, In p (c_rows c') <-> In p (c_rows c)).
Proof. exact unique_R. Qed.
Print Assumptions C15_unique_points.

Theorem C15_unique_idempotent :
  forall (T : Type) (NT : Num T) (c c' : curve T),
    wf c -> c_unique c = Ok c' -> c_unique c' = Ok c'.
Proof. exact (fun T NT => c_unique_idempotent). Qed.
Print Assumptions C15_unique_idempotent.

Example C15_ex : c_unique q4 = Ok (mkCurve [[0; 0]; [1; 0]; [1; 1]]%Q 2 DFloat (Some [0; 1; 2]%Q)).
Proof. reflexivity. Qed.

(** ** C16 drop *)

Theorem C16_drop_mask :
  forall (T : Type) (c : curve T) (isa : list (list T) -> drop_spec) (m : list bool),
    wf c -> isa (c_rows c) = DropMask m -> length m = c_size c ->
    exists c', c_drop c isa = Ok c'
      /\ selects c (positions (c_size c) (fun k => negb (nth k m true))) c' /\ wf c'.
Proof. exact (fun T => c_drop_mask). Qed.
Print Assumptions C16_drop_mask.

Theorem C16_drop_mask2 :
  forall (T : Type) (c : curve T) (isa : list (list T) -> drop_spec) (mm : list (list bool)),
    wf c -> isa (c_rows c) = DropMask2 mm -> length mm = c_size c ->
    exists c', c_drop c isa = Ok c'
      /\ selects c (positions (c_size c) (fun k => negb (existsb (fun b => b) (nth k mm [true])))) c' /\ wf c'.
Proof. exact (fun T => c_drop_mask2). Qed.
Print Assumptions C16_drop_mask2.

Theorem C16_drop_indices :
  forall (T : Type) (c : curve T) (isa : list (list T) -> drop_spec) (l : list Z),
    wf c -> isa (c_rows c) = DropIndices l ->
    (forall i, In i l -> (- Z.of_nat (c_size c) <= i < Z.of_nat (c_size c))%Z) ->
    exists c' ks, c_drop c isa = Ok c' /\ selects c ks c' /\ ascending ks
      /\ (forall k, In k ks <-> (k < c_size c /\ ~ exists i, In i l /\ py_index (c_size c) i k)).
Proof.
  intros T c isa l Hwf Hi Hr. unfold c_drop. rewrite Hi.
  destruct (c_delete_spec c (IxList l) Hwf Hr) as (c' & ks & H & S & A & K & _).
  exists c', ks. split; [assumption|]. split; [assumption|]. split; [assumption|]. exact K.
Qed.
Print Assumptions C16_drop_indices.

Theorem C16_drop_errors :
  forall (T : Type) (c : curve T) (isa : list (list T) -> drop_spec),
    wf c ->
    (isa (c_rows c) = DropNumeric2 -> c_drop c isa = Raise ValueError) /\
    (forall m, isa (c_rows c) = DropMask m -> length m <> c_size c -> c_drop c isa = Raise IndexError).
Proof.
  intros T c isa Hwf. split.
  - intros H. unfold c_drop. rewrite H. reflexivity.
  - intros m. apply c_drop_bad_mask. assumption.
Qed.
Print Assumptions C16_drop_errors.

Example C16_ex :
  c_drop q4 (fun _ => DropMask [true; false; true; false])
  = Ok (mkCurve [[1; 0]; [1; 0]]%Q 2 DFloat (Some [1; 3]%Q))
  /\ c_drop q4 (fun rows => DropMask2 (map (map (fun x => Qeq_bool x 1)) rows))
     = Ok (mkCurve [[0; 0]]%Q 2 DFloat (Some [0]%Q))
  /\ c_drop q4 (fun _ => DropIndices [-1; 1]%Z)
     = Ok (mkCurve [[0; 0]; [1; 1]]%Q 2 DFloat (Some [0; 2]%Q)).
Proof. repeat split. Qed.

(** ** C17 nonsingular *)

(** On binary64 data, including NaN and infinities. *)
Theorem C17_nonsingular :
  forall c : curve float, wf c -> c_rows c <> [] ->
    exists c' ks, c_nonsingular c = Ok c' /\ selects c ks c' /\ ascending ks /\ wf c' /\
      forall k, In k ks <-> exists r, nth_error (c_rows c) k = Some r /\ finite_point r /\
        (k = 0 \/ exists p, nth_error (c_rows c) (k - 1) = Some p /\ isclose (chord p r) n0 = false).
Proof. exact (fun c => c_nonsingular_spec c eq_refl). Qed.
Print Assumptions C17_nonsingular.

(** The result may contain coinciding neighbours and the operation is not
    idempotent. *)
Theorem C17_nonsingular_idempotent_refuted :
  exists c c' c'' : curve float, wf c /\ c_nonsingular c = Ok c' /\ c_nonsingular c' = Ok c''
    /\ c_size c'' <> c_size c'
    /\ (exists p, nth_error (c_rows c') 0 = Some p /\ nth_error (c_rows c') 1 = Some p).
Proof.
  exists fnan, (mkCurve [[fz 1; fz 1]; [fz 1; fz 1]] 2 DFloat None), (mkCurve [[fz 1; fz 1]] 2 DFloat None).
  split.
  { split; [|split]; cbn [fnan c_ndim c_rows c_t]; [lia| |discriminate].
    intros p [<-|[<-|[<-|[]]]]; reflexivity. }
  split; [vm_compute; reflexivity|]. split; [vm_compute; reflexivity|].
  split; [discriminate|]. exists [fz 1; fz 1]. split; reflexivity.
Qed.
Print Assumptions C17_nonsingular_idempotent_refuted.

(** On the empty curve the call fails. *)
Theorem C17_nonsingular_empty :
  forall (T : Type) (NT : Num T) (ST : NumSqrt T) (c : curve T),
    c_rows c = [] -> c_nonsingular c = Raise ValueError.
Proof. intros T NT ST c H. unfold c_nonsingular, c_bool, c_size. rewrite H. reflexivity. Qed.
Print Assumptions C17_nonsingular_empty.

Example C17_ex :
  c_nonsingular finf = Ok (mkCurve [[fz 0; fz 0]; [fz 3; fz 4]] 2 DFloat (Some [fz 0; fz 2])).
Proof. vm_compute. reflexivity. Qed.

(** ** C18 insertdim / deletedim *)

Theorem C18_insertdim :
  forall (T : Type) (NT : Num T) (c : curve T) (axis : Z) (k : nat) (vals : list T),
    wf c -> k <= c_ndim c ->
    (axis = Z.of_nat k \/ (axis < 0 /\ axis = Z.of_nat k - Z.of_nat (c_ndim c)))%Z ->
    length vals = c_size c -> c_rows c <> [] ->
    c_insertdim c axis (Some vals)
    = Ok (mkCurve (map (fun '(r, v) => firstn k r ++ cast (c_dtype c) v :: skipn k r) (combine (c_rows c) vals))
            (S (c_ndim c)) (c_dtype c) None).
Proof. exact (fun T NT => insertdim_general). Qed.
Print Assumptions C18_insertdim.

(** Values of a wrong length (neither the number of points nor one). *)
Theorem C18_insertdim_values :
  forall (T : Type) (NT : Num T) (c : curve T) (axis : Z) (vals : list T),
    (- Z.of_nat (c_ndim c) <= axis <= Z.of_nat (c_ndim c))%Z -> length vals <> c_size c -> length vals <> 1 ->
    c_insertdim c axis (Some vals) = Raise ValueError.
Proof.
  intros T NT c axis vals Ha L1 L2. unfold c_insertdim. cbv zeta.
  destruct (Z.ltb_spec axis (- Z.of_nat (c_ndim c))); [lia|]. destruct (Z.ltb_spec (Z.of_nat (c_ndim c)) axis); [lia|]. cbn [orb]. rewrite map_length.
  destruct (Nat.eqb_spec (length vals) (c_size c)); [contradiction|]. destruct vals as [|v [|w r]]; cbn [map rbind]; [reflexivity|cbn in L2; lia|reflexivity].
Qed.
Print Assumptions C18_insertdim_values.
Example C18_insertdim_values_ex : c_insertdim q2 1 (Some [1; 2; 3]%Q) = Raise ValueError. Proof. reflexivity. Qed.

Theorem C18_insertdim_error :
  forall (T : Type) (NT : Num T) (c : curve T) (axis : Z) v,
    (axis < - Z.of_nat (c_ndim c) \/ Z.of_nat (c_ndim c) < axis)%Z ->
    c_insertdim c axis v = Raise IndexError.
Proof. exact (fun T NT => c_insertdim_raise). Qed.
Print Assumptions C18_insertdim_error.

Theorem C18_deletedim :
  forall (T : Type) (c : curve T) (axis : Z) (k : nat),
    wf c -> py_index (c_ndim c) axis k -> c_ndim c <> 2 -> c_rows c <> [] ->
    c_deletedim c (IxInt axis)
    = Ok (mkCurve (map (fun r => firstn k r ++ skipn (S k) r) (c_rows c)) (c_ndim c - 1) (c_dtype c) None).
Proof. exact (fun T => c_deletedim_int_ok). Qed.
Print Assumptions C18_deletedim.

Theorem C18_deletedim_plane_error :
  forall (T : Type) (c : curve T) (ix : indexer), c_ndim c = 2 -> c_deletedim c ix = Raise ValueError.
Proof. intros T c ix H. unfold c_deletedim. rewrite H. reflexivity. Qed.
Print Assumptions C18_deletedim_plane_error.

Theorem C18_deletedim_insertdim :
  forall (T : Type) (NT : Num T) (c : curve T) (axis : Z) (k : nat) (vals : list T),
    wf c -> c_dtype c = DFloat -> k <= c_ndim c ->
    (axis = Z.of_nat k \/ (axis < 0 /\ axis = Z.of_nat k - Z.of_nat (c_ndim c)))%Z ->
    length vals = c_size c -> c_rows c <> [] ->
    exists c1, c_insertdim c axis (Some vals) = Ok c1 /\
      c_deletedim c1 (IxInt (Z.of_nat k)) = Ok (mkCurve (c_rows c) (c_ndim c) (c_dtype c) None).
Proof. exact (fun T NT => insertdim_deletedim). Qed.
Print Assumptions C18_deletedim_insertdim.

(** Deleting all dimensions is not an error: the points silently disappear. *)
Theorem C18_deletedim_all_refuted :
  exists (c : curve Q) ix c', wf c /\ c_rows c <> [] /\ c_deletedim c ix = Ok c' /\ c_rows c' = [].
Proof.
  exists q3d, (IxSlice (mkSlice None None None)), (mkCurve [] 2 DFloat None).
  split; [|split; [discriminate|split; reflexivity]].
  split; [|split]; cbn; [lia| |discriminate]. intros p [<-|[<-|[<-|[]]]]; reflexivity.
Qed.
Print Assumptions C18_deletedim_all_refuted.

Example C18_ex :
  c_insertdim q2 1 (Some [3; 4]%Q) = Ok (mkCurve [[5; 3; 6]; [7; 4; 8]]%Q 3 DFloat None)
  /\ c_insertdim q2 (-1) (Some [3; 4]%Q) = Ok (mkCurve [[5; 3; 6]; [7; 4; 8]]%Q 3 DFloat None)
  /\ c_appenddim q2 (Some [3; 4]%Q) = Ok (mkCurve [[5; 6; 3]; [7; 8; 4]]%Q 3 DFloat None)
  /\ c_deletedim q3d (IxInt (-2)) = Ok (mkCurve [[0; 2]; [3; 5]; [6; 8]]%Q 2 DFloat None).
Proof. repeat split. Qed.

(** ** C19 values *)

Theorem C19_values :
  forall (T : Type) (NT : Num T) (c : curve T) (axis : Z) (k : nat),
    wf c -> py_index (c_ndim c) axis k ->
    exists col, c_values c axis = Ok col /\ length col = c_size c /\
      forall i r, nth_error (c_rows c) i = Some r -> nth_error col i = nth_error r k.
Proof. exact (fun T NT => c_values_ok). Qed.
Print Assumptions C19_values.

(** values() (all axes) lists values(0), values(1), ... *)
Theorem C19_values_all :
  forall (T : Type) (NT : Num T) (c : curve T), wf c ->
    length (c_values_all c) = c_ndim c /\
    forall k, k < c_ndim c -> c_values c (Z.of_nat k) = Ok (nth k (c_values_all c) []).
Proof.
  intros T NT c Hwf. unfold c_values_all. split; [rewrite map_length, seq_length; reflexivity|].
  intros k Hk. unfold c_values. destruct (Z.leb_spec (Z.of_nat (c_ndim c)) (Z.of_nat k)); [lia|].
  rewrite norm_index_nat by assumption. f_equal. symmetry. apply nth_error_nth.
  rewrite nth_error_map, (nth_error_nth' _ 0) by (rewrite seq_length; assumption).
  rewrite seq_nth by assumption. reflexivity.
Qed.
Print Assumptions C19_values_all.

Theorem C19_rebuild :
  forall (T : Type) (NT : Num T) (c : curve T),
    wf c -> c_rows c <> [] ->
    curve_init (SSeq (mkNd [c_ndim c; c_size c] (concat (c_values_all c)))) None None None None
    = Ok (mkCurve (c_rows c) (c_ndim c) DFloat None).
Proof. exact (fun T NT => rebuild_from_values). Qed.
Print Assumptions C19_rebuild.

(** An axis that does not exist: ValueError above, IndexError below. *)
Theorem C19_values_error :
  forall (T : Type) (NT : Num T) (c : curve T) (axis : Z),
    ((Z.of_nat (c_ndim c) <= axis)%Z -> c_values c axis = Raise ValueError) /\
    ((axis < - Z.of_nat (c_ndim c))%Z -> c_values c axis = Raise IndexError).
Proof.
  intros T NT c axis. unfold c_values. split; intros H.
  - destruct (Z.leb_spec (Z.of_nat (c_ndim c)) axis); [reflexivity|lia].
  - destruct (Z.leb_spec (Z.of_nat (c_ndim c)) axis); [lia|]. rewrite (proj2 (norm_index_none (c_ndim c) axis)) by (left; exact H). reflexivity.
Qed.
Print Assumptions C19_values_error.

Example C19_ex : c_values q3d 1 = Ok [1; 4; 7]%Q /\ c_values q3d (-1) = Ok [2; 5; 8]%Q
  /\ c_values_all q2 = [[5; 7]; [6; 8]]%Q
  /\ c_values q2 2 = Raise ValueError /\ c_values q2 (-3) = Raise IndexError.
Proof. repeat split. Qed.

(** ** C20 as2d *)

(** Entry (i, k) of the result, where k is the row-major position of the
    remaining indices [r], is the array element with index i put back at the
    chosen axis. *)
Theorem C20_as2d :
  forall (T : Type) (a : ndarray T) (axis : Z) (k m : nat),
    nd_wf a -> nd_size a <> 0 ->
    py_index (nd_ndim a) axis k -> nth_error (nd_shape a) k = Some m ->
    let rest := firstn k (nd_shape a) ++ skipn (S k) (nd_shape a) in
    exists rows n, as2d a axis = Ok (rows, n) /\ length rows = m
      /\ n = fold_right Nat.mul 1 rest /\ (forall r, In r rows -> length r = n)
      /\ (forall i r, i < m -> Forall2 lt r rest ->
           exists row, nth_error rows i = Some row /\
             nth_error row (offset rest r)
             = nth_error (nd_flat a) (offset (nd_shape a) (firstn k r ++ i :: skipn k r))).
Proof.
  intros T a axis k m Hwf Hs Hax Hm rest.
  assert (Hax' : as2d_axis (nd_ndim a) axis k).
  { destruct Hax as [H1 H2]. split; [assumption|]. tauto. }
  destruct (as2d_char a axis k m Hwf Hs Hax' Hm) as (rows & H & Hl & Hr & Hat).
  exists rows. eexists. split; [exact H|]. split; [assumption|]. split; [reflexivity|].
  split; [assumption|]. intros i r Hi Hlt.
  destruct (Hat i r Hi Hlt) as (row & Hrow & E). exists row. split; [assumption|].
  apply Forall2_length in Hlt as Hlen.
  assert (k < length (nd_shape a)) by (apply nth_error_Some; congruence).
  assert (Hrest : length rest = length (nd_shape a) - 1)
    by (unfold rest; rewrite app_length, firstn_length, skipn_length; lia).
  rewrite offset_ravel by assumption. rewrite offset_ravel.
  - exact E.
  - rewrite app_length. cbn [length]. rewrite firstn_length, skipn_length.
    fold rest in Hlen. lia.
Qed.
Print Assumptions C20_as2d.

Theorem C20_as2d_errors :
  forall (T : Type) (a : ndarray T) (axis : Z),
    nd_size a <> 0 ->
    ((Z.of_nat (nd_ndim a) <= axis)%Z -> as2d a axis = Raise ValueError) /\
    ((axis < - 2 * Z.of_nat (nd_ndim a))%Z -> as2d a axis = Raise IndexError).
Proof. intros T a axis H. split; [apply as2d_axis_too_big|apply as2d_axis_too_small]; assumption. Qed.
Print Assumptions C20_as2d_errors.

(** Axes in [-2*ndim, -ndim) are silently accepted. *)
Theorem C20_as2d_axis_refuted :
  exists (a : ndarray Q) axis r, nd_wf a /\ (axis < - Z.of_nat (nd_ndim a))%Z /\ as2d a axis = Ok r.
Proof. exists (mkNd [1; 2] [5; 6]%Q), (-3)%Z. eexists. repeat split. Qed.
Print Assumptions C20_as2d_axis_refuted.

Example C20_ex :
  as2d (mkNd [2; 3; 2] (map inject_Z [0; 1; 2; 3; 4; 5; 6; 7; 8; 9; 10; 11]%Z)) 1
  = Ok ([[0; 1; 6; 7]; [2; 3; 8; 9]; [4; 5; 10; 11]]%Q, 4)
  /\ offset [2; 2] [1; 0] = 2 /\ offset [2; 3; 2] [1; 2; 0] = 10.
Proof. repeat split. Qed.

(** ** C21 copies *)

(** A copy has the same points, dtype and parameters; the dimension of an empty
    curve becomes 2. *)
Theorem C21_copy :
  forall (T : Type) (NT : Num T) (c : curve T),
    wf c -> int_data c ->
    exists c', c_copy c = Ok c' /\ c_rows c' = c_rows c /\ c_dtype c' = c_dtype c /\ c_t c' = c_t c /\
      (c_rows c <> [] -> c_ndim c' = c_ndim c) /\ (c_rows c = [] -> c_ndim c' = 2).
Proof.
  intros T NT c W I. eexists. split; [apply c_copy_ok; assumption|]. cbn. repeat (split; [reflexivity|]).
  split; [destruct (c_rows c); [contradiction|reflexivity]|intros ->; reflexivity].
Qed.
Print Assumptions C21_copy.

(** It is the same curve exactly if the curve has points or is plane. *)
Theorem C21_copy_iff :
  forall (T : Type) (NT : Num T) (c : curve T),
    wf c -> int_data c -> (c_copy c = Ok c <-> c_ndim c = 2 \/ c_rows c <> []).
Proof.
  intros T NT c W I. split; [|apply c_copy_id; assumption].
  rewrite c_copy_ok by assumption. intros E. destruct c as [rows n dt t]. cbn in *. destruct rows; [left; congruence|right; discriminate].
Qed.
Print Assumptions C21_copy_iff.

Theorem C21_copy_refuted : exists c : curve Q, wf c /\ int_data c /\ c_copy c <> Ok c.
Proof.
  exists qe3. split; [split; [|split]; cbn; [lia|tauto|discriminate]|].
  split; [intros H; discriminate|discriminate].
Qed.
Print Assumptions C21_copy_refuted.

Example C21_ex : c_copy q4 = Ok q4 /\ c_copy q3d = Ok q3d.
Proof. repeat split. Qed.

(** ** C22 coorientplane *)

Theorem C22_coorient :
  forall (c : curve R) (a1 a2 : Z) (k1 k2 : nat) (p q : list R),
    wf c -> int_data c -> 2 <= c_size c ->
    py_index (c_ndim c) a1 k1 -> py_index (c_ndim c) a2 k2 ->
    nth_error (c_rows c) 0 = Some p -> nth_error (c_rows c) (c_size c - 1) = Some q ->
    plane_det k1 k2 p q <> 0%R ->
    exists c' p' q', c_coorientplane c a1 a2 = Ok c'
      /\ (c' = c \/ c_reverse c = Ok c')
      /\ nth_error (c_rows c') 0 = Some p' /\ nth_error (c_rows c') (c_size c' - 1) = Some q'
      /\ (0 < plane_det k1 k2 p' q')%R
      /\ c_coorientplane c' a1 a2 = Ok c'
      /\ (do x <- c_reverse c ; c_coorientplane x a1 a2) = Ok c'.
Proof.
  intros c a1 a2 k1 k2 p q Hwf Hint Hs H1 H2 Hp Hq Hd.
  pose proof (c_reverse_ok c Hwf) as Hrev.
  assert (Hne : c_rows c <> []) by (intros E; unfold c_size in Hs; rewrite E in Hs; cbn in Hs; lia).
  set (rc := mkCurve (rev (c_rows c)) (c_ndim c) (c_dtype c) (option_map (@rev R) (c_t c))).
  assert (Hrc : c_reverse c = Ok rc) by (unfold rc; rewrite Hrev; destruct (c_rows c); [contradiction|]; reflexivity).
  assert (Wrc : wf rc) by (exact (c_reverse_wf _ _ Hwf Hrc)).
  assert (Irc : int_data rc) by (exact (reverse_int_data _ _ Hint Hwf Hrc)).
  assert (Src : c_size rc = c_size c) by (unfold c_size; cbn; apply rev_length).
  destruct (nth_error_rev_ends (c_rows c) p q Hp Hq) as [Rq Rp].
  assert (Erc : c_coorientplane rc a1 a2 = Ok (if Rltb 0 (plane_det k1 k2 q p) then rc else c)).
  { rewrite (coorient_R rc a1 a2 k1 k2 q p); try assumption; try (rewrite Src; assumption).
    f_equal. destruct (Rltb 0 _); [reflexivity|]. unfold rc. cbn. rewrite rev_involutive.
    destruct c as [rows n dt [t|]]; cbn; rewrite ?rev_involutive; reflexivity. }
  pose proof (coorient_R c a1 a2 k1 k2 p q Hwf Hint Hs H1 H2 Hp Hq) as Ec. fold rc in Ec.
  rewrite plane_det_swap in Erc.
  destruct (Rltb 0 (plane_det k1 k2 p q)) eqn:E.
  - apply Rltb_iff in E as E'. exists c, p, q.
    assert (Rltb 0 (- plane_det k1 k2 p q) = false) as En by (apply Rltb_false; lra).
    rewrite En in Erc. rewrite Hrc. cbn [rbind]. repeat (split; [tauto||assumption|]). assumption.
  - apply Rltb_false in E. exists rc, q, p.
    assert (Rltb 0 (- plane_det k1 k2 p q) = true) as En by (apply Rltb_iff; lra).
    rewrite En in Erc. rewrite Hrc. cbn [rbind]. split; [assumption|]. split; [tauto|].
    split; [assumption|]. split; [rewrite Src; assumption|].
    split; [rewrite plane_det_swap; lra|]. split; assumption.
Qed.
Print Assumptions C22_coorient.

(** With zero determinant the curve is always reversed, so the operation is
    not idempotent. *)
Theorem C22_coorient_zero_det_refuted :
  exists c c' : curve Q, wf c /\ c_coorientplane c 0 1 = Ok c' /\ c' <> c /\ c_coorientplane c' 0 1 = Ok c.
Proof.
  exists (mkCurve [[0; 0]; [1; 1]]%Q 2 DFloat None), (mkCurve [[1; 1]; [0; 0]]%Q 2 DFloat None).
  split; [|split; [reflexivity|split; [discriminate|reflexivity]]].
  split; [|split]; cbn; [lia| |discriminate]. intros p [<-|[<-|[]]]; reflexivity.
Qed.
Print Assumptions C22_coorient_zero_det_refuted.

Example C22_ex :
  c_coorientplane (mkCurve [[0; 1]; [1; 0]]%Q 2 DFloat (Some [4; 9]%Q)) 0 1
  = Ok (mkCurve [[1; 0]; [0; 1]]%Q 2 DFloat (Some [9; 4]%Q))
  /\ c_coorientplane (mkCurve [[1; 0]; [0; 1]]%Q 2 DFloat (Some [9; 4]%Q)) (-2) (-1)
  = Ok (mkCurve [[1; 0]; [0; 1]]%Q 2 DFloat (Some [9; 4]%Q))
  /\ plane_det 0 1 [1; 0]%Q [0; 1]%Q = 1%Q.
Proof. repeat split. Qed.

(** ** C23 subcurve and segments *)

Theorem C23_subcurve :
  forall (T : Type) (c : curve T) (i j : nat),
    wf c -> i <= j -> j < c_size c ->
    (exists c', subcurve c (Z.of_nat i) (Z.of_nat j) true = Ok c' /\ selects c (seq i (j - i + 1)) c' /\ wf c') /\
    (exists c', subcurve c (Z.of_nat i) (Z.of_nat j) false = Ok c' /\ selects c (seq i (j - i)) c' /\ wf c').
Proof. intros T c i j H1 H2 H3. split; [apply subcurve_ok|apply subcurve_open_ok]; assumption. Qed.
Print Assumptions C23_subcurve.

Theorem C23_segments :
  forall (T : Type) (c : curve T),
    exists l, c_segments c = Ok l /\ length l = c_size c - 1 /\
      forall k p q, nth_error (c_rows c) k = Some p -> nth_error (c_rows c) (S k) = Some q ->
        nth_error l k = Some (Z.of_nat k, p, q).
Proof. exact (fun T => c_segments_ok). Qed.
Print Assumptions C23_segments.

Theorem C23_curve_segment :
  forall (T : Type) (c : curve T) (k : nat) (p q : list T),
    nth_error (c_rows c) k = Some p -> nth_error (c_rows c) (S k) = Some q ->
    forall i, (i = Z.of_nat k \/ (i < 0 /\ i = Z.of_nat k - (Z.of_nat (c_size c) - 1)))%Z ->
    curve_segment c i = Ok (Z.of_nat k, p, q).
Proof. exact (fun T => curve_segment_ok). Qed.
Print Assumptions C23_curve_segment.

Theorem C23_curve_segment_error :
  forall (T : Type) (c : curve T) (i : Z),
    (Z.of_nat (c_size c) - 1 <= i)%Z -> (0 <= i)%Z -> curve_segment c i = Raise ValueError.
Proof. exact (fun T => curve_segment_raise). Qed.
Print Assumptions C23_curve_segment_error.

(** CurveSegment(c, -size) is not rejected: it joins the last point to the
    first one. *)
Theorem C23_curve_segment_negative_refuted :
  forall (T : Type) (c : curve T) (p q : list T),
    2 <= c_size c -> nth_error (c_rows c) 0 = Some p -> nth_error (c_rows c) (c_size c - 1) = Some q ->
    curve_segment c (- Z.of_nat (c_size c)) = Ok ((-1)%Z, q, p).
Proof.
  intros T c p q Hs Hp Hq. unfold curve_segment.
  replace (if (- Z.of_nat (c_size c) <? 0)%Z then (Z.of_nat (c_size c) - 1 + - Z.of_nat (c_size c))%Z
           else (- Z.of_nat (c_size c))%Z) with (-1)%Z
    by (destruct (Z.ltb_spec (- Z.of_nat (c_size c)) 0); lia).
  destruct (Z.leb_spec (Z.of_nat (c_size c) - 1) (-1)); [lia|].
  rewrite (getitem_int_ok c (-1) (c_size c - 1) q) by (assumption || (split; [lia|right; lia])).
  cbn [rbind]. rewrite (getitem_int_ok c (-1 + 1) 0 p) by (assumption || (split; [lia|auto])). reflexivity.
Qed.
Print Assumptions C23_curve_segment_negative_refuted.

Example C23_ex :
  subcurve q4 1 3 true = Ok (mkCurve [[1; 0]; [1; 1]; [1; 0]]%Q 2 DFloat (Some [1; 2; 3]%Q))
  /\ c_segments q3d = Ok [(0%Z, [0; 1; 2], [3; 4; 5]); (1%Z, [3; 4; 5], [6; 7; 8])]%Q
  /\ curve_segment q3d (-1) = Ok (1%Z, [3; 4; 5]%Q, [6; 7; 8]%Q)
  /\ curve_segment q3d 2 = Raise ValueError
  /\ curve_segment q3d (-3) = Ok ((-1)%Z, [6; 7; 8]%Q, [0; 1; 2]%Q).
Proof. repeat split. Qed.
