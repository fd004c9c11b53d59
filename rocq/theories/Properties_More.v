(** Further theorems for C18, C32, C51, C52, C54, C61 and C62: branches the main
    theorems leave open. *)
From Coq Require Import PrimFloat FloatOps FloatAxioms SpecFloat.
From Coq Require Import ZArith QArith Qround Qreals String List Bool Arith Lia Reals Lra.
From Verif Require Import Num Py Numeric Curve Vec Geom DiffGeom Interp Cache Point Spec GeomSpec ListFacts VecFacts CurveProofs CurveProofs2 GeomProofs.
From Verif Require Import InterpProofs FloatFacts FloatFacts2 FloatProofs FloatProofs2 FloatProofs3 CacheProofs InterpProofs2 Properties_Geom.
Import ListNotations.
Local Open Scope string_scope.
Local Open Scope list_scope.
Local Open Scope R_scope.
Local Notation float := PrimFloat.float.

(** ** C18 deletedim with any indexer *)

(** The dimensions not addressed remain, in order; with one remaining dimension
    ValueError; with none the result is an empty plane curve. *)
Theorem C18_deletedim_any : forall (T : Type) (c : curve T) (ix : indexer), wf c -> c_rows c <> [] -> (3 <= c_ndim c)%nat -> in_range ix (c_ndim c) ->
  exists ks, ascending ks /\ (forall k, In k ks <-> (k < c_ndim c)%nat /\ ~ addressed ix (c_ndim c) k) /\
    match length ks with
    | O => c_deletedim c ix = Ok (mkCurve [] 2 (c_dtype c) None)
    | S O => c_deletedim c ix = Raise ValueError
    | m => exists rows, c_deletedim c ix = Ok (mkCurve rows m (c_dtype c) None) /\ Forall2 (fun r r' => at_positions r ks r') (c_rows c) rows
    end.
Proof.
  intros T c ix W N Hn Hr. destruct (indexer_positions_ok _ _ Hr) as (ps & Hp & Ha).
  set (ks := positions (c_ndim c) (fun k => negb (mem_nat k ps))). exists ks.
  assert (Hks : forall k, In k ks <-> (k < c_ndim c)%nat /\ ~ addressed ix (c_ndim c) k).
  { intros k. unfold ks, positions. rewrite filter_In, in_seq, negb_true_iff, mem_nat_false, Ha. intuition lia. }
  split; [apply ascending_sorted, filter_sorted, seq_sorted|]. split; [exact Hks|].
  assert (B : Forall (fun k => (k < c_ndim c)%nat) ks) by (apply Forall_forall; intros k Hk; apply Hks in Hk; lia).
  unfold c_deletedim. destruct (Nat.eqb_spec (c_ndim c) 2) as [E|_]; [lia|]. rewrite Hp. cbn [rbind].
  assert (Em : forall r, In r (c_rows c) -> mask_select r (keep_mask (c_ndim c) ps) = pick r ks).
  { intros r Ir. destruct W as (_ & D & _). rewrite mask_select_filter_seq by (rewrite keep_mask_length; symmetry; exact (D r Ir)). rewrite (D r Ir). f_equal.
    apply filter_ext_in. intros k Hk. apply in_seq in Hk. apply keep_mask_nth. lia. }
  assert (Lm : length (filter Datatypes.id (keep_mask (c_ndim c) ps)) = length ks).
  { unfold keep_mask, ks, positions. generalize (seq 0 (c_ndim c)). intros l. induction l as [|k l IH]; [reflexivity|]. cbn [map filter]. unfold Datatypes.id at 1. destruct (negb (mem_nat k ps)); cbn [length]; rewrite IH; reflexivity. }
  rewrite Lm. rewrite (map_ext_in _ (fun r => pick r ks) _ Em). destruct (c_rows c) as [|r0 rest] eqn:Er; [contradiction|]. clear N.
  destruct (length ks) as [|[|m]] eqn:El.
  - unfold mk_curve. rewrite Nat.mul_0_r. reflexivity.
  - unfold mk_curve. cbn [map length]. rewrite Nat.mul_1_r. cbn [Nat.eqb]. rewrite Nat.mul_1_r. reflexivity.
  - exists (map (fun r : list T => pick r ks) (r0 :: rest)). destruct W as (_ & D & _). rewrite Er in D. split.
    + rewrite mk_curve_ok; [reflexivity|lia| |discriminate]. intros r Ir. apply in_map_iff in Ir as (r1 & <- & I1). rewrite pick_length by (rewrite (D r1 I1); exact B). exact El.
    + assert (G : forall l : list (list T), (forall r, In r l -> length r = c_ndim c) -> Forall2 (fun r r' => at_positions r ks r') l (map (fun r => pick r ks) l)).
      { induction l as [|r l IH]; intros H; [constructor|]. constructor; [apply pick_at_positions; rewrite (H r (or_introl eq_refl)); exact B|apply IH; intros r' I'; apply H; right; exact I']. }
      apply G. exact D.
Qed.
Print Assumptions C18_deletedim_any.
Theorem C18_deletedim_range : forall (T : Type) (c : curve T) (ix : indexer), c_ndim c <> 2%nat -> ~ in_range ix (c_ndim c) ->
  c_deletedim c ix = Raise (match ix with Py.IxSlice _ => ValueError | _ => IndexError end).
Proof.
  intros T c ix Hn Hr. unfold c_deletedim. destruct (Nat.eqb_spec (c_ndim c) 2); [contradiction|]. rewrite (indexer_positions_raise _ _ Hr). reflexivity.
Qed.
Print Assumptions C18_deletedim_range.
Definition q4d : curve Q := mkCurve [[0; 1; 2; 3]; [4; 5; 6; 7]]%Q 4 DFloat (Some [0; 1]%Q).
Example C18_deletedim_any_ex : c_deletedim q4d (Py.IxList [0; -2]%Z) = Ok (mkCurve [[1; 3]; [5; 7]]%Q 2 DFloat None) /\
  c_deletedim q4d (Py.IxSlice (mkSlice (Some 1%Z) None None)) = Raise ValueError /\
  c_deletedim q4d (Py.IxSlice (mkSlice None None None)) = Ok (mkCurve [] 2 DFloat None) /\
  c_deletedim q4d (Py.IxInt 4) = Raise IndexError /\ in_range (Py.IxList [0; -2]%Z) 4 /\ ~ in_range (Py.IxInt 4) 4.
Proof.
  do 4 (split; [vm_compute; reflexivity|]). split.
  - intros i [<- | [<- | []]]; cbn; lia.
  - cbn. lia.
Qed.

(** ** C32 degenerate segments *)

(** On a segment whose ends coincide every point has parameter 0. *)
Theorem C32_singular : forall n (s : segment R) p, seg_wf n s -> length p = n -> sg_p1 s = sg_p2 s -> sg_t s p = Some 0.
Proof.
  intros n s p W L E. unfold sg_t. rewrite (proj2 (C33_segment_point n s p W L)) by (right; right; left; exact E).
  f_equal. unfold lstsq1. replace (neqb (vdot (sg_dir s) (sg_dir s)) n0) with true; [reflexivity|]. symmetry.
  unfold sg_dir. rewrite E. generalize (sg_p2 s). intros q. cbn [neqb RNum n0]. unfold Reqb. destruct (Req_EM_T _ _) as [|Ne]; [reflexivity|]. exfalso. apply Ne.
  clear. unfold vdot, vsub, vsum. induction q as [|x q IH]; [reflexivity|]. cbn [map2 fold_right]. rewrite IH. cbn [nsub nmul nadd RNum]. ring.
Qed.
Print Assumptions C32_singular.
Example C32_singular_ex : seg_wf 2 (mkSeg [1; 2] [1; 2]) /\ sg_t (mkSeg [1; 2] [1; 2]) [5; 9] = Some 0.
Proof.
  assert (W : seg_wf 2 (mkSeg [1; 2] [1; 2])) by (repeat split; cbn; auto). split; [exact W|]. apply (C32_singular 2); [exact W|reflexivity|reflexivity].
Qed.

(** ** C51 Python's round *)

(** On binary64 numbers: ValueError for NaN, OverflowError for an infinity,
    otherwise the nearest integer, ties to even. *)
Theorem C51_round_float : forall x : float,
  (PrimFloat.is_nan x = true -> nround x = Raise ValueError) /\
  (PrimFloat.is_infinity x = true -> nround x = Raise OtherError) /\
  (ffin x -> exists k, nround x = Ok k /\ nearest_even (FR x) k).
Proof.
  intros x. cbn [nround FRound]. split; [|split; [|apply Fround_spec]].
  - intros N. destruct (SF_cases x) as [(E & _)|[(s & _ & E)|[(s & _ & F & _)|(s & m & e & E)]]].
    + unfold Fround. rewrite E. reflexivity.
    + subst x. destruct s; vm_compute in N; discriminate.
    + apply ffin_num in F. unfold fnum in F. congruence.
    + destruct (FR_finite x s m e E) as (F & _). apply ffin_num in F. unfold fnum in F. congruence.
  - intros N. destruct (SF_cases x) as [(E & _)|[(s & E & _)|[(s & _ & F & _)|(s & m & e & E)]]].
    + exfalso. unfold PrimFloat.is_infinity in N. rewrite FloatAxioms.eqb_spec, FloatAxioms.abs_spec, E in N. discriminate.
    + unfold Fround. rewrite E. reflexivity.
    + exfalso. unfold ffin, PrimFloat.is_finite in F. rewrite N, orb_true_r in F. discriminate.
    + exfalso. destruct (FR_finite x s m e E) as (F & _). unfold ffin, PrimFloat.is_finite in F. rewrite N, orb_true_r in F. discriminate.
Qed.
Print Assumptions C51_round_float.
Theorem C51_round_rational : forall x : Q, exists k, nround x = Ok k /\ nearest_even (Q2R x) k.
Proof. intros x. exists (Qround_he x). split; [reflexivity|apply Qround_he_nearest]. Qed.
Print Assumptions C51_round_rational.
Example C51_round_ex : nround (fq 5 2) = Ok 2%Z /\ nround (fq 7 2) = Ok 4%Z /\ nround (fq (-5) 2) = Ok (-2)%Z /\ nround (fq 13 5) = Ok 3%Z /\
  nround (T:=float) 0%float = Ok 0%Z /\ nround (T:=float) nan = Raise ValueError /\ nround (T:=float) neg_infinity = Raise OtherError /\ nround (5 # 2)%Q = Ok 2%Z.
Proof. repeat split; vm_compute; reflexivity. Qed.

(** ** C52 arguments of UniformExtrapolationGrid *)

Theorem C52_init : forall (T : Type) (NT : Num T) (before after : narg T) (kind : string),
  let real a := match a with NInt z => Some (nlit z 1) | NFloat x => Some x | NOther => None end in
  (kind = "point" -> extrap_init before after kind =
     match before, after with NInt b, NInt a => Ok (Interp.EPoint b a) | _, _ => Raise TypeError end) /\
  (kind = "length" -> extrap_init before after kind =
     match real before, real after with Some b, Some a => Ok (ELength b a) | _, _ => Raise TypeError end) /\
  (kind <> "point" -> kind <> "length" -> extrap_init before after kind = Raise ValueError).
Proof.
  intros T NT before after kind real. split; [|split].
  - intros ->. destruct before, after; reflexivity.
  - intros ->. destruct before, after; reflexivity.
  - intros N1 N2. unfold extrap_init. destruct (String.eqb_spec kind "point"); [contradiction|]. destruct (String.eqb_spec kind "length"); [contradiction|]. reflexivity.
Qed.
Print Assumptions C52_init.
Example C52_init_ex : extrap_init (NInt 2) (NInt 3) "point" = Ok (Interp.EPoint (T:=Q) 2 3) /\ extrap_init (T:=Q) (NInt 2) (NFloat (1#2)%Q) "length" = Ok (ELength 2%Q (1#2)%Q) /\
  extrap_init (T:=Q) (NInt 2) NOther "length" = Raise TypeError /\ extrap_init (T:=Q) (NInt 2) (NInt 2) "other" = Raise ValueError.
Proof. repeat split; vm_compute; reflexivity. Qed.

(** ** C54 samples whose parameter is NaN *)

(** Linear interpolation sorts the samples; those with a NaN parameter come
    last, in their order, behind the sorted others. *)
Theorem C54_nan_last : forall (Y : Type) (l : list (float * Y)),
  sort_samples l = sort_samples (filter (fun p => negb (PrimFloat.is_nan (fst p))) l) ++ filter (fun p => PrimFloat.is_nan (fst p)) l.
Proof.
  intros Y l. unfold sort_samples.
  assert (Lnan : forall a b, PrimFloat.is_nan a = true -> lt_nan (T:=float) a b = false).
  { intros a b N. unfold lt_nan. cbn [nltb nisnan FNum]. rewrite N. cbn [negb]. rewrite andb_false_r, orb_false_r.
    destruct (PrimFloat.ltb a b) eqn:E; [|reflexivity]. apply ltb_num in E as [E _]. unfold fnum in E. congruence. }
  assert (Rnan : forall a b, PrimFloat.is_nan a = false -> PrimFloat.is_nan b = true -> lt_nan (T:=float) a b = true).
  { intros a b Na Nb. unfold lt_nan. cbn [nltb nisnan FNum]. rewrite Na, Nb. apply orb_true_r. }
  set (ok := fun p : float * Y => negb (PrimFloat.is_nan (fst p))). set (bad := fun p : float * Y => PrimFloat.is_nan (fst p)).
  assert (InsN : forall p (a b : list (float * Y)), bad p = true -> insert_sample p (a ++ b) = a ++ b ++ [p]).
  { intros p a b Np. rewrite app_assoc. generalize (a ++ b). intros c. induction c as [|q c IH]; [reflexivity|]. cbn [insert_sample app]. rewrite Lnan by exact Np. rewrite IH. reflexivity. }
  assert (InsO : forall p (a b : list (float * Y)), bad p = false -> (forall q, In q b -> bad q = true) -> insert_sample p (a ++ b) = insert_sample p a ++ b).
  { intros p a b Np Hb. induction a as [|q a IH].
    - cbn [app insert_sample]. destruct b as [|q b]; [reflexivity|]. cbn [insert_sample]. rewrite Rnan; [reflexivity|exact Np|apply Hb; left; reflexivity].
    - cbn [app insert_sample]. destruct (lt_nan (fst p) (fst q)); [reflexivity|]. rewrite IH. reflexivity. }
  assert (G : forall l (a b : list (float * Y)), (forall q, In q b -> bad q = true) ->
    fold_left (fun acc p => insert_sample p acc) l (a ++ b) = fold_left (fun acc p => insert_sample p acc) (filter ok l) a ++ b ++ filter bad l).
  { clear l. induction l as [|p l IH]; intros a b Hb; [cbn; rewrite app_nil_r; reflexivity|]. cbn [fold_left filter]. unfold ok at 1. fold (bad p). destruct (bad p) eqn:Np; cbn [negb].
    - rewrite InsN by exact Np. rewrite IH; [rewrite <- app_assoc; reflexivity|]. intros q Hq. apply in_app_or in Hq as [Hq|[<-|[]]]; [exact (Hb q Hq)|exact Np].
    - cbn [fold_left]. rewrite InsO by assumption. apply IH. exact Hb. }
  specialize (G l [] [] ltac:(intros q [])). cbn [app] in G. exact G.
Qed.
Print Assumptions C54_nan_last.
Example C54_nan_ex : sort_samples [(fz 3, 0%nat); (nan, 1%nat); (fz 1, 2%nat); (nan, 3%nat); (fz 2, 4%nat)] = [(fz 1, 2%nat); (fz 2, 4%nat); (fz 3, 0%nat); (nan, 1%nat); (nan, 3%nat)].
Proof. vm_compute. reflexivity. Qed.

(** ** C61 refused assignments *)

(** The shape of an array, as a list of row lengths where there are rows. *)
Inductive shape : Type := ShVec (n : nat) | ShMat (rows : list nat) | ShNil (n : nat).
Definition shape_of {T} (a : DiffGeom.arr T) : shape :=
  match a with AVec u => ShVec (length u) | AMat r => ShMat (map (@length T) r) | ANil m => ShNil m end.

(** An assignment succeeds if and only if the address has been given out, the
    value has the shape of the array, and the array is not the read-only
    parameter; otherwise ValueError, and nothing changes. *)
Theorem C61_write_iff : forall T (NT : Num T) (ST : NumSqrt T) junk (c : curve T) s a v,
  let ok := (a < length (s_heap s))%nat /\ shape_of (deref s a) = shape_of v /\ ~ (a = 0%nat /\ c_t c <> None) in
  (ok -> step junk c s (EWrite a v) = (OUnit (Ok tt), mkState (firstn a (s_heap s) ++ v :: skipn (S a) (s_heap s)) (s_cache s) (s_arclen s) (s_points s))) /\
  (~ ok -> step junk c s (EWrite a v) = (OUnit (Raise ValueError), s)).
Proof.
  intros T NT ST junk c s a v ok.
  assert (Sh : forall x y : DiffGeom.arr T, same_shape x y = true <-> shape_of x = shape_of y).
  { clear. intros x y. destruct x as [u|r|m], y as [u'|r'|m']; cbn [same_shape shape_of]; try (split; discriminate).
    - rewrite Nat.eqb_eq. split; [intros ->; reflexivity|intros E; injection E as ->; reflexivity].
    - rewrite andb_true_iff, Nat.eqb_eq. split.
      + intros [L H]. f_equal. revert r' L H. induction r as [|x r IH]; intros [|y r'] L H; try discriminate; [reflexivity|]. cbn [combine forallb] in H. apply andb_prop in H as [H1 H2].
        apply Nat.eqb_eq in H1. cbn [map]. rewrite H1, (IH r'); [reflexivity|cbn in L; lia|exact H2].
      + intros E. injection E as E. revert r' E. induction r as [|x r IH]; intros [|y r'] E; try discriminate; [split; reflexivity|]. injection E as E1 E2.
        destruct (IH r' E2) as (L & H). cbn [length combine forallb]. rewrite E1, Nat.eqb_refl. split; [rewrite L; reflexivity|exact H].
    - rewrite Nat.eqb_eq. split; [intros ->; reflexivity|intros E; injection E as ->; reflexivity]. }
  assert (Ro : readonly c a = true <-> a = 0%nat /\ c_t c <> None).
  { unfold readonly. destruct (c_t c) as [t|]; [rewrite Nat.eqb_eq; split; [intros ->; split; [reflexivity|discriminate]|intros [-> _]; reflexivity]|split; [discriminate|intros [_ H]; contradiction]]. }
  assert (C : (Nat.ltb a (length (s_heap s)) && same_shape (deref s a) v && negb (readonly c a)) = true <-> ok).
  { unfold ok. rewrite !andb_true_iff, Nat.ltb_lt, Sh, negb_true_iff, <- Ro. destruct (readonly c a); intuition congruence. }
  cbn [step]. split; intros H.
  - apply C in H. rewrite H. reflexivity.
  - destruct (_ && _ && _) eqn:E; [exfalso; apply H, C; reflexivity|reflexivity].
Qed.
Print Assumptions C61_write_iff.
Example C61_write_ex : let s := mkState [AMat [[1; 2]; [3; 4]]; AVec [1; 2; 3]]%Q (fun _ => None) None [] in
  let c := mkCurve [[0; 0]; [1; 1]]%Q 2 DFloat None in
  fst (step (ST := Build_NumSqrt Q (fun x => x)) 0%Q c s (EWrite 0 (AMat [[5; 6]; [7; 8]]%Q))) = OUnit (Ok tt) /\
  fst (step (ST := Build_NumSqrt Q (fun x => x)) 0%Q c s (EWrite 0 (AMat [[5; 6]; [7]]%Q))) = OUnit (Raise ValueError) /\
  fst (step (ST := Build_NumSqrt Q (fun x => x)) 0%Q c s (EWrite 1 (AMat [[5; 6]; [7; 8]]%Q))) = OUnit (Raise ValueError) /\
  fst (step (ST := Build_NumSqrt Q (fun x => x)) 0%Q c s (EWrite 2 (AVec [1]%Q))) = OUnit (Raise ValueError).
Proof. repeat split; vm_compute; reflexivity. Qed.

(** ** C62 floor division and truth *)

(** p // q rounds the quotients of the coordinates down. *)
Theorem C62_floordiv : forall a b : R, exists z : Z, op_fun OpFloorDiv a b = IZR z /\ IZR z <= a / b < IZR z + 1.
Proof.
  intros a b. cbn [op_fun]. unfold nfloordiv. cbn [ndiv ntrunc nltb nsub n1 RNum]. set (q := a / b). unfold Rtrunc, Rltb.
  destruct (Rle_dec 0 q) as [P|P].
  - pose proof (base_Int_part q) as [B1 B2]. destruct (Rlt_dec q (IZR (Int_part q))) as [L|L]; [lra|]. exists (Int_part q). split; [reflexivity|]. lra.
  - pose proof (base_Int_part (- q)) as [B1 B2]. destruct (Rlt_dec q (- IZR (Int_part (- q)))) as [L|L].
    + exists (- Int_part (- q) - 1)%Z. rewrite minus_IZR, opp_IZR. split; [reflexivity|]. lra.
    + exists (- Int_part (- q))%Z. rewrite opp_IZR. split; [reflexivity|]. lra.
Qed.
Print Assumptions C62_floordiv.
Example C62_floordiv_ex : op_fun OpFloorDiv (-7 # 1)%Q 2%Q = (-4 # 1)%Q /\ op_fun OpFloorDiv 7%Q 2%Q = 3%Q /\ op_fun OpFloorDiv (-6 # 1)%Q 2%Q = (-3 # 1)%Q /\
  op_fun OpFloorDiv (fz (-7)) (fz 2) = fz (-4).
Proof. repeat split; vm_compute; reflexivity. Qed.

(** A point is true if and only if it has a coordinate; only the point of an
    empty sequence has none. *)
Theorem C62_truth : forall T (NT : Num T) (d : pdata T) dt p, point_init d dt = Ok p ->
  (p_bool p = false <-> match d with PSeq l => l = [] | PPoint q => p_bool q = false | _ => False end).
Proof.
  intros T NT d dt p E. destruct d as [x|l|q|]; cbn [point_init] in E; try discriminate; injection E as <-; unfold p_bool, p_ndim, arr_size; cbn [p_data arr_list].
  - cbn. split; [discriminate|contradiction].
  - rewrite map_length. destruct l; cbn; split; congruence.
  - destruct (p_data q) as [x|l]; cbn [arr_map arr_list]; [cbn; reflexivity|]. rewrite map_length. reflexivity.
Qed.
Print Assumptions C62_truth.
Example C62_truth_ex : exists p, point_init (PSeq []) None = Ok p /\ p_bool (T:=Q) p = false.
Proof. eexists. split; reflexivity. Qed.
