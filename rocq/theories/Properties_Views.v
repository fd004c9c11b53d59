(** Property C83: curve points and curve segments as objects. *)
From Coq Require Import ZArith List Bool Arith Lia QArith PrimFloat Reals Lra.
From Verif Require Import Num Py Numeric Curve Vec Geom DiffGeom Views Spec GeomSpec Fixtures.
From Verif Require Import ListFacts ArrayProofs VecFacts CurveProofs CurveProofs2 CurveProofs3 GeomProofs DiffGeomProofs DiffGeomProofs4 ViewsProofs FloatProofs.
From Verif Require Import Properties_DiffGeom.
Import ListNotations.
Local Open Scope list_scope.

(** ** C83 Views *)

(** A copy (shallow or deep) of the point c[i] exists for every accepted i.  It
    is a point of the same curve object with the same coordinates and the same
    values of all properties; its idx is the true position i mod size; copying
    again changes nothing; and it differs from the original exactly when i was
    below -size. *)
Theorem C83_copy : forall T (NT : Num T) (ST : NumSqrt T) junk (r : cref T) i p,
  wf (rf_curve r) -> cp_new r i = Ok p ->
  exists p', cp_copy p = Ok p' /\ cp_ref p' = r /\ cp_data p' = cp_data p /\
    cp_idx p' = (i mod Z.of_nat (c_size (rf_curve r)))%Z /\ cp_copy p' = Ok p' /\
    (p' = p <-> (- Z.of_nat (c_size (rf_curve r)) <= i)%Z) /\
    cp_t junk p' = cp_t junk p /\
    (forall q, point_prop junk (rf_curve r) (cp_idx p') q = point_prop junk (rf_curve r) (cp_idx p) q).
Proof.
  intros T NT ST junk r i p W H. pose proof (cp_copy_spec r i p H) as C. destruct (cp_new_inv r i p H) as (B & x & E & Ep).
  exists (mkCPoint r (Z.of_nat (around r i)) (cp_data p)). cbn [cp_ref cp_data cp_idx].
  assert (K : (around r i < c_size (rf_curve r))%nat) by (apply around_lt; lia).
  destruct (cp_new_nonneg r (around r i) K) as (y & Ey & Gy). rewrite E in Ey. injection Ey as <-.
  assert (D : cp_data p = x) by (rewrite Ep; reflexivity).
  split; [assumption|]. split; [reflexivity|]. split; [reflexivity|].
  split; [unfold around; rewrite Z2Nat.id by (apply Z.mod_pos_bound; lia); reflexivity|].
  split; [unfold cp_copy; cbn [cp_ref cp_idx]; rewrite Gy, D; reflexivity|].
  split.
  - fold (rf_len r). destruct (stored_wraps r i B) as (Hw & Hn). rewrite Ep. cbn [cp_data]. split.
    + intros Q. injection Q as Q. destruct (Z_lt_ge_dec i (- rf_len r)) as [L|L]; [|lia].
      apply Hn in L. lia.
    + intros G. f_equal. destruct Hw as [->|Hw]; [reflexivity|]. unfold rf_len in *. lia.
  - split.
    + destruct (cp_t_spec junk r i p W H) as (u & Eu & Nu). rewrite Eu.
      destruct (cp_t_spec junk r (Z.of_nat (around r i)) _ W Gy) as (v & Ev & Nv). rewrite D, Ev.
      replace (around r (Z.of_nat (around r i))) with (around r i) in Nv
        by (unfold around at 2; rewrite Z.mod_small by (unfold rf_len; lia); lia).
      congruence.
    + intros q. symmetry. apply point_prop_around; assumption.
Qed.
Print Assumptions C83_copy.
Example C83_copy_ex : let r := mkRef 7 q4 in
  cp_new r 2 = Ok (mkCPoint r 2 [1; 1]%Q) /\ cp_copy (mkCPoint r 2 [1; 1]%Q) = Ok (mkCPoint r 2 [1; 1]%Q) /\
  cp_new r (-6) = Ok (mkCPoint r (-2) [1; 1]%Q) /\ cp_copy (mkCPoint r (-2) [1; 1]%Q) = Ok (mkCPoint r 2 [1; 1]%Q).
Proof. repeat split. Qed.

(** copy(p).idx == p.idx is false for every point c[i] with i < -size. *)
Theorem C83_copy_index_refuted : forall T (r : cref T) i,
  (- 2 * Z.of_nat (c_size (rf_curve r)) <= i < - Z.of_nat (c_size (rf_curve r)))%Z ->
  exists p p', cp_new r i = Ok p /\ cp_copy p = Ok p' /\ (cp_idx p < 0 <= cp_idx p')%Z.
Proof.
  intros T r i B. destruct (cp_new_ok r i) as (x & E & H); [unfold rf_len; lia|].
  eexists. eexists. split; [exact H|]. split; [exact (cp_copy_spec r i _ H)|]. cbn [cp_idx].
  unfold rf_len. destruct (Z.ltb_spec i 0); lia.
Qed.
Print Assumptions C83_copy_index_refuted.

(** The t of a point: the parameter at its position; without parameters, the
    length of the polygon from the first point to this one. *)
Theorem C83_t : forall junk (r : cref R) i p,
  wf (rf_curve r) -> cp_new r i = Ok p ->
  exists k, Z.of_nat k = (i mod Z.of_nat (c_size (rf_curve r)))%Z /\
    match c_t (rf_curve r) with
    | Some t => cp_t junk p = Ok (nth k t 0%R)
    | None => cp_t junk p = Ok (polyline (firstn (S k) (c_rows (rf_curve r))))
    end.
Proof.
  intros junk r i p W H. destruct (cp_new_inv r i p H) as (B & x & E & _).
  destruct (cp_t_spec junk r i p W H) as (u & Eu & Nu). exists (around r i).
  split; [unfold around; rewrite Z2Nat.id by (apply Z.mod_pos_bound; lia); reflexivity|].
  pose proof (around_lt r i ltac:(lia)) as L. rewrite Eu. unfold c_tval in Nu. destruct (c_t (rf_curve r)) as [t|].
  - f_equal. symmetry. apply nth_error_nth. assumption.
  - f_equal. rewrite <- (cumarclen_polyline (c_ndim (rf_curve r)) junk (rf_curve r)).
    + symmetry. apply nth_error_nth. assumption.
    + destruct W as (_ & D & _). exact D.
    + apply (wf_nonempty_bool r i); assumption.
    + exact L.
Qed.
Print Assumptions C83_t.
Example C83_t_ex : let r := mkRef 0 rpath in
  exists p, cp_new r (-2) = Ok p /\ cp_t 99%R p = Ok 5%R.
Proof.
  cbv zeta. eexists. split; [reflexivity|].
  destruct (C83_t 99%R (mkRef 0 rpath) (-2) (mkCPoint (mkRef 0 rpath) 1 [3; 4]%R) rpath_wf eq_refl) as (k & Hk & E).
  change (-2 mod Z.of_nat (c_size (rf_curve (mkRef 0 rpath))))%Z with 1%Z in Hk. replace k with 1%nat in E by lia.
  cbn in E. etransitivity; [exact E|]. f_equal. unfold dist, norm. cbn. rewrite Rplus_0_r.
  replace (_ + _)%R with (5 * 5)%R by lra. apply sqrt_square. lra.
Qed.

(** subcurve: only another CurvePoint is accepted (TypeError), and only of the
    same curve object (ValueError, even if the curves are equal). *)
Theorem C83_subcurve_errors : forall T (p : cpoint T) endpoint,
  cp_subcurve p PAOther endpoint = Raise TypeError /\
  (forall o, rf_id (cp_ref p) <> rf_id (cp_ref o) -> cp_subcurve p (PAView o) endpoint = Raise ValueError).
Proof.
  intros T p e. split; [reflexivity|]. intros o H. unfold cp_subcurve. destruct (Nat.eqb_spec (rf_id (cp_ref p)) (rf_id (cp_ref o))); [contradiction|reflexivity].
Qed.
Print Assumptions C83_subcurve_errors.
Example C83_subcurve_errors_ex : let p := mkCPoint (mkRef 1 q4) 0 [0; 0]%Q in let o := mkCPoint (mkRef 2 q4) 3 [1; 0]%Q in
  cp_subcurve p (PAView o) true = Raise ValueError /\ exists c, cp_subcurve p (PAView (mkCPoint (mkRef 1 q4) 3 [1; 0]%Q)) true = Ok c.
Proof. split; [reflexivity|]. eexists. reflexivity. Qed.

(** The sub-curve between c[i] and c[j]: the points from position a = i mod size
    to position b = j mod size, the last included or not, in order; empty if
    b < a.  This holds for every accepted i and j, except for the end point
    c[-size-1]. *)
Theorem C83_subcurve : forall T (r : cref T) i j p o endpoint,
  wf (rf_curve r) -> cp_new r i = Ok p -> cp_new r j = Ok o ->
  (endpoint = true -> j <> - Z.of_nat (c_size (rf_curve r)) - 1)%Z ->
  exists a b c', Z.of_nat a = (i mod Z.of_nat (c_size (rf_curve r)))%Z /\ Z.of_nat b = (j mod Z.of_nat (c_size (rf_curve r)))%Z /\
    cp_subcurve p (PAView o) endpoint = Ok c' /\ wf c' /\
    selects (rf_curve r) (seq a ((if endpoint then b + 1 else b) - a)) c'.
Proof.
  intros T r i j p o e W Hp Ho N. destruct (cp_new_inv r i p Hp) as (Bi & _). destruct (cp_new_inv r j o Ho) as (Bj & _).
  destruct (cp_subcurve_spec r i j p o e W Hp Ho) as (c' & H & S & Wc). exists (around r i), (around r j), c'.
  split; [unfold around; rewrite Z2Nat.id by (apply Z.mod_pos_bound; lia); reflexivity|].
  split; [unfold around; rewrite Z2Nat.id by (apply Z.mod_pos_bound; lia); reflexivity|].
  split; [assumption|]. split; [assumption|]. unfold stop_of in S. destruct e; [|assumption].
  destruct (Z.eqb_spec j (- rf_len r - 1)) as [->|_]; [destruct (N eq_refl); reflexivity|]. rewrite Nat.add_1_r. assumption.
Qed.
Print Assumptions C83_subcurve.
Example C83_subcurve_ex : let r := mkRef 0 q4 in let at_ i x := mkCPoint r i x in
  cp_subcurve (at_ 1%Z [1; 0]%Q) (PAView (at_ (-2)%Z [1; 1]%Q)) true = Ok (mkCurve [[1; 0]; [1; 1]]%Q 2 DFloat (Some [1; 2]%Q)) /\
  cp_subcurve (at_ 2%Z [1; 1]%Q) (PAView (at_ 1%Z [1; 0]%Q)) true = Ok (mkCurve [] 2 DFloat (Some [])).
Proof. repeat split. Qed.

(** c[-size-1] is the last point, but a sub-curve up to and including it is
    always empty, whereas c[-1], with the same coordinates and the same
    properties, gives the rest of the curve. *)
Theorem C83_subcurve_last_refuted : forall T (r : cref T) i p,
  wf (rf_curve r) -> cp_new r i = Ok p ->
  let n := Z.of_nat (c_size (rf_curve r)) in
  exists o o' c1 c2, cp_new r (- n - 1) = Ok o /\ cp_new r (-1) = Ok o' /\ cp_data o = cp_data o' /\
    cp_subcurve p (PAView o) true = Ok c1 /\ c_rows c1 = [] /\
    cp_subcurve p (PAView o') true = Ok c2 /\ c_rows c2 <> [].
Proof.
  intros T r i p W Hp n. destruct (cp_new_inv r i p Hp) as (Bi & _).
  assert (P : (1 <= rf_len r)%Z) by lia.
  destruct (cp_new_ok r (- n - 1)) as (x & Ex & Hx); [unfold rf_len in *; fold n in P |- *; lia|].
  destruct (cp_new_ok r (-1)) as (y & Ey & Hy); [lia|].
  destruct (cp_subcurve_spec r i _ p _ true W Hp Hx) as (c1 & H1 & S1 & _).
  destruct (cp_subcurve_spec r i _ p _ true W Hp Hy) as (c2 & H2 & S2 & _).
  do 4 eexists. split; [exact Hx|]. split; [exact Hy|]. cbn [cp_data].
  assert (A : around r (- n - 1) = around r (-1)).
  { unfold around. f_equal. rewrite <- (Z_mod_plus_full (- n - 1) 1 (rf_len r)). f_equal. unfold rf_len, n. lia. }
  rewrite A in Ex. split; [congruence|]. split; [exact H1|]. split.
  - destruct S1 as (S1 & _). unfold stop_of in S1. replace (- n - 1 =? - rf_len r - 1)%Z with true in S1 by (symmetry; apply Z.eqb_eq; reflexivity).
    cbn [Nat.sub seq] in S1. inversion S1. reflexivity.
  - split; [exact H2|]. destruct S2 as (S2 & _). intros N. rewrite N in S2. unfold stop_of in S2.
    destruct (Z.eqb_spec (-1) (- rf_len r - 1)) as [Q|_]; [lia|].
    assert (A1 : around r (-1) = (c_size (rf_curve r) - 1)%nat).
    { unfold around. rewrite <- (Z.mod_unique (-1) (rf_len r) (-1) (rf_len r - 1)); [unfold rf_len; lia|lia|lia]. }
    rewrite A1 in S2. pose proof (around_lt r i ltac:(lia)).
    replace (S (c_size (rf_curve r) - 1) - around r i)%nat with (S (c_size (rf_curve r) - 1 - around r i)) in S2 by lia.
    cbn [seq] in S2. inversion S2.
Qed.
Print Assumptions C83_subcurve_last_refuted.

(** CurveSegment(c, i): accepted exactly for 1 - 3 size <= i < size - 1;
    ValueError above, IndexError below.  The stored idx is i, or size - 1 + i
    for a negative i; the end points are c[idx] and c[idx+1], at the positions
    idx mod size and (idx + 1) mod size. *)
Theorem C83_segment : forall T (r : cref T) i,
  let n := Z.of_nat (c_size (rf_curve r)) in
  let idx := (if (i <? 0)%Z then n - 1 + i else i)%Z in
  ((1 - 3 * n <= i < n - 1)%Z ->
     exists s, cs_new r i = Ok s /\ cs_ref s = r /\ cs_idx s = idx /\
       cp_new r idx = Ok (cs_p1 s) /\ cp_new r (idx + 1) = Ok (cs_p2 s) /\
       nth_error (c_rows (rf_curve r)) (Z.to_nat (idx mod n)) = Some (cp_data (cs_p1 s)) /\
       nth_error (c_rows (rf_curve r)) (Z.to_nat ((idx + 1) mod n)) = Some (cp_data (cs_p2 s))) /\
  ((0 <= i /\ n - 1 <= i)%Z -> cs_new r i = Raise ValueError) /\
  ((i < 0 /\ i < 1 - 3 * n)%Z -> cs_new r i = Raise IndexError).
Proof.
  intros T r i n idx. change n with (rf_len r) in *. change idx with (seg_stored r i). unfold seg_stored in idx. repeat split.
  - intros H. assert (H1 : (1 <= rf_len r)%Z) by lia. destruct (cs_new_spec r i H1) as (Ok_ & _).
    destruct Ok_ as (p & q & Hp & Hq & Hs); [unfold seg_stored; destruct (Z.ltb_spec i 0); lia|].
    eexists. split; [exact Hs|]. cbn [cs_ref cs_idx cs_p1 cs_p2]. repeat split; try assumption.
    + destruct (cp_new_inv r _ p Hp) as (_ & x & E & ->). exact E.
    + destruct (cp_new_inv r _ q Hq) as (_ & x & E & ->). exact E.
  - intros H. unfold cs_new. cbv zeta. fold (rf_len r). fold (seg_stored r i).
    destruct (Z.leb_spec (rf_len r - 1) (seg_stored r i)) as [L|L]; [reflexivity|]. unfold seg_stored in L. destruct (Z.ltb_spec i 0); lia.
  - intros H. unfold cs_new. cbv zeta. fold (rf_len r). fold (seg_stored r i).
    destruct (Z.leb_spec (rf_len r - 1) (seg_stored r i)) as [L|L]; [unfold seg_stored in L; destruct (Z.ltb_spec i 0); lia|].
    rewrite cp_new_raise; [reflexivity|]. unfold seg_stored, rf_len in *. destruct (Z.ltb_spec i 0); lia.
Qed.
Print Assumptions C83_segment.
Example C83_segment_ex : let r := mkRef 0 q3d in
  (exists s, cs_new r 1 = Ok s /\ cs_idx s = 1%Z /\ cp_data (cs_p1 s) = [3; 4; 5]%Q /\ cp_data (cs_p2 s) = [6; 7; 8]%Q) /\
  (exists s, cs_new r (-8) = Ok s /\ cs_idx s = (-6)%Z /\ cp_data (cs_p1 s) = [0; 1; 2]%Q /\ cp_idx (cs_p1 s) = (-3)%Z) /\
  cs_new r 2 = Raise ValueError /\ cs_new r (-9) = Raise IndexError /\ cs_new (mkRef 0 qe3) 0 = Raise ValueError.
Proof. split; [eexists; repeat split|]. split; [eexists; repeat split|]. repeat split. Qed.

(** curve.segments: one segment per pair of neighbours, with idx 0, 1, ..., each
    a segment of this very curve object whose end points are its points with
    neighbouring indices. *)
Theorem C83_segments : forall T (r : cref T),
  exists l, cs_all r = Ok l /\ length l = (c_size (rf_curve r) - 1)%nat /\
    forall k s, nth_error l k = Some s ->
      cs_ref s = r /\ cs_idx s = Z.of_nat k /\
      cp_ref (cs_p1 s) = r /\ cp_idx (cs_p1 s) = Z.of_nat k /\ nth_error (c_rows (rf_curve r)) k = Some (cp_data (cs_p1 s)) /\
      cp_ref (cs_p2 s) = r /\ cp_idx (cs_p2 s) = Z.of_nat (S k) /\ nth_error (c_rows (rf_curve r)) (S k) = Some (cp_data (cs_p2 s)).
Proof.
  intros T r. set (row := fun k => nth k (c_rows (rf_curve r)) []).
  set (f := fun k => mkCSeg r (Z.of_nat k) (mkCPoint r (Z.of_nat k) (row k)) (mkCPoint r (Z.of_nat (S k)) (row (S k)))).
  exists (map f (seq 0 (c_size (rf_curve r) - 1))). split; [|split].
  - unfold cs_all. apply rseq_ok_iff. rewrite map_map. apply map_ext_in. intros k Hk. apply in_seq in Hk.
    unfold cs_new. cbv zeta. destruct (Z.ltb_spec (Z.of_nat k) 0); [lia|].
    destruct (Z.leb_spec (Z.of_nat (c_size (rf_curve r)) - 1) (Z.of_nat k)); [lia|].
    destruct (cp_new_nonneg r k) as (x & Ex & ->); [lia|]. cbn [rbind].
    replace (Z.of_nat k + 1)%Z with (Z.of_nat (S k)) by lia.
    destruct (cp_new_nonneg r (S k)) as (y & Ey & ->); [lia|]. cbn [rbind]. unfold f, row.
    rewrite (nth_error_nth _ _ [] Ex), (nth_error_nth _ _ [] Ey). reflexivity.
  - rewrite map_length, seq_length. reflexivity.
  - intros k s Hs. assert (L : (k < c_size (rf_curve r) - 1)%nat).
    { apply Nat.lt_le_trans with (length (map f (seq 0 (c_size (rf_curve r) - 1)))); [apply nth_error_Some; congruence|]. rewrite map_length, seq_length. lia. }
    rewrite nth_error_map in Hs. rewrite (nth_error_nth' _ 0%nat) in Hs by (rewrite seq_length; lia). rewrite seq_nth in Hs by lia.
    cbn [option_map] in Hs. injection Hs as <-. cbn [cs_ref cs_idx cs_p1 cs_p2 cp_ref cp_idx cp_data Nat.add]. unfold row.
    repeat split; apply nth_error_nth'; unfold c_size in L; lia.
Qed.
Print Assumptions C83_segments.
Example C83_segments_ex : exists l, cs_all (mkRef 3 q4) = Ok l /\ map cs_idx l = [0; 1; 2]%Z.
Proof. eexists. split; reflexivity. Qed.

(** The chord length of a segment with idx >= 0 is the distance of its end
    points (the docstring allows it to be greater; it never is). *)
Lemma cs_inv {T} (r : cref T) i s : cs_new r i = Ok s ->
  let n := Z.of_nat (c_size (rf_curve r)) in
  (cs_ref s = r /\ - 2 * n <= cs_idx s < n - 1)%Z /\ cp_new r (cs_idx s) = Ok (cs_p1 s) /\ cp_new r (cs_idx s + 1) = Ok (cs_p2 s).
Proof.
  unfold cs_new. cbv zeta. fold (rf_len r). fold (seg_stored r i). set (x := seg_stored r i).
  destruct (Z.leb_spec (rf_len r - 1) x) as [L|L]; [discriminate|].
  destruct (cp_new r x) as [p|] eqn:Ep; cbn [rbind]; [|discriminate].
  destruct (cp_new r (x + 1)) as [q|] eqn:Eq; cbn [rbind]; [|discriminate].
  intros H. injection H as <-. cbn [cs_ref cs_idx cs_p1 cs_p2]. destruct (cp_new_inv r x p Ep) as (B & _). repeat split; [lia|lia|assumption|assumption].
Qed.

Lemma chord_at {T} {NT : Num T} {ST : NumSqrt T} junk (c : curve T) k p q : c_bool c = true ->
  nth_error (c_rows c) k = Some p -> nth_error (c_rows c) (S k) = Some q -> nth_error (c_chordlen junk c) k = Some (chord p q).
Proof. intros B Hp Hq. rewrite c_chordlen_rows by assumption. apply (@CurveProofs3.chordlen_rows_nth T NT ST (c_rows c) k p q Hp Hq). Qed.

(** For any arithmetic: the square root of the sum of the squared differences,
    "second minus first". *)
Theorem C83_chordlen_any : forall T (NT : Num T) (ST : NumSqrt T) junk (r : cref T) i s,
  wf (rf_curve r) -> cs_new r i = Ok s -> (0 <= cs_idx s)%Z ->
  cs_chordlen junk s = Ok (chord (cp_data (cs_p1 s)) (cp_data (cs_p2 s))).
Proof.
  intros T NT ST junk r i s W H P. destruct (cs_inv r i s H) as ((Er & B) & Hp & Hq).
  destruct (cp_new_inv _ _ _ Hp) as (Bp & x & Ex & Dx). destruct (cp_new_inv _ _ _ Hq) as (Bq & y & Ey & Dy).
  pose proof (wf_nonempty_bool r _ W Bp) as Bb. fold (rf_len r) in B.
  assert (A1 : around r (cs_idx s) = Z.to_nat (cs_idx s)) by (unfold around; rewrite Z.mod_small by lia; reflexivity).
  assert (A2 : around r (cs_idx s + 1) = S (Z.to_nat (cs_idx s))) by (unfold around; rewrite Z.mod_small by lia; lia).
  rewrite A1 in Ex. rewrite A2 in Ey. unfold cs_chordlen. rewrite Er. rewrite Dx, Dy. cbn [cp_data].
  pose proof (chord_at junk (rf_curve r) _ x y Bb Ex Ey) as C.
  rewrite <- (Z2Nat.id (cs_idx s)) by assumption. apply np_get_nat. assumption.
Qed.
Print Assumptions C83_chordlen_any.

Theorem C83_chordlen : forall junk (r : cref R) i s,
  wf (rf_curve r) -> cs_new r i = Ok s -> (0 <= cs_idx s)%Z ->
  cs_chordlen junk s = Ok (cs_seglen s) /\ cs_seglen s = dist (cp_data (cs_p1 s)) (cp_data (cs_p2 s)).
Proof.
  intros junk r i s W H P. rewrite (C83_chordlen_any R RNum RSqrt junk r i s W H P).
  destruct (cs_inv r i s H) as (_ & Hp & Hq).
  destruct (cp_new_inv _ _ _ Hp) as (_ & x & Ex & Dx). destruct (cp_new_inv _ _ _ Hq) as (_ & y & Ey & Dy).
  assert (L : length (cp_data (cs_p1 s)) = length (cp_data (cs_p2 s))).
  { destruct W as (_ & D & _). rewrite Dx, Dy. cbn [cp_data].
    rewrite (D x) by (eapply nth_error_In; exact Ex). rewrite (D y) by (eapply nth_error_In; exact Ey). reflexivity. }
  unfold cs_seglen. assert (Q : dist (cp_data (cs_p1 s)) (cp_data (cs_p2 s)) = vdist (cp_data (cs_p1 s)) (cp_data (cs_p2 s))) by (apply dist_vdist; assumption).
  split; [|symmetry; exact Q]. f_equal. rewrite <- Q. unfold chord. rewrite <- sq_gap_diff. apply chord_row. assumption.
Qed.
Print Assumptions C83_chordlen.

(** In binary64 too, bit for bit. *)
Theorem C83_chordlen_float : forall junk (r : cref PrimFloat.float) i s,
  wf (rf_curve r) -> cs_new r i = Ok s -> (0 <= cs_idx s)%Z -> cs_chordlen junk s = Ok (cs_seglen s).
Proof.
  intros junk r i s W H P. rewrite (C83_chordlen_any PrimFloat.float _ _ junk r i s W H P).
  f_equal. unfold cs_seglen. rewrite vdist_chord. unfold chord. rewrite <- sq_gap_diff. reflexivity.
Qed.
Print Assumptions C83_chordlen_float.
Example C83_chordlen_ex :
  (exists s, cs_new (mkRef 0 rpath) (-1) = Ok s /\ cs_idx s = 1%Z /\ cs_chordlen 99%R s = Ok (cs_seglen s)) /\
  (exists s, cs_new (mkRef 0 finf) 1 = Ok s /\ cs_chordlen (fz 0) s = Ok (fz 5) /\ cs_seglen s = fz 5).
Proof.
  split.
  - destruct (C83_segment R (mkRef 0 rpath) (-1)) as ((s & H & _ & E & _) & _); [cbn; lia|]. exists s. split; [assumption|].
    split; [exact E|]. apply (C83_chordlen 99%R (mkRef 0 rpath) (-1) s rpath_wf H). rewrite E. cbn. lia.
  - eexists. split; [reflexivity|]. split; vm_compute; reflexivity.
Qed.

(** With a negative stored idx (from i <= -size) the chord length is not that of
    the segment: down to idx = -(size-1) it is the chord between the positions
    idx + size - 1 and idx + size, whereas the segment starts at position
    idx + size; below, it is an IndexError. *)
Theorem C83_chordlen_negative_refuted : forall T (NT : Num T) (ST : NumSqrt T) junk (r : cref T) i s,
  wf (rf_curve r) -> cs_new r i = Ok s -> (cs_idx s < 0)%Z ->
  let n := Z.of_nat (c_size (rf_curve r)) in
  ((- (n - 1) <= cs_idx s)%Z ->
     exists p, nth_error (c_rows (rf_curve r)) (Z.to_nat (cs_idx s + n - 1)) = Some p /\
       nth_error (c_rows (rf_curve r)) (Z.to_nat (cs_idx s + n)) = Some (cp_data (cs_p1 s)) /\
       cs_chordlen junk s = Ok (chord p (cp_data (cs_p1 s)))) /\
  ((cs_idx s < - (n - 1))%Z -> cs_chordlen junk s = Raise IndexError).
Proof.
  intros T NT ST junk r i s W H P n. destruct (cs_inv r i s H) as ((Er & B) & Hp & _).
  destruct (cp_new_inv _ _ _ Hp) as (Bp & x & Ex & Dx). pose proof (wf_nonempty_bool r _ W Bp) as Bb. fold (rf_len r) in B, n.
  assert (Ln : Z.of_nat (length (c_chordlen junk (rf_curve r))) = (n - 1)%Z).
  { rewrite c_chordlen_rows by assumption. rewrite gen_chordlen. unfold n, rf_len, c_size in *. lia. }
  unfold cs_chordlen. rewrite Er. split; intros Q.
  - assert (A1 : around r (cs_idx s) = Z.to_nat (cs_idx s + n)).
    { unfold around. rewrite <- (Z.mod_unique (cs_idx s) (rf_len r) (-1) (cs_idx s + n)); unfold n; [reflexivity|unfold n in Q; lia|lia]. }
    rewrite A1 in Ex. assert (A2 : Z.to_nat (cs_idx s + n) = S (Z.to_nat (cs_idx s + n - 1))) by lia.
    destruct (nth_error (c_rows (rf_curve r)) (Z.to_nat (cs_idx s + n - 1))) as [p|] eqn:Ep;
      [|apply nth_error_None in Ep; unfold n, rf_len, c_size in *; lia].
    exists p. split; [reflexivity|]. rewrite Dx. cbn [cp_data]. split; [assumption|].
    rewrite A2 in Ex. pose proof (chord_at junk (rf_curve r) _ p x Bb Ep Ex) as C.
    apply np_get_ok. exists (Z.to_nat (cs_idx s + n - 1)). split; [|assumption].
    split; [apply Nat.lt_le_trans with (length (c_chordlen junk (rf_curve r))); [apply nth_error_Some; congruence|lia]|].
    right. rewrite Ln. lia.
  - apply np_get_raise. rewrite Ln. lia.
Qed.
Print Assumptions C83_chordlen_negative_refuted.
Example C83_chordlen_negative_ex : let r := mkRef 0 (mkCurve [[fz 0; fz 0]; [fz 3; fz 4]; [fz 3; fz 16]] 2 DFloat None) in
  exists s s', cs_new r (-3) = Ok s /\ cs_idx s = (-1)%Z /\ cs_chordlen (fz 0) s = Ok (fz 12) /\ cp_data (cs_p2 s) = [fz 0; fz 0] /\
    cs_new r (-5) = Ok s' /\ cs_chordlen (fz 0) s' = Raise IndexError.
Proof. do 2 eexists. split; [reflexivity|]. split; [reflexivity|]. split; [vm_compute; reflexivity|]. split; [reflexivity|]. split; reflexivity. Qed.
