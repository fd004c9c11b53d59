(** C110: which points of a curve its derivatives, Frenet vectors, curvature and
    torsion at a point depend on. *)
From Coq Require Import PrimFloat.
From Coq Require Import String ZArith List Bool Arith Lia.
From Verif Require Import Num Py Numeric Curve Vec DiffGeom Spec VecFacts DiffGeomProofs DiffGeomProofs4 LocalProofs2.
Import ListNotations.
Local Notation float := PrimFloat.float.

(** ** C110 How far a point reaches in the differential geometry

    The theorems hold for every number type, so also bit for bit in binary64. *)

(** How many neighbours on each side an inner point needs. *)
Definition steps (q : prop) : option nat :=
  match q with
  | PT | PCumarclen => None
  | PFirst | PTangent | PSpeed | PFrenet1 => Some 1
  | PSecond | PNormal | PFrenet2 | PCurvature => Some 2
  | PThird | PBinormal | PFrenet3 | PTorsion => Some 3
  end%nat.

(** The property of the point number k (read through its index from the start or
    from the end) is the same for two curves of the same size and dimension which
    agree at the points up to [steps q] places away, one more at the ends. *)
Theorem C110_point : forall T (NT : Num T) (ST : NumSqrt T) (junk : T) (c c2 : curve T) q d k idx,
  wf c -> wf c2 -> c_size c2 = c_size c -> c_ndim c2 = c_ndim c -> steps q = Some d -> (k < c_size c)%nat ->
  (idx = Z.of_nat k \/ idx = Z.of_nat k - Z.of_nat (c_size c))%Z ->
  (forall l, (k <= l + d)%nat -> (l <= k + d)%nat -> nth l (c_rows c) [] = nth l (c_rows c2) []) ->
  (k = 0%nat \/ S k = c_size c -> forall l, (k <= l + S d)%nat -> (l <= k + S d)%nat -> nth l (c_rows c) [] = nth l (c_rows c2) []) ->
  point_prop junk c idx q = point_prop junk c2 idx q.
Proof.
  intros T NT ST junk c c2 q d k idx W W2 Sz Nd Hq Hk Hi A B. unfold c_size in *.
  assert (N : near_rows (reach d k (length (c_rows c))) k (c_rows c) (c_rows c2)).
  { unfold reach. destruct (Nat.eqb_spec k 0) as [E0|E0]; cbn [orb]; [exact (B (or_introl E0))|].
    destruct (Nat.eqb_spec k (length (c_rows c) - 1)) as [E1|E1]; [refine (B (or_intror _)); lia|exact A]. }
  assert (Bc : c_bool c = true) by (apply c_bool_wf; [exact W|intros X; rewrite X in Hk; cbn in Hk; lia]).
  assert (Bc2 : c_bool c2 = true) by (apply c_bool_wf; [exact W2|intros X; rewrite X in Sz; cbn in Sz; lia]).
  unfold point_prop, curve_prop. cbv zeta. rewrite Bc, Bc2, Nd. cbn [negb].
  assert (M : forall F, loc [] d F -> rmap (VRow (T := T)) (np_get (F (c_rows c)) idx) = rmap (VRow (T := T)) (np_get (F (c_rows c2)) idx))
    by (intros F HF; f_equal; exact (loc_get [] d F _ _ k idx HF (eq_sym Sz) Hk Hi N)).
  assert (V : forall F, loc n0 d F -> rmap (VNum (T := T)) (np_get (F (c_rows c)) idx) = rmap (VNum (T := T)) (np_get (F (c_rows c2)) idx))
    by (intros F HF; f_equal; exact (loc_get n0 d F _ _ k idx HF (eq_sym Sz) Hk Hi N)).
  destruct q; cbn [steps] in Hq; try discriminate; inversion Hq; subst d; cbn [rbind arr_get];
    first [apply M; first [exact loc_d1|exact loc_d2|exact loc_d3|exact loc_n|exact loc_b|exact loc_e1|exact loc_e2|exact loc_e3]
          |apply V; first [exact loc_speed|exact loc_t]|idtac].
  destruct (Nat.eqb (c_ndim c) 2); [|cbn [rbind arr_get]; apply V; exact loc_cs].
  unfold curvature_plane. rewrite Sz. destruct (Nat.eqb (length (c_rows c)) 1); [reflexivity|]. cbn [rmap rbind arr_get]. exact (V _ loc_cp).
Qed.
Print Assumptions C110_point.

(** The cumulative arc length at a point depends on the points up to it. *)
Theorem C110_cumarclen : forall T (NT : Num T) (ST : NumSqrt T) (junk : T) (c c2 : curve T) k idx,
  wf c -> wf c2 -> c_size c2 = c_size c -> (k < c_size c)%nat ->
  (idx = Z.of_nat k \/ idx = Z.of_nat k - Z.of_nat (c_size c))%Z ->
  (forall l, (l <= k)%nat -> nth l (c_rows c) [] = nth l (c_rows c2) []) ->
  point_prop junk c idx PCumarclen = point_prop junk c2 idx PCumarclen.
Proof.
  intros T NT ST junk c c2 k idx W W2 Sz Hk Hi A. unfold c_size in *.
  assert (Bc : c_bool c = true) by (apply c_bool_wf; [exact W|intros X; rewrite X in Hk; cbn in Hk; lia]).
  assert (Bc2 : c_bool c2 = true) by (apply c_bool_wf; [exact W2|intros X; rewrite X in Sz; cbn in Sz; lia]).
  unfold point_prop, curve_prop. cbv zeta. rewrite Bc, Bc2. cbn [negb rbind arr_get]. f_equal.
  pose proof (gen_cumarclen junk c Bc) as L1. pose proof (gen_cumarclen junk c2 Bc2) as L2. unfold c_size in L1, L2.
  apply (np_get_same n0 _ _ (length (c_rows c)) k); [exact L1|congruence|exact Hk|exact Hi|].
  unfold c_cumarclen, c_chordlen. rewrite Bc, Bc2. cbn [negb]. destruct k as [|k]; [reflexivity|]. cbn [nth].
  apply cumsum_prefix; [rewrite !gen_chordlen; congruence|]. intros j Hj. apply chord_at; [congruence|apply A; lia|apply A; lia].
Qed.
Print Assumptions C110_cumarclen.

(** A case: nine points in space, the sixth moved; then the first derivative is the
    same at the fourth and differs at the fifth. *)
Definition rfar (z : Z) (i : nat) : curve float :=
  mkCurve (map (fun k => if Nat.eqb k i then [fz z; fz z; fz 1] else [fz (Z.of_nat k); fz (Z.of_nat k ^ 2); fz (Z.of_nat k ^ 3)]) (seq 0 9)) 3 DFloat None.
Lemma rfar_wf z i : wf (rfar z i).
Proof.
  split; [cbn; lia|]. split; [|discriminate]. intros p Hp. unfold rfar in Hp. cbn [c_rows] in Hp. apply in_map_iff in Hp as (k & <- & _).
  destruct (Nat.eqb k i); reflexivity.
Qed.
Example C110_ex : point_prop nan (rfar 0 5) 3 PFirst = point_prop nan (rfar 7 5) 3 PFirst /\
  point_prop nan (rfar 0 5) 1 PTorsion = point_prop nan (rfar 7 5) 1 PTorsion /\
  point_prop nan (rfar 0 5) (-7) PCurvature = point_prop nan (rfar 7 5) (-7) PCurvature.
Proof.
  assert (A : forall l, l <> 5%nat -> nth l (c_rows (rfar 0 5)) [] = nth l (c_rows (rfar 7 5)) []).
  { intros l Hl. do 9 (destruct l as [|l]; [first [lia|reflexivity]|]). destruct l; reflexivity. }
  split; [apply (C110_point _ _ _ nan (rfar 0 5) (rfar 7 5) PFirst 1 3)|split; [apply (C110_point _ _ _ nan (rfar 0 5) (rfar 7 5) PTorsion 3 1)|apply (C110_point _ _ _ nan (rfar 0 5) (rfar 7 5) PCurvature 2 2)]];
    try apply rfar_wf; try reflexivity; try (left; reflexivity); try (right; reflexivity); try (cbn; lia); intros; try (apply A; lia);
    match goal with H : _ \/ _ |- _ => cbn in H; lia end.
Qed.

(** Whether two values at a point differ in a coordinate. *)
Definition differ (x y : float) : bool := PrimFloat.ltb x y || PrimFloat.ltb y x.
Definition vdiffer (a b : res (pval float)) : bool :=
  match a, b with
  | Ok (VNum x), Ok (VNum y) => differ x y
  | Ok (VRow u), Ok (VRow v) => existsb (fun '(x, y) => differ x y) (combine u v)
  | _, _ => false
  end.

(** Sharp for each of the properties: moving the point [steps q] places before or
    after an inner point changes the value there. *)
Theorem C110_steps_refuted : forall q d, steps q = Some d ->
  exists (c before after : curve float), wf c /\ wf before /\ wf after /\ c_size c = 9%nat /\ c_size before = 9%nat /\ c_size after = 9%nat /\
    (forall l, l <> (4 - d)%nat -> nth l (c_rows c) [] = nth l (c_rows before) []) /\
    (forall l, l <> (4 + d)%nat -> nth l (c_rows c) [] = nth l (c_rows after) []) /\
    vdiffer (point_prop nan c 4 q) (point_prop nan before 4 q) = true /\ vdiffer (point_prop nan c 4 q) (point_prop nan after 4 q) = true.
Proof.
  intros q d Hq. exists (rfar 0 100), (rfar 11 (4 - d)), (rfar 11 (4 + d)).
  do 3 (split; [apply rfar_wf|]). do 3 (split; [reflexivity|]).
  assert (Hd : (d <= 3)%nat) by (destruct q; cbn in Hq; inversion Hq; lia).
  split; [intros l Hl; do 4 (destruct d as [|d]; [do 9 (destruct l as [|l]; [first [exfalso; cbn in Hl; lia|reflexivity]|]); destruct l; reflexivity|]); lia|].
  split; [intros l Hl; do 4 (destruct d as [|d]; [do 9 (destruct l as [|l]; [first [exfalso; cbn in Hl; lia|reflexivity]|]); destruct l; reflexivity|]); lia|].
  destruct q; cbn in Hq; inversion Hq; subst d; split; vm_compute; reflexivity.
Qed.
Print Assumptions C110_steps_refuted.

(** At the first point the additional step is needed. *)
Theorem C110_ends_refuted : forall q d, steps q = Some d ->
  exists (c after : curve float), wf c /\ wf after /\ c_size c = 9%nat /\ c_size after = 9%nat /\
    (forall l, l <> S d -> nth l (c_rows c) [] = nth l (c_rows after) []) /\
    vdiffer (point_prop nan c 0 q) (point_prop nan after 0 q) = true.
Proof.
  intros q d Hq. exists (rfar 0 100), (rfar 11 (S d)).
  do 2 (split; [apply rfar_wf|]). do 2 (split; [reflexivity|]).
  assert (Hd : (d <= 3)%nat) by (destruct q; cbn in Hq; inversion Hq; lia).
  split; [intros l Hl; do 4 (destruct d as [|d]; [do 9 (destruct l as [|l]; [first [exfalso; cbn in Hl; lia|reflexivity]|]); destruct l; reflexivity|]); lia|].
  destruct q; cbn in Hq; inversion Hq; subst d; vm_compute; reflexivity.
Qed.
Print Assumptions C110_ends_refuted.

(** But the cumulative arc length depends on every point before. *)
Theorem C110_cumarclen_refuted : exists (c before : curve float), wf c /\ wf before /\ c_size c = c_size before /\
  (forall l, l <> 0%nat -> nth l (c_rows c) [] = nth l (c_rows before) []) /\ vdiffer (point_prop nan c 8 PCumarclen) (point_prop nan before 8 PCumarclen) = true.
Proof.
  exists (rfar 0 100), (rfar 11 0). do 2 (split; [apply rfar_wf|]). split; [reflexivity|].
  split; [intros l Hl; do 9 (destruct l as [|l]; [first [lia|reflexivity]|]); destruct l; reflexivity|]. vm_compute. reflexivity.
Qed.
Print Assumptions C110_cumarclen_refuted.
