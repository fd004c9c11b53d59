(** C109: which points of a curve an interpolated point depends on. *)
From Coq Require Import PrimFloat.
From Coq Require Import String ZArith List Bool Arith Lia.
From Verif Require Import Num Py Numeric Curve Vec DiffGeom Registry Interp Splines Splines2 Spec VecFacts LocalProofs.
Import ListNotations.
Local Open Scope string_scope.
Local Notation float := PrimFloat.float.

(** ** C109 How far a point reaches

    The theorems hold for every number type, so also bit for bit in binary64.
    [c] and [c2] have the same parameters, size, dimension and data type and are
    interpolated on the same grid.  [in_piece behind xs v k] (LocalProofs.v): v lies
    between the parameters number k and k+1, before the first counts as piece 0 and
    after the last as the last piece. *)
Definition alike {T} {NT : Num T} {ST : NumSqrt T} (junk : T) (c c2 : curve T) : Prop :=
  wf c /\ wf c2 /\ (2 <= c_size c)%nat /\ c_size c2 = c_size c /\ c_ndim c2 = c_ndim c /\ c_dtype c2 = c_dtype c /\ c_tval junk c2 = c_tval junk c.

Lemma interpolate_created {T} {NT : Num T} {ST : NumSqrt T} {RT : NumRound T} junk few (r : registry (icreate T)) name create (c : curve T) s a :
  reg_find r name = Some create -> interpolate junk few r name c s = Ok a -> exists f, create c = Ok f.
Proof.
  intros F E. unfold interpolate, get_interpolator in E. rewrite F in E. destruct (create c) as [f|e]; [exists f; reflexivity|discriminate].
Qed.

Lemma nth_map_rows {T} (h : T -> T) (f : T -> list T) g i d : (i < length g)%nat -> nth i (map (map h) (map f g)) [] = map h (f (nth i g d)).
Proof.
  intros Hi. rewrite map_map. rewrite (nth_indep _ [] (map h (f d))) by (rewrite map_length; exact Hi). exact (map_nth (fun v => map h (f v)) g d i).
Qed.

(** PCHIP: the points k-1 to k+2. *)
Theorem C109_pchip : forall T (NT : Num T) (ST : NumSqrt T) (RT : NumRound T) (junk : T) few qnan ex (r : registry (icreate T)) name (c c2 : curve T) s g a a2 i k,
  alike junk c c2 -> reg_find r name = Some (pchip junk qnan ex) ->
  get_grid junk few c s = Ok g -> get_grid junk few c2 s = Ok g ->
  interpolate junk few r name c s = Ok a -> interpolate junk few r name c2 s = Ok a2 ->
  (i < length g)%nat -> in_piece nleb (c_tval junk c) (nth i g n0) k ->
  (forall l, (k <= l + 1)%nat -> (l <= k + 2)%nat -> nth l (c_rows c) [] = nth l (c_rows c2) []) ->
  nth i (c_rows a) [] = nth i (c_rows a2) [].
Proof.
  intros T NT ST RT junk few qnan ex r name c c2 s g a a2 i k (W & W2 & H & Sz & Nd & Dt & Tv) F G G2 E E2 Hi P A.
  assert (X : forall (c : curve T) f, pchip junk qnan ex c = Ok f -> exists h, f = as_array (c_ndim c) h /\ hermite_new qnan ex (c_tval junk c) (c_rows c) (Some (pchip_rows (c_tval junk c) (c_rows c) (c_ndim c))) (c_ndim c) = Ok h).
  { intros c0 f C. unfold pchip in C. cbv zeta in C. destruct (prepare_ok _ _); [|discriminate]. destruct (hermite_new _ _ _ _ _ _) as [h|e] eqn:Eh; cbn [rbind] in C; [|discriminate].
    inversion C. exists h. split; reflexivity. }
  destruct (interpolate_created _ _ _ _ _ _ _ _ F E) as (f & Cf). destruct (X c f Cf) as (h & -> & Nh).
  destruct (interpolate_created _ _ _ _ _ _ _ _ F E2) as (f2 & Cf2). destruct (X c2 f2 Cf2) as (h2 & -> & Nh2).
  rewrite (hermite_like _ _ _ _ _ _ _ _ _ _ _ _ _ W H F G Cf Nh E).
  rewrite (hermite_like _ _ _ _ _ _ _ _ _ _ _ _ _ W2 ltac:(lia) F G2 Cf2 Nh2 E2).
  rewrite !(nth_map_rows _ _ _ _ n0 Hi), Tv, Nd, Dt. f_equal.
  apply (hermite_at_local _ _ _ _ _ _ _ _ _ k P); [apply A; lia|apply A; lia| |]; apply (pchip_local _ _ _ _ k); (lia || exact A || apply P).
Qed.
Print Assumptions C109_pchip.

(** Cubic Hermite: also the points k-1 to k+2. *)
Theorem C109_hermite : forall T (NT : Num T) (ST : NumSqrt T) (RT : NumRound T) (junk : T) few qnan ex (r : registry (icreate T)) name (c c2 : curve T) s g a a2 i k,
  alike junk c c2 -> reg_find r name = Some (hermite junk qnan ex) ->
  get_grid junk few c s = Ok g -> get_grid junk few c2 s = Ok g ->
  interpolate junk few r name c s = Ok a -> interpolate junk few r name c2 s = Ok a2 ->
  (i < length g)%nat -> in_piece nleb (c_tval junk c) (nth i g n0) k ->
  (forall l, (k <= l + 1)%nat -> (l <= k + 2)%nat -> nth l (c_rows c) [] = nth l (c_rows c2) []) ->
  nth i (c_rows a) [] = nth i (c_rows a2) [].
Proof.
  intros T NT ST RT junk few qnan ex r name c c2 s g a a2 i k (W & W2 & H & Sz & Nd & Dt & Tv) F G G2 E E2 Hi P A.
  assert (X : forall (c : curve T) f, wf c -> (2 <= c_size c)%nat -> hermite junk qnan ex c = Ok f -> exists h, f = as_array (c_ndim c) h /\ hermite_new qnan ex (c_tval junk c) (c_rows c) (Some (frenet1_rows (c_rows c))) (c_ndim c) = Ok h).
  { intros c0 f W0 H0 C. unfold hermite, curve_prop in C.
    assert (B : c_bool c0 = true) by (apply DiffGeomProofs.c_bool_wf; [exact W0|intros Z; unfold c_size in H0; rewrite Z in H0; cbn in H0; lia]).
    rewrite B in C. cbn [negb rbind] in C. destruct (hermite_new _ _ _ _ _ _) as [h|e] eqn:Eh; cbn [rbind] in C; [|discriminate].
    inversion C. exists h. split; reflexivity. }
  destruct (interpolate_created _ _ _ _ _ _ _ _ F E) as (f & Cf). destruct (X c f W H Cf) as (h & -> & Nh).
  destruct (interpolate_created _ _ _ _ _ _ _ _ F E2) as (f2 & Cf2). destruct (X c2 f2 W2 ltac:(lia) Cf2) as (h2 & -> & Nh2).
  pose proof (proj2 (hermite_new_at _ _ _ _ _ _ _ Nh)) as Ln.
  rewrite (hermite_like _ _ _ _ _ _ _ _ _ _ _ _ _ W H F G Cf Nh E).
  rewrite (hermite_like _ _ _ _ _ _ _ _ _ _ _ _ _ W2 ltac:(lia) F G2 Cf2 Nh2 E2).
  rewrite !(nth_map_rows _ _ _ _ n0 Hi), Tv, Nd, Dt. f_equal. unfold c_size in Sz. pose proof (proj1 P) as P1.
  apply (hermite_at_local _ _ _ _ _ _ _ _ _ k P); [apply A; lia|apply A; lia| |]; apply (frenet1_local _ _ k); (lia || exact A).
Qed.
Print Assumptions C109_hermite.

(** Linear: only the points k and k+1; the parameters may not go back.  A value that
    equals a parameter counts to the piece before it. *)
Theorem C109_linear : forall T (NT : Num T) (ST : NumSqrt T) (RT : NumRound T) (junk : T) few (r : registry (icreate T)) name (c c2 : curve T) s g a a2 i k,
  alike junk c c2 -> reg_find r name = Some (linear junk few) -> length (c_tval junk c) = c_size c ->
  (forall p, (p < c_size c)%nat -> nisnan (nth p (c_tval junk c) n0) = false) ->
  (forall p q, (p < q)%nat -> (q < c_size c)%nat -> nltb (nth q (c_tval junk c) n0) (nth p (c_tval junk c) n0) = false) ->
  get_grid junk few c s = Ok g -> get_grid junk few c2 s = Ok g ->
  interpolate junk few r name c s = Ok a -> interpolate junk few r name c2 s = Ok a2 ->
  (i < length g)%nat -> nisnan (nth i g n0) = false -> in_piece nltb (c_tval junk c) (nth i g n0) k ->
  nth k (c_rows c) [] = nth k (c_rows c2) [] -> nth (S k) (c_rows c) [] = nth (S k) (c_rows c2) [] ->
  nth i (c_rows a) [] = nth i (c_rows a2) [].
Proof.
  intros T NT ST RT junk few r name c c2 s g a a2 i k (W & W2 & H & Sz & Nd & Dt & Tv) F L N St G G2 E E2 Hi Nv P A B.
  assert (P' : in_piece lt_nan (c_tval junk c) (nth i g n0) k).
  { destruct P as (P1 & P2 & P3). split; [exact P1|]. split.
    - destruct P2 as [P2|P2]; [left; exact P2|right; intros l Hl; rewrite lt_nan_number by exact Nv; apply P2, Hl].
    - destruct P3 as [P3|P3]; [left; exact P3|right; intros l Hl Hl2; rewrite lt_nan_number by exact Nv; apply P3; assumption]. }
  assert (St' : forall p q, (p < q)%nat -> (q < c_size c)%nat -> lt_nan (nth q (c_tval junk c) n0) (nth p (c_tval junk c) n0) = false)
    by (intros p q Hp Hq; rewrite lt_nan_number by (apply N; lia); apply St; assumption).
  rewrite (linear_like junk few r name c s g a W H L St' F G E).
  rewrite (linear_like junk few r name c2 s g a2 W2 ltac:(lia) ltac:(rewrite Tv; lia) ltac:(rewrite Tv, Sz; exact St') F G2 E2).
  rewrite !(nth_map_rows _ _ _ _ n0 Hi), Tv, Dt. f_equal. exact (interp_at_local _ _ _ _ k P' A B).
Qed.
Print Assumptions C109_linear.

(** Cases: ten points, the last one or the seventh moved. *)
Definition local_reg : registry (icreate float) :=
  [("linear", linear nan (fun _ => true)); ("hermite", hermite nan nan true); ("pchip", pchip nan nan true);
   ("akima", akima nan nan (fun _ => nan)); ("cubic", cubic nan nan (fun _ => Raise ValueError) (BCName "not-a-knot") true)].
Definition local_t : list float := map fz [0; 1; 2; 3; 4; 5; 6; 7; 8; 9]%Z.
Definition local_curve (ys : list Z) : curve float := mkCurve (map2 (fun y t => [fz y; t]) ys local_t) 2 DFloat (Some local_t).
Definition lc : curve float := local_curve [0; 0; 1; 0; 0; 0; 0; 0; 0; 0]%Z.
Definition lfar : curve float := local_curve [0; 0; 1; 0; 0; 0; 0; 0; 0; 1000000000000]%Z.
Definition lrows (name : string) (c : curve float) (l : list float) : res (list (list float)) :=
  do c' <- interpolate nan (fun _ => true) local_reg name c (SArr l) ; Ok (c_rows c').

Lemma local_wf ys : length ys = 10%nat -> wf (local_curve ys).
Proof.
  intros L. split; [cbn; lia|]. split.
  - intros p Hp. change (In p (map2 (fun y t => [fz y; t]) ys local_t)) in Hp. apply (In_nth _ _ []) in Hp as (i & Hi & <-). rewrite map2_length in Hi.
    rewrite (nth_map2 _ _ _ i 0%Z n0) by (rewrite ?L; first [reflexivity | lia]). reflexivity.
  - intros t Ht. change (Some local_t = Some t) in Ht. inversion Ht. subst t. cbn [c_rows local_curve]. rewrite map2_length, L. reflexivity.
Qed.
Lemma local_alike ys zs : length ys = 10%nat -> length zs = 10%nat -> alike nan (local_curve ys) (local_curve zs).
Proof.
  intros L M. split; [apply local_wf, L|]. split; [apply local_wf, M|]. unfold c_size. cbn [c_rows local_curve]. rewrite !map2_length, L, M. change (length local_t) with 10%nat.
  split; [lia|]. repeat split.
Qed.
Lemma local_piece (behind : float -> float -> bool) : (forall l, (l <= 2)%nat -> behind (nth l local_t n0) (fq 5 2) = true) ->
  (forall l, (2 < l)%nat -> (l < 10)%nat -> behind (nth l local_t n0) (fq 5 2) = false) -> in_piece behind (c_tval nan lc) (fq 5 2) 2.
Proof. intros A B. split; [cbn; lia|]. split; right; [exact A|exact B]. Qed.

Example C109_ex_piece : alike nan lc lfar /\ in_piece nleb (c_tval nan lc) (fq 5 2) 2 /\ in_piece nltb (c_tval nan lc) (fq 5 2) 2.
Proof.
  split; [apply local_alike; reflexivity|].
  split; apply local_piece;
    (intros l Hl; do 3 (destruct l as [|l]; [vm_compute; reflexivity|]); lia) ||
    (intros l Hl Hl2; do 3 (destruct l as [|l]; [lia|]); do 7 (destruct l as [|l]; [vm_compute; reflexivity|]); lia).
Qed.
Example C109_ex : lrows "pchip" lc [fq 5 2; fz 3] = lrows "pchip" lfar [fq 5 2; fz 3] /\
  lrows "hermite" lc [fq 5 2; fz 3] = lrows "hermite" lfar [fq 5 2; fz 3] /\
  lrows "linear" lc [fq 5 2; fz 3] = lrows "linear" lfar [fq 5 2; fz 3] /\ lrows "pchip" lc [fq 5 2; fz 3] = Ok [[fq 1 2; fq 5 2]; [fz 0; fz 3]].
Proof. repeat split; vm_compute; reflexivity. Qed.

(** Whether the row of one grid value differs between two curves (in a coordinate,
    by binary64 comparison). *)
Definition moved (a b : res (list (list float))) : bool :=
  match a, b with Ok [[x; _]], Ok [[y; _]] => PrimFloat.ltb x y || PrimFloat.ltb y x | _, _ => false end.

(** The windows cannot be made smaller: the outer points matter. *)
Theorem C109_window_refuted : forall name, In name ["pchip"; "hermite"] ->
  exists c before after : curve float, alike nan c before /\ alike nan c after /\ in_piece nleb (c_tval nan c) (fq 5 2) 2 /\
    (forall l, l <> 1%nat -> nth l (c_rows c) [] = nth l (c_rows before) []) /\
    (forall l, l <> 4%nat -> nth l (c_rows c) [] = nth l (c_rows after) []) /\
    moved (lrows name c [fq 5 2]) (lrows name before [fq 5 2]) = true /\ moved (lrows name c [fq 5 2]) (lrows name after [fq 5 2]) = true.
Proof.
  intros name Hn. exists (local_curve [0; 1; 2; 4; 5; 0; 0; 0; 0; 0]%Z), (local_curve [0; 0; 2; 4; 5; 0; 0; 0; 0; 0]%Z), (local_curve [0; 1; 2; 4; 7; 0; 0; 0; 0; 0]%Z).
  split; [apply local_alike; reflexivity|]. split; [apply local_alike; reflexivity|]. split; [exact (proj1 (proj2 C109_ex_piece))|].
  split; [intros l Hl; do 10 (destruct l as [|l]; [try reflexivity; lia|]); destruct l; reflexivity|].
  split; [intros l Hl; do 10 (destruct l as [|l]; [try reflexivity; lia|]); destruct l; reflexivity|].
  destruct Hn as [<-|[<-|[]]]; split; vm_compute; reflexivity.
Qed.
Print Assumptions C109_window_refuted.

(** 'akima' and 'cubic' have no such window: the last of ten points changes the
    curve between the second and the third (for 'akima' because the threshold
    below which slopes count as equal is taken from the largest change of slope of
    the whole curve). *)
Theorem C109_global_refuted : forall name, In name ["akima"; "cubic"] ->
  exists c c2 : curve float, alike nan c c2 /\ in_piece nleb (c_tval nan c) (fq 3 2) 1 /\
    (forall l, l <> 9%nat -> nth l (c_rows c) [] = nth l (c_rows c2) []) /\ moved (lrows name c [fq 3 2]) (lrows name c2 [fq 3 2]) = true.
Proof.
  intros name Hn. exists lc, lfar. split; [apply local_alike; reflexivity|].
  split.
  { split; [cbn; lia|]. split; right.
    - intros l Hl. do 2 (destruct l as [|l]; [vm_compute; reflexivity|]). lia.
    - intros l Hl Hl2. change (length (c_tval nan lc)) with 10%nat in Hl2. do 2 (destruct l as [|l]; [lia|]). do 8 (destruct l as [|l]; [vm_compute; reflexivity|]). lia. }
  split; [intros l Hl; do 10 (destruct l as [|l]; [try reflexivity; lia|]); destruct l; reflexivity|].
  destruct Hn as [<-|[<-|[]]]; vm_compute; reflexivity.
Qed.
Print Assumptions C109_global_refuted.

(** And a curve without parameters of its own: moving its first point changes the
    arc length of all the others, so every grid value means another place. *)
Theorem C109_arclen_refuted : exists c c2 : curve float,
  wf c /\ wf c2 /\ c_t c = None /\ c_t c2 = None /\ c_size c2 = c_size c /\
  (forall l, l <> 0%nat -> nth l (c_rows c) [] = nth l (c_rows c2) []) /\
  in_piece nltb (c_tval nan c) (fq 7 2) 3 /\ moved (lrows "linear" c [fq 7 2]) (lrows "linear" c2 [fq 7 2]) = true.
Proof.
  exists (mkCurve [[fz 0; fz 0]; [fz 1; fz 0]; [fz 2; fz 0]; [fz 3; fz 0]; [fz 4; fz 0]] 2 DFloat None).
  exists (mkCurve [[fz (-1); fz 0]; [fz 1; fz 0]; [fz 2; fz 0]; [fz 3; fz 0]; [fz 4; fz 0]] 2 DFloat None).
  split; [split; [cbn; lia|]; split; [|discriminate]; intros p Hp; repeat (destruct Hp as [<-|Hp]; [reflexivity|]); destruct Hp|].
  split; [split; [cbn; lia|]; split; [|discriminate]; intros p Hp; repeat (destruct Hp as [<-|Hp]; [reflexivity|]); destruct Hp|].
  split; [reflexivity|]. split; [reflexivity|]. split; [reflexivity|].
  split; [intros [|l] Hl; [lia|reflexivity]|].
  split; [|vm_compute; reflexivity].
  split; [vm_compute; lia|]. split; [right|left; reflexivity].
  intros l Hl. do 4 (destruct l as [|l]; [vm_compute; reflexivity|]). lia.
Qed.
Print Assumptions C109_arclen_refuted.
