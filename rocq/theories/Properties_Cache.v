(** Property C61: what reads of cached properties return, in every history of
    reads of a curve and its points and of writes into the arrays returned. *)
From Coq Require Import PrimFloat ZArith List Bool Arith Lia.
From Verif Require Import Num Py Numeric Curve Vec DiffGeom Cache Spec ListFacts CacheProofs CacheProofs2.
Import ListNotations.

(** The value of a property computed from the curve data alone. *)
Definition fresh {T} {NT : Num T} {ST : NumSqrt T} junk (c : curve T) (k : key) : res (arr T) :=
  match k with KChord => Ok (AVec (c_chordlen junk c)) | KProp q => curve_prop junk c q end.

Definition is_write {T} (e : event T) : bool := match e with EWrite _ _ => true | _ => false end.

(** ** Without writes *)

(** Every read answers what the curve data determine, whatever was read before
    and in whatever order, on the curve or on its points. *)
Theorem C61_transparent : forall T (NT : Num T) (ST : NumSqrt T) junk (c : curve T) (h : list (event T)),
  existsb is_write h = false ->
  (forall k, answer_after junk c h (ERead k) = OArr (fresh junk c k)) /\
  answer_after junk c h EArclen = ONum (Ok (c_arclen junk c)) /\
  (forall n q i, nth_error (taken c h) n = Some i -> answer_after junk c h (EPointRead n q) = OVal (point_prop junk c i q)).
Proof.
  intros T NT ST junk c h Hw. set (W := fun _ : key => False).
  assert (Cl : closed c W) by (split; intros; assumption).
  assert (C : forall s, confined junk c W s h).
  { clear Cl. induction h as [|e h IH]; intros s; [exact Logic.I|]. cbn in Hw. apply orb_false_elim in Hw as (He & Hh).
    split; [destruct e; try discriminate; exact Logic.I|apply IH, Hh]. }
  split; [|split].
  - intros k. apply (answers junk c W h (ERead k) Cl (C _) Logic.I). intros [].
  - apply (answers junk c W h EArclen Cl (C _) Logic.I).
  - intros n q i Hi. apply (answers junk c W h (EPointRead n q) Cl (C _) Logic.I i Hi). intros [].
Qed.
Print Assumptions C61_transparent.

(** ** With writes *)

(** The properties that a write into the array of [k] may change: those
    computed from it and those that return the same array. *)
Inductive affected {T} (c : curve T) (k : key) : key -> Prop :=
| aff_refl : affected c k k
| aff_dep k1 k2 : affected c k k1 -> In k1 (deps c k2) -> affected c k k2
| aff_alias k1 k2 : affected c k k1 -> cls c k1 = cls c k2 -> affected c k k2.

(** Writes go to arrays held (by the curve or by a point) as properties of [S]. *)
Definition writes_into {T} {NT : Num T} {ST : NumSqrt T} junk (c : curve T) (S : key -> Prop) (h : list (event T)) : Prop :=
  forall h1 h2 a v, h = h1 ++ EWrite a v :: h2 -> exists k, S k /\ named (after junk c (init c) h1) a k.

Lemma writes_confined {T} {NT : Num T} {ST : NumSqrt T} junk (c : curve T) (S W : key -> Prop) (h : list (event T)) :
  (forall k, S k -> W k) -> writes_into junk c S h -> confined junk c W (init c) h.
Proof.
  intros SW H. unfold writes_into in H.
  assert (G : forall h0 h, (forall h1 h2 a v, h = h1 ++ EWrite a v :: h2 -> exists k, S k /\ named (after junk c (init c) (h0 ++ h1)) a k) ->
    confined junk c W (after junk c (init c) h0) h).
  { clear h H. intros h0 h. revert h0. induction h as [|e h IH]; intros h0 H; [exact Logic.I|]. split.
    - destruct e as [| | | |a v]; try exact Logic.I. destruct (H [] h a v eq_refl) as (k & Sk & Nk). rewrite app_nil_r in Nk. exists k. auto.
    - assert (E : forall h0 s, after junk c s (h0 ++ [e]) = snd (step junk c (after junk c s h0) e)).
      { clear. induction h0 as [|x h0 IH]; intros s; [reflexivity|]. apply IH. }
      rewrite <- E. apply IH. intros h1 h2 a v ->. rewrite <- app_assoc. apply (H (e :: h1) h2 a v). reflexivity. }
  apply (G [] h). intros h1 h2 a v E. apply (H h1 h2 a v E).
Qed.

(** Reads of properties that are not affected by the written ones still answer
    what the curve data determine. *)
Theorem C61_unaffected : forall T (NT : Num T) (ST : NumSqrt T) junk (c : curve T) (S : key -> Prop) (h : list (event T)),
  writes_into junk c S h ->
  (forall k, (forall k0, S k0 -> ~ affected c k0 k) -> answer_after junk c h (ERead k) = OArr (fresh junk c k)) /\
  answer_after junk c h EArclen = ONum (Ok (c_arclen junk c)) /\
  (forall n q i, nth_error (taken c h) n = Some i -> (forall k0, S k0 -> ~ affected c k0 (KProp q)) ->
     answer_after junk c h (EPointRead n q) = OVal (point_prop junk c i q)).
Proof.
  intros T NT ST junk c S h Hw. set (W := fun k => exists k0, S k0 /\ affected c k0 k).
  assert (Cl : closed c W).
  { split.
    - intros k k' Hd (k0 & S0 & A). exists k0. split; [assumption|]. apply (aff_dep c k0 k' k A Hd).
    - intros k k' E (k0 & S0 & A). exists k0. split; [assumption|]. apply (aff_alias c k0 k k' A E). }
  assert (C : confined junk c W (init c) h).
  { apply (writes_confined junk c S); [|assumption]. intros k Sk. exists k. split; [assumption|constructor]. }
  assert (NW : forall k, (forall k0, S k0 -> ~ affected c k0 k) -> ~ W k) by (intros k H (k0 & S0 & A); apply (H k0 S0 A)).
  split; [|split].
  - intros k Hk. apply (answers junk c W h (ERead k) Cl C Logic.I), NW, Hk.
  - apply (answers junk c W h EArclen Cl C Logic.I).
  - intros n q i Hi Hk. apply (answers junk c W h (EPointRead n q) Cl C Logic.I i Hi), NW, Hk.
Qed.
Print Assumptions C61_unaffected.

(** The length family and the derivative family do not affect each other, and
    a write into curvature, torsion or speed stays there. *)
Definition length_family (k : key) : bool := match k with KChord | KProp PCumarclen | KProp PT => true | _ => false end.

Theorem C61_families : forall T (c : curve T) k k', affected c k k' -> length_family k' = length_family k.
Proof.
  intros T c k k' A. induction A as [|k1 k2 A IH Hd|k1 k2 A IH Hc]; [reflexivity| |]; rewrite <- IH.
  - destruct k2 as [|[]]; cbn in Hd; unfold parametric in Hd;
      repeat match type of Hd with context [if ?b then _ else _] => destruct b end; cbn in Hd;
      repeat (destruct Hd as [<-|Hd]; [reflexivity|]); destruct Hd.
  - destruct k1 as [|[]], k2 as [|[]]; cbn in Hc; unfold parametric in Hc; destruct (c_t c); try discriminate; reflexivity.
Qed.
Print Assumptions C61_families.

Theorem C61_leaves : forall T (c : curve T) q k, In q [PCurvature; PTorsion; PSpeed] -> affected c (KProp q) k -> k = KProp q.
Proof.
  intros T c q k Hq A. induction A as [|k1 k2 A IH Hd|k1 k2 A IH Hc]; [reflexivity| |]; subst k1.
  - destruct Hq as [<-|[<-|[<-|[]]]]; destruct k2 as [|[]]; cbn in Hd; unfold parametric in Hd;
      repeat match type of Hd with context [if ?b then _ else _] => destruct b end; cbn in Hd;
      repeat (destruct Hd as [Hd|Hd]; [discriminate|]); destruct Hd.
  - destruct Hq as [<-|[<-|[<-|[]]]]; destruct k2 as [|[]]; cbn in Hc; unfold parametric in Hc; destruct (c_t c); try discriminate; reflexivity.
Qed.
Print Assumptions C61_leaves.

(** Two properties hold one array only if they are the same property, or
    firstderiv and tangent, or cumarclen and t of a non-parametric curve. *)
Theorem C61_shared_only : forall T (NT : Num T) (ST : NumSqrt T) junk (c : curve T) h a k k',
  writes_into junk c (fun _ => True) h ->
  named (after junk c (init c) h) a k -> named (after junk c (init c) h) a k' ->
  k = k' \/ (forall x, In x [k; k'] -> In x [KProp PFirst; KProp PTangent]) \/
  (c_t c = None /\ forall x, In x [k; k'] -> In x [KProp PCumarclen; KProp PT]).
Proof.
  intros T NT ST junk c h a k k' Hw Hk Hk'.
  assert (Cl : closed c (fun _ : key => True)) by (split; intros; exact Logic.I).
  assert (C : confined junk c (fun _ => True) (init c) h) by (apply (writes_confined junk c (fun _ => True)); auto).
  destruct (after_inv junk c _ h Cl (init c) (init_inv junk c _) C) as (I & _).
  pose proof (I_class _ _ _ _ I _ _ _ Hk Hk') as E.
  destruct k as [|[]], k' as [|[]]; try (left; reflexivity); cbn in E; unfold parametric in E; destruct (c_t c) eqn:Ct; try discriminate;
    right; first [ left; intros x [<-|[<-|[]]]; cbn; tauto | right; split; [reflexivity|]; intros x [<-|[<-|[]]]; cbn; tauto ].
Qed.
Print Assumptions C61_shared_only.

(** Reading a property twice gives the same object, whatever happens between. *)
Theorem C61_same_object : forall T (NT : Num T) (ST : NumSqrt T) junk (c : curve T) h k a s1 h2,
  read junk c k (after junk c (init c) h) = (Ok a, s1) ->
  read junk c k (after junk c s1 h2) = (Ok a, after junk c s1 h2).
Proof.
  intros T NT ST junk c h k a s1 h2 R. apply read_hit.
  destruct (keeps_after junk c h (init c) (J_init c)) as (J0 & _).
  pose proof (keeps_read junk c k _ J0) as K. rewrite R in K. cbn [snd] in K. destruct K as (J1 & _).
  destruct (keeps_after junk c h2 s1 J1) as (_ & M). apply M. exact (read_address junk c k _ a s1 R).
Qed.
Print Assumptions C61_same_object.

(** A write into the array that firstderiv returned is seen by firstderiv and
    by tangent, at any time; for a curve without parameter data the same holds
    for cumarclen and t. *)
Definition twins {T} (c : curve T) (k k' : key) : Prop :=
  (k = KProp PFirst /\ k' = KProp PTangent) \/ (c_t c = None /\ k = KProp PCumarclen /\ k' = KProp PT).

Theorem C61_write_visible : forall T (NT : Num T) (ST : NumSqrt T) junk (c : curve T) h k k' a v s1,
  twins c k k' -> read junk c k (after junk c (init c) h) = (Ok a, s1) ->
  a < length (s_heap s1) -> same_shape (deref s1 a) v = true -> readonly c a = false ->
  fst (step junk c s1 (EWrite a v)) = OUnit (Ok tt) /\
  answer_after junk c (h ++ [ERead k; EWrite a v]) (ERead k) = OArr (Ok v) /\
  answer_after junk c (h ++ [ERead k; EWrite a v]) (ERead k') = OArr (Ok v).
Proof.
  intros T NT ST junk c h k k' a v s1 Tw R La Sh Ro.
  destruct (keeps_after junk c h (init c) (J_init c)) as (J0 & _).
  pose proof (keeps_read junk c k _ J0) as K. rewrite R in K. cbn [snd] in K. destruct K as (J1 & _).
  pose proof (read_address junk c k _ a s1 R) as Ca.
  assert (Ew : step junk c s1 (EWrite a v) = (OUnit (Ok tt), mkState (update (s_heap s1) a v) (s_cache s1) (s_arclen s1) (s_points s1))).
  { cbn [step]. rewrite (proj2 (Nat.ltb_lt _ _) La), Sh, Ro. reflexivity. }
  set (s2 := mkState _ _ _ _) in Ew.
  assert (D2 : deref s2 a = v) by (unfold deref, s2; cbn [s_heap]; rewrite update_nth by assumption; rewrite Nat.eqb_refl; reflexivity).
  assert (J2 : J c s2) by exact J1.
  assert (Ea : after junk c (init c) (h ++ [ERead k; EWrite a v]) = s2).
  { assert (Eapp : forall h1 h2 s, after junk c s (h1 ++ h2) = after junk c (after junk c s h1) h2) by (induction h1 as [|x h1 IH]; intros; [reflexivity|apply IH]).
    rewrite Eapp. cbn [after]. change (step junk c (after junk c (init c) h) (ERead k)) with
      (let '(r, s1) := read junk c k (after junk c (init c) h) in (OArr (rmap (deref s1) r), s1)). rewrite R. cbn [snd]. rewrite Ew. reflexivity. }
  split; [rewrite Ew; reflexivity|]. unfold answer_after. rewrite Ea. cbn [step]. split.
  - rewrite (read_hit junk c k s2 a Ca). cbn [fst]. change (OArr (Ok (deref s2 a)) = OArr (Ok v)). rewrite D2. reflexivity.
  - assert (G : fst (read junk c k' s2) = Ok a /\ deref (snd (read junk c k' s2)) a = deref s2 a).
    { destruct Tw as [(-> & ->)|(Ct & -> & ->)]; [apply tangent_after_first|apply t_after_cum]; assumption. }
    destruct (read junk c k' s2) as [r s3]. cbn [fst snd] in *. destruct G as (-> & G). change (OArr (Ok (deref s3 a)) = OArr (Ok v)). rewrite G, D2. reflexivity.
Qed.
Print Assumptions C61_write_visible.

(** The parameter data cannot be written: t of a parametric curve is constant. *)
Theorem C61_parameters : forall T (NT : Num T) (ST : NumSqrt T) junk (c : curve T) h t,
  c_t c = Some t -> writes_into junk c (fun _ => True) h ->
  answer_after junk c h (ERead (KProp PT)) = OArr (Ok (AVec t)) /\
  forall v, answer_after junk c h (EWrite 0 v) = OUnit (Raise ValueError).
Proof.
  intros T NT ST junk c h t Ct Hw.
  assert (Cl : closed c (fun _ : key => True)) by (split; intros; exact Logic.I).
  assert (C : confined junk c (fun _ => True) (init c) h) by (apply (writes_confined junk c (fun _ => True)); auto).
  destruct (after_inv junk c _ h Cl (init c) (init_inv junk c _) C) as (I & _).
  destruct (keeps_after junk c h (init c) (J_init c)) as ((_ & J2) & _).
  unfold answer_after. set (s := after junk c (init c) h) in *. destruct (I_param _ _ _ _ I t Ct) as (P1 & P2 & _). split.
  - cbn [step read]. unfold read_t, cached. rewrite Ct in *. destruct (s_cache s (KProp PT)) as [a|] eqn:E.
    + rewrite (J2 a eq_refl). cbn [fst]. change (OArr (Ok (deref s 0)) = OArr (Ok (AVec t))). rewrite P2. reflexivity.
    + unfold mret. cbn [fst]. change (OArr (Ok (deref s 0)) = OArr (Ok (AVec t))). rewrite P2. reflexivity.
  - intros v. cbn [step]. replace (readonly c 0) with true by (unfold readonly; rewrite Ct; reflexivity). cbn [negb]. rewrite andb_false_r. reflexivity.
Qed.
Print Assumptions C61_parameters.

(** ** Transparency fails once arrays are written *)

Local Open Scope float_scope.
Definition fpath : curve float := mkCurve [[0; 0]; [1; 0]; [2; 0]] 2 DFloat None.
Definition zeros32 : arr float := AMat [[0; 0]; [0; 0]; [0; 0]].
(** Zero the array of firstderiv. *)
Definition wr : list (event float) := [ERead (KProp PFirst); EWrite 0 zeros32].

(** firstderiv, tangent, secondderiv and speed of the very same curve then
    answer zeros; read before the write, secondderiv and speed are right for
    ever: the answers depend on the order of reads. *)
Theorem C61_writes_refuted : exists (c : curve float) (h : list (event float)) (k : key),
  answer_after 0 c h (ERead k) <> OArr (fresh 0 c k) /\
  answer_after 0 c (ERead (KProp PSpeed) :: h) (ERead (KProp PSpeed)) <> answer_after 0 c (h ++ [ERead k]) (ERead (KProp PSpeed)).
Proof.
  exists fpath, wr, (KProp PTangent). split.
  - replace (answer_after 0 fpath wr (ERead (KProp PTangent))) with (OArr (Ok zeros32)) by (vm_compute; reflexivity).
    intros H. assert (E : PrimFloat.eqb 0 (match fresh 0 fpath (KProp PTangent) with Ok (AMat ((x :: _) :: _)) => x | _ => 0 end) = true).
    { apply (f_equal (fun o => match o with OArr (Ok (AMat ((x :: _) :: _))) => PrimFloat.eqb 0 x | _ => true end)) in H. vm_compute in H. discriminate H. }
    vm_compute in E. discriminate E.
  - intros H. apply (f_equal (fun o => match o with OArr (Ok (AVec (x :: _))) => PrimFloat.eqb 0 x | _ => false end)) in H. vm_compute in H. discriminate H.
Qed.
Print Assumptions C61_writes_refuted.

(** A view obtained from a point reaches the curve: writing the row through
    the array changes what the point answers; a number a point has cached
    stays, while a new point with the same index answers differently. *)
Theorem C61_points_refuted :
  (exists h, answer_after 0 fpath (EPoint 1 :: EPointRead 0 PFirst :: h) (EPointRead 0 PFirst) = OVal (Ok (VRow [0; 0])) /\
             point_prop 0 fpath 1 PFirst = Ok (VRow [1; 0])) /\
  (exists h, answer_after 0 fpath h (EPointRead 0 PSpeed) = OVal (Ok (VNum 1)) /\
             answer_after 0 fpath h (EPointRead 1 PSpeed) = OVal (Ok (VNum 7)) /\ taken fpath h = [1; 1]%Z).
Proof.
  split.
  - exists [EWrite 0 zeros32]. split; vm_compute; reflexivity.
  - exists [EPoint 1; EPointRead 0 PSpeed; EWrite 1 (AVec [7; 7; 7]); EPoint (-2)]. repeat split; vm_compute; reflexivity.
Qed.
Print Assumptions C61_points_refuted.

(** ** Concrete cases *)

Example C61_transparent_ex : let h := [ERead (KProp PCurvature); EPoint (-1); EPointRead 0 PTangent; ERead KChord] in
  existsb is_write h = false /\ answer_after 0 fpath h (ERead (KProp PCumarclen)) = OArr (Ok (AVec [0; 1; 2])) /\
  taken fpath h = [2%Z] /\ answer_after 0 fpath h (EPointRead 0 PSpeed) = OVal (Ok (VNum 1)).
Proof. repeat split; vm_compute; reflexivity. Qed.

(** Writing the derivative leaves the lengths alone. *)
Example C61_unaffected_ex : writes_into 0 fpath (fun k => k = KProp PFirst) wr /\
  answer_after 0 fpath wr (ERead (KProp PT)) = OArr (Ok (AVec [0; 1; 2])) /\ ~ affected fpath (KProp PFirst) (KProp PT).
Proof.
  split; [|split; [vm_compute; reflexivity|]].
  - intros h1 h2 a v E. exists (KProp PFirst). split; [reflexivity|]. left.
    destruct h1 as [|e [|e1 [|e2 h1]]]; try discriminate. injection E as <- <- <- <-. vm_compute. reflexivity.
  - intros A. apply C61_families in A. discriminate.
Qed.

Example C61_write_visible_ex : exists s1,
  read 0 fpath (KProp PFirst) (after 0 fpath (init fpath) [ERead (KProp PCurvature)]) = (Ok 0%nat, s1) /\
  twins fpath (KProp PFirst) (KProp PTangent) /\ (0 < length (s_heap s1))%nat /\ same_shape (deref s1 0) zeros32 = true /\ readonly fpath 0 = false.
Proof.
  eexists. split; [reflexivity|]. split; [left; split; reflexivity|]. split; [cbn; lia|]. split; vm_compute; reflexivity.
Qed.

Definition fparam : curve float := mkCurve [[0; 0]; [1; 0]; [2; 0]] 2 DFloat (Some [0; 5; 6]).
Example C61_parameters_ex : let h := [ERead (KProp PT); EWrite 0 (AVec [1; 1; 1])] in
  writes_into 0 fparam (fun _ => True) h /\ answer_after 0 fparam h (ERead (KProp PT)) = OArr (Ok (AVec [0; 5; 6])) /\
  answer_after 0 fparam h (ERead (KProp PCumarclen)) = OArr (Ok (AVec [0; 1; 2])).
Proof.
  split; [|split; vm_compute; reflexivity]. intros h1 h2 a v E. exists (KProp PT). split; [exact Logic.I|]. left.
  destruct h1 as [|e [|e1 [|e2 h1]]]; try discriminate. injection E as <- <- <- <-. vm_compute. reflexivity.
Qed.

(** curve[i] makes a point object, whatever was read or written before, exactly
    when the stored index (i, or size + i for a negative i) addresses the data:
    for -2 size <= i < size. *)
Theorem C61_index : forall T (NT : Num T) (ST : NumSqrt T) junk (c : curve T) (h : list (event T)) i,
  answer_after junk c h (EPoint i) =
    OUnit (if ((- 2 * Z.of_nat (c_size c) <=? i) && (i <? Z.of_nat (c_size c)))%Z then Ok tt else Raise IndexError).
Proof.
  intros T NT ST junk c h i. unfold answer_after. cbn [step]. unfold norm_index, stored_index.
  destruct (Z.leb_spec (- 2 * Z.of_nat (c_size c)) i); destruct (Z.ltb_spec i (Z.of_nat (c_size c))); cbn [andb];
    destruct (Z.ltb_spec i 0); destruct (Z.ltb_spec (Z.of_nat (c_size c) + i) (- Z.of_nat (c_size c)));
    destruct (Z.leb_spec (Z.of_nat (c_size c)) (Z.of_nat (c_size c) + i)); destruct (Z.ltb_spec i (- Z.of_nat (c_size c)));
    destruct (Z.leb_spec (Z.of_nat (c_size c)) i); try lia; reflexivity.
Qed.
Print Assumptions C61_index.
Example C61_index_ex : answer_after 0 fpath [EPoint 1; ERead KChord] (EPoint 3) = OUnit (Raise IndexError)
  /\ answer_after 0 fpath [EPoint 1; ERead KChord] (EPoint (-6)) = OUnit (Ok tt).
Proof. split; vm_compute; reflexivity. Qed.

