(** Properties C49 and C50: dispatch and registries. *)
From Coq Require Import ZArith String List Bool Arith Lia PrimFloat.
From Verif Require Import Num Py Numeric Curve Vec Geom Intersect Registry Spec.
From Verif Require Import ListFacts RegistryProofs RegistryProofs2.
Import ListNotations.
Local Open Scope string_scope.
Local Open Scope list_scope.

(** The classes registered by the module itself, with fixed parameters: the
    parameter type is unit (/repo/skcurve/_intersect.py:441-464, 593-631). *)
Definition cls_exact : icls float unit := fun _ => Ok (exact_method f_eps).
Definition cls_almost : icls float unit :=
  fun _ => Ok (almost_method (mkAlmost (fq 1 2) false (fz 0) false f_eps) (fun c => c)).
Definition cls_broken : icls float unit := fun _ => Raise TypeError.
(** The state after import. *)
Definition imported : istate float unit :=
  irun is_empty [IRegister "exact" true true cls_exact; IRegister "almost" false true cls_almost].

Definition flat1 : segment float := mkSeg [fz 0; fz 0] [fz 2; fz 2].
Definition flat2 : segment float := mkSeg [fz 0; fz 2] [fz 2; fz 0].
Definition space1 : segment float := mkSeg [fz 0; fz 0; fz 0] [fz 2; fz 2; fz 1].

(** ** C49 Dispatch of intersect *)

(** Objects of different dimension: ValueError, before the method is looked at. *)
Theorem C49_dimension : forall {T P} {NT : Num T} (s : istate T P) o1 o2 same method params n1 n2,
  obj_ndim o1 = Some n1 -> obj_ndim o2 = Some n2 -> n1 <> n2 ->
  intersect s o1 o2 same method params = Raise ValueError.
Proof.
  intros T P NT s o1 o2 same method params n1 n2 E1 E2 N. unfold intersect. rewrite E1, E2.
  destruct (Nat.eqb_spec n1 n2); [contradiction|reflexivity].
Qed.
Print Assumptions C49_dimension.
Example C49_dimension_ex : intersect imported (OSeg flat1) (OSeg space1) false (MStr "nosuch") tt = Raise ValueError.
Proof. reflexivity. Qed.

(** No method: the current default. *)
Theorem C49_default : forall {T P} {NT : Num T} (s : istate T P) o1 o2 same params name,
  is_default s = Some name ->
  intersect s o1 o2 same MNone params = intersect s o1 o2 same (MStr name) params.
Proof. intros T P NT s o1 o2 same params name E. unfold intersect. rewrite E. reflexivity. Qed.
Print Assumptions C49_default.
Example C49_default_ex : is_default imported = Some "exact" /\
  intersect imported (OSeg flat1) (OSeg flat2) false MNone tt =
    Ok (inl (mkInter (SegObj flat1) (SegObj flat2) (mkInfo (IDPoint [fz 1; fz 1]) IExact))).
Proof. vm_compute. split; reflexivity. Qed.

(** The full table for objects of equal dimension. *)
Theorem C49_table : forall {T P} {NT : Num T} (s : istate T P) o1 o2 same params n,
  obj_ndim o1 = Some n -> obj_ndim o2 = Some n ->
  (forall name, reg_find (is_methods s) name = None ->
     intersect s o1 o2 same (MStr name) params = Raise NameError) /\
  (forall name cls e, reg_find (is_methods s) name = Some cls -> cls params = Raise e ->
     intersect s o1 o2 same (MStr name) params = Raise e) /\
  (forall name cls m, reg_find (is_methods s) name = Some cls -> cls params = Ok m ->
     intersect s o1 o2 same (MStr name) params = intersect s o1 o2 same (MInst m) params) /\
  intersect s o1 o2 same MOther params = Raise ValueError /\
  (is_default s = None -> intersect s o1 o2 same MNone params = Raise ValueError) /\
  (forall m r, method_call m o1 o2 same = Ok r -> intersect s o1 o2 same (MInst m) params = Ok r) /\
  (forall m e, method_call m o1 o2 same = Raise e -> intersect s o1 o2 same (MInst m) params = Raise IntersectionError).
Proof.
  intros T P NT s o1 o2 same params n E1 E2. unfold intersect, get_intersect, reg_get. rewrite E1, E2, Nat.eqb_refl. cbn [negb].
  split; [intros name H; rewrite H; reflexivity|].
  split; [intros name cls e H K; rewrite H; cbn; rewrite K; reflexivity|].
  split; [intros name cls m H K; rewrite H; cbn; rewrite K; reflexivity|].
  split; [reflexivity|]. split; [intros H; rewrite H; reflexivity|].
  split; intros m r H; cbn; rewrite H; reflexivity.
Qed.
Print Assumptions C49_table.
Example C49_table_ex :
  intersect imported (OSeg flat1) (OSeg flat2) false (MStr "nosuch") tt = Raise NameError /\
  intersect imported (OSeg flat1) (OOther (Some 2)) false (MStr "exact") tt = Raise IntersectionError /\
  intersect (irun imported [IRegister "broken" false true cls_broken]) (OSeg flat1) (OSeg flat2) false (MStr "broken") tt = Raise TypeError.
Proof. repeat split. Qed.

(** Only the exceptions of the table can leave `intersect`: an exception of the
    method is never visible under its own class. *)
Theorem C49_errors : forall {T P} {NT : Num T} (s : istate T P) o1 o2 same m params e,
  intersect s o1 o2 same (MInst m) params = Raise e -> e = ValueError \/ e = IntersectionError \/ e = OtherError.
Proof.
  intros T P NT s o1 o2 same m params e. unfold intersect.
  destruct (obj_ndim o1), (obj_ndim o2); try (intros H; injection H as <-; auto; fail).
  destruct (negb _); [intros H; injection H as <-; auto|]. cbn. destruct (method_call m o1 o2 same); intros H; [discriminate|].
  injection H as <-. auto.
Qed.
Print Assumptions C49_errors.

(** Curve.intersect without an argument or with the curve itself is the
    self-intersection. *)
Theorem C49_self : forall {T P} {NT : Num T} (s : istate T P) (c : curve T) m params arg, arg = ArgNone \/ arg = ArgSelf ->
  curve_intersect s c arg (MInst m) params =
    if Nat.eqb (c_size c) 0 then Ok (inr [])
    else match im_curves m c c true with Ok l => Ok (inr l) | Raise _ => Raise IntersectionError end.
Proof.
  intros T P NT s c m params arg [-> | ->]; unfold curve_intersect, intersect; cbn [obj_ndim method_call rbind];
    rewrite Nat.eqb_refl; cbn [negb]; (destruct (Nat.eqb (c_size c) 0); cbn [orb]; [reflexivity|]);
    destruct (im_curves m c c true); reflexivity.
Qed.
Print Assumptions C49_self.
(** With another curve all pairs of segments count, even if it is equal. *)
Theorem C49_other : forall {T P} {NT : Num T} (s : istate T P) (c1 c2 : curve T) m params,
  curve_intersect s c1 (ArgObj (OCurve c2)) (MInst m) params =
    if negb (Nat.eqb (c_ndim c1) (c_ndim c2)) then Raise ValueError
    else if Nat.eqb (c_size c1) 0 || Nat.eqb (c_size c2) 0 then Ok (inr [])
    else match im_curves m c1 c2 false with Ok l => Ok (inr l) | Raise _ => Raise IntersectionError end.
Proof.
  intros T P NT s c1 c2 m params. unfold curve_intersect, intersect. cbn [obj_ndim method_call rbind].
  destruct (negb _); [reflexivity|]. destruct (_ || _); [reflexivity|]. destruct (im_curves m c1 c2 false); reflexivity.
Qed.
Print Assumptions C49_other.
(** A curve that crosses itself. *)
Definition loop4 : curve float := mkCurve [[fz 0; fz 0]; [fz 2; fz 2]; [fz 2; fz 0]; [fz 0; fz 2]] 2 DFloat None.
Example C49_self_ex : exists x, curve_intersect imported loop4 ArgNone MNone tt = Ok (inr [x]) /\
    in_info x = mkInfo (IDPoint [fz 1; fz 1]) IExact.
Proof. vm_compute. eexists. split; reflexivity. Qed.
(** Equal curves in place of the curve itself give another answer: the crossing
    twice, every segment with itself and neighbours at their common point. *)
Theorem C49_copy_refuted : exists c' l, c_eq loop4 c' = true /\ (exists x : inter float, curve_intersect imported loop4 ArgSelf MNone tt = Ok (inr [x])) /\
  curve_intersect imported loop4 (ArgObj (OCurve c')) MNone tt = Ok (inr l) /\ length l = 9.
Proof.
  exists loop4. eexists. split; [vm_compute; reflexivity|]. split; [eexists; vm_compute; reflexivity|]. split; [vm_compute; reflexivity|]. reflexivity.
Qed.
Print Assumptions C49_copy_refuted.

(** ** C50 Method registries *)

(** The default of the intersection methods: setting it succeeds exactly for a
    registered name, and changes nothing else; for another name NameError is
    raised and nothing changes. *)
Theorem C50_set_default : forall {T P} {NT : Num T} (s : istate T P) name,
  (forall cls, reg_find (is_methods s) name = Some cls ->
     set_default s name = (mkIState (is_methods s) (Some name), Ok tt)) /\
  (reg_find (is_methods s) name = None -> set_default s name = (s, Raise NameError)).
Proof. intros T P NT s name. unfold set_default. split; [intros cls H | intros H]; rewrite H; reflexivity. Qed.
Print Assumptions C50_set_default.
Example C50_set_default_ex :
  is_default (fst (set_default imported "almost")) = Some "almost" /\ snd (set_default imported "almost") = Ok tt /\
  set_default imported "nosuch" = (imported, Raise NameError).
Proof. repeat split. Qed.

(** Registries without default (interpolators, smoothing filters).  After any
    history of calls a name is bound to what was first registered under it. *)
Theorem C50_lookup : forall {A} (l : list (rop A)) name,
  reg_get (rrun [] l) name =
    match find (fun p : string * A => String.eqb (fst p) name)
               (flat_map (fun o => match o with RRegister n true a => [(n, a)] | _ => [] end) l) with
    | Some p => Ok (snd p)
    | None => Raise NameError
    end.
Proof.
  intros A l name. unfold reg_get. rewrite rrun_find. cbn [reg_find]. unfold first_value, valid_regs.
  destruct (find _ _); reflexivity.
Qed.
Print Assumptions C50_lookup.

(** The listing: the names in order of their first valid registration. *)
Theorem C50_names : forall {A} (l : list (rop A)),
  reg_names (rrun [] l) =
    rev (nodup string_dec (rev (map fst (flat_map (fun o => match o with RRegister n true a => [(n, a)] | _ => [] end) l)))).
Proof. intros A l. exact (rrun_names l). Qed.
Print Assumptions C50_names.

(** A bound name is never rebound, a failed call changes nothing, and a
    registration fails exactly for a taken name or an object of a wrong type. *)
Theorem C50_never_rebound : forall {A} (r : registry A) l name a,
  reg_get r name = Ok a -> reg_get (rrun r l) name = Ok a.
Proof.
  intros A r l name a. unfold reg_get. destruct (reg_find r name) eqn:E; [|discriminate]. intros H. injection H as ->.
  rewrite (rrun_keeps l r name a E). reflexivity.
Qed.
Print Assumptions C50_never_rebound.
Theorem C50_register : forall {A} (r : registry A) name ok a,
  rstep r (RRegister name ok a) =
    if in_dec string_dec name (reg_names r) then (r, Raise ValueError)
    else if ok then (r ++ [(name, a)], Ok tt) else (r, Raise TypeError).
Proof.
  intros A r name ok a. cbn [rstep].
  destruct (reg_register_cases r name ok a) as [(E & H)|[(E & H & ->)|(E & H & ->)]]; rewrite E;
    destruct (in_dec _ _ _); try contradiction; reflexivity.
Qed.
Print Assumptions C50_register.
Example C50_ex :
  let h := [RRegister "a" true 1; RRegister "b" true 2; RRegister "a" true 3; RRegister "c" false 4; RGet "z"; RRegister "c" true 5] in
  reg_names (rrun [] h) = ["a"; "b"; "c"] /\ reg_get (rrun [] h) "a" = Ok 1 /\ reg_get (rrun [] h) "c" = Ok 5 /\
  reg_get (rrun [] h) "d" = Raise NameError.
Proof. repeat split. Qed.

(** The intersection registry has the same contents as the registry without
    defaults after the same registrations. *)
Theorem C50_intersect_registry : forall {T P} {NT : Num T} (l : list (iop T P)),
  is_methods (irun is_empty l) = rrun [] (map forget l).
Proof. intros T P NT l. apply irun_forget. Qed.
Print Assumptions C50_intersect_registry.

Theorem C50_failed : forall {T P} {NT : Num T} (s : istate T P) o e,
  snd (istep s o) = Raise e -> fst (istep s o) = s.
Proof. intros T P NT s o e. exact (istep_failed s o e). Qed.
Print Assumptions C50_failed.

(** The default is always a registered method, and once set it stays set. *)
Theorem C50_default_registered : forall {T P} {NT : Num T} (l : list (iop T P)) d,
  is_default (irun is_empty l) = Some d -> In d (reg_names (is_methods (irun is_empty l))).
Proof.
  intros T P NT l d. apply (irun_inv l is_empty). split; [constructor|]. intros x H. discriminate.
Qed.
Print Assumptions C50_default_registered.
Theorem C50_default_stays : forall {T P} {NT : Num T} (s : istate T P) l,
  is_default s <> None -> is_default (irun s l) <> None.
Proof. intros T P NT s l. exact (irun_default l s). Qed.
Print Assumptions C50_default_stays.

(** It is the one selected by the last successful selecting call. *)
Theorem C50_default_last : forall {T P} {NT : Num T} (l : list (iop T P)) n,
  let selects (s : istate T P) o m :=
    snd (istep s o) = Ok tt /\
    match o with IRegister k true _ _ => k = m | ISetDefault k => k = m | _ => False end in
  is_default (irun is_empty l) = Some n <->
    exists pre o post, l = pre ++ o :: post /\ selects (irun is_empty pre) o n /\
      forall pre' o' post', post = pre' ++ o' :: post' -> forall m, ~ selects (irun is_empty (pre ++ o :: pre')) o' m.
Proof. intros T P NT l n. exact (irun_last_default l n). Qed.
Print Assumptions C50_default_last.
Example C50_default_ex :
  is_default (irun imported [ISetDefault "nosuch"; IGet "exact" tt; IRegister "exact" true true cls_broken]) = Some "exact" /\
  is_default (irun imported [ISetDefault "almost"]) = Some "almost" /\
  reg_names (is_methods imported) = ["exact"; "almost"].
Proof. repeat split. Qed.
