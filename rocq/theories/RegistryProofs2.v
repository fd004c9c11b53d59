(** Registries as functions of the history of calls. *)
From Coq Require Import ZArith String List Bool Arith Lia.
From Verif Require Import Num Py Numeric Curve Vec Geom Intersect Registry Spec.
From Verif Require Import ListFacts RegistryProofs.
Import ListNotations.
Local Open Scope list_scope.

(** Names in the order of their first occurrence. *)
Definition first_occurrences (l : list string) : list string := rev (nodup string_dec (rev l)).

Lemma first_occurrences_snoc l n :
  first_occurrences (l ++ [n]) = if in_dec string_dec n l then first_occurrences l else first_occurrences l ++ [n].
Proof.
  unfold first_occurrences. rewrite rev_app_distr. cbn [rev app nodup].
  destruct (in_dec string_dec n (rev l)) as [H|H]; destruct (in_dec string_dec n l) as [K|K]; try reflexivity.
  - exfalso. apply K. apply in_rev. assumption.
  - exfalso. apply H. apply (proj1 (in_rev l n)). assumption.
Qed.
Lemma first_occurrences_In l n : In n (first_occurrences l) <-> In n l.
Proof. unfold first_occurrences. rewrite <- in_rev, nodup_In, <- in_rev. reflexivity. Qed.

Section Generic.
  Context {A : Type}.
  Implicit Types r : registry A.

  (** The registrations that pass the type test, in order. *)
  Definition valid_regs (l : list (rop A)) : list (string * A) :=
    flat_map (fun o => match o with RRegister n true a => [(n, a)] | _ => [] end) l.

  (** The first pair with a key. *)
  Definition first_value (l : list (string * A)) (name : string) : option A :=
    option_map snd (find (fun p => String.eqb (fst p) name) l).

  Lemma reg_find_first r name : reg_find r name = first_value r name.
  Proof.
    unfold first_value. induction r as [|(k & a) r IH]; cbn; [reflexivity|]. destruct (String.eqb k name); [reflexivity|assumption].
  Qed.

  Lemma rrun_find l : forall r name,
    reg_find (rrun r l) name = match reg_find r name with Some a => Some a | None => first_value (valid_regs l) name end.
  Proof.
    induction l as [|o l IH]; intros r name; [cbn; destruct (reg_find r name); reflexivity|].
    cbn [rrun fold_left]. fold (rrun (fst (rstep r o)) l). rewrite IH. cbn [valid_regs flat_map]. fold (valid_regs l).
    destruct o as [n ok b|n|]; try reflexivity. cbn [rstep fst].
    destruct (reg_register_cases r n ok b) as [(E & H)|[(E & H & K)|(E & H & K)]]; rewrite E; cbn [fst].
    - destruct (reg_find r name) eqn:F; [reflexivity|]. apply reg_find_none in F.
      destruct ok; [|reflexivity]. unfold first_value. cbn [app find fst].
      destruct (String.eqb_spec n name) as [Q|Q]; [congruence|reflexivity].
    - subst ok. reflexivity.
    - subst ok. change (r ++ [(n, b)]) with (reg_add r n b). rewrite reg_find_add.
      destruct (reg_find r name) eqn:F; [reflexivity|]. unfold first_value. cbn [app find fst].
      destruct (String.eqb n name); reflexivity.
  Qed.

  Lemma rrun_app r l l' : rrun r (l ++ l') = rrun (rrun r l) l'.
  Proof. unfold rrun. apply fold_left_app. Qed.

  Lemma rrun_names l : reg_names (rrun [] l) = first_occurrences (map fst (valid_regs l)).
  Proof.
    induction l as [|o l IH] using rev_ind; [reflexivity|].
    rewrite rrun_app. cbn [rrun fold_left]. fold (rrun [] l). unfold valid_regs. rewrite flat_map_app, map_app.
    fold (valid_regs l). cbn [flat_map]. rewrite app_nil_r.
    destruct o as [n ok b|n|]; cbn [rstep fst map]; rewrite ?app_nil_r; try assumption.
    destruct (reg_register_cases (rrun [] l) n ok b) as [(E & H)|[(E & H & K)|(E & H & K)]]; rewrite E; cbn [fst].
    - rewrite IH in *. destruct ok; cbn [map]; rewrite ?app_nil_r; [|reflexivity]. cbn [map fst]. rewrite first_occurrences_snoc.
      destruct (in_dec _ _ _) as [Q|Q]; [reflexivity|]. exfalso. apply Q. apply first_occurrences_In. assumption.
    - subst ok. cbn [map]. rewrite app_nil_r. assumption.
    - subst ok. unfold reg_names in *. rewrite map_app. rewrite IH in *. cbn [map fst]. rewrite first_occurrences_snoc.
      destruct (in_dec _ _ _) as [Q|Q]; [|reflexivity]. exfalso. apply H. apply first_occurrences_In. assumption.
  Qed.
End Generic.

Section IReg.
  Context {T P : Type} {NT : Num T} {ST : NumSqrt T}.
  Implicit Types s : istate T P.

  (** The same history without defaults, lookups as lookups. *)
  Definition forget (o : iop T P) : rop (icls T P) :=
    match o with
    | IRegister n _ sub c => RRegister n sub c
    | ISetDefault n => RNames
    | IGet n _ => RGet n
    | INames => RNames
    end.

  Lemma istep_forget s o : is_methods (fst (istep s o)) = fst (rstep (is_methods s) (forget o)).
  Proof.
    destruct o as [n d sub c|n|n p|]; cbn [istep forget rstep fst]; try reflexivity.
    - unfold register_intersect. destruct (reg_register (is_methods s) n sub c) as [r e] eqn:E. cbn [fst].
      destruct e; [|reflexivity]. destruct d; [|reflexivity]. unfold set_default. cbn [is_methods].
      destruct (reg_find r n); reflexivity.
    - unfold set_default. destruct (reg_find (is_methods s) n); reflexivity.
  Qed.
  Lemma irun_forget l : forall s, is_methods (irun s l) = rrun (is_methods s) (map forget l).
  Proof.
    induction l as [|o l IH]; intros s; [reflexivity|].
    change (irun s (o :: l)) with (irun (fst (istep s o)) l). rewrite IH, istep_forget. reflexivity.
  Qed.

  (** Does the call select a default method in state s? *)
  Definition selects s (o : iop T P) (n : string) : Prop :=
    snd (istep s o) = Ok tt /\
    match o with IRegister m true _ _ => m = n | ISetDefault m => m = n | _ => False end.

  Lemma istep_selects s o n : is_default (fst (istep s o)) = Some n <->
    selects s o n \/ ((forall m, ~ selects s o m) /\ is_default s = Some n).
  Proof.
    unfold selects. destruct o as [m d sub c|m|m p|]; cbn [istep].
    - destruct (register_cases s m d sub c) as [(E & _)|[(E & _)|(E & _ & _)]]; rewrite E; cbn [fst snd is_default].
      + split; [intros H; right; split; [intros x (K & _); discriminate|assumption]|intros [(K & _)|(_ & H)]; [discriminate|assumption]].
      + split; [intros H; right; split; [intros x (K & _); discriminate|assumption]|intros [(K & _)|(_ & H)]; [discriminate|assumption]].
      + destruct d.
        * split; [intros H; injection H as <-; left; auto|]. intros [(_ & ->)|(H & _)]; [reflexivity|]. exfalso. apply (H m). auto.
        * split; [intros H; right; split; [tauto|assumption]|]. intros [(_ & [])|(_ & H)]. assumption.
    - unfold set_default. destruct (reg_find (is_methods s) m); cbn [fst snd is_default].
      + split; [intros H; injection H as <-; left; auto|]. intros [(_ & ->)|(H & _)]; [reflexivity|]. exfalso. apply (H m). auto.
      + split; [intros H; right; split; [intros x (K & _); discriminate|assumption]|intros [(K & _)|(_ & H)]; [discriminate|assumption]].
    - split; [intros H; right; split; [tauto|assumption]|]. cbn. intros [(_ & [])|(_ & H)]. assumption.
    - split; [intros H; right; split; [tauto|assumption]|]. cbn. intros [(_ & [])|(_ & H)]. assumption.
  Qed.

  Lemma irun_app s l l' : irun s (l ++ l') = irun (irun s l) l'.
  Proof. unfold irun. apply fold_left_app. Qed.

  (** The default is what the last selecting call selected. *)
  Lemma irun_last_default l n : is_default (irun (@is_empty T P) l) = Some n <->
    exists pre o post, l = pre ++ o :: post /\ selects (irun is_empty pre) o n /\
      forall pre' o' post', post = pre' ++ o' :: post' -> forall m, ~ selects (irun is_empty (pre ++ o :: pre')) o' m.
  Proof.
    induction l as [|x l IH] using rev_ind.
    - cbn. split; [discriminate|]. intros (pre & o & post & E & _). destruct pre; discriminate.
    - rewrite irun_app. change (irun (irun is_empty l) [x]) with (fst (istep (irun is_empty l) x)).
      rewrite istep_selects. split.
      + intros [S|(N & D)].
        * exists l, x, []. split; [reflexivity|]. split; [assumption|]. intros [|a p'] o' q' E; discriminate.
        * apply IH in D. destruct D as (pre & o & post & -> & S & L). exists pre, o, (post ++ [x]).
          split; [rewrite <- app_assoc; reflexivity|]. split; [assumption|]. intros pre' o' post' E m.
          destruct post' as [|y post'' _] using rev_ind.
          -- apply app_inj_tail in E. destruct E as [-> ->]. apply N.
          -- rewrite app_comm_cons, app_assoc in E. apply app_inj_tail in E. destruct E as [-> _].
             eapply L. reflexivity.
      + intros (pre & o & post & E & S & L). destruct post as [|y post] using rev_ind.
        * apply app_inj_tail in E. destruct E as [-> ->]. left. assumption.
        * clear IHpost. rewrite app_comm_cons, app_assoc in E. apply app_inj_tail in E. destruct E as [-> ->]. right. split.
          -- apply (L post y []). reflexivity.
          -- apply IH. exists pre, o, post. split; [reflexivity|]. split; [assumption|]. intros pre' o' post' -> m.
             apply (L pre' o' (post' ++ [y])). rewrite <- app_assoc. reflexivity.
  Qed.
End IReg.
