(** Registries, dispatch, and curve-segment intersection. *)
From Coq Require Import ZArith String List Bool Arith Lia.
From Verif Require Import Num Py Numeric Curve Vec Geom Intersect Registry Spec.
From Verif Require Import ListFacts ArrayProofs CurveProofs CurveProofs3.
Import ListNotations.
Local Open Scope list_scope.

(** ** Dictionaries *)
Section Dict.
  Context {A : Type}.
  Implicit Types r : registry A.

  Lemma reg_find_In r name : reg_find r name <> None <-> In name (reg_names r).
  Proof.
    induction r as [|(k & a) r IH]; cbn; [split; [congruence|tauto]|].
    destruct (String.eqb_spec k name) as [E|E]; [split; [auto|congruence]|].
    rewrite IH. split; [auto|intros [H|H]; [contradiction|assumption]].
  Qed.
  Lemma reg_find_none r name : reg_find r name = None <-> ~ In name (reg_names r).
  Proof. rewrite <- reg_find_In. destruct (reg_find r name); split; try congruence; intros H; exfalso; apply H; congruence. Qed.

  Lemma reg_find_add r name a m : reg_find (reg_add r name a) m =
    match reg_find r m with Some b => Some b | None => if String.eqb name m then Some a else None end.
  Proof.
    unfold reg_add. induction r as [|(k & b) r IH]; cbn; [reflexivity|].
    destruct (String.eqb k m); [reflexivity|assumption].
  Qed.

  Lemma reg_register_cases r name ok a :
    (reg_register r name ok a = (r, Raise ValueError) /\ In name (reg_names r)) \/
    (reg_register r name ok a = (r, Raise TypeError) /\ ~ In name (reg_names r) /\ ok = false) \/
    (reg_register r name ok a = (r ++ [(name, a)], Ok tt) /\ ~ In name (reg_names r) /\ ok = true).
  Proof.
    unfold reg_register. destruct (reg_find r name) eqn:E.
    - left. split; [reflexivity|]. apply reg_find_In. congruence.
    - apply reg_find_none in E. destruct ok; cbn; [right; right|right; left]; auto.
  Qed.

  Lemma rstep_keeps r o name a : reg_find r name = Some a -> reg_find (fst (rstep r o)) name = Some a.
  Proof.
    intros H. destruct o as [n ok b|n|]; cbn [rstep fst]; try assumption.
    destruct (reg_register_cases r n ok b) as [(E & _)|[(E & _)|(E & _)]]; rewrite E; cbn [fst]; try assumption.
    change (reg_find (reg_add r n b) name = Some a). rewrite reg_find_add, H. reflexivity.
  Qed.
  Lemma rrun_keeps l : forall r name a, reg_find r name = Some a -> reg_find (rrun r l) name = Some a.
  Proof.
    induction l as [|o l IH]; intros r name a H; [assumption|]. cbn. apply IH. apply rstep_keeps. assumption.
  Qed.

  (** The names added by a successful step. *)
  Lemma rstep_names r o : reg_names (fst (rstep r o)) =
    reg_names r ++ match o, snd (rstep r o) with RRegister n _ _, Ok _ => [n] | _, _ => [] end.
  Proof.
    destruct o as [n ok b|n|]; cbn [rstep fst snd].
    - destruct (reg_register_cases r n ok b) as [(E & _)|[(E & _)|(E & _)]]; rewrite E; cbn [fst snd];
        unfold reg_names; rewrite ?map_app, ?app_nil_r; reflexivity.
    - rewrite app_nil_r. reflexivity.
    - rewrite app_nil_r. reflexivity.
  Qed.
  Lemma rstep_failed r o e : snd (rstep r o) = Raise e -> fst (rstep r o) = r.
  Proof.
    destruct o as [n ok b|n|]; cbn [rstep fst snd]; try reflexivity.
    destruct (reg_register_cases r n ok b) as [(E & _)|[(E & _)|(E & _)]]; rewrite E; cbn; congruence.
  Qed.
  Lemma NoDup_snoc {B} (l : list B) x : NoDup l -> ~ In x l -> NoDup (l ++ [x]).
  Proof.
    intros N H. apply Permutation.Permutation_NoDup with (x :: l); [apply Permutation.Permutation_cons_append|].
    constructor; assumption.
  Qed.
  Lemma rstep_NoDup r o : NoDup (reg_names r) -> NoDup (reg_names (fst (rstep r o))).
  Proof.
    intros N. destruct o as [n ok b|n|]; cbn [rstep fst]; try assumption.
    destruct (reg_register_cases r n ok b) as [(E & _)|[(E & _)|(E & Hn & _)]]; rewrite E; cbn [fst]; try assumption.
    unfold reg_names. rewrite map_app. apply NoDup_snoc; assumption.
  Qed.
  Lemma rrun_NoDup l : forall r, NoDup (reg_names r) -> NoDup (reg_names (rrun r l)).
  Proof. induction l as [|o l IH]; intros r N; [assumption|]. cbn. apply IH, rstep_NoDup, N. Qed.
  Lemma rrun_prefix l : forall r, exists l', rrun r l = r ++ l'.
  Proof.
    induction l as [|o l IH]; intros r; cbn; [exists []; rewrite app_nil_r; reflexivity|].
    destruct (IH (fst (rstep r o))) as (l' & E). unfold rrun in E. rewrite E.
    destruct o as [n ok b|n|]; cbn [rstep fst]; try (exists l'; reflexivity).
    destruct (reg_register_cases r n ok b) as [(Q & _)|[(Q & _)|(Q & _)]]; rewrite Q; cbn [fst];
      [exists l'; reflexivity|exists l'; reflexivity|exists ((n, b) :: l'); rewrite <- app_assoc; reflexivity].
  Qed.
End Dict.

(** ** The intersection registry *)
Section IReg.
  Context {T P : Type} {NT : Num T} {ST : NumSqrt T}.
  Implicit Types s : istate T P.

  Definition default_ok s : Prop := forall d, is_default s = Some d -> In d (reg_names (is_methods s)).

  Lemma register_cases s name def sub cls :
    (register_intersect s name def sub cls = (s, Raise ValueError) /\ In name (reg_names (is_methods s))) \/
    (register_intersect s name def sub cls = (s, Raise TypeError) /\ ~ In name (reg_names (is_methods s)) /\ sub = false) \/
    (register_intersect s name def sub cls =
       (mkIState (is_methods s ++ [(name, cls)]) (if def then Some name else is_default s), Ok tt) /\
     ~ In name (reg_names (is_methods s)) /\ sub = true).
  Proof.
    unfold register_intersect. destruct s as [r d]. cbn [is_methods is_default].
    destruct (reg_register_cases r name sub cls) as [(E & H)|[(E & H)|(E & H & H')]]; rewrite E; [auto|auto|].
    right. right. split; [|auto]. destruct def; [|reflexivity].
    unfold set_default. cbn [is_methods]. change (r ++ [(name, cls)]) with (reg_add r name cls).
    rewrite reg_find_add. destruct (reg_find r name) eqn:F; [|rewrite String.eqb_refl; reflexivity].
    exfalso. apply H. apply reg_find_In. congruence.
  Qed.

  Lemma istep_cases s o :
    fst (istep s o) = s \/
    (exists name def cls, o = IRegister name def true cls /\ ~ In name (reg_names (is_methods s)) /\
       snd (istep s o) = Ok tt /\
       fst (istep s o) = mkIState (is_methods s ++ [(name, cls)]) (if def then Some name else is_default s)) \/
    (exists name, o = ISetDefault name /\ In name (reg_names (is_methods s)) /\ snd (istep s o) = Ok tt /\
       fst (istep s o) = mkIState (is_methods s) (Some name)).
  Proof.
    destruct o as [name def sub cls|name|name params|]; cbn [istep].
    - destruct (register_cases s name def sub cls) as [(E & _)|[(E & _)|(E & H & ->)]]; rewrite E; cbn [fst snd]; auto.
      right. left. exists name, def, cls. auto.
    - unfold set_default. destruct (reg_find (is_methods s) name) eqn:F; cbn [fst snd]; [|auto].
      right. right. exists name. repeat split. apply reg_find_In. congruence.
    - auto.
    - auto.
  Qed.

  Lemma istep_failed s o e : snd (istep s o) = Raise e -> fst (istep s o) = s.
  Proof.
    destruct (istep_cases s o) as [H|[(n & d & c & _ & _ & E & _)|(n & _ & _ & E & _)]]; [auto|congruence|congruence].
  Qed.

  Lemma istep_keeps s o name c : reg_find (is_methods s) name = Some c ->
    reg_find (is_methods (fst (istep s o))) name = Some c.
  Proof.
    intros H. destruct (istep_cases s o) as [E|[(n & d & cl & _ & _ & _ & E)|(n & _ & _ & _ & E)]]; rewrite E; cbn [is_methods]; try assumption.
    change (is_methods s ++ [(n, cl)]) with (reg_add (is_methods s) n cl). rewrite reg_find_add, H. reflexivity.
  Qed.
  Lemma irun_keeps l : forall s name c, reg_find (is_methods s) name = Some c ->
    reg_find (is_methods (irun s l)) name = Some c.
  Proof. induction l as [|o l IH]; intros s name c H; [assumption|]. cbn. apply IH, istep_keeps, H. Qed.

  Lemma istep_names s o : reg_names (is_methods (fst (istep s o))) =
    reg_names (is_methods s) ++ match o, snd (istep s o) with IRegister n _ _ _, Ok _ => [n] | _, _ => [] end.
  Proof.
    destruct o as [name def sub cls|name|name params|]; cbn [istep fst snd].
    - destruct (register_cases s name def sub cls) as [(E & _)|[(E & _)|(E & H & _)]]; rewrite E; cbn [fst snd is_methods];
        unfold reg_names; rewrite ?map_app, ?app_nil_r; reflexivity.
    - unfold set_default. destruct (reg_find (is_methods s) name); cbn [fst is_methods]; rewrite app_nil_r; reflexivity.
    - rewrite app_nil_r. reflexivity.
    - rewrite app_nil_r. reflexivity.
  Qed.

  Lemma istep_inv s o : NoDup (reg_names (is_methods s)) /\ default_ok s ->
    NoDup (reg_names (is_methods (fst (istep s o)))) /\ default_ok (fst (istep s o)).
  Proof.
    intros [N D]. destruct (istep_cases s o) as [E|[(n & d & cl & _ & Hn & _ & E)|(n & _ & Hn & _ & E)]]; rewrite E.
    - auto.
    - unfold default_ok in *. cbn [is_methods is_default]. unfold reg_names in *. rewrite map_app. split.
      + apply NoDup_snoc; assumption.
      + intros x Hx. apply in_app_iff. destruct d; [injection Hx as <-; right; left; reflexivity|left; auto].
    - unfold default_ok in *. cbn [is_methods is_default]. split; [assumption|]. intros x Hx. congruence.
  Qed.
  Lemma irun_inv l : forall s, NoDup (reg_names (is_methods s)) /\ default_ok s ->
    NoDup (reg_names (is_methods (irun s l))) /\ default_ok (irun s l).
  Proof. induction l as [|o l IH]; intros s H; [assumption|]. cbn. apply IH, istep_inv, H. Qed.

  Lemma istep_default s o : is_default s <> None -> is_default (fst (istep s o)) <> None.
  Proof.
    intros H. destruct (istep_cases s o) as [E|[(n & d & cl & _ & _ & _ & E)|(n & _ & _ & _ & E)]]; rewrite E; cbn [is_default]; try congruence.
    destruct d; congruence.
  Qed.
  Lemma irun_default l : forall s, is_default s <> None -> is_default (irun s l) <> None.
  Proof. induction l as [|o l IH]; intros s H; [assumption|]. cbn. apply IH, istep_default, H. Qed.

  (** ** Segment to curve *)
  Lemma sg_to_curve_ok (sg : segment T) : length (sg_p1 sg) = length (sg_p2 sg) -> 2 <= sg_ndim sg ->
    sg_to_curve sg = Ok (mkCurve [sg_p1 sg; sg_p2 sg] (sg_ndim sg) DFloat None).
  Proof.
    intros L H. unfold sg_to_curve.
    pose proof (curve_init_rows [sg_p1 sg; sg_p2 sg] (sg_ndim sg) None) as E.
    cbn [concat app length] in E. rewrite app_nil_r in E.
    cbn [option_map] in E.
    apply E.
    - discriminate.
    - assumption.
    - intros r [<-|[<-|[]]]; unfold sg_ndim; congruence.
    - discriminate.
  Qed.
End IReg.
