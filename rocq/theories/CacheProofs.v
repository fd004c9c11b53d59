(** Invariants of the property caches. *)
From Coq Require Import ZArith List Bool Arith Lia.
From Verif Require Import Num Py Numeric Curve Vec DiffGeom Cache Spec ListFacts.
Import ListNotations.

Lemma prop_eqb_spec a b : reflect (a = b) (prop_eqb a b).
Proof. destruct a, b; cbn; constructor; congruence. Qed.
Lemma key_eqb_spec a b : reflect (a = b) (key_eqb a b).
Proof.
  destruct a as [|p], b as [|q]; cbn; try (constructor; congruence).
  destruct (prop_eqb_spec p q); constructor; congruence.
Qed.

Section CacheProofs.
  Context {T : Type} {NT : Num T} {ST : NumSqrt T}.
  Variable junk : T.
  Variable c : curve T.

  (** The value of a property computed from the curve data. *)
  Definition val (k : key) : res (arr T) :=
    match k with KChord => Ok (AVec (c_chordlen junk c)) | KProp q => curve_prop junk c q end.

  Definition parametric : bool := match c_t c with Some _ => true | None => false end.

  (** Properties that return one and the same array object. *)
  Definition cls (k : key) : key :=
    match k with
    | KProp PTangent => KProp PFirst
    | KProp PT => if parametric then KProp PT else KProp PCumarclen
    | k => k
    end.

  (** The properties a property reads while it is computed. *)
  Definition deps (k : key) : list key :=
    match k with
    | KChord => []
    | KProp q =>
        match q with
        | PFirst => []
        | PT => if parametric then [] else [KProp PCumarclen]
        | PCumarclen => [KChord]
        | PSecond | PTangent => [KProp PFirst]
        | PThird => [KProp PSecond]
        | PSpeed | PFrenet1 => [KProp PTangent]
        | PNormal => [KProp PSecond; KProp PFrenet1]
        | PFrenet2 => [KProp PNormal]
        | PBinormal => [KProp PThird; KProp PFrenet1; KProp PFrenet2]
        | PFrenet3 => [KProp PBinormal]
        | PCurvature => if Nat.eqb (c_ndim c) 2 then [KProp PFirst; KProp PSecond] else [KProp PFrenet1; KProp PTangent]
        | PTorsion => [KProp PFrenet2; KProp PTangent; KProp PFrenet3]
        end
    end.

  (** A set of properties that contains everything computed from its members
      and everything that shares an array with them. *)
  Definition closed (W : key -> Prop) : Prop :=
    (forall k k', In k' (deps k) -> W k' -> W k) /\ (forall k k', cls k = cls k' -> W k -> W k').

  (** The array at [a] is held by the curve or by a point as its property [k]. *)
  Definition named (s : state T) (a : nat) (k : key) : Prop :=
    s_cache s k = Some a \/ exists o q r, In o (s_points s) /\ o_cache o q = Some (PView a r) /\ k = KProp q.

  Record Inv (W : key -> Prop) (s : state T) : Prop := {
    I_bound : forall k a, named s a k -> a < length (s_heap s);
    I_value : forall k a, s_cache s k = Some a -> ~ W k -> val k = Ok (deref s a);
    I_class : forall k k' a, named s a k -> named s a k' -> cls k = cls k';
    I_param : forall t, c_t c = Some t -> 0 < length (s_heap s) /\ deref s 0 = AVec t /\
                forall k, named s 0 k -> k = KProp PT;
    I_arclen : forall x, s_arclen s = Some x -> x = c_arclen junk c;
    I_points : forall o, In o (s_points s) ->
      norm_index (c_size c) (o_idx o) <> None /\
      forall q p, o_cache o q = Some p -> ~ W (KProp q) -> point_prop junk c (o_idx o) q = Ok (pderef s p)
  }.

  (** What a read of the curve leaves alone. *)
  Record ext (s s' : state T) : Prop := {
    E_cache : forall k a, s_cache s k = Some a -> s_cache s' k = Some a;
    E_len : length (s_heap s) <= length (s_heap s');
    E_heap : forall a, a < length (s_heap s) -> deref s' a = deref s a;
    E_points : s_points s' = s_points s
  }.
  Lemma ext_refl s : ext s s.
  Proof. split; auto. Qed.
  Lemma ext_trans s s' s'' : ext s s' -> ext s' s'' -> ext s s''.
  Proof.
    intros [A B C D] [A' B' C' D']. split; auto; [lia| |congruence]. intros a H. rewrite C', C by lia. reflexivity.
  Qed.

  (** Specification of reading [k]. *)
  Definition reads (k : key) (m : M nat) : Prop :=
    forall W s, closed W -> Inv W s ->
    let '(r, s') := m s in
    Inv W s' /\ ext s s' /\
    match r with
    | Ok a => s_cache s' k = Some a
    | Raise e => ~ W k -> val k = Raise e
    end.

  (** Specification of a body. *)
  Definition makes (k : key) (m : M (made T)) : Prop :=
    forall W s, closed W -> Inv W s ->
    let '(r, s') := m s in
    Inv W s' /\ ext s s' /\
    match r with
    | Ok (New v) => ~ W k -> val k = Ok v
    | Ok (Alias a) =>
        (exists k', s_cache s' k' = Some a /\ cls k = cls k' /\ val k = val k') \/
        (k = KProp PT /\ parametric = true /\ a = 0)
    | Raise e => ~ W k -> val k = Raise e
    end.

  Lemma set_cache_some (s : state T) k a k' x : set_cache s k a k' = Some x -> (k' = k /\ x = a) \/ s_cache s k' = Some x.
  Proof. unfold set_cache. destruct (key_eqb_spec k' k); [|auto]. intros E. injection E as <-. auto. Qed.
  Lemma set_cache_same (s : state T) k a : set_cache s k a k = Some a.
  Proof. unfold set_cache. destruct (key_eqb_spec k k); congruence. Qed.

  Lemma named_set h (s : state T) k a x k' ar : named (mkState h (set_cache s k a) ar (s_points s)) x k' -> (k' = k /\ x = a) \/ named s x k'.
  Proof.
    intros [H|H]; [|right; right; exact H]. apply set_cache_some in H as [H|H]; [auto|]. right. left. assumption.
  Qed.

  Lemma cached_reads k m : makes k m -> reads k (cached k m).
  Proof.
    intros H W s Cl I. unfold cached. destruct (s_cache s k) as [a|] eqn:Ck.
    - split; [assumption|]. split; [apply ext_refl|]. assumption.
    - specialize (H W s Cl I). destruct (m s) as [[[v|a]|e] s1]; [| |exact H].
      + destruct H as (I1 & E1 & V). set (n := length (s_heap s1)).
        assert (Pre : forall x, x < n -> nth x (s_heap s1 ++ [v]) (ANil 0) = deref s1 x) by (intros x Hx; apply app_nth1; assumption).
        split; [|split; [|apply set_cache_same]].
        * destruct I1 as [B Vl Cc P Ar Po].
          assert (Fresh : forall k', ~ named s1 n k') by (intros k' Hk; specialize (B _ _ Hk); unfold n in B; lia).
          split; cbn [s_cache s_heap s_arclen s_points].
          -- intros k' a Ha. rewrite app_length. cbn. apply named_set in Ha as [[_ ->]|Ha]; [unfold n; lia|]. specialize (B _ _ Ha). lia.
          -- intros k' a Ha Nw. unfold deref. cbn [s_heap]. apply set_cache_some in Ha as [[-> ->]|Ha].
             ++ unfold n. rewrite app_nth2, Nat.sub_diag by lia. cbn. apply V. assumption.
             ++ rewrite Pre by (eapply B; left; eassumption). apply (Vl _ _ Ha Nw).
          -- intros k1 k2 a H1 H2. apply named_set in H1 as [[-> ->]|H1]; apply named_set in H2 as [[-> H2]|H2]; try congruence.
             ++ destruct (Fresh _ H2).
             ++ subst a. destruct (Fresh _ H1).
             ++ eapply Cc; eassumption.
          -- intros t Ht. destruct (P t Ht) as (P1 & P2 & P3). split; [rewrite app_length; lia|]. split.
             ++ unfold deref. cbn [s_heap]. rewrite Pre by assumption. assumption.
             ++ intros k' Hk. apply named_set in Hk as [[-> Hk]|Hk]; [unfold n in Hk; lia|]. apply P3. assumption.
          -- assumption.
          -- intros o Ho. destruct (Po o Ho) as (Po1 & Po2). split; [assumption|]. intros q p Hq Nw. rewrite (Po2 q p Hq Nw). f_equal.
             destruct p as [x|a kk|nn]; [reflexivity| |reflexivity].
             change (VRow (nth kk (rows_of (deref s1 a)) []) = VRow (nth kk (rows_of (nth a (s_heap s1 ++ [v]) (ANil 0))) [])). rewrite Pre; [reflexivity|].
             eapply B. right. exists o, q, kk. split; [exact Ho|]. split; [exact Hq|reflexivity].
        * destruct E1 as [A B C D]. split; cbn [s_cache s_heap s_points].
          -- intros k' a Ha. unfold set_cache. destruct (key_eqb_spec k' k) as [->|]; [congruence|]. apply A. assumption.
          -- rewrite app_length. lia.
          -- intros a Ha. unfold deref at 1. cbn [s_heap]. rewrite Pre by (unfold n; lia). apply C. assumption.
          -- assumption.
      + destruct H as (I1 & E1 & V). split; [|split; [|apply set_cache_same]].
        * destruct I1 as [B Vl Cc P Ar Po]. split; cbn [s_cache s_heap s_arclen s_points].
          -- intros k' x Ha. apply named_set in Ha as [[_ ->]|Ha]; [|apply (B _ _ Ha)].
             destruct V as [(k2 & K2 & _)|(_ & Pm & ->)]; [apply (B k2); left; assumption|].
             unfold parametric in Pm. destruct (c_t c) as [t|] eqn:Ct; [|discriminate]. apply (P t eq_refl).
          -- intros k' x Ha Nw. apply set_cache_some in Ha as [[-> ->]|Ha]; [|apply (Vl _ _ Ha Nw)].
             change (val k = Ok (deref s1 a)). destruct V as [(k2 & K2 & K3 & K4)|(-> & Pm & ->)].
             ++ rewrite K4. apply Vl; [assumption|]. intros Wk. apply Nw. apply (proj2 Cl k2 k); [symmetry|]; assumption.
             ++ unfold parametric in Pm. destruct (c_t c) as [t|] eqn:Ct; [|discriminate]. destruct (P t eq_refl) as (_ & -> & _).
                cbn [val]. unfold curve_prop, c_tval. rewrite Ct. destruct (negb (c_bool c)); reflexivity.
          -- assert (A : forall k', named s1 a k' -> cls k = cls k').
             { intros k' Hk. destruct V as [(k2 & K2 & K3 & K4)|(-> & Pm & ->)].
               - rewrite K3. eapply Cc; [left; exact K2|exact Hk].
               - unfold parametric in Pm. destruct (c_t c) as [t|] eqn:Ct; [|discriminate]. destruct (P t eq_refl) as (_ & _ & P3). rewrite (P3 _ Hk). reflexivity. }
             intros k1 k2 x H1 H2. apply named_set in H1 as [[-> ->]|H1]; apply named_set in H2 as [[-> H2]|H2]; try subst x; auto.
             ++ symmetry. auto.
             ++ eapply Cc; eassumption.
          -- intros t Ht. destruct (P t Ht) as (P1 & P2 & P3). split; [assumption|]. split; [assumption|].
             intros k' Hk. apply named_set in Hk as [[-> Hk]|Hk]; [|apply P3; assumption].
             destruct V as [(k2 & K2 & K3 & K4)|(-> & _)]; [|reflexivity]. subst a.
             assert (k2 = KProp PT) by (apply P3; left; assumption). subst k2. unfold cls at 2 in K3. unfold parametric in K3. rewrite Ht in K3.
             destruct k as [|[]]; cbn in K3; try discriminate; try congruence.
          -- assumption.
          -- assumption.
        * destruct E1 as [A B C D]. split; cbn [s_cache s_heap s_points]; try assumption.
          intros k' x Ha. unfold set_cache. destruct (key_eqb_spec k' k) as [->|]; [congruence|]. apply A. assumption.
  Qed.

  (** Bodies: return, and read another property first. *)
  Lemma makes_new k v : val k = Ok v -> makes k (mret (New v)).
  Proof. intros V W s Cl I. split; [assumption|]. split; [apply ext_refl|]. auto. Qed.

  (** A body after some properties have been read; [known] collects what is
      known about the contents seen. *)
  Definition makes_if (k : key) (ds : list key) (good : Prop) (m : M (made T)) : Prop :=
    (forall k', In k' ds -> In k' (deps k)) ->
    forall W s, closed W -> Inv W s -> (~ W k -> good) ->
    let '(r, s') := m s in
    Inv W s' /\ ext s s' /\
    match r with
    | Ok (New v) => ~ W k -> val k = Ok v
    | Ok (Alias a) => False
    | Raise e => ~ W k -> val k = Raise e
    end.

  Lemma makes_of_if k ds m : makes_if k ds True m -> (forall k', In k' ds -> In k' (deps k)) -> makes k m.
  Proof.
    intros H D W s Cl I. specialize (H D W s Cl I (fun _ => Logic.I)). destruct (m s) as [[[v|a]|e] s1]; try tauto.
  Qed.

  Lemma makes_if_use k k' ds (good : Prop) m f : reads k' m ->
    (forall e, good -> val k' = Raise e -> val k = Raise e) ->
    (forall v, makes_if k ds (good /\ val k' = Ok v) (f v)) ->
    makes_if k (k' :: ds) good (mbind (use m) f).
  Proof.
    intros R Er F D W s Cl I G. unfold mbind, use, load. unfold mbind. specialize (R W s Cl I). destruct (m s) as [[a|e] s1].
    - destruct R as (I1 & E1 & C1).
      specialize (F (deref s1 a) (fun x Hx => D x (or_intror Hx)) W s1 Cl I1).
      assert (Gd : ~ W k -> good /\ val k' = Ok (deref s1 a)).
      { intros Nw. split; [auto|]. apply (I_value _ _ I1); [assumption|]. intros Wk. apply Nw. apply (proj1 Cl k k'); [apply D; left; reflexivity|assumption]. }
      specialize (F Gd). destruct (f (deref s1 a) s1) as [r s2]. destruct F as (I2 & E2 & V). split; [assumption|]. split; [eapply ext_trans; eassumption|assumption].
    - destruct R as (I1 & E1 & V). split; [assumption|]. split; [assumption|]. intros Nw. apply Er; [auto|]. apply V. intros Wk. apply Nw.
      apply (proj1 Cl k k'); [apply D; left; reflexivity|assumption].
  Qed.

  Lemma makes_if_ret k (good : Prop) v : (good -> val k = Ok v) -> makes_if k [] good (mret (New v)).
  Proof. intros V D W s Cl I G. split; [assumption|]. split; [apply ext_refl|]. auto. Qed.
  Lemma makes_if_lift k ds (good : Prop) (r : res (made T)) :
    match r with Ok (New v) => good -> val k = Ok v | Ok (Alias _) => False | Raise e => good -> val k = Raise e end -> makes_if k ds good (mlift r).
  Proof.
    intros V D W s Cl I G. unfold mlift. destruct r as [[v|a]|e]; (split; [assumption|]); (split; [apply ext_refl|]); auto.
  Qed.
  Lemma makes_if_unless k ds m : (c_bool c = false -> val k = Ok (ANil (c_ndim c))) -> (c_bool c = true -> makes_if k ds True m) ->
    makes_if k ds True (unless_empty c m).
  Proof.
    intros V H. unfold unless_empty. destruct (c_bool c); cbn [negb]; [auto|].
    intros D W s Cl I G. split; [assumption|]. split; [apply ext_refl|]. auto.
  Qed.

  Lemma reads_alias k k' m : In k' (deps k) -> cls k = cls k' -> val k = val k' -> reads k' m ->
    makes k (mbind m (fun a => mret (Alias a))).
  Proof.
    intros Hd C V R W s Cl I. unfold mbind. specialize (R W s Cl I). destruct (m s) as [[a|e] s1].
    - destruct R as (I1 & E1 & C1). split; [assumption|]. split; [assumption|]. left. exists k'. auto.
    - destruct R as (I1 & E1 & C1). split; [assumption|]. split; [assumption|]. intros Nw. rewrite V. apply C1. intros Wk. apply Nw.
      apply (proj1 Cl k k'); assumption.
  Qed.

  Ltac uv := cbn [val] in *; unfold curve_prop, c_tval in *.

  Lemma chord_reads : reads KChord (read_chord junk c).
  Proof. apply cached_reads, makes_new. reflexivity. Qed.
  Lemma cum_reads : reads (KProp PCumarclen) (read_cum junk c).
  Proof.
    apply cached_reads. apply (makes_of_if _ [KChord]); [|auto]. apply makes_if_use; [apply chord_reads|discriminate|].
    intros v. apply makes_if_ret. intros [_ E]. uv. injection E as <-. uv. destruct (negb (c_bool c)); reflexivity.
  Qed.
  Lemma t_reads : reads (KProp PT) (read_t junk c).
  Proof.
    apply cached_reads. destruct (c_t c) as [t|] eqn:Ct.
    - intros W s Cl I. split; [assumption|]. split; [apply ext_refl|]. right. unfold parametric. rewrite Ct. auto.
    - assert (P : parametric = false) by (unfold parametric; rewrite Ct; reflexivity).
      apply (reads_alias _ (KProp PCumarclen)); [cbn; rewrite P; left; reflexivity|cbn; rewrite P; reflexivity| |apply cum_reads].
      uv. rewrite Ct. destruct (negb (c_bool c)); reflexivity.
  Qed.
  Lemma first_reads : reads (KProp PFirst) (read_first c).
  Proof. apply cached_reads, makes_new. uv. destruct (negb (c_bool c)); reflexivity. Qed.
  Lemma second_reads : reads (KProp PSecond) (read_second c).
  Proof.
    apply cached_reads. apply (makes_of_if _ [KProp PFirst]); [|auto]. apply makes_if_use; [apply first_reads| |].
    - intros e _ E. uv. destruct (negb (c_bool c)); discriminate.
    - intros v. apply makes_if_ret. intros [_ E]. uv. destruct (negb (c_bool c)); injection E as <-; reflexivity.
  Qed.
  Lemma third_reads : reads (KProp PThird) (read_third c).
  Proof.
    apply cached_reads. apply (makes_of_if _ [KProp PSecond]); [|auto]. apply makes_if_use; [apply second_reads| |].
    - intros e _ E. uv. destruct (negb (c_bool c)); discriminate.
    - intros v. apply makes_if_ret. intros [_ E]. uv. destruct (negb (c_bool c)); injection E as <-; reflexivity.
  Qed.
  Lemma tangent_reads : reads (KProp PTangent) (read_tangent c).
  Proof.
    apply cached_reads. apply (reads_alias _ (KProp PFirst)); [left; reflexivity|reflexivity| |apply first_reads].
    uv. destruct (negb (c_bool c)); reflexivity.
  Qed.
  Lemma speed_reads : reads (KProp PSpeed) (read_speed c).
  Proof.
    apply cached_reads. apply (makes_of_if _ [KProp PTangent]); [|auto]. apply makes_if_use; [apply tangent_reads| |].
    - intros e _ E. uv. destruct (negb (c_bool c)); discriminate.
    - intros v. apply makes_if_lift. destruct v as [u|r|n]; intros [_ E]; uv; destruct (negb (c_bool c)); try discriminate; try reflexivity.
      injection E as <-. reflexivity.
  Qed.
  Lemma frenet1_reads : reads (KProp PFrenet1) (read_frenet1 c).
  Proof.
    apply cached_reads. apply (makes_of_if _ [KProp PTangent]); [|auto]. apply makes_if_unless; intros B.
    - uv. rewrite B. reflexivity.
    - apply makes_if_use; [apply tangent_reads| |].
      + intros e _ E. uv. rewrite B in E. discriminate.
      + intros v. apply makes_if_ret. intros [_ E]. uv. rewrite B in *. injection E as <-. reflexivity.
  Qed.
  Lemma normal_reads : reads (KProp PNormal) (read_normal c).
  Proof.
    apply cached_reads. apply (makes_of_if _ [KProp PSecond; KProp PFrenet1]); [|auto]. apply makes_if_unless; intros B.
    - uv. rewrite B. reflexivity.
    - apply makes_if_use; [apply second_reads| |]; [intros e _ E; uv; rewrite B in E; discriminate|intros v].
      apply makes_if_use; [apply frenet1_reads| |]; [intros e _ E; uv; rewrite B in E; discriminate|intros w].
      apply makes_if_ret. intros [[_ E] F]. uv. rewrite B in *. injection E as <-. injection F as <-. reflexivity.
  Qed.
  Lemma frenet2_reads : reads (KProp PFrenet2) (read_frenet2 c).
  Proof.
    apply cached_reads. apply (makes_of_if _ [KProp PNormal]); [|auto]. apply makes_if_unless; intros B.
    - uv. rewrite B. reflexivity.
    - apply makes_if_use; [apply normal_reads| |]; [intros e _ E; uv; rewrite B in E; discriminate|intros v].
      apply makes_if_ret. intros [_ E]. uv. rewrite B in *. injection E as <-. reflexivity.
  Qed.
  Lemma binormal_reads : reads (KProp PBinormal) (read_binormal c).
  Proof.
    apply cached_reads. apply (makes_of_if _ [KProp PThird; KProp PFrenet1; KProp PFrenet2]); [|auto]. apply makes_if_unless; intros B.
    - uv. rewrite B. reflexivity.
    - apply makes_if_use; [apply third_reads| |]; [intros e _ E; uv; rewrite B in E; discriminate|intros v].
      apply makes_if_use; [apply frenet1_reads| |]; [intros e _ E; uv; rewrite B in E; discriminate|intros w].
      apply makes_if_use; [apply frenet2_reads| |]; [intros e _ E; uv; rewrite B in E; discriminate|intros x].
      apply makes_if_ret. intros [[[_ E] F] G]. uv. rewrite B in *. injection E as <-. injection F as <-. injection G as <-. reflexivity.
  Qed.
  Lemma frenet3_reads : reads (KProp PFrenet3) (read_frenet3 c).
  Proof.
    apply cached_reads. apply (makes_of_if _ [KProp PBinormal]); [|auto]. apply makes_if_unless; intros B.
    - uv. rewrite B. reflexivity.
    - apply makes_if_use; [apply binormal_reads| |]; [intros e _ E; uv; rewrite B in E; discriminate|intros v].
      apply makes_if_ret. intros [_ E]. uv. rewrite B in *. injection E as <-. reflexivity.
  Qed.
  Lemma gradient_one (rows : list (list T)) : Nat.eqb (length (gradient rows)) 1 = Nat.eqb (length rows) 1.
  Proof.
    unfold gradient. destruct rows as [|a [|b [|d r]]]; try reflexivity.
  Qed.
  Lemma curvature_reads : reads (KProp PCurvature) (read_curvature c).
  Proof.
    apply cached_reads. apply (makes_of_if _ (deps (KProp PCurvature))); [|auto]. apply makes_if_unless; intros B.
    - uv. rewrite B. reflexivity.
    - cbn [deps]. destruct (Nat.eqb (c_ndim c) 2) eqn:N2.
      + apply makes_if_use; [apply first_reads| |]; [intros e _ E; uv; rewrite B in E; discriminate|intros v].
        destruct (Nat.eqb (length (rows_of v)) 1) eqn:L1.
        * apply makes_if_lift. intros [_ E]. uv. rewrite B in *. cbn [negb] in *. injection E as <-. cbn [rows_of] in *.
          unfold deriv1 in L1. rewrite gradient_one in L1. rewrite N2. unfold curvature_plane. rewrite L1. reflexivity.
        * apply makes_if_use; [apply second_reads| |]; [intros e _ E; uv; rewrite B in E; discriminate|intros w].
          apply makes_if_ret. intros [[_ E] F]. uv. rewrite B in *. cbn [negb] in *. injection E as <-. injection F as <-. cbn [rows_of] in *.
          unfold deriv1 in L1. rewrite gradient_one in L1. rewrite N2. unfold curvature_plane. rewrite L1. reflexivity.
      + apply makes_if_use; [apply frenet1_reads| |]; [intros e _ E; uv; rewrite B in E; discriminate|intros v].
        apply makes_if_use; [apply tangent_reads| |]; [intros e _ E; uv; rewrite B in E; discriminate|intros w].
        apply makes_if_ret. intros [[_ E] F]. uv. rewrite B in *. cbn [negb] in *. injection E as <-. injection F as <-. rewrite N2. reflexivity.
  Qed.
  Lemma torsion_reads : reads (KProp PTorsion) (read_torsion c).
  Proof.
    apply cached_reads. apply (makes_of_if _ [KProp PFrenet2; KProp PTangent; KProp PFrenet3]); [|auto]. apply makes_if_unless; intros B.
    - uv. rewrite B. reflexivity.
    - apply makes_if_use; [apply frenet2_reads| |]; [intros e _ E; uv; rewrite B in E; discriminate|intros v].
      apply makes_if_use; [apply tangent_reads| |]; [intros e _ E; uv; rewrite B in E; discriminate|intros w].
      apply makes_if_use; [apply frenet3_reads| |]; [intros e _ E; uv; rewrite B in E; discriminate|intros x].
      apply makes_if_ret. intros [[[_ E] F] G]. uv. rewrite B in *. injection E as <-. injection F as <-. injection G as <-. reflexivity.
  Qed.

  Lemma read_reads k : reads k (read junk c k).
  Proof.
    destruct k as [|[]]; cbn [read].
    - apply chord_reads.
    - apply t_reads.
    - apply cum_reads.
    - apply first_reads.
    - apply second_reads.
    - apply third_reads.
    - apply tangent_reads.
    - apply normal_reads.
    - apply binormal_reads.
    - apply speed_reads.
    - apply frenet1_reads.
    - apply frenet2_reads.
    - apply frenet3_reads.
    - apply curvature_reads.
    - apply torsion_reads.
  Qed.

  (** ** Points *)

  Lemma sub_ref_get (s : state T) a i :
    match sub_ref s a i with
    | Ok p => arr_get (deref s a) i = Ok (pderef s p) /\
        forall x r, p = PView x r -> x = a
    | Raise e => arr_get (deref s a) i = Raise e
    end.
  Proof.
    unfold sub_ref, arr_get. destruct (deref s a) as [v|rows|[|[|n]]] eqn:D.
    - destruct (np_get v i); cbn; [|reflexivity]. split; [reflexivity|discriminate].
    - unfold np_get. destruct (norm_index (length rows) i) as [k|] eqn:N; [|reflexivity].
      assert (Hk : k < length rows) by (unfold norm_index in N; destruct ((i <? - Z.of_nat (length rows)) || (Z.of_nat (length rows) <=? i))%Z eqn:B; [discriminate|]; injection N as <-; destruct (Z.ltb_spec i 0); lia).
      destruct (nth_error rows k) as [v|] eqn:Ne; [|apply nth_error_None in Ne; lia].
      cbn. rewrite D. cbn. rewrite (nth_error_nth _ _ _ Ne). split; [reflexivity|]. intros x r E. injection E as <- <-. reflexivity.
    - reflexivity.
    - reflexivity.
    - destruct (Z.eqb i 0 || Z.eqb i (-1))%bool; [|reflexivity]. split; [reflexivity|discriminate].
  Qed.

  Lemma set_point_in ps n (o : pobj T) q p o' : nth_error ps n = Some o -> In o' (set_point ps n q p) ->
    In o' ps \/ o' = mkPobj (o_idx o) (fun q' => if prop_eqb q' q then Some p else o_cache o q').
  Proof.
    intros E H. unfold set_point in H. rewrite E in H. apply in_app_or in H as [H|[H|H]]; [|right; congruence|].
    - left. rewrite <- (firstn_skipn n ps). apply in_or_app. left. assumption.
    - left. rewrite <- (firstn_skipn (S n) ps). apply in_or_app. right. assumption.
  Qed.

  Lemma inv_set_point W s n o q p : closed W -> Inv W s -> nth_error (s_points s) n = Some o ->
    (forall a r, p = PView a r -> exists k', named s a k' /\ cls k' = cls (KProp q)) ->
    (~ W (KProp q) -> point_prop junk c (o_idx o) q = Ok (pderef s p)) ->
    Inv W (mkState (s_heap s) (s_cache s) (s_arclen s) (set_point (s_points s) n q p)).
  Proof.
    intros Cl [B Vl Cc P Ar Po] Ho Nm V.
    set (s' := mkState _ _ _ _).
    assert (N : forall a k, named s' a k -> named s a k \/ (k = KProp q /\ exists r, p = PView a r)).
    { intros a k [H|(o' & q' & r & Hin & Hc & ->)]; [left; left; exact H|].
      apply (set_point_in _ _ _ _ _ _ Ho) in Hin as [Hin| ->]; [left; right; eauto 10|]. cbn in Hc.
      destruct (prop_eqb_spec q' q) as [->|]; [right; split; [reflexivity|]; exists r; congruence|].
      left. right. exists o, q', r. split; [apply (nth_error_In _ _ Ho)|]. auto. }
    split; cbn [s_heap s_cache s_arclen s_points s'].
    - intros k a H. apply N in H as [H|(-> & r & E)]; [apply (B _ _ H)|]. destruct (Nm _ _ E) as (k' & H & _). apply (B _ _ H).
    - exact Vl.
    - assert (A : forall a k, named s' a k -> exists k', named s a k' /\ cls k' = cls k).
      { intros a k H. apply N in H as [H|(-> & r & E)]; [eauto|apply (Nm _ _ E)]. }
      intros k k' a H H'. destruct (A _ _ H) as (x & X1 & X2). destruct (A _ _ H') as (y & Y1 & Y2). rewrite <- X2, <- Y2. eapply Cc; eassumption.
    - intros t Ht. destruct (P t Ht) as (P1 & P2 & P3). split; [assumption|]. split; [assumption|].
      intros k H. apply N in H as [H|(-> & r & E)]; [auto|]. destruct (Nm _ _ E) as (k' & H & C). rewrite (P3 _ H) in C.
      cbn in C. unfold parametric in C. rewrite Ht in C. destruct q; cbn in C; try discriminate; reflexivity.
    - assumption.
    - intros o' Hin. apply (set_point_in _ _ _ _ _ _ Ho) in Hin as [Hin| ->]; [exact (Po o' Hin)|].
      destruct (Po o (nth_error_In _ _ Ho)) as (Po1 & Po2). cbn [o_idx o_cache]. split; [exact Po1|].
      intros q' p' Hc Nw. destruct (prop_eqb_spec q' q) as [->|]; [|exact (Po2 q' p' Hc Nw)]. injection Hc as <-. exact (V Nw).
  Qed.

  Lemma set_point_length ps n q (p : pref T) : length (set_point ps n q p) = length ps.
  Proof.
    unfold set_point. destruct (nth_error ps n) as [o|] eqn:E.
    - assert (n < length ps) by (apply nth_error_Some; congruence).
      rewrite app_length, firstn_length. cbn [length]. rewrite skipn_length. lia.
    - apply nth_error_None in E. rewrite app_nil_r, firstn_all2 by assumption. reflexivity.
  Qed.

  Lemma set_point_idx ps n q (p : pref T) : map o_idx (set_point ps n q p) = map o_idx ps.
  Proof.
    unfold set_point. destruct (nth_error ps n) as [o|] eqn:E.
    - rewrite map_app. cbn [map o_idx]. rewrite <- firstn_map, <- skipn_map.
      assert (E' : nth_error (map o_idx ps) n = Some (o_idx o)) by (apply map_nth_error; assumption).
      destruct (nth_error_split _ _ E') as (l1 & l2 & -> & <-). rewrite firstn_app, Nat.sub_diag, firstn_all. cbn [firstn]. rewrite app_nil_r.
      f_equal. f_equal. rewrite skipn_app, skipn_all2 by lia. replace (S (length l1) - length l1) with 1 by lia. reflexivity.
    - apply nth_error_None in E. rewrite app_nil_r, firstn_all2 by assumption. reflexivity.
  Qed.

  Definition real_prop (q : prop) : prop := match q with PTangent => PFirst | q => q end.

  Lemma point_prop_val i q : point_prop junk c i q = rbind (val (KProp (real_prop q))) (fun a => arr_get a i).
  Proof. destruct q; reflexivity. Qed.

  (** Specification of reading a property of the point [n]. *)
  Definition preads (n : nat) (o : pobj T) (q : prop) (m : M (pref T)) : Prop :=
    forall W s, closed W -> Inv W s -> nth_error (s_points s) n = Some o ->
    let '(r, s') := m s in
    Inv W s' /\ map o_idx (s_points s') = map o_idx (s_points s) /\
    (exists o', nth_error (s_points s') n = Some o' /\ o_idx o' = o_idx o /\ (q = PFirst -> o_cache o' PTangent = o_cache o PTangent)) /\
    match r with
    | Ok p => (forall a x, p = PView a x -> exists k, named s' a k /\ cls k = cls (KProp q)) /\
              (~ W (KProp q) -> point_prop junk c (o_idx o) q = Ok (pderef s' p))
    | Raise e => ~ W (KProp q) -> point_prop junk c (o_idx o) q = Raise e
    end.

  Lemma pderef_ext s s' W p : Inv W s -> ext s s' -> (forall a x, p = PView a x -> exists k, named s a k) -> pderef s' p = pderef s p.
  Proof.
    intros I [_ _ H _] N. destruct p as [x|a x|m]; try reflexivity. destruct (N a x eq_refl) as (k & Hk).
    unfold pderef. rewrite H; [reflexivity|]. apply (I_bound _ _ I _ _ Hk).
  Qed.

  Lemma point_cached_reads n o q : q <> PTangent -> preads n o q (point_cached junk c n o q).
  Proof.
    intros Nt W s Cl I Ho. unfold point_cached. destruct (o_cache o q) as [p|] eqn:Oc.
    - split; [assumption|]. split; [reflexivity|]. split; [exists o; auto|].
      destruct (I_points _ _ I _ (nth_error_In _ _ Ho)) as (_ & P). split.
      + intros a x ->. exists (KProp q). split; [|reflexivity]. right. exists o, q, x. split; [apply (nth_error_In _ _ Ho)|]. auto.
      + intros Nw. apply (P q p Oc Nw).
    - pose proof (read_reads (KProp q) W s Cl I) as R. destruct (read junk c (KProp q) s) as [[a|e] s1].
      + destruct R as (I1 & E1 & C1). pose proof (E_points _ _ E1) as Ep.
        assert (Hr : ~ W (KProp q) -> point_prop junk c (o_idx o) q = arr_get (deref s1 a) (o_idx o)).
        { intros Nw. rewrite point_prop_val. replace (real_prop q) with q by (destruct q; reflexivity || congruence).
          rewrite (I_value _ _ I1 _ _ C1 Nw). reflexivity. }
        pose proof (sub_ref_get s1 a (o_idx o)) as S. destruct (sub_ref s1 a (o_idx o)) as [p|e].
        * destruct S as (S & Sv). assert (Ho1 : nth_error (s_points s1) n = Some o) by (rewrite Ep; assumption).
          assert (Nm : forall b r, p = PView b r -> exists k', named s1 b k' /\ cls k' = cls (KProp q)).
          { intros b r Hb. rewrite (Sv _ _ Hb). exists (KProp q). split; [left; assumption|reflexivity]. }
          split; [|split; [|split; [|split]]].
          -- apply (inv_set_point _ _ _ _ _ _ Cl I1 Ho1); [assumption|]. intros Nw. rewrite (Hr Nw). assumption.
          -- cbn [s_points]. rewrite set_point_idx, Ep. reflexivity.
          -- cbn [s_points]. rewrite Ep. unfold set_point. rewrite Ho.
             assert (L : n < length (s_points s)) by (apply nth_error_Some; congruence).
             rewrite nth_error_app2; rewrite firstn_length; [|lia]. replace (n - Nat.min n (length (s_points s))) with 0 by lia.
             cbn [nth_error]. eexists. split; [reflexivity|]. cbn [o_idx o_cache]. split; [reflexivity|]. intros ->. reflexivity.
          -- intros b r Hb. rewrite (Sv _ _ Hb). exists (KProp q). split; [left; exact C1|reflexivity].
          -- intros Nw. rewrite (Hr Nw). rewrite S. f_equal.
        * split; [assumption|]. split; [rewrite Ep; reflexivity|]. split; [exists o; rewrite Ep; auto|]. intros Nw. rewrite (Hr Nw). assumption.
      + destruct R as (I1 & E1 & C1). pose proof (E_points _ _ E1) as Ep.
        split; [assumption|]. split; [rewrite Ep; reflexivity|]. split; [exists o; rewrite Ep; auto|]. intros Nw.
        rewrite point_prop_val. replace (real_prop q) with q by (destruct q; reflexivity || congruence). rewrite (C1 Nw). reflexivity.
  Qed.

  Lemma closed_tangent W : closed W -> W (KProp PTangent) <-> W (KProp PFirst).
  Proof. intros [_ Cl]. split; apply Cl; reflexivity. Qed.

  Lemma read_point_reads n o q : preads n o q (read_point junk c n q).
  Proof.
    intros W s Cl I Ho. unfold read_point. rewrite Ho.
    destruct (prop_eqb_spec q PT) as [->|N1].
    { pose proof (read_reads (KProp PT) W s Cl I) as R. destruct (read junk c (KProp PT) s) as [[a|e] s1].
      - destruct R as (I1 & E1 & C1). pose proof (E_points _ _ E1) as Ep.
        split; [assumption|]. split; [rewrite Ep; reflexivity|]. split; [exists o; rewrite Ep; auto|].
        pose proof (sub_ref_get s1 a (o_idx o)) as S. destruct (sub_ref s1 a (o_idx o)) as [p|e].
        + destruct S as (S & Sv). split.
          * intros b r Hb. rewrite (Sv _ _ Hb). exists (KProp PT). split; [left; assumption|reflexivity].
          * intros Nw. rewrite point_prop_val. cbn [real_prop]. rewrite (I_value _ _ I1 _ _ C1 Nw). assumption.
        + intros Nw. rewrite point_prop_val. cbn [real_prop]. rewrite (I_value _ _ I1 _ _ C1 Nw). assumption.
      - destruct R as (I1 & E1 & C1). pose proof (E_points _ _ E1) as Ep.
        split; [assumption|]. split; [rewrite Ep; reflexivity|]. split; [exists o; rewrite Ep; auto|].
        intros Nw. rewrite point_prop_val. cbn [real_prop]. rewrite (C1 Nw). reflexivity. }
    destruct (prop_eqb_spec q PTangent) as [->|N2].
    2: { pose proof (point_cached_reads n o q N2 W s Cl I Ho) as R. destruct q; try congruence; exact R. }
    destruct (o_cache o PTangent) as [p|] eqn:Oc.
    { split; [assumption|]. split; [reflexivity|]. split; [exists o; auto|].
      destruct (I_points _ _ I _ (nth_error_In _ _ Ho)) as (_ & P). split.
      - intros a x ->. exists (KProp PTangent). split; [|reflexivity]. right. exists o, PTangent, x. split; [apply (nth_error_In _ _ Ho)|]. auto.
      - intros Nw. apply (P _ p Oc Nw). }
    assert (N3 : PFirst <> PTangent) by discriminate.
    pose proof (point_cached_reads n o PFirst N3 W s Cl I Ho) as R. destruct (point_cached junk c n o PFirst s) as [[p|e] s1].
    - destruct R as (I1 & Em & (o1 & O1 & O2 & O3) & Nm & V).
      assert (V' : ~ W (KProp PTangent) -> point_prop junk c (o_idx o1) PTangent = Ok (pderef s1 p)).
      { intros Nw. rewrite O2. apply V. intros Wf. apply Nw. apply (closed_tangent W Cl). assumption. }
      split; [|split; [|split; [|split]]].
      + apply (inv_set_point _ _ _ _ _ _ Cl I1 O1); assumption.
      + cbn [s_points]. rewrite set_point_idx. assumption.
      + cbn [s_points]. unfold set_point. rewrite O1. assert (L : n < length (s_points s1)) by (apply nth_error_Some; congruence).
        rewrite nth_error_app2; rewrite firstn_length; [|lia]. replace (n - Nat.min n (length (s_points s1))) with 0 by lia.
        cbn [nth_error]. eexists. split; [reflexivity|]. cbn [o_idx o_cache]. split; [assumption|]. discriminate.
      + intros a x ->. exists (KProp PTangent). split; [|reflexivity]. right. cbn [s_points]. unfold set_point. rewrite O1. eexists. exists PTangent, x.
        split; [apply in_or_app; right; left; reflexivity|]. split; reflexivity.
      + rewrite <- O2. exact V'.
    - destruct R as (I1 & Em & (o1 & O1 & O2 & O3) & V). split; [assumption|]. split; [assumption|]. split; [exists o1; split; [assumption|]; split; [assumption|discriminate]|].
      intros Nw. apply V. intros Wf. apply Nw. apply (closed_tangent W Cl). assumption.
  Qed.

  (** ** Histories *)

  (** The writes an event may do: into arrays that some property of [W] holds. *)
  Definition allowed (W : key -> Prop) (s : state T) (e : event T) : Prop :=
    match e with EWrite a _ => exists k, W k /\ named s a k | _ => True end.

  Definition indices (s : state T) : list Z := map o_idx (s_points s).

  Lemma init_inv W : Inv W (init c).
  Proof.
    assert (N : forall a k, ~ named (init c) a k).
    { intros a k [H|(o & q & r & H & _)]; [discriminate|destruct H]. }
    split.
    - intros k a H. destruct (N _ _ H).
    - discriminate.
    - intros k k' a H. destruct (N _ _ H).
    - intros t Ht. unfold init. rewrite Ht. cbn. split; [lia|]. split; [reflexivity|]. intros k H. exfalso. apply (N 0 k). unfold init. rewrite Ht. assumption.
    - discriminate.
    - intros o [].
  Qed.

  Lemma update_length {A} (l : list A) a v : a < length l -> length (update l a v) = length l.
  Proof. intros H. unfold update. rewrite app_length, firstn_length. cbn [length]. rewrite skipn_length. lia. Qed.
  Lemma update_nth {A} (l : list A) a v b d : a < length l -> nth b (update l a v) d = if Nat.eqb b a then v else nth b l d.
  Proof.
    intros H. unfold update. assert (L : length (firstn a l) = a) by (rewrite firstn_length; lia). destruct (Nat.eqb_spec b a) as [->|Hn].
    - rewrite app_nth2, L, Nat.sub_diag by lia. reflexivity.
    - destruct (Nat.lt_ge_cases b a) as [Hl|Hl].
      + rewrite app_nth1 by lia. rewrite <- (firstn_skipn a l) at 2. rewrite app_nth1 by lia. reflexivity.
      + rewrite app_nth2, L by lia. destruct (b - a) as [|d'] eqn:E; [lia|]. cbn [nth].
        rewrite <- (firstn_skipn (S a) l) at 2. rewrite app_nth2; rewrite firstn_length; [|lia]. f_equal. lia.
  Qed.

  Lemma step_inv W s e : closed W -> Inv W s -> allowed W s e ->
    let '(o, s') := step junk c s e in
    Inv W s' /\
    indices s' = indices s ++ match e with EPoint i => match norm_index (c_size c) (stored_index c i) with Some _ => [stored_index c i] | None => [] end | _ => [] end /\
    match e with
    | ERead k => ~ W k -> o = OArr (val k)
    | EArclen => o = ONum (Ok (c_arclen junk c))
    | EPointRead n q => forall i, nth_error (indices s) n = Some i -> ~ W (KProp q) -> o = OVal (point_prop junk c i q)
    | _ => True
    end.
  Proof.
    intros Cl I Al. destruct e as [k| |i|n q|a v]; cbn [step].
    - pose proof (read_reads k W s Cl I) as R. destruct (read junk c k s) as [[a|e] s1]; destruct R as (I1 & E1 & C1);
        (split; [assumption|]); (split; [unfold indices; rewrite (E_points _ _ E1), app_nil_r; reflexivity|]); intros Nw.
      + cbn. rewrite (I_value _ _ I1 _ _ C1 Nw). reflexivity.
      + cbn. rewrite (C1 Nw). reflexivity.
    - unfold read_arclen. destruct (s_arclen s) as [x|] eqn:Ea.
      + split; [assumption|]. split; [rewrite app_nil_r; reflexivity|]. rewrite (I_arclen _ _ I _ Ea). reflexivity.
      + split; [|split; [unfold indices; rewrite app_nil_r; reflexivity|reflexivity]]. destruct I as [B Vl Cc P Ar Po]. split; try assumption.
        cbn. congruence.
    - destruct (norm_index (c_size c) (stored_index c i)) eqn:E.
      + split; [|split; [unfold indices; cbn [s_points]; rewrite map_app; reflexivity|trivial]].
        set (s' := mkState _ _ _ _).
        assert (N : forall a k, named s' a k -> named s a k).
        { intros a k [H|(o & q & r & H & Hc & Hk)]; [left; exact H|]. right. cbn [s_points s'] in H. apply in_app_or in H as [H|[H|[]]]; [eauto 10|].
          subst o. discriminate. }
        destruct I as [B Vl Cc P Ar Po]. split; try assumption.
        * intros k a H. apply (B _ _ (N _ _ H)).
        * intros k k' a H H'. apply (Cc _ _ _ (N _ _ H) (N _ _ H')).
        * intros t Ht. destruct (P t Ht) as (P1 & P2 & P3). split; [assumption|]. split; [assumption|]. intros k H. apply P3, N, H.
        * intros o H. cbn [s_points s'] in H. apply in_app_or in H as [H|[H|[]]]; [exact (Po o H)|]. subst o. cbn [o_idx o_cache]. split; [congruence|discriminate].
      + split; [assumption|]. split; [unfold indices; rewrite app_nil_r; reflexivity|trivial].
    - destruct (nth_error (s_points s) n) as [o|] eqn:Eo.
      + pose proof (read_point_reads n o q W s Cl I Eo) as R. destruct (read_point junk c n q s) as [[p|e] s1].
        * destruct R as (I1 & Em & _ & _ & V). split; [assumption|]. split; [unfold indices; rewrite Em, app_nil_r; reflexivity|].
          intros i Hi Nw. unfold indices in Hi. rewrite (map_nth_error o_idx _ _ Eo) in Hi. injection Hi as <-. cbn. rewrite (V Nw). reflexivity.
        * destruct R as (I1 & Em & _ & V). split; [assumption|]. split; [unfold indices; rewrite Em, app_nil_r; reflexivity|].
          intros i Hi Nw. unfold indices in Hi. rewrite (map_nth_error o_idx _ _ Eo) in Hi. injection Hi as <-. cbn. rewrite (V Nw). reflexivity.
      + unfold read_point. rewrite Eo. split; [assumption|]. split; [rewrite app_nil_r; reflexivity|].
        intros i Hi. exfalso. apply nth_error_None in Eo. assert (n < length (indices s)) by (apply nth_error_Some; congruence). unfold indices in H. rewrite map_length in H. lia.
    - destruct (Nat.ltb_spec a (length (s_heap s))) as [Ha|Ha]; cbn [andb].
      2: { split; [assumption|]. split; [rewrite app_nil_r; reflexivity|trivial]. }
      destruct (same_shape (deref s a) v); cbn [andb].
      2: { split; [assumption|]. split; [rewrite app_nil_r; reflexivity|trivial]. }
      destruct (readonly c a) eqn:Ro; cbn [negb].
      { split; [assumption|]. split; [rewrite app_nil_r; reflexivity|trivial]. }
      split; [|split; [unfold indices; rewrite app_nil_r; reflexivity|trivial]].
      cbn in Al. destruct Al as (k0 & W0 & N0).
      set (s' := mkState _ _ _ _).
      assert (Out : forall b k, named s b k -> ~ W k -> deref s' b = deref s b).
      { intros b k H Nw. unfold deref. cbn [s_heap s']. rewrite update_nth by assumption. destruct (Nat.eqb_spec b a) as [->|]; [|reflexivity].
        exfalso. apply Nw. apply (proj2 Cl k0 k); [|assumption]. apply (I_class _ _ I _ _ _ N0 H). }
      destruct I as [B Vl Cc P Ar Po]. split; try assumption.
      + intros k b H. cbn [s_heap s']. rewrite update_length by assumption. apply (B _ _ H).
      + intros k b H Nw. rewrite (Out b k); [|left; assumption|assumption]. apply (Vl _ _ H Nw).
      + intros t Ht. destruct (P t Ht) as (P1 & P2 & P3). cbn [s_heap s']. rewrite update_length by assumption. split; [assumption|]. split; [|exact P3].
        unfold deref. cbn [s_heap s']. rewrite update_nth by assumption. unfold readonly in Ro. rewrite Ht in Ro. rewrite Nat.eqb_sym, Ro. exact P2.
      + intros o H. destruct (Po o H) as (Po1 & Po2). split; [assumption|]. intros q p Hq Nw. rewrite (Po2 q p Hq Nw). f_equal.
        destruct p as [x|b r|m]; try reflexivity. unfold pderef. rewrite (Out b (KProp q)); [reflexivity| |assumption].
        right. exists o, q, r. auto.
  Qed.

  (** The state after a history. *)
  Fixpoint after (s : state T) (h : list (event T)) : state T :=
    match h with [] => s | e :: h' => after (snd (step junk c s e)) h' end.
  (** The answer to [e] after a history. *)
  Definition answer_after (h : list (event T)) (e : event T) : answer T := fst (step junk c (after (init c) h) e).
  (** The indices of the points taken in a history. *)
  Fixpoint taken (h : list (event T)) : list Z :=
    match h with
    | [] => []
    | EPoint i :: h' => match norm_index (c_size c) (stored_index c i) with Some _ => [stored_index c i] | None => [] end ++ taken h'
    | _ :: h' => taken h'
    end.
  (** Every write of the history goes to an array held by a property of [W]. *)
  Fixpoint confined (W : key -> Prop) (s : state T) (h : list (event T)) : Prop :=
    match h with [] => True | e :: h' => allowed W s e /\ confined W (snd (step junk c s e)) h' end.

  Lemma after_inv W h : closed W -> forall s, Inv W s -> confined W s h -> Inv W (after s h) /\ indices (after s h) = indices s ++ taken h.
  Proof.
    intros Cl. induction h as [|e h IH]; intros s I C; [split; [assumption|cbn; rewrite app_nil_r; reflexivity]|].
    destruct C as (A & C). cbn [after]. pose proof (step_inv W s e Cl I A) as S. destruct (step junk c s e) as [o s1]. cbn [snd] in *.
    destruct S as (I1 & E1 & _). destruct (IH s1 I1 C) as (I2 & E2). split; [assumption|]. rewrite E2, E1, <- app_assoc. f_equal.
    destruct e; reflexivity.
  Qed.

  Lemma answers W h e : closed W -> confined W (init c) h -> allowed W (after (init c) h) e ->
    match e with
    | ERead k => ~ W k -> answer_after h e = OArr (val k)
    | EArclen => answer_after h e = ONum (Ok (c_arclen junk c))
    | EPointRead n q => forall i, nth_error (taken h) n = Some i -> ~ W (KProp q) -> answer_after h e = OVal (point_prop junk c i q)
    | _ => True
    end.
  Proof.
    intros Cl C A. destruct (after_inv W h Cl (init c) (init_inv W) C) as (I & E). pose proof (step_inv W _ e Cl I A) as S.
    unfold answer_after. destruct (step junk c (after (init c) h) e) as [o s1]. cbn [fst]. destruct S as (_ & _ & S). rewrite E in S. exact S.
  Qed.
End CacheProofs.
