(** Object identity of the cached arrays: caches are never replaced, tangent is
    firstderiv, t is cumarclen or the parameter data. *)
From Coq Require Import ZArith List Bool Arith Lia.
From Verif Require Import Num Py Numeric Curve Vec DiffGeom Cache Spec ListFacts CacheProofs.
Import ListNotations.

Section Alias.
  Context {T : Type} {NT : Num T} {ST : NumSqrt T}.
  Variable junk : T.
  Variable c : curve T.

  Definition J (s : state T) : Prop :=
    (forall a, s_cache s (KProp PTangent) = Some a -> s_cache s (KProp PFirst) = Some a) /\
    (forall a, s_cache s (KProp PT) = Some a ->
       match c_t c with Some _ => a = 0 | None => s_cache s (KProp PCumarclen) = Some a end).

  Definition mono (s s' : state T) : Prop := forall k a, s_cache s k = Some a -> s_cache s' k = Some a.

  Definition keeps {A} (m : @M T A) : Prop := forall s, J s -> J (snd (m s)) /\ mono s (snd (m s)).

  Lemma keeps_ret {A} (x : A) : keeps (mret x).
  Proof. intros s H. split; [assumption|]. intros k a E. assumption. Qed.
  Lemma keeps_lift {A} (x : res A) : keeps (mlift x).
  Proof. intros s H. split; [assumption|]. intros k a E. assumption. Qed.
  Lemma keeps_bind {A B} (m : @M T A) (f : A -> @M T B) : keeps m -> (forall x, keeps (f x)) -> keeps (mbind m f).
  Proof.
    intros Hm Hf s H. unfold mbind. specialize (Hm s H). destruct (m s) as [[x|e] s1]; cbn [snd] in *; [|exact Hm].
    destruct Hm as (J1 & M1). destruct (Hf x s1 J1) as (J2 & M2). split; [assumption|]. intros k a E. apply M2, M1, E.
  Qed.
  Lemma keeps_use (m : @M T nat) : keeps m -> keeps (use m).
  Proof. intros H. apply keeps_bind; [assumption|]. intros a s Hs. split; [assumption|]. intros k x E. assumption. Qed.
  Lemma keeps_unless m : keeps m -> keeps (unless_empty c m).
  Proof. intros H. unfold unless_empty. destruct (negb (c_bool c)); [apply keeps_ret|assumption]. Qed.

  Definition plain (k : key) : Prop := match k with KProp PTangent | KProp PFirst | KProp PT | KProp PCumarclen => False | _ => True end.

  Lemma set_cache_mono (s s1 : state T) k a h ar ps : s_cache s k = None -> mono s s1 -> mono s (mkState h (set_cache s1 k a) ar ps).
  Proof.
    intros N M k' x E. cbn [s_cache]. unfold set_cache. destruct (key_eqb_spec k' k) as [->|]; [congruence|]. apply M. assumption.
  Qed.
  Lemma set_cache_other (s : state T) k a k' : k' <> k -> set_cache s k a k' = s_cache s k'.
  Proof. intros H. unfold set_cache. destruct (key_eqb_spec k' k); [contradiction|reflexivity]. Qed.

  Lemma J_plain (s : state T) k a h ar ps : plain k -> J s -> J (mkState h (set_cache s k a) ar ps).
  Proof.
    intros P [H1 H2]. assert (O : forall k', ~ plain k' -> set_cache s k a k' = s_cache s k') by (intros k' Hk; apply set_cache_other; intros ->; contradiction).
    split; cbn [s_cache]; intros x E.
    - rewrite O in E |- * by (cbn; auto). auto.
    - rewrite O in E by (cbn; auto). specialize (H2 x E). destruct (c_t c); [assumption|]. rewrite O by (cbn; auto). assumption.
  Qed.

  Lemma keeps_plain k m : plain k -> keeps m -> keeps (cached k m).
  Proof.
    intros P H s Hs. unfold cached. destruct (s_cache s k) as [x|] eqn:E; [split; [assumption|intros ? ? F; assumption]|].
    specialize (H s Hs). destruct (m s) as [[[v|a]|e] s1]; cbn [snd] in *; [| |exact H]; destruct H as (J1 & M1);
      (split; [apply J_plain; assumption|apply set_cache_mono; assumption]).
  Qed.

  Lemma keeps_chord : keeps (read_chord junk c).
  Proof. apply keeps_plain; [exact I|apply keeps_ret]. Qed.
  Lemma keeps_first : keeps (read_first c).
  Proof.
    intros s Hs. unfold read_first, cached. destruct (s_cache s (KProp PFirst)) as [x|] eqn:E; [split; [exact Hs|intros ? ? F; assumption]|].
    destruct Hs as [H1 H2].
    unfold mret. cbn [snd]. split; [|apply set_cache_mono; [assumption|intros ? ? F; assumption]].
    split; cbn [s_cache]; intros a; rewrite set_cache_other by discriminate; intros F.
    - specialize (H1 a F). congruence.
    - specialize (H2 a F). destruct (c_t c); [assumption|]. rewrite set_cache_other by discriminate. assumption.
  Qed.
  Lemma keeps_cum : keeps (read_cum junk c).
  Proof.
    intros s Hs. unfold read_cum, cached. destruct (s_cache s (KProp PCumarclen)) as [x|] eqn:E; [split; [assumption|intros ? ? F; assumption]|].
    unfold mbind, use, mbind, load, mret. pose proof (keeps_chord s Hs) as K.
    assert (Tn : c_t c = None -> s_cache (snd (read_chord junk c s)) (KProp PT) = None).
    { intros Ct. unfold read_chord, cached, mret. destruct Hs as [_ H2]. rewrite Ct in H2.
      destruct (s_cache s (KProp PT)) as [a|] eqn:F; [specialize (H2 a eq_refl); congruence|].
      destruct (s_cache s KChord); cbn [snd s_cache]; [assumption|]. rewrite set_cache_other by discriminate. assumption. }
    destruct (read_chord junk c s) as [[a|e] s1]; cbn [snd] in *; [|exact K]. destruct K as ((K1 & K2) & M1).
    split; [|apply set_cache_mono; assumption].
    split; cbn [s_cache]; intros b.
    - rewrite !set_cache_other by discriminate. apply K1.
    - rewrite set_cache_other by discriminate. intros F. specialize (K2 b F). destruct (c_t c) eqn:Ct; [assumption|]. rewrite (Tn eq_refl) in F. discriminate.
  Qed.
  (** Reading an uncached property yields the address it caches. *)
  Lemma cached_address k m (s : state T) a s1 : cached k m s = (Ok a, s1) -> s_cache s1 k = Some a.
  Proof.
    unfold cached. destruct (s_cache s k) as [x|] eqn:E; [congruence|]. destruct (m s) as [[[v|b]|e] s2]; intros F; try discriminate; injection F as <- <-; apply set_cache_same.
  Qed.
  Lemma read_address k (s : state T) a s1 : read junk c k s = (Ok a, s1) -> s_cache s1 k = Some a.
  Proof. destruct k as [|[]]; apply cached_address. Qed.

  Lemma keeps_tangent : keeps (read_tangent c).
  Proof.
    intros s Hs. unfold read_tangent, cached. destruct (s_cache s (KProp PTangent)) as [x|] eqn:E; [split; [assumption|intros ? ? F; assumption]|].
    unfold mbind, mret. pose proof (keeps_first s Hs) as K. destruct (read_first c s) as [[a|e] s1] eqn:R; cbn [snd] in *; [|exact K].
    apply cached_address in R. destruct K as ((K1 & K2) & M1). split; [|apply set_cache_mono; assumption].
    split; cbn [s_cache]; intros b.
    - rewrite set_cache_same, set_cache_other by discriminate. congruence.
    - rewrite set_cache_other by discriminate. intros F. specialize (K2 b F). destruct (c_t c); [assumption|]. rewrite set_cache_other by discriminate. assumption.
  Qed.
  Lemma keeps_t : keeps (read_t junk c).
  Proof.
    intros s Hs. unfold read_t, cached. destruct (s_cache s (KProp PT)) as [x|] eqn:E; [split; [assumption|intros ? ? F; assumption]|].
    destruct (c_t c) as [t|] eqn:Ct.
    - unfold mret. cbn [snd]. destruct Hs as (K1 & K2). split; [|apply set_cache_mono; [assumption|intros ? ? F; assumption]]. split; cbn [s_cache]; intros b.
      + rewrite !set_cache_other by discriminate. apply K1.
      + rewrite set_cache_same. rewrite Ct. congruence.
    - unfold mbind, mret. pose proof (keeps_cum s Hs) as K. destruct (read_cum junk c s) as [[a|e] s1] eqn:R; cbn [snd] in *; [|exact K].
      apply cached_address in R. destruct K as ((K1 & K2) & M1). split; [|apply set_cache_mono; assumption].
      split; cbn [s_cache]; intros b.
      + rewrite !set_cache_other by discriminate. apply K1.
      + rewrite set_cache_same, Ct, set_cache_other by discriminate. congruence.
  Qed.

  Ltac kp := repeat first
    [ apply keeps_ret | apply keeps_lift | apply keeps_chord | apply keeps_first | apply keeps_tangent | assumption
    | apply keeps_plain; [exact I|] | apply keeps_unless | apply keeps_use | apply keeps_bind; [|intros ?] ].
  Lemma keeps_second : keeps (read_second c). Proof. unfold read_second. kp. Qed.
  Lemma keeps_third : keeps (read_third c). Proof. pose proof keeps_second. unfold read_third. kp. Qed.
  Lemma keeps_speed : keeps (read_speed c). Proof. unfold read_speed. kp. Qed.
  Lemma keeps_frenet1 : keeps (read_frenet1 c). Proof. unfold read_frenet1. kp. Qed.
  Lemma keeps_normal : keeps (read_normal c). Proof. pose proof keeps_second. pose proof keeps_frenet1. unfold read_normal. kp. Qed.
  Lemma keeps_frenet2 : keeps (read_frenet2 c). Proof. pose proof keeps_normal. unfold read_frenet2. kp. Qed.
  Lemma keeps_binormal : keeps (read_binormal c). Proof. pose proof keeps_third. pose proof keeps_frenet1. pose proof keeps_frenet2. unfold read_binormal. kp. Qed.
  Lemma keeps_frenet3 : keeps (read_frenet3 c). Proof. pose proof keeps_binormal. unfold read_frenet3. kp. Qed.
  Lemma keeps_curvature : keeps (read_curvature c).
  Proof. pose proof keeps_second. pose proof keeps_frenet1. unfold read_curvature. destruct (Nat.eqb (c_ndim c) 2); kp. destruct (Nat.eqb _ 1); kp. Qed.
  Lemma keeps_torsion : keeps (read_torsion c). Proof. pose proof keeps_frenet2. pose proof keeps_frenet3. unfold read_torsion. kp. Qed.

  Lemma keeps_read k : keeps (read junk c k).
  Proof.
    destruct k as [|[]]; cbn [read];
      first [ apply keeps_chord | apply keeps_t | apply keeps_cum | apply keeps_first | apply keeps_second | apply keeps_third | apply keeps_tangent
            | apply keeps_normal | apply keeps_binormal | apply keeps_speed | apply keeps_frenet1 | apply keeps_frenet2 | apply keeps_frenet3
            | apply keeps_curvature | apply keeps_torsion ].
  Qed.

  Lemma keeps_point_cached n o q : keeps (point_cached junk c n o q).
  Proof.
    intros s Hs. unfold point_cached. destruct (o_cache o q); [split; [assumption|intros ? ? F; assumption]|].
    pose proof (keeps_read (KProp q) s Hs) as K. destruct (read junk c (KProp q) s) as [[a|e] s1]; cbn [snd] in *; [|exact K].
    destruct (sub_ref s1 a (o_idx o)); exact K.
  Qed.
  Lemma keeps_point n q : keeps (read_point junk c n q).
  Proof.
    intros s Hs. unfold read_point. destruct (nth_error (s_points s) n) as [o|]; [|split; [assumption|intros ? ? F; assumption]].
    assert (P : forall q, J (snd (point_cached junk c n o q s)) /\ mono s (snd (point_cached junk c n o q s))) by (intros q'; apply keeps_point_cached, Hs).
    destruct q; try apply P.
    - pose proof (keeps_read (KProp PT) s Hs) as K. destruct (read junk c (KProp PT) s) as [[a|e] s1]; exact K.
    - destruct (o_cache o PTangent); [split; [assumption|intros ? ? F; assumption]|].
      specialize (P PFirst). destruct (point_cached junk c n o PFirst s) as [[p|e] s1]; exact P.
  Qed.

  Lemma keeps_step s e : J s -> J (snd (step junk c s e)) /\ mono s (snd (step junk c s e)).
  Proof.
    intros Hs. assert (R : J s /\ mono s s) by (split; [assumption|intros ? ? F; assumption]).
    destruct e as [k| |i|n q|a v]; cbn [step].
    - pose proof (keeps_read k s Hs) as K. destruct (read junk c k s) as [r s1]. exact K.
    - unfold read_arclen. destruct (s_arclen s); exact R.
    - destruct (norm_index (c_size c) (stored_index c i)); exact R.
    - pose proof (keeps_point n q s Hs) as K. destruct (read_point junk c n q s) as [r s1]. exact K.
    - destruct (Nat.ltb a (length (s_heap s)) && same_shape (deref s a) v && negb (readonly c a))%bool; exact R.
  Qed.
  Lemma keeps_after h : forall s, J s -> J (after junk c s h) /\ mono s (after junk c s h).
  Proof.
    induction h as [|e h IH]; intros s Hs; [split; [assumption|intros ? ? F; assumption]|].
    destruct (keeps_step s e Hs) as (J1 & M1). destruct (IH _ J1) as (J2 & M2). split; [assumption|]. intros k a E. apply M2, M1, E.
  Qed.
  Lemma J_init : J (init c).
  Proof. split; discriminate. Qed.

  Lemma cached_hit k m (s : state T) a : s_cache s k = Some a -> cached k m s = (Ok a, s).
  Proof. unfold cached. intros ->. reflexivity. Qed.
  Lemma read_hit k (s : state T) a : s_cache s k = Some a -> read junk c k s = (Ok a, s).
  Proof. destruct k as [|[]]; apply cached_hit. Qed.

  Lemma tangent_after_first s a : J s -> s_cache s (KProp PFirst) = Some a -> fst (read junk c (KProp PTangent) s) = Ok a /\
    deref (snd (read junk c (KProp PTangent) s)) a = deref s a.
  Proof.
    intros [H _] E. cbn [read]. unfold read_tangent, cached. destruct (s_cache s (KProp PTangent)) as [b|] eqn:F.
    - specialize (H b eq_refl). rewrite E in H. injection H as ->. auto.
    - unfold mbind. change (read_first c s) with (read junk c (KProp PFirst) s). rewrite (read_hit _ _ _ E). split; reflexivity.
  Qed.
  Lemma t_after_cum s a : J s -> c_t c = None -> s_cache s (KProp PCumarclen) = Some a -> fst (read junk c (KProp PT) s) = Ok a /\
    deref (snd (read junk c (KProp PT) s)) a = deref s a.
  Proof.
    intros [_ H] Ct E. cbn [read]. unfold read_t, cached. rewrite Ct in *. destruct (s_cache s (KProp PT)) as [b|] eqn:F.
    - specialize (H b eq_refl). rewrite E in H. injection H as ->. auto.
    - unfold mbind. change (read_cum junk c s) with (read junk c (KProp PCumarclen) s). rewrite (read_hit _ _ _ E). split; reflexivity.
  Qed.
End Alias.
