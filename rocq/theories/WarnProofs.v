(** Proofs about Warn.v: reads of cached properties, and agreement with the
    models without warnings. *)
From Coq Require Import ZArith String List Bool Arith Lia.
From Verif Require Import Num Py Numeric Curve Vec Geom DiffGeom Intersect Registry Interp Warn Spec.
From Verif Require Import ListFacts DiffGeomProofs4.
Import ListNotations.
Local Open Scope list_scope.

(** ** What a property reads, and the warnings of its own body *)

Section Reads.
  Context {T : Type} {NT : Num T} {ST : NumSqrt T}.
  Variable c : curve T.

  (** The properties the body of [q] reads. *)
  Definition direct (q : prop) : list prop :=
    let full l := if c_bool c then l else [] in
    match q with
    | PT => if isparametric c then [] else [PCumarclen]
    | PCumarclen | PFirst => []
    | PSecond | PTangent => [PFirst]
    | PThird => [PSecond]
    | PSpeed => [PTangent]
    | PFrenet1 => full [PTangent]
    | PNormal => full [PSecond; PFrenet1]
    | PFrenet2 => full [PNormal]
    | PBinormal => full [PThird; PFrenet1; PFrenet2]
    | PFrenet3 => full [PBinormal]
    | PCurvature => full (if Nat.eqb (c_ndim c) 2 then (if Nat.eqb (c_size c) 1 then [PFirst] else [PFirst; PSecond])
                          else [PFrenet1; PTangent])
    | PTorsion => full [PFrenet2; PTangent; PFrenet3]
    end.

  (** Reading [q] computes [p]. *)
  Inductive needs : prop -> prop -> Prop :=
  | needs_self q : needs q q
  | needs_step q d p : In d (direct q) -> needs d p -> needs q p.

  (** Warnings for too few points, and for vanishing vectors. *)
  Definition few_points (n : nat) : nat := match n with 1 => 3 | 2 => 1 | _ => 0 end.
  Definition vanishing (rows : list (list T)) : nat := if existsb (fun v => isclose (vnorm v) n0) rows then 1 else 0.
  Definition count (q : prop) : nat :=
    match q with
    | PFirst | PSecond | PThird => few_points (c_size c)
    | PFrenet1 => if c_bool c then vanishing (deriv1 (c_rows c)) else 0
    | PFrenet2 => if c_bool c then vanishing (normal_rows (c_rows c)) else 0
    | PFrenet3 => if c_bool c then vanishing (binormal_rows (c_rows c)) else 0
    | PCurvature => if c_bool c then if Nat.eqb (c_ndim c) 2 then 0 else few_points (c_size c) else 0
    | PTorsion => if c_bool c then few_points (c_size c) else 0
    | _ => 0
    end.
  Definition total (l : list prop) : nat := list_sum (map count l).

  (** The exceptions. *)
  Definition fails (q : prop) : option exn :=
    match q with
    | PSpeed => if c_bool c then None else Some ValueError
    | PCurvature => if c_bool c then if Nat.eqb (c_ndim c) 2 then if Nat.eqb (c_size c) 1 then Some IndexError else None else None else None
    | _ => None
    end.

  Definition rank (q : prop) : nat :=
    match q with
    | PCumarclen | PFirst => 0 | PT | PSecond | PTangent => 1 | PThird | PSpeed | PFrenet1 => 2 | PNormal | PCurvature => 3
    | PFrenet2 => 4 | PBinormal => 5 | PFrenet3 => 6 | PTorsion => 7
    end.

  Lemma direct_rank q d : In d (direct q) -> rank d < rank q.
  Proof.
    unfold direct. destruct q; cbv zeta; try (destruct (c_bool c)); try (destruct (isparametric c)); try (destruct (Nat.eqb (c_ndim c) 2));
      try (destruct (Nat.eqb (c_size c) 1));
      cbn [In]; intros H; repeat (destruct H as [H|H]; [subst d; cbn; lia|]); destruct H.
  Qed.
  Lemma needs_rank q p : needs q p -> p = q \/ rank p < rank q.
  Proof.
    induction 1 as [q|q d p D N [IH|IH]]; [auto| |]; apply direct_rank in D; right; [subst; assumption|lia].
  Qed.

  Lemma pname_inj a b : pname a = pname b -> a = b.
  Proof. destruct a, b; cbn; intros H; try discriminate H; reflexivity. Qed.
  Lemma has_in s q : has s q = true <-> In q s.
  Proof.
    unfold has. rewrite existsb_exists. split.
    - intros (x & Hx & E). apply Nat.eqb_eq in E. apply pname_inj in E. subst. assumption.
    - intros H. exists q. split; [assumption|]. apply Nat.eqb_refl.
  Qed.

  Record good (s : caches) : Prop := {
    g_nodup : NoDup s;
    g_closed : forall p d, In p s -> In d (direct p) -> In d s;
    g_ok : forall p, In p s -> fails p = None
  }.

  (** A piece of a body: it warns [k] times itself, reads [ds] and ends with
      the error [err], if any. *)
  Definition steps (k : nat) (ds : list prop) (err : option exn) (m : R_) : Prop :=
    forall s, good s -> exists news,
      m s = ((repeat WDiffGeom (total news + k), match err with Some e => Raise e | None => Ok tt end), news ++ s) /\
      good (news ++ s) /\ (forall p, In p news -> exists d, In d ds /\ needs d p) /\ (forall d, In d ds -> In d (news ++ s)).

  Lemma total_app a b : total (a ++ b) = total a + total b.
  Proof. unfold total. rewrite map_app, list_sum_app. reflexivity. Qed.

  Lemma steps_done ws k : ws = repeat WDiffGeom k -> steps k [] None (rdone ws).
  Proof.
    intros -> s G. exists []. cbn [app total map list_sum fold_right]. split; [reflexivity|]. split; [assumption|]. split; intros p [].
  Qed.
  Lemma steps_fail e : steps 0 [] (Some e) (rfail e).
  Proof. intros s G. exists []. split; [reflexivity|]. split; [assumption|]. split; intros p []. Qed.
  Lemma steps_then k1 k2 d1 d2 err m1 m2 : steps k1 d1 None m1 -> steps k2 d2 err m2 -> steps (k1 + k2) (d1 ++ d2) err (rthen m1 m2).
  Proof.
    intros H1 H2 s G. destruct (H1 s G) as (n1 & E1 & G1 & N1 & D1). destruct (H2 _ G1) as (n2 & E2 & G2 & N2 & D2).
    exists (n2 ++ n1). unfold rthen. rewrite E1, E2. split; [|split; [|split]].
    - rewrite <- app_assoc, total_app, <- repeat_app. replace (total n2 + total n1 + (k1 + k2)) with (total n1 + k1 + (total n2 + k2)) by lia. reflexivity.
    - rewrite <- app_assoc. assumption.
    - intros p Hp. apply in_app_iff in Hp as [Hp|Hp].
      + destruct (N2 p Hp) as (d & Hd & Nd). exists d. split; [apply in_or_app; auto|assumption].
      + destruct (N1 p Hp) as (d & Hd & Nd). exists d. split; [apply in_or_app; auto|assumption].
    - intros d Hd. rewrite <- app_assoc. apply in_app_iff in Hd as [Hd|Hd]; [|auto]. apply in_or_app. right. auto.
  Qed.
  Lemma steps_weaken k ds err m k' ds' : steps k ds err m -> k = k' -> ds = ds' -> steps k' ds' err m.
  Proof. intros H <- <-. exact H. Qed.
  Lemma steps_cached q body k : fails q = None -> count q = k -> steps k (direct q) None body -> steps 0 [q] None (rcached q body).
  Proof.
    intros F <- H s G. unfold rcached. destruct (has s q) eqn:Hq.
    - apply has_in in Hq. exists []. split; [reflexivity|]. split; [assumption|]. split; [intros p []|]. intros d [<-|[]]. assumption.
    - assert (Nq : ~ In q s) by (intros X; apply has_in in X; congruence).
      destruct (H s G) as (n & E & [Gn Gc Go] & N & D). exists (q :: n). rewrite E. split; [|split; [|split]].
      + cbn [app]. unfold total. cbn [map list_sum fold_right]. fold (list_sum (map count n)).
        replace (count q + list_sum (map count n) + 0) with (list_sum (map count n) + count q) by lia. reflexivity.
      + cbn [app]. split.
        * constructor; [|assumption]. intros Hi. apply in_app_iff in Hi as [Hi|Hi]; [|contradiction].
          destruct (N q Hi) as (d & Hd & Nd). apply direct_rank in Hd. apply needs_rank in Nd as [->|Nd]; lia.
        * intros p d [<-|Hp] Hd; right; [auto|]. eapply Gc; eassumption.
        * intros p [<-|Hp]; auto.
      + intros p [<-|Hp]; [exists q; split; [left; reflexivity|constructor]|]. destruct (N p Hp) as (d & Hd & Nd).
        exists q. split; [left; reflexivity|]. econstructor; eassumption.
      + intros d [<-|[]]. left. reflexivity.
  Qed.
  Lemma steps_cached_fail q body e : fails q = Some e -> steps 0 (direct q) (Some e) body -> steps 0 (direct q) (Some e) (rcached q body).
  Proof.
    intros F H s G. unfold rcached. destruct (has s q) eqn:Hq.
    - apply has_in in Hq. apply (g_ok _ G) in Hq. congruence.
    - destruct (H s G) as (n & E & Gn & N & D). exists n. rewrite E. split; [reflexivity|auto].
  Qed.

  Lemma gradient_warns_repeat m : gradient_warns m = repeat WDiffGeom (few_points m).
  Proof. destruct m as [|[|[|m]]]; reflexivity. Qed.
  Lemma frenet_warns_repeat (rows : list (list T)) : frenet_warns rows = repeat WDiffGeom (vanishing rows).
  Proof. unfold frenet_warns, vanishing, when. destruct (existsb _ rows); reflexivity. Qed.

  Ltac done := first [exact (steps_done [] 0 eq_refl) | apply steps_done]; rewrite ?gradient_warns_repeat, ?frenet_warns_repeat, ?gen_d1, ?gen_d2, ?gen_e1, ?gen_e2; reflexivity.

  Lemma s_cum : steps 0 [PCumarclen] None (w_cum c).
  Proof. apply (steps_cached _ _ 0); try reflexivity. done. Qed.
  Lemma s_t : steps 0 [PT] None (w_t c).
  Proof.
    apply (steps_cached _ _ 0); try reflexivity. cbn [direct]. destruct (isparametric c); [done|apply s_cum].
  Qed.
  Lemma s_first : steps 0 [PFirst] None (w_first c).
  Proof. eapply steps_cached; try reflexivity. done. Qed.
  Lemma s_second : steps 0 [PSecond] None (w_second c).
  Proof.
    eapply steps_cached; try reflexivity. eapply steps_weaken; [eapply steps_then; [apply s_first|done]| |]; reflexivity.
  Qed.
  Lemma s_third : steps 0 [PThird] None (w_third c).
  Proof.
    eapply steps_cached; try reflexivity. eapply steps_weaken; [eapply steps_then; [apply s_second|done]| |]; reflexivity.
  Qed.
  Lemma s_tangent : steps 0 [PTangent] None (w_tangent c).
  Proof. eapply steps_cached; try reflexivity. apply s_first. Qed.
  Lemma s_frenet1 : steps 0 [PFrenet1] None (w_frenet1 c).
  Proof.
    eapply steps_cached; try reflexivity. cbn [direct count]. unfold runless. destruct (c_bool c); cbn [negb]; [|done].
    eapply steps_weaken; [eapply steps_then; [apply s_tangent|done]| |]; reflexivity.
  Qed.
  Lemma s_normal : steps 0 [PNormal] None (w_normal c).
  Proof.
    eapply steps_cached; try reflexivity. cbn [direct count]. unfold runless. destruct (c_bool c); cbn [negb]; [|done].
    eapply steps_weaken; [eapply steps_then; [apply s_second|apply s_frenet1]| |]; reflexivity.
  Qed.
  Lemma s_frenet2 : steps 0 [PFrenet2] None (w_frenet2 c).
  Proof.
    eapply steps_cached; try reflexivity. cbn [direct count]. unfold runless. destruct (c_bool c); cbn [negb]; [|done].
    eapply steps_weaken; [eapply steps_then; [apply s_normal|done]| |]; reflexivity.
  Qed.
  Lemma s_binormal : steps 0 [PBinormal] None (w_binormal c).
  Proof.
    eapply steps_cached; try reflexivity. cbn [direct count]. unfold runless. destruct (c_bool c); cbn [negb]; [|done].
    eapply steps_weaken; [eapply steps_then; [apply s_third|eapply steps_then; [apply s_frenet1|apply s_frenet2]]| |]; reflexivity.
  Qed.
  Lemma s_frenet3 : steps 0 [PFrenet3] None (w_frenet3 c).
  Proof.
    eapply steps_cached; try reflexivity. cbn [direct count]. unfold runless. destruct (c_bool c); cbn [negb]; [|done].
    eapply steps_weaken; [eapply steps_then; [apply s_binormal|done]| |]; reflexivity.
  Qed.
  Lemma s_torsion : steps 0 [PTorsion] None (w_torsion c).
  Proof.
    eapply steps_cached; try reflexivity. cbn [direct count]. unfold runless. destruct (c_bool c); cbn [negb]; [|done].
    eapply steps_weaken; [eapply steps_then; [apply s_frenet2|eapply steps_then; [done|eapply steps_then; [apply s_tangent|apply s_frenet3]]]| |].
    - unfold c_size. lia.
    - reflexivity.
  Qed.

  Lemma s_read q : steps 0 (match fails q with None => [q] | Some _ => direct q end) (fails q) (w_read c q).
  Proof.
    destruct q; cbn [w_read fails];
      first [ apply s_cum | apply s_t | apply s_first | apply s_second | apply s_third | apply s_tangent | apply s_normal
            | apply s_binormal | apply s_frenet1 | apply s_frenet2 | apply s_frenet3 | apply s_torsion | idtac ].
    - unfold w_speed. destruct (c_bool c) eqn:B; cbn [negb].
      + eapply steps_cached; [cbn; rewrite B; reflexivity|reflexivity|].
        eapply steps_weaken; [eapply steps_then; [apply s_tangent|done]| |]; reflexivity.
      + apply steps_cached_fail; [cbn; rewrite B; reflexivity|].
        eapply steps_weaken; [eapply steps_then; [apply s_tangent|apply steps_fail]| |]; reflexivity.
    - unfold w_curvature, runless. destruct (c_bool c) eqn:B; cbn [negb].
      + destruct (Nat.eqb (c_ndim c) 2) eqn:N.
        * destruct (Nat.eqb (c_size c) 1) eqn:S.
          -- apply steps_cached_fail; [cbn; rewrite B, N, S; reflexivity|]. cbn [direct]. rewrite B, N, S.
             eapply steps_weaken; [eapply steps_then; [apply s_first|apply steps_fail]| |]; reflexivity.
          -- eapply steps_cached; [cbn; rewrite B, N, S; reflexivity|cbn; rewrite B, N; reflexivity|]. cbn [direct]. rewrite B, N, S.
             eapply steps_weaken; [eapply steps_then; [apply s_first|apply s_second]| |]; reflexivity.
        * eapply steps_cached; [cbn; rewrite B, N; reflexivity|cbn; rewrite B, N; reflexivity|]. cbn [direct]. rewrite B, N.
          eapply steps_weaken; [eapply steps_then; [apply s_frenet1|eapply steps_then; [done|apply s_tangent]]| |]; [|reflexivity]. unfold c_size. lia.
      + eapply steps_cached; [cbn; rewrite B; reflexivity|cbn; rewrite B; reflexivity|]. cbn [direct]. rewrite B. done.
  Qed.

  Lemma good_nil : good [].
  Proof. split; [constructor| |]; intros p; [intros d []|intros []]. Qed.

  Lemma fails_needs q p : needs q p -> p <> q -> fails p = None.
  Proof.
    intros N. induction N as [q|q d p D N IH]; [congruence|]. intros _.
    assert (E : p = d \/ p <> d) by (destruct (Nat.eq_dec (pname p) (pname d)) as [E|E]; [left; apply pname_inj; assumption|right; congruence]).
    destruct E as [->|E]; [|auto]. clear -D. unfold direct in D. unfold fails. destruct d; try reflexivity; exfalso;
      destruct q; cbv zeta in D; try (destruct (c_bool c)); try (destruct (isparametric c)); try (destruct (Nat.eqb (c_ndim c) 2));
      try (destruct (Nat.eqb (c_size c) 1)); cbn [In] in D;
      repeat (destruct D as [D|D]; [discriminate D|]); destruct D.
  Qed.

  (** A sequence of reads from good caches. *)
  Lemma reads_spec l : forall s, good s -> exists news,
    w_reads c l s = (repeat WDiffGeom (total news), news ++ s) /\ good (news ++ s) /\
    (forall p, In p news -> fails p = None /\ exists q, In q l /\ needs q p) /\
    (forall p q, In q l -> needs q p -> fails p = None -> In p (news ++ s)).
  Proof.
    induction l as [|q l IH]; intros s G; cbn [w_reads].
    - exists []. split; [reflexivity|]. split; [assumption|]. split; [intros p []|]. intros p q [].
    - destruct (s_read q s G) as (n1 & E1 & G1 & N1 & D1). rewrite E1.
      destruct (IH _ G1) as (n2 & E2 & G2 & N2 & D2). rewrite E2. exists (n2 ++ n1).
      split; [|split; [|split]].
      + rewrite <- app_assoc, total_app, <- repeat_app. replace (total n2 + total n1) with (total n1 + 0 + total n2) by lia. reflexivity.
      + rewrite <- app_assoc. assumption.
      + intros p Hp. split; [apply (g_ok _ G2); rewrite app_assoc; apply in_or_app; auto|].
        apply in_app_iff in Hp as [Hp|Hp].
        * destruct (N2 p Hp) as (_ & q' & Hq & Nq). exists q'. split; [right; assumption|assumption].
        * destruct (N1 p Hp) as (d & Hd & Nd). exists q. split; [left; reflexivity|].
          destruct (fails q); [econstructor; eassumption|]. destruct Hd as [<-|[]]. assumption.
      + assert (Cl : forall q p, needs q p -> In q (n1 ++ s) -> In p (n1 ++ s)).
        { intros a b N. induction N as [a|a d b D N IH']; [auto|]. intros Ha. apply IH'. exact (g_closed _ G1 _ _ Ha D). }
        intros p q' [<-|Hq'] N F; rewrite <- app_assoc; [|eauto]. apply in_or_app. right.
        destruct (fails q) eqn:Fq.
        * destruct N as [q|q d p D N]; [congruence|]. apply (Cl d p N). apply D1. assumption.
        * apply (Cl q p N). apply D1. left. reflexivity.
  Qed.

  (** The results agree with [curve_prop]. *)
  Lemma fails_prop junk q : (match curve_prop junk c q with Ok _ => None | Raise e => Some e end) = fails q.
  Proof.
    unfold curve_prop, fails. destruct (c_bool c); cbn [negb]; destruct q; try reflexivity.
    destruct (Nat.eqb (c_ndim c) 2); [|reflexivity]. unfold curvature_plane, c_size. destruct (Nat.eqb (length (c_rows c)) 1); reflexivity.
  Qed.
End Reads.

(** ** Agreement with the models without warnings *)

Lemma wbind_snd {A B} (m : W A) (f : A -> W B) : snd (wbind m f) = rbind (snd m) (fun a => snd (f a)).
Proof. unfold wbind. destruct m as [ws [a|e]]; reflexivity. Qed.
Lemma wseq_snd {A} (l : list (W A)) : snd (wseq l) = rseq (map snd l).
Proof.
  induction l as [|m l IH]; [reflexivity|]. cbn [wseq map rseq]. rewrite wbind_snd. destruct (snd m) as [a|e]; [|reflexivity].
  cbn [rbind]. rewrite wbind_snd, IH. destruct (rseq (map snd l)); reflexivity.
Qed.

Section Agree.
  Context {T : Type} {NT : Num T} {ST : NumSqrt T} {RT : NumRound T}.

  Lemma sg_t_w_snd (s : segment T) p : snd (sg_t_w s p) = Ok (sg_t s p).
  Proof. unfold sg_t_w, sg_t. destruct (sg_collinear_point s p); reflexivity. Qed.
  Lemma sg_ts_w_snd (s : segment T) ps : snd (sg_ts_w s ps) = sg_ts s ps.
  Proof. unfold sg_ts_w. destruct ps; reflexivity. Qed.

  Lemma exact_result_w_snd feps (s1 s2 : segment T) t1 t2 : snd (exact_result_w feps s1 s2 t1 t2) = exact_result feps s1 s2 t1 t2.
  Proof. unfold exact_result_w, exact_result. destruct (_ && _); [|reflexivity]. destruct (_ && _); reflexivity. Qed.
  Lemma exact_segments_w_snd feps (s1 s2 : segment T) : snd (exact_segments_w feps s1 s2) = exact_segments feps s1 s2.
  Proof.
    unfold exact_segments_w, exact_segments. destruct (sg_collinear s1 s2); [destruct (overlap_segments s1 s2 false); reflexivity|].
    destruct (parallel_segments s1 s2 f_eps); [reflexivity|]. rewrite wbind_snd. unfold wlift at 1. cbn [snd].
    destruct (sg_coplanar s1 s2) as [cop|e]; [|reflexivity]. cbn [rbind]. destruct cop; cbn [negb]; [|reflexivity].
    destruct (_ || _); [reflexivity|]. cbv zeta. destruct (Nat.eqb (sg_ndim s1) 2).
    - destruct (solve2 _ _ _) as [[t1 t2]|]; [apply exact_result_w_snd|reflexivity].
    - destruct (lstsq2 _ _ _) as [t1 t2]. unfold wwarn. cbn [snd]. apply exact_result_w_snd.
  Qed.
  Lemma map2_map {A B C D} (g : C -> D) (f : A -> B -> C) u v : map g (map2 f u v) = map2 (fun a b => g (f a b)) u v.
  Proof. revert v. induction u as [|a u IH]; intros [|b v]; cbn [map2 map]; try reflexivity. rewrite IH. reflexivity. Qed.
  Lemma map2_ext {A B C} (f g : A -> B -> C) u v : (forall a b, f a b = g a b) -> map2 f u v = map2 g u v.
  Proof. intros H. revert v. induction u as [|a u IH]; intros [|b v]; cbn [map2]; try reflexivity. rewrite H, IH. reflexivity. Qed.
  Lemma exact_curves_w_snd feps (c1 c2 : curve T) same : snd (exact_curves_w feps c1 c2 same) = exact_curves feps c1 c2 same.
  Proof.
    unfold exact_curves_w, exact_curves. destruct (bbox_pairs c1 c2 same) as [|pr prs]; [reflexivity|].
    rewrite wbind_snd. unfold wlift at 1. cbn [snd]. destruct (take_segments true c1 _) as [l1|e]; [|reflexivity]. cbn [rbind].
    rewrite wbind_snd. unfold wlift at 1. cbn [snd]. destruct (take_segments false c2 _) as [l2|e]; [|reflexivity]. cbn [rbind].
    rewrite wbind_snd, wseq_snd, map2_map.
    rewrite (map2_ext _ (fun r1 r2 => rbind (exact_segments feps (sr_seg r1) (sr_seg r2)) (fun i => Ok (mkInter r1 r2 i)))).
    - destruct (rseq _); reflexivity.
    - intros r1 r2. rewrite wbind_snd, exact_segments_w_snd. reflexivity.
  Qed.

  Lemma intersect_w_snd {P} (s : istate T P) (get : string -> P -> res (imethod_w T)) given o1 o2 same (method : marg_w T) params :
    (forall name p, rmap forget (get name p) = get_intersect s name p) ->
    snd (intersect_w (is_default s) get given o1 o2 same method params) =
    intersect s o1 o2 same (match method with MWNone => MNone | MWStr n => MStr n | MWInst m => MInst (forget m) | MWOther => MOther end) params.
  Proof.
    intros G. unfold intersect_w, intersect. destruct (obj_ndim o1) as [n1|]; [|reflexivity]. destruct (obj_ndim o2) as [n2|]; [|reflexivity].
    destruct (negb (Nat.eqb n1 n2)); [reflexivity|]. rewrite wbind_snd.
    assert (Q : forall name, rbind (get name params) (fun m => snd
         (call_warns m o1 o2 same, match method_call (forget m) o1 o2 same with Ok r => Ok r | Raise _ => Raise IntersectionError end))
      = rbind (get_intersect s name params) (fun m => match method_call m o1 o2 same with Ok r => Ok r | Raise _ => Raise IntersectionError end)).
    { intros name. rewrite <- G. destruct (get name params); reflexivity. }
    destruct method as [|name|m|]; try reflexivity; [|apply Q]. destruct (is_default s) as [name|]; [|reflexivity]. apply Q.
  Qed.
End Agree.
