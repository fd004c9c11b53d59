(** Removing extra intersections: clusters of nearby intersection points. *)
From Coq Require Import ZArith List Bool Arith Lia Reals Lra Sorting.Sorted Permutation Relations.
From Verif Require Import Num Py Numeric Curve Vec Geom Intersect Spec GeomSpec.
From Verif Require Import ListFacts CurveProofs CurveProofs2 CurveProofs3 VecFacts GeomProofs GeomProofs2 GeomProofs3 IntersectProofs IntersectProofs2 IntersectProofs3.
Import ListNotations.
Local Open Scope nat_scope.

Lemma existsb_eqb v l : existsb (Nat.eqb v) l = true <-> In v l.
Proof.
  rewrite existsb_exists. split.
  - intros (x & H & E). apply Nat.eqb_eq in E. congruence.
  - intros H. exists v. split; [assumption|apply Nat.eqb_refl].
Qed.
Lemma existsb_eqb_false v l : existsb (Nat.eqb v) l = false <-> ~ In v l.
Proof. rewrite <- existsb_eqb. destruct (existsb _ _); split; congruence. Qed.

(** ** Graphs *)

Lemma add_nodes_spec l : forall seen, NoDup seen ->
  NoDup (add_nodes seen l) /\ forall v, In v (add_nodes seen l) <-> In v seen \/ In v l.
Proof.
  induction l as [|x l IH]; intros seen N; cbn [add_nodes].
  - split; [assumption|]. cbn. tauto.
  - destruct (existsb (Nat.eqb x) seen) eqn:E.
    + apply existsb_eqb in E. destruct (IH seen N) as [A B]. split; [assumption|].
      intros v. rewrite B. cbn. split; [tauto|]. intros [H|[H|H]]; [tauto|subst; tauto|tauto].
    + apply existsb_eqb_false in E. destruct (IH (seen ++ [x])) as [A B].
      * apply Permutation_NoDup with (x :: seen); [apply Permutation_cons_append|]. constructor; assumption.
      * split; [assumption|]. intros v. rewrite B, in_app_iff. cbn. tauto.
Qed.

(** Neighbours. *)
Definition adj (edges : list (nat * nat)) (u v : nat) : Prop := In (u, v) edges \/ In (v, u) edges.
Definition reach (edges : list (nat * nat)) : nat -> nat -> Prop := clos_refl_trans nat (adj edges).

Lemma adj_sym edges u v : adj edges u v -> adj edges v u.
Proof. unfold adj. tauto. Qed.
Lemma reach_sym edges u v : reach edges u v -> reach edges v u.
Proof.
  induction 1 as [x y H|x|x y z H1 IH1 H2 IH2].
  - apply rt_step. apply adj_sym. assumption.
  - apply rt_refl.
  - eapply rt_trans; eassumption.
Qed.

Lemma graph_nodes_spec edges : NoDup (graph_nodes edges) /\
  forall v, In v (graph_nodes edges) <-> exists u, adj edges u v.
Proof.
  unfold graph_nodes. destruct (add_nodes_spec (flat_map (fun '(i, j) => [i; j]) edges) [] (NoDup_nil _)) as [A B].
  split; [assumption|]. intros v. rewrite B. cbn [In]. split.
  - intros [[]|H]. apply in_flat_map in H. destruct H as ((i & j) & He & Hv). cbn in Hv.
    destruct Hv as [<-|[<-|[]]]; [exists j; right; assumption|exists i; left; assumption].
  - intros (u & [H|H]); right; apply in_flat_map; eexists; (split; [eassumption|]); cbn; tauto.
Qed.

Lemma grow_In nodes edges S v :
  In v (grow nodes edges S) <-> In v nodes /\ (In v S \/ exists u, In u S /\ adj edges u v).
Proof.
  unfold grow. rewrite filter_In, Bool.orb_true_iff, existsb_eqb, existsb_exists. split.
  - intros (N & [H|((i & j) & He & H)]); [tauto|]. split; [assumption|]. right.
    rewrite Bool.orb_true_iff, !Bool.andb_true_iff, !Nat.eqb_eq, !existsb_eqb in H.
    destruct H as [[-> H]|[-> H]]; [exists j; split; [assumption|right; assumption]|exists i; split; [assumption|left; assumption]].
  - intros (N & [H|(u & Hu & [He|He])]); (split; [assumption|]); [left; assumption| |]; right;
      eexists; (split; [exact He|]); cbn beta iota;
      rewrite Bool.orb_true_iff, !Bool.andb_true_iff, !Nat.eqb_eq, !existsb_eqb; tauto.
Qed.

Lemma grow_NoDup nodes edges S : NoDup nodes -> NoDup (grow nodes edges S).
Proof. intros H. unfold grow. apply NoDup_filter. assumption. Qed.

Definition closed (edges : list (nat * nat)) (S : list nat) : Prop :=
  forall u v, In u S -> adj edges u v -> In v S.

Section Component.
  Variables (nodes : list nat) (edges : list (nat * nat)).
  Hypothesis HN : NoDup nodes.
  Hypothesis HE : forall u v, adj edges u v -> In v nodes.

  Lemma grow_incl S : incl S nodes -> incl S (grow nodes edges S).
  Proof. intros H v Hv. apply grow_In. split; [apply H; assumption|left; assumption]. Qed.

  Lemma grow_closed S : closed edges S -> closed edges (grow nodes edges S).
  Proof.
    intros C u v Hu A. apply grow_In. split; [eapply HE; eassumption|]. left.
    apply grow_In in Hu. destruct Hu as (_ & [Hu|(w & Hw & B)]); [exact (C u v Hu A)|].
    exact (C u v (C w u Hw B) A).
  Qed.

  (** grow at the end of the rounds instead of the beginning *)
  Lemma grow_n_snoc f S : grow_n (Datatypes.S f) nodes edges S = grow nodes edges (grow_n f nodes edges S).
  Proof. revert S. induction f as [|f IH]; intros S; [reflexivity|]. cbn [grow_n] in *. rewrite IH. reflexivity. Qed.

  Lemma grow_n_saturate f v : In v nodes ->
    NoDup (grow_n f nodes edges [v]) /\ incl (grow_n f nodes edges [v]) nodes /\ In v (grow_n f nodes edges [v]) /\
    (closed edges (grow_n f nodes edges [v]) \/ f < length (grow_n f nodes edges [v])).
  Proof.
    intros Hv. induction f as [|f (N & I & V & C)].
    - cbn. repeat split; [constructor; [intros []|constructor]| |auto|right; lia].
      intros x [<-|[]]. assumption.
    - rewrite grow_n_snoc. set (S := grow_n f nodes edges [v]) in *.
      pose proof (grow_incl S I) as G. pose proof (grow_NoDup nodes edges S HN) as N'.
      split; [assumption|]. split; [intros x Hx; apply grow_In in Hx; tauto|]. split; [apply G; assumption|].
      destruct C as [C|C]; [left; apply grow_closed; assumption|].
      destruct (le_lt_dec (length (grow nodes edges S)) (length S)) as [L|L]; [|right; lia].
      left. pose proof (NoDup_length_incl N L G) as G'.
      intros a b Ha A. apply grow_In. split; [eapply HE; eassumption|]. right. exists a. split; [apply G'; assumption|assumption].
  Qed.

  Lemma component_NoDup v : In v nodes -> NoDup (component nodes edges v).
  Proof. intros H. apply (grow_n_saturate (length nodes) v H). Qed.

  Lemma grow_n_reach f v w : In w (grow_n f nodes edges [v]) -> reach edges v w.
  Proof.
    revert w. induction f as [|f IH]; intros w.
    - cbn. intros [<-|[]]. apply rt_refl.
    - rewrite grow_n_snoc. intros H. apply grow_In in H. destruct H as (_ & [H|(u & Hu & A)]); [apply IH; assumption|].
      eapply rt_trans; [apply IH; eassumption|apply rt_step; assumption].
  Qed.

  Lemma component_In v w : In v nodes -> (In w (component nodes edges v) <-> reach edges v w).
  Proof.
    intros Hv. split; [apply grow_n_reach|].
    destruct (grow_n_saturate (length nodes) v Hv) as (N & I & V & C).
    fold (component nodes edges v) in *.
    destruct C as [C|C].
    - intros R. apply clos_rt_rtn1 in R. induction R as [|a b A R IH]; [assumption|]. eapply C; eassumption.
    - exfalso. pose proof (NoDup_incl_length N I). lia.
  Qed.

  (** Components are filters of the node list, so equal sets are equal lists. *)
  Lemma component_filter v : In v nodes -> exists P, component nodes edges v = filter P nodes.
  Proof.
    intros Hv. unfold component. destruct nodes as [|x l] eqn:E; [destruct Hv|].
    cbn [length]. rewrite <- E. rewrite grow_n_snoc. eexists. reflexivity.
  Qed.

  Lemma component_eq v w : In v nodes -> In w nodes -> reach edges v w ->
    component nodes edges v = component nodes edges w.
  Proof.
    intros Hv Hw R.
    assert (M : forall x, In x (component nodes edges v) <-> In x (component nodes edges w)).
    { intros x. rewrite !component_In by assumption. split; intros Q.
      - eapply rt_trans; [apply reach_sym; eassumption|assumption].
      - eapply rt_trans; eassumption. }
    destruct (component_filter v Hv) as (P & EP). destruct (component_filter w Hw) as (Q & EQ).
    rewrite EP, EQ in *. apply filter_ext_in. intros x Hx. specialize (M x). rewrite !filter_In in M.
    destruct (P x), (Q x); try reflexivity; exfalso; destruct M as [M1 M2].
    - destruct M1; [auto|discriminate].
    - destruct M2; [auto|discriminate].
  Qed.

  Lemma components_spec todo : forall seen, incl todo nodes ->
    (forall c, In c (components nodes edges seen todo) -> exists v, In v nodes /\ c = component nodes edges v) /\
    (forall v, In v todo -> In v seen \/ exists c, In c (components nodes edges seen todo) /\ In v c).
  Proof.
    induction todo as [|x todo IH]; intros seen I; cbn [components].
    - split; [intros c []|intros v []].
    - assert (I' : incl todo nodes) by (intros y Hy; apply I; right; assumption).
      destruct (existsb (Nat.eqb x) seen) eqn:E.
      + apply existsb_eqb in E. destruct (IH seen I') as [A B]. split; [assumption|].
        intros v [<-|H]; [left; assumption|apply B; assumption].
      + destruct (IH (seen ++ component nodes edges x) I') as [A B].
        assert (X : In x nodes) by (apply I; left; reflexivity).
        split.
        * intros c [<-|H]; [exists x; auto|apply A; assumption].
        * intros v [<-|H].
          { right. exists (component nodes edges x). split; [left; reflexivity|].
            apply component_In; [assumption|apply rt_refl]. }
          destruct (B v H) as [K|(c & Hc & K)].
          { apply in_app_iff in K. destruct K as [K|K]; [left; assumption|].
            right. exists (component nodes edges x). split; [left; reflexivity|assumption]. }
          right. exists c. split; [right; assumption|assumption].
  Qed.
End Component.

(** ** Sorting *)
Lemma insert_by_perm {T} {NT : Num T} (key : nat -> T) x l : Permutation (insert_by key x l) (x :: l).
Proof.
  induction l as [|y l IH]; cbn [insert_by]; [reflexivity|]. destruct (nltb _ _); [|reflexivity].
  rewrite IH. apply perm_swap.
Qed.
Lemma sort_by_perm {T} {NT : Num T} (key : nat -> T) l : Permutation (sort_by key l) l.
Proof.
  induction l as [|x l IH]; cbn [sort_by]; [reflexivity|]. rewrite insert_by_perm. constructor. assumption.
Qed.

Lemma insert_by_sorted (key : nat -> R) x l : StronglySorted (fun a b => (key a <= key b)%R) l ->
  StronglySorted (fun a b => (key a <= key b)%R) (insert_by key x l).
Proof.
  induction 1 as [|y l S IH F]; cbn [insert_by].
  - constructor; constructor.
  - destruct (nltb (key y) (key x)) eqn:E.
    + cbn [nltb RNum] in E. apply Rltb_iff in E. constructor; [assumption|].
      rewrite Forall_forall in *. intros z Hz. apply (Permutation_in _ (insert_by_perm key x l)) in Hz.
      destruct Hz as [<-|Hz]; [lra|auto].
    + assert (L : (key x <= key y)%R).
      { destruct (Rle_lt_dec (key x) (key y)) as [L|L]; [assumption|]. apply Rltb_iff in L. cbn [nltb RNum] in E. congruence. }
      constructor; [constructor; assumption|]. constructor; [assumption|].
      rewrite Forall_forall in *. intros z Hz. specialize (F z Hz). lra.
Qed.
Lemma sort_by_sorted (key : nat -> R) l : StronglySorted (fun a b => (key a <= key b)%R) (sort_by key l).
Proof. induction l as [|x l IH]; cbn [sort_by]; [constructor|]. apply insert_by_sorted. assumption. Qed.

(** The head of a sorted cluster, for any iteration order. *)
Lemma cluster_head (key : nat -> R) (order : list nat -> list nat) c :
  Permutation (order c) c -> NoDup c -> c <> [] ->
  exists h, In h c /\ (forall k, In k c -> (key h <= key k)%R) /\
    forall k, In k (tl (sort_by key (order c))) <-> In k c /\ k <> h.
Proof.
  intros P N NE.
  assert (Q : Permutation (sort_by key (order c)) c) by (rewrite sort_by_perm; assumption).
  pose proof (sort_by_sorted key (order c)) as S.
  destruct (sort_by key (order c)) as [|h l] eqn:E.
  { apply Permutation_nil in Q. contradiction. }
  apply StronglySorted_inv in S. destruct S as [_ F]. rewrite Forall_forall in F.
  assert (Nhl : NoDup (h :: l)) by (eapply Permutation_NoDup; [symmetry; exact Q|assumption]).
  apply NoDup_cons_iff in Nhl. destruct Nhl as [Nh _].
  exists h. split; [apply (Permutation_in _ Q); left; reflexivity|]. split.
  - intros k Hk. apply (Permutation_in _ (Permutation_sym Q)) in Hk. destruct Hk as [<-|Hk]; [lra|auto].
  - intros k. cbn [tl]. split.
    + intros Hk. split; [apply (Permutation_in _ Q); right; assumption|]. intros ->. contradiction.
    + intros [Hk NEk]. apply (Permutation_in _ (Permutation_sym Q)) in Hk. destruct Hk as [<-|Hk]; [contradiction|assumption].
Qed.

(** ** Kept positions *)

(** Two positions whose points are closer than [tol]. *)
Definition close_pair (tol : R) (pts : list (list R)) (i j : nat) : Prop :=
  i < length pts /\ j < length pts /\ i <> j /\ (dist (nth i pts []) (nth j pts []) < tol)%R.
(** Connected by a chain of close pairs. *)
Definition connected (tol : R) (pts : list (list R)) : nat -> nat -> Prop := clos_refl_trans nat (close_pair tol pts).

Lemma nisnan_R (x : R) : nisnan x = false. Proof. reflexivity. Qed.

Lemma extra_edges_In tol n pts i j : dims n pts ->
  (In (i, j) (extra_edges tol pts) <-> i < j /\ j < length pts /\ (dist (nth i pts []) (nth j pts []) < tol)%R).
Proof.
  intros D. unfold extra_edges.
  rewrite (nonzero_In (length pts) (length pts) (fun i j => if Nat.leb j i then false else extra_edge tol pts i j)).
  destruct (Nat.leb_spec j i) as [L|L].
  - split; [intros (_ & _ & X); discriminate|lia].
  - unfold extra_edge. rewrite nisnan_R, Bool.orb_false_r. cbn [nltb RNum]. rewrite Rltb_iff.
    split.
    + intros (Hi & Hj & E). repeat split; try assumption.
      rewrite dist_vdist by (rewrite !D; [reflexivity|apply nth_In; assumption..]). assumption.
    + intros (_ & Hj & E). repeat split; [lia|assumption|].
      rewrite dist_vdist in E by (rewrite !D; [reflexivity|apply nth_In; lia..]). assumption.
Qed.

Lemma adj_close tol n pts u v : dims n pts -> (adj (extra_edges tol pts) u v <-> close_pair tol pts u v).
Proof.
  intros D. unfold adj, close_pair. rewrite !(extra_edges_In tol n) by assumption. split.
  - intros [(H1 & H2 & H3)|(H1 & H2 & H3)]; (repeat split; [lia|lia|lia|]); [assumption|].
    rewrite dist_vdist, vdist_sym, <- dist_vdist by (rewrite !D; [reflexivity|apply nth_In; lia..]). assumption.
  - intros (H1 & H2 & H3 & H4). destruct (Nat.lt_ge_cases u v) as [L|L]; [left; auto|right].
    repeat split; [lia|assumption|].
    rewrite dist_vdist, vdist_sym, <- dist_vdist by (rewrite !D; [reflexivity|apply nth_In; lia..]). assumption.
Qed.

Lemma reach_connected tol n pts u v : dims n pts -> (reach (extra_edges tol pts) u v <-> connected tol pts u v).
Proof.
  intros D. split; induction 1 as [x y H|x|x y z H1 IH1 H2 IH2];
    try apply rt_refl; try (eapply rt_trans; eassumption); apply rt_step; apply (adj_close tol n); assumption.
Qed.

Lemma connected_sym tol n pts u v : dims n pts -> connected tol pts u v -> connected tol pts v u.
Proof. intros D H. apply (reach_connected tol n) in H; [|assumption]. apply (reach_connected tol n); [assumption|]. apply reach_sym. assumption. Qed.

Theorem kept_positions_spec n tol order (pts : list (list R)) (lens : list R) :
  dims n pts -> (forall c, Permutation (order c) c) ->
  let K := kept_positions tol order pts lens in
  StronglySorted lt K /\
  (forall k, In k K -> k < length pts) /\
  (forall i, i < length pts -> exists k, In k K /\ connected tol pts i k /\
     (forall j, connected tol pts i j -> (nth k lens 0 <= nth j lens 0)%R) /\
     (forall k', In k' K -> connected tol pts i k' -> k' = k)).
Proof.
  intros D HO K. unfold K, kept_positions.
  set (edges := extra_edges tol pts). set (nodes := graph_nodes edges).
  set (key := fun k => nth k lens n0). set (comps := components nodes edges [] nodes).
  set (extra := flat_map (fun c => tl (sort_by key (order c))) comps).
  destruct (graph_nodes_spec edges) as [HN HM]. fold nodes in HN, HM.
  assert (HE : forall u v, adj edges u v -> In v nodes) by (intros u v A; apply HM; exists u; assumption).
  destruct (components_spec nodes edges HN HE nodes [] (incl_refl _)) as [C1 C2]. fold comps in C1, C2.
  assert (KI : forall k, In k (filter (fun k => negb (existsb (Nat.eqb k) extra)) (seq 0 (length pts))) <->
                         k < length pts /\ ~ In k extra).
  { intros k. rewrite filter_In, in_seq, Bool.negb_true_iff, existsb_eqb_false. split; intros [A B]; split; try lia; assumption. }
  split; [apply sorted_filter, sorted_seq|]. split; [intros k Hk; apply KI in Hk; tauto|].
  intros i Hi.
  (* membership in [extra] through the component of a node *)
  assert (EX : forall v, In v nodes -> exists h, reach edges v h /\ (forall j, reach edges v j -> (key h <= key j)%R) /\
             forall k, reach edges v k -> (In k extra <-> k <> h)).
  { intros v Hv. set (c := component nodes edges v).
    assert (IV : forall k, In k c <-> reach edges v k) by (intros k; apply component_In; assumption).
    destruct (cluster_head key order c (HO c)) as (h & Hh & Hmin & Htl).
    { apply component_NoDup; assumption. }
    { intros Z. assert (In v c) by (apply IV, rt_refl). rewrite Z in H. destruct H. }
    exists h. split; [apply IV; assumption|]. split; [intros j Hj; apply Hmin, IV; assumption|].
    intros k Hk. unfold extra. rewrite in_flat_map. split.
    - intros (c' & Hc' & Hk'). destruct (C1 c' Hc') as (w & Hw & ->).
      assert (IC : In k (component nodes edges w)).
      { destruct (cluster_head key order (component nodes edges w) (HO _)) as (h' & _ & _ & T').
        { apply component_NoDup; assumption. }
        { intros Z. assert (Q : In w (component nodes edges w)) by (apply component_In; try assumption; apply rt_refl).
          rewrite Z in Q. destruct Q. }
        apply T' in Hk'. tauto. }
      apply component_In in IC; try assumption.
      assert (EQ : component nodes edges w = c).
      { symmetry. apply component_eq; try assumption. eapply rt_trans; [exact Hk|apply reach_sym; assumption]. }
      rewrite EQ in Hk'. apply Htl in Hk'. tauto.
    - intros NE. destruct (C2 v Hv) as [[]|(c' & Hc' & Hv')]. destruct (C1 c' Hc') as (w & Hw & ->).
      assert (EQ : component nodes edges w = c).
      { apply component_eq; try assumption. apply component_In in Hv'; assumption. }
      exists c. rewrite <- EQ at 1. split; [assumption|]. apply Htl. split; [apply IV; assumption|assumption]. }
  assert (BND : forall j k, connected tol pts j k -> j < length pts -> k < length pts).
  { intros j k R Hj. apply clos_rt_rtn1 in R. destruct R as [|y z (_ & Hb & _) R]; assumption. }
  destruct (in_dec Nat.eq_dec i nodes) as [Hin|Hout].
  - destruct (EX i Hin) as (h & R & Hmin & Hex). exists h.
    assert (Rc : connected tol pts i h) by (apply (reach_connected tol n); assumption).
    split; [apply KI; split; [eapply BND; eassumption|intros Q; apply Hex in Q; [congruence|assumption]]|].
    split; [assumption|]. split.
    + intros j Hj. apply Hmin. apply (reach_connected tol n); assumption.
    + intros k' Hk' Rk'. apply KI in Hk'. destruct (Nat.eq_dec k' h) as [E|E]; [assumption|].
      exfalso. apply Hk'. apply Hex; [apply (reach_connected tol n); assumption|assumption].
  - assert (ISO : forall k, connected tol pts i k -> k = i).
    { intros k R. apply clos_rt_rt1n in R. destruct R as [|y z A R]; [reflexivity|]. exfalso. apply Hout.
      apply HM. exists y. apply adj_sym. apply (adj_close tol n); assumption. }
    exists i. split; [apply KI; split; [assumption|]|].
    + unfold extra. rewrite in_flat_map. intros (c & Hc & Hk). destruct (C1 c Hc) as (w & Hw & ->).
      assert (IC : In i (component nodes edges w)).
      { destruct (cluster_head key order (component nodes edges w) (HO _)) as (h' & _ & _ & T').
        { apply component_NoDup; assumption. }
        { intros Z. assert (Q : In w (component nodes edges w)) by (apply component_In; try assumption; apply rt_refl).
          rewrite Z in Q. destruct Q. }
        apply T' in Hk. tauto. }
      apply Hout. destruct (grow_n_saturate nodes edges HN HE (length nodes) w Hw) as (_ & I & _). apply I. exact IC.
    + split; [apply rt_refl|]. split; [intros j Hj; rewrite (ISO j Hj); lra|]. intros k' _ R. apply ISO. assumption.
Qed.

(** ** The list of intersections *)

(** A truthy, consistent result whose point is not empty. *)
Definition good (x : inter R) : Prop :=
  in_bool x = true /\ info_ok (in_info x) /\ forall p, i_data (in_info x) = IDPoint p -> p <> [].

Lemma good_data x : good x -> exists p s, in_point x = Ok (IDPoint p) /\ in_segment x = Ok (IDSegment s).
Proof.
  intros (B & K & P). unfold in_point, in_segment. rewrite B. unfold in_bool, info_ok in *.
  destruct (i_type (in_info x)) eqn:E; try discriminate; cbn [negb itype_eqb].
  - destruct K as (p & K). rewrite K. unfold mk_segment. destruct p as [|a p]; [destruct (P [] K); reflexivity|].
    cbn [length]. rewrite Nat.eqb_refl. cbn. eauto.
  - destruct K as (s & K). rewrite K. cbn. eauto.
  - destruct K as (s & K). rewrite K. cbn. eauto.
Qed.

Theorem remove_extra_spec n tol order (l : list (inter R)) pts segs :
  (forall c, Permutation (order c) c) -> dims n pts ->
  Forall2 (fun x p => in_point x = Ok (IDPoint p)) l pts ->
  Forall2 (fun x s => in_segment x = Ok (IDSegment s)) l segs ->
  exists K l', remove_extra tol order l = Ok l' /\
    StronglySorted lt K /\ Forall2 (fun k x => nth_error l k = Some x) K l' /\
    (forall i, i < length l -> exists k, In k K /\ connected tol pts i k /\
       (forall j s s', connected tol pts i j -> nth_error segs k = Some s -> nth_error segs j = Some s' ->
                       (sg_len s <= sg_len s')%R) /\
       (forall k', In k' K -> connected tol pts i k' -> k' = k)).
Proof.
  intros HO D HP HS.
  assert (EP : rseq (map in_point_data l) = Ok pts).
  { apply rseq_ok_iff. clear HS D. induction HP as [|x p l pts E _ IH]; [reflexivity|]. cbn [map]. rewrite IH.
    unfold in_point_data. rewrite E. reflexivity. }
  assert (ES : rseq (map in_seglen l) = Ok (map sg_len segs)).
  { apply rseq_ok_iff. clear HP EP. induction HS as [|x s l segs E _ IH]; [reflexivity|]. cbn [map]. rewrite IH.
    unfold in_seglen. rewrite E. reflexivity. }
  pose proof (Forall2_length _ _ _ HP) as LP. pose proof (Forall2_length _ _ _ HS) as LS.
  destruct (kept_positions_spec n tol order pts (map sg_len segs) D HO) as (KS & KB & KC).
  set (K := kept_positions tol order pts (map sg_len segs)) in *.
  exists K, (pick l K). unfold remove_extra. rewrite EP, ES. cbn [rbind]. fold K.
  assert (PI : Forall2 (py_index (length l)) (map Z.of_nat K) K).
  { rewrite LP. clear KS KC. induction K as [|k K IH]; cbn; constructor.
    - split; [apply KB; left; reflexivity|left; reflexivity].
    - apply IH. intros x Hx. apply KB. right. assumption. }
  split; [apply np_take_ok; assumption|]. split; [assumption|]. split.
  - clear KS KC PI. induction K as [|k K IH]; [constructor|].
    assert (Hk : k < length l) by (rewrite LP; apply KB; left; reflexivity).
    unfold pick in *. cbn [flat_map]. destruct (nth_error l k) as [x|] eqn:E.
    + cbn. constructor; [assumption|]. apply IH. intros y Hy. apply KB. right. assumption.
    + apply nth_error_None in E. lia.
  - intros i Hi. rewrite LP in Hi. destruct (KC i Hi) as (k & Hk & Hc & Hmin & Hu). exists k. split; [assumption|].
    split; [assumption|]. split; [|assumption].
    intros j s s' Hj Ek Ej. specialize (Hmin j Hj).
    rewrite (nth_error_nth (map sg_len segs) k 0%R (x := sg_len s)) in Hmin by (rewrite nth_error_map, Ek; reflexivity).
    rewrite (nth_error_nth (map sg_len segs) j 0%R (x := sg_len s')) in Hmin by (rewrite nth_error_map, Ej; reflexivity).
    assumption.
Qed.
