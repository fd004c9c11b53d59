(** The tests with a tolerance, decided: for the theorems of C89. *)
From Coq Require Import ZArith List Bool Arith Lia Reals Lra Psatz Permutation.
From Verif Require Import Num Py Numeric Curve Vec Geom Spec GeomSpec SvdRank SvdSpec.
From Verif Require Import CurveProofs3 VecFacts RankProofs RigidProofs GeomProofs OrthoProofs SvdProofs SvdProofs2 SvdProofs3 SvdProofs4 SvdProofs5.
Import ListNotations.
Local Open Scope R_scope.

Lemma col_dec svd n pts U tol : correct_svd svd -> pts <> [] -> dims n pts -> NoDup U -> (forall p, In p U <-> In p pts) ->
  match tol with Some t => 0 <= t | None => True end ->
  exists b, collinear_points_tol svd tol pts = Ok b /\
    (b = true <-> (length U <= 2)%nat \/
       exists d qs, 0 <= d /\ tolerance n U tol d /\ on_line_through_origin n qs /\ within n U qs d).
Proof.
  intros C Ne D N S2 Ht.
  assert (DU : dims n U) by (intros p Hp; apply D, S2, Hp).
  assert (NU : U <> []).
  { destruct pts as [|p l]; [contradiction|]. intros E. assert (X : In p U) by (apply S2; left; reflexivity). rewrite E in X. destruct X. }
  destruct n as [|n].
  { assert (P := unique_perm U pts N S2). exists true.
    assert (L : (length U <= 1)%nat).
    { destruct U as [|a [|b U]]; cbn; try lia. exfalso. apply NoDup_cons_iff in N. destruct N as [N _]. apply N. left.
      transitivity (@nil R); [|symmetry]; apply length_zero_iff_nil, DU; [right; left|left]; reflexivity. }
    split; [|split; [intros _; left; lia|reflexivity]].
    destruct pts as [|p l]; [contradiction|]. unfold collinear_points_tol. rewrite <- (Permutation_length P).
    destruct (Nat.ltb_spec (length U) 3); [reflexivity|lia]. }
  destruct (tolerance_exists (S n) U tol DU ltac:(lia) NU) as (d & T & Hd).
  assert (Hd' : 0 <= d) by (destruct tol; [subst; exact Ht|exact Hd]).
  destruct (collinear_tol_iff svd (S n) pts U tol d C Ne D N S2 T Hd') as (b & E & H).
  exists b. split; [exact E|]. rewrite H. split.
  - intros [K|(qs & O & W)]; [left; exact K|]. right. exists d, qs. auto.
  - intros [K|(d' & qs & _ & T' & O & W)]; [left; exact K|]. right. exists qs. split; [exact O|].
    assert (Ed : d' = d).
    { unfold tolerance in T, T'. destruct tol; [congruence|]. destruct T as (e & X & ->). destruct T' as (e' & X' & ->).
      rewrite (extension_unique _ _ _ _ X X'). reflexivity. }
    rewrite Ed in W. exact W.
Qed.

Lemma tolerance_unique n U tol d d' : tolerance n U tol d -> tolerance n U tol d' -> d = d'.
Proof.
  unfold tolerance. destruct tol; [congruence|]. intros (e & X & ->) (e' & X' & ->). rewrite (extension_unique _ _ _ _ X X'). reflexivity.
Qed.

Lemma cop_dec svd n pts tol : correct_svd svd -> (2 <= length pts)%nat -> dims n pts ->
  match tol with Some t => 0 <= t | None => True end ->
  exists b, coplanar_points_tol svd tol pts = Ok b /\
    (b = true <-> (n < 3)%nat \/
       exists d qs, 0 <= d /\ tolerance n (relative pts) tol d /\ in_plane_through_origin n qs /\ within n (relative pts) qs d).
Proof.
  intros C L2 D Ht. assert (Ne : pts <> []) by (destruct pts; [cbn in L2; lia|discriminate]).
  destruct (Nat.lt_ge_cases n 3) as [H3|H3].
  { exists true. split; [|tauto]. destruct pts as [|p l]; [contradiction|]. unfold coplanar_points_tol.
    rewrite (D p (or_introl eq_refl)). apply Nat.ltb_lt in H3. rewrite H3. reflexivity. }
  assert (Sh := relative_shape n pts D Ne).
  assert (NR : relative pts <> []) by (intros E; destruct Sh as [Sh _]; rewrite E in Sh; cbn in Sh; lia).
  destruct (tolerance_exists n (relative pts) tol (proj2 Sh) ltac:(lia) NR) as (d & T & Hd).
  assert (Hd' : 0 <= d) by (destruct tol; [subst; exact Ht|exact Hd]).
  destruct (coplanar_tol_iff svd n pts tol d C L2 D T Hd') as (b & E & H).
  exists b. split; [exact E|]. rewrite H. split.
  - intros [K|(qs & O & W)]; [left; exact K|]. right. exists d, qs. auto.
  - intros [K|(d' & qs & _ & T' & O & W)]; [left; exact K|]. right. exists qs. split; [exact O|].
    rewrite (tolerance_unique _ _ _ _ _ T T'). exact W.
Qed.

(** A list of the different points. *)
Lemma uniq (pts : list (list R)) : exists U, NoDup U /\ forall p, In p U <-> In p pts.
Proof. exists (unique_points pts). split; [apply unique_points_NoDup|]. intros p. apply unique_points_In. Qed.

Lemma uniq_small (pts U : list (list R)) : NoDup U -> (forall p, In p U <-> In p pts) ->
  ((length U <= 2)%nat <-> exists a b, forall p, In p pts -> p = a \/ p = b).
Proof.
  intros N S2. rewrite <- unique_lt3_iff, (Permutation_length (unique_perm U pts N S2)). lia.
Qed.

Lemma line_same n (U pts : list (list R)) : (forall p, In p U <-> In p pts) ->
  (on_line_through_origin n U <-> on_line_through_origin n pts).
Proof. intros S2. split; intros (u & Lu & H); exists u; (split; [exact Lu|]); intros x Hx; apply H, S2, Hx. Qed.

Lemma plane_small n qs : (n < 3)%nat -> dims n qs -> in_plane_through_origin n qs.
Proof.
  intros Hn Hd. destruct n as [|[|[|n]]]; try lia.
  - exists [], []. split; [reflexivity|]. split; [reflexivity|]. intros x Hx. exists 0, 0. intros i.
    assert (E := Hd x Hx). destruct x; [|discriminate]. destruct i; cbn; ring.
  - exists [1], [0]. split; [reflexivity|]. split; [reflexivity|]. intros x Hx. assert (E := Hd x Hx).
    destruct x as [|a [|? ?]]; try discriminate. exists a, 0. intros [|[|i]]; cbn; ring.
  - exists [1; 0], [0; 1]. split; [reflexivity|]. split; [reflexivity|]. intros x Hx. assert (E := Hd x Hx).
    destruct x as [|a [|b [|? ?]]]; try discriminate. exists a, b. intros [|[|[|i]]]; cbn; ring.
Qed.

Lemma in_relative pts r : In r (relative pts) -> exists p, In p pts /\ r = minus p (last pts []).
Proof. unfold relative. intros H. apply in_map_iff in H. destruct H as (p & <- & Hp). exists p. split; [apply removelast_In, Hp|reflexivity]. Qed.

Lemma relative_plane n pts : dims n pts -> pts <> [] ->
  (in_common_plane n pts <-> in_plane_through_origin n (relative pts)).
Proof.
  intros D Ne. assert (Hq : In (last pts []) pts) by (apply last_In, Ne). set (q := last pts []) in *. assert (Lq := D q Hq). split.
  - intros (p & u & v & Lp & Lu & Lv & H). exists u, v. split; [exact Lu|]. split; [exact Lv|]. intros x Hx.
    apply in_relative in Hx. destruct Hx as (y & Hy & ->). fold q. destruct (H y Hy) as (s & t & Ey). destruct (H q Hq) as (s' & t' & Eq).
    exists (s - s'), (t - t'). intros i. rewrite minus_vsub, nth_vsub by (rewrite (D y Hy); congruence). rewrite Ey, Eq. ring.
  - intros (u & v & Lu & Lv & H). exists q, u, v. split; [exact Lq|]. split; [exact Lu|]. split; [exact Lv|]. intros x Hx.
    destruct (@exists_last _ pts Ne) as (l & a & E). assert (Ea : q = a) by (unfold q; rewrite E; apply last_last).
    rewrite E in Hx. apply in_app_or in Hx. destruct Hx as [Hx|[Hx|[]]].
    + assert (Hr : In (minus x q) (relative pts)).
      { unfold relative. fold q. apply in_map_iff. exists x. split; [reflexivity|]. rewrite E, removelast_last. exact Hx. }
      destruct (H _ Hr) as (s & t & K). exists s, t. intros i. specialize (K i).
      assert (Lx : length x = n) by (apply D; rewrite E; apply in_or_app; left; exact Hx).
      rewrite minus_vsub, nth_vsub in K by congruence. lra.
    + exists 0, 0. intros i. rewrite <- Hx, <- Ea. ring.
Qed.

Lemma last_map' (g : list R -> list R) l : l <> [] -> last (map g l) [] = g (last l []).
Proof.
  induction l as [|a [|b l] IH]; intros H; [contradiction|reflexivity|]. cbn [map last] in *. apply IH. discriminate.
Qed.

Lemma relative_map n m g pts : isometry n m g -> dims n pts -> relative (map g pts) = map (vector_of n g) (relative pts).
Proof.
  intros Iso D. destruct pts as [|p0 l]; [reflexivity|]. set (pts := p0 :: l) in *.
  assert (Ne : pts <> []) by discriminate. unfold relative. rewrite removelast_map, !map_map. apply map_ext_in. intros p Hp.
  rewrite last_map' by exact Ne. rewrite !minus_vsub. apply (g_minus n m g Iso); [apply D, removelast_In, Hp|apply D, last_In, Ne].
Qed.

Lemma relative_times pts c : relative (map (times c) pts) = map (times c) (relative pts).
Proof.
  destruct pts as [|p0 l]; [reflexivity|]. set (pts := p0 :: l) in *.
  assert (Ne : pts <> []) by discriminate. unfold relative. rewrite removelast_map, !map_map. apply map_ext. intros p.
  rewrite last_map' by exact Ne. rewrite !minus_vsub, !times_vscale. generalize (last pts []) as q. clear.
  induction p as [|a p IH]; intros [|b q]; try reflexivity. unfold vsub, vscale in *. cbn [map map2]. rewrite IH. f_equal. cbn. ring.
Qed.

Lemma NoDup_map_in {A B} (f : A -> B) l : (forall x y, In x l -> In y l -> f x = f y -> x = y) -> NoDup l -> NoDup (map f l).
Proof.
  induction l as [|a l IH]; intros Inj N; cbn [map]; [constructor|]. apply NoDup_cons_iff in N. destruct N as [Na N]. constructor.
  - intros K. apply in_map_iff in K. destruct K as (b & E & Hb). apply Na.
    assert (X : b = a) by (apply Inj; [right; exact Hb|left; reflexivity|exact E]). rewrite <- X. exact Hb.
  - apply IH; [|exact N]. intros x y Hx Hy. apply Inj; right; assumption.
Qed.

Lemma in_map_both {A B} (f : A -> B) (U pts : list A) : (forall p, In p U <-> In p pts) -> forall q, In q (map f U) <-> In q (map f pts).
Proof. intros H q. rewrite !in_map_iff. split; intros (x & E & Hx); exists x; (split; [exact E|apply H, Hx]). Qed.

Lemma isometry_le n m g : isometry n m g -> (n <= m)%nat.
Proof.
  intros Iso. assert (O := unit_ortho n). set (us := map (unit_vec n) (seq 0 n)) in *.
  assert (Lu : length us = n) by (unfold us; rewrite map_length, seq_length; reflexivity).
  rewrite <- Lu, <- (map_length (vector_of n g) us). apply ortho_le. destruct O as [La O]. split.
  - intros b Hb. apply in_map_iff in Hb. destruct Hb as (u & <- & Hu). apply (L_length n m g Iso), La, Hu.
  - rewrite map_length. intros i j Hi Hj.
    assert (Nn : forall k, (k < length us)%nat -> nth k (map (vector_of n g) us) [] = vector_of n g (nth k us [])).
    { intros k Hk. rewrite (nth_indep _ [] (vector_of n g [])) by (rewrite map_length; exact Hk). apply map_nth. }
    rewrite !Nn by assumption. rewrite (L_dot n m g Iso) by (apply La, nth_In; assumption). apply O; assumption.
Qed.

(** Larger tolerances accept more. *)
Lemma rank_mono svd t t' (A : list (list R)) m n r r' : t <= t' -> matrix_rank svd (Some t) A m n = Ok r ->
  matrix_rank svd (Some t') A m n = Ok r' -> (r' <= r)%nat.
Proof.
  intros Ht. unfold matrix_rank. intros [= <-] [= <-]. cbn [nltb RNum]. induction (svd A) as [|a s IH]; [reflexivity|]. cbn [filter].
  destruct (Rltb t' a) eqn:E'; destruct (Rltb t a) eqn:E; cbn [length]; try lia.
  apply Rltb_iff in E'. assert (X : Rltb t a = true) by (apply Rltb_iff; lra). congruence.
Qed.

(** Below zero every singular value counts. *)
Lemma rank_negative svd t A m n : correct_svd svd -> shape m n A -> t < 0 -> matrix_rank svd (Some t) A m n = Ok (Nat.min m n).
Proof.
  intros C Sh Ht. assert (Sv := C m n A Sh). unfold matrix_rank. f_equal. rewrite <- (proj1 Sv).
  assert (H : forall x, In x (svd A) -> 0 <= x).
  { intros x Hx. apply (In_nth _ _ 0) in Hx. destruct Hx as (k & _ & <-). apply (singular_nonneg m n A), Sv. }
  cbn [nltb RNum]. revert H. generalize (svd A) as s. induction s as [|a s IH]; intros H; [reflexivity|]. cbn [filter].
  assert (X : Rltb t a = true) by (apply Rltb_iff; specialize (H a (or_introl eq_refl)); lra). rewrite X. cbn [length].
  f_equal. apply IH. intros x Hx. apply H. right. exact Hx.
Qed.
