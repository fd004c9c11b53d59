(** The rank with a tolerance. *)
From Coquelicot Require Import Coquelicot.
From Coq Require Import ZArith List Bool Arith Lia Reals Lra Psatz Permutation.
From Verif Require Import Num Py Numeric Curve Vec Geom Spec GeomSpec SvdRank SvdSpec.
From Verif Require Import CurveProofs3 VecFacts RankProofs RigidProofs GeomProofs OrthoProofs SvdProofs SvdProofs2 SvdProofs3.
Import ListNotations.
Local Open Scope R_scope.

Lemma along_quad A x : along_sq A x = quad A x.
Proof.
  induction A as [|r A IH]; [reflexivity|]. rewrite quad_cons, <- IH. unfold along_sq. cbn [map fold_right].
  rewrite inner_vdot. reflexivity.
Qed.
Lemma minus_all_msub A B : minus_all A B = msub A B.
Proof.
  revert B. induction A as [|a A IH]; intros [|b B]; try reflexivity. unfold minus_all, msub. cbn [combine map map2 fst snd].
  f_equal; [apply minus_vsub|]. apply IH.
Qed.
Lemma within_iff n A B d : within n A B d <->
  length B = length A /\ all_len n B /\ forall x, length x = n -> quad (msub A B) x <= d * d * vdot x x.
Proof.
  unfold within. rewrite minus_all_msub. split; intros (L & D & H); (split; [exact L|]); (split; [exact D|]); intros x Lx;
    specialize (H x Lx); rewrite along_quad, inner_vdot in *; exact H.
Qed.

Lemma singular_nonneg m n A s k : singular_values m n A s -> 0 <= nth k s 0.
Proof.
  intros (_ & D & _). destruct (Nat.lt_ge_cases k (length s)) as [Hk|Hk]; [apply (D k k); lia|rewrite nth_overflow by exact Hk; lra].
Qed.

(** ** The extension is the largest singular value *)

Lemma extension_unique n A e e' : extension n A e -> extension n A e' -> e = e'.
Proof.
  assert (H : forall e e', extension n A e -> extension n A e' -> e <= e').
  { clear. intros e e' (P & _ & x & Lx & Ux & Ex) (P' & M & _). specialize (M x Lx). rewrite Ex, Ux in M.
    apply Rsqr_incr_0; unfold Rsqr; lra. }
  intros H1 H2. apply Rle_antisym; apply H; assumption.
Qed.

Lemma extension_singular m n A s : shape m n A -> singular_values m n A s -> s <> [] -> extension n A (nth 0 s 0).
Proof.
  intros Sh Sv N. destruct (singular_first m n A s Sh Sv N) as [U (x & Lx & Ux & Ex)].
  split; [apply (singular_nonneg m n A), Sv|]. split.
  - intros y Ly. rewrite along_quad, inner_vdot. apply U, Ly.
  - exists x. rewrite along_quad, inner_vdot. auto.
Qed.

(** ** Counting *)

Lemma count_le s d k : decreasing s -> 0 <= d -> ((length (filter (fun x => Rltb d x) s) <= k)%nat <-> nth k s 0 <= d).
Proof.
  intros D Hd. revert k. induction s as [|a s IH]; intros k.
  - cbn. destruct k; cbn; split; intros; lia || lra.
  - assert (D' : decreasing s).
    { intros i j Hij Hj. apply (D (S i) (S j)); cbn; lia. }
    specialize (IH D'). cbn [filter]. destruct (Rltb d a) eqn:E.
    + apply Rltb_iff in E. cbn [length]. destruct k as [|k].
      * cbn. split; intros; lia || lra.
      * cbn [nth]. rewrite <- IH. lia.
    + assert (Ha : a <= d). { apply Rnot_lt_le. intros K. apply Rltb_iff in K. congruence. }
      assert (Z : filter (fun x => Rltb d x) s = []).
      { clear IH. assert (B : forall x, In x s -> x <= d).
        { intros x Hx. destruct (In_nth s x 0 Hx) as (i & Hi & <-). pose proof (D 0%nat (S i) ltac:(lia) ltac:(cbn; lia)) as K. cbn in K. lra. }
        clear D D' E. induction s as [|b s IHs]; [reflexivity|]. cbn [filter]. destruct (Rltb d b) eqn:F.
        - apply Rltb_iff in F. specialize (B b (or_introl eq_refl)). lra.
        - apply IHs. intros x Hx. apply B. right. exact Hx. }
      rewrite Z. cbn [length]. split; [intros _|intros _; lia].
      destruct k as [|k]; [exact Ha|].
      destruct (Nat.lt_ge_cases (S k) (length (a :: s))) as [Hk|Hk]; [|rewrite nth_overflow by exact Hk; exact Hd].
      pose proof (D 0%nat (S k) ltac:(lia) Hk) as K. change (nth 0 (a :: s) 0) with a in K. lra.
Qed.

Lemma max_head (a : R) s : decreasing (a :: s) -> fold_left npmax s a = a.
Proof.
  intros D. assert (B : forall x, In x s -> x <= a).
  { intros x Hx. destruct (In_nth s x 0 Hx) as (i & Hi & <-). pose proof (D 0%nat (S i) ltac:(lia) ltac:(cbn; lia)) as K. cbn in K. lra. }
  clear D. induction s as [|b s IH]; [reflexivity|]. cbn [fold_left].
  assert (E : npmax a b = a).
  { unfold npmax. cbn [nisnan nltb RNum]. destruct (Rltb a b) eqn:F; [|reflexivity]. apply Rltb_iff in F.
    specialize (B b (or_introl eq_refl)). lra. }
  rewrite E. apply IH. intros x Hx. apply B. right. exact Hx.
Qed.

Lemma lit_eps : @nlit R RNum 1 4503599627370496 = / 2 ^ 52.
Proof. cbn [nlit RNum]. assert (E : 2 ^ 52 = 4503599627370496) by (simpl; lra). rewrite E. unfold Rdiv. rewrite Rmult_1_l. reflexivity. Qed.

(** The rank is at most k iff the singular value number k is at most the
    tolerance. *)
Lemma matrix_rank_le svd m n A tol d : correct_svd svd -> shape m n A -> (0 < m)%nat -> (0 < n)%nat ->
  match tol with Some t => d = t | None => d = nth 0 (svd A) 0 * INR (Nat.max m n) / 2 ^ 52 end -> 0 <= d ->
  exists r, matrix_rank svd tol A m n = Ok r /\ forall k, (r <= k)%nat <-> nth k (svd A) 0 <= d.
Proof.
  intros C Sh Hm Hn T Hd. assert (Sv := C m n A Sh). assert (D : decreasing (svd A)) by exact (proj1 (proj2 Sv)).
  unfold matrix_rank. cbn [nltb RNum]. destruct tol as [t|].
  - subst d. eexists. split; [reflexivity|]. intros k. apply count_le; assumption.
  - destruct (svd A) as [|a s'] eqn:E.
    + destruct Sv as [L _]. cbn in L. lia.
    + rewrite max_head by exact D. unfold f_eps. rewrite lit_eps. cbn [nlit nmul RNum].
      assert (Ed : a * (IZR (Z.of_nat (Nat.max m n)) / 1) * / 2 ^ 52 = d).
      { rewrite T. cbn [nth]. rewrite <- INR_IZR_INZ. unfold Rdiv. rewrite Rinv_1, Rmult_1_r. reflexivity. }
      rewrite Ed. eexists. split; [reflexivity|]. intros k. apply count_le; assumption.
Qed.

(** ** Permutations *)

Lemma sum_perm (l l' : list R) : Permutation l l' -> fold_right Rplus 0 l = fold_right Rplus 0 l'.
Proof. induction 1; cbn; lra. Qed.

Lemma within_perm n U V qs d : Permutation U V -> within n U qs d ->
  exists qs', within n V qs' d /\ forall q, In q qs' <-> In q qs.
Proof.
  intros P (L & D & W).
  assert (F : map fst (combine U qs) = U).
  { clear -L. revert qs L. induction U as [|u U IH]; intros [|q qs] L; try discriminate; [reflexivity|]. cbn. f_equal. apply IH. cbn in L. lia. }
  assert (G : map snd (combine U qs) = qs).
  { clear -L. revert qs L. induction U as [|u U IH]; intros [|q qs] L; try discriminate; [reflexivity|]. cbn. f_equal. apply IH. cbn in L. lia. }
  rewrite <- F in P. apply Permutation_sym, Permutation_map_inv in P. destruct P as (l & EV & P).
  exists (map snd l).
  assert (I : forall q, In q (map snd l) <-> In q qs).
  { intros q. rewrite <- G at 1. split; apply Permutation_in; apply Permutation_map; [apply Permutation_sym|]; exact P. }
  split; [|exact I]. split; [rewrite EV, !map_length; reflexivity|]. split; [intros q Hq; apply D, I, Hq|].
  intros x Lx. specialize (W x Lx). unfold along_sq, minus_all in *. rewrite map_map in *.
  assert (C : combine V (map snd l) = l).
  { rewrite EV. clear. induction l as [|[a b] l IH]; [reflexivity|]. cbn. f_equal. exact IH. }
  rewrite C. erewrite sum_perm; [exact W|]. apply Permutation_map, Permutation_sym. exact P.
Qed.

Lemma extension_perm n U V e : Permutation U V -> extension n U e -> extension n V e.
Proof.
  intros P (H0 & H1 & x & Lx & Ux & Ex).
  assert (A : forall y, along_sq V y = along_sq U y).
  { intros y. unfold along_sq. apply sum_perm, Permutation_map, Permutation_sym, P. }
  split; [exact H0|]. split; [intros y Ly; rewrite A; apply H1, Ly|]. exists x. rewrite A. auto.
Qed.

Lemma tolerance_perm n U V tol d : Permutation U V -> tolerance n U tol d -> tolerance n V tol d.
Proof.
  intros P. unfold tolerance. destruct tol; [auto|]. intros (e & He & E). exists e. split; [apply (extension_perm n U); assumption|].
  rewrite <- (Permutation_length P). exact E.
Qed.

(** ** Combinations of one or two vectors *)

Lemma span_line n qs : all_len n qs -> (spanned_by n 1 qs <-> on_line_through_origin n qs).
Proof.
  intros L. unfold spanned_by, on_line_through_origin. split.
  - intros (bs & Lb & Ln & Sp). destruct bs as [|u [|? ?]]; try discriminate. exists u. split; [apply Ln; left; reflexivity|].
    intros x Hx. destruct (Sp x Hx) as (cs & Lc & E). destruct cs as [|c [|? ?]]; try discriminate. exists c. intros i.
    rewrite E. rewrite nth_lincomb by exact Ln. cbn. ring.
  - intros (u & Lu & H). exists [u]. assert (Ln : all_len n [u]) by (intros b [<-|[]]; exact Lu).
    split; [reflexivity|]. split; [exact Ln|]. intros x Hx. destruct (H x Hx) as (t & Ht). exists [t]. split; [reflexivity|].
    apply vec_ext; [rewrite lincomb_length by exact Ln; apply L, Hx|]. intros i. rewrite Ht, nth_lincomb by exact Ln. cbn. ring.
Qed.
Lemma span_plane n qs : all_len n qs -> (spanned_by n 2 qs <-> in_plane_through_origin n qs).
Proof.
  intros L. unfold spanned_by, in_plane_through_origin. split.
  - intros (bs & Lb & Ln & Sp). destruct bs as [|u [|v [|? ?]]]; try discriminate. exists u, v.
    split; [apply Ln; left; reflexivity|]. split; [apply Ln; right; left; reflexivity|].
    intros x Hx. destruct (Sp x Hx) as (cs & Lc & E). destruct cs as [|c [|c' [|? ?]]]; try discriminate. exists c, c'. intros i.
    rewrite E. rewrite nth_lincomb by exact Ln. cbn. ring.
  - intros (u & v & Lu & Lv & H). exists [u; v]. assert (Ln : all_len n [u; v]) by (intros b [<-|[<-|[]]]; assumption).
    split; [reflexivity|]. split; [exact Ln|]. intros x Hx. destruct (H x Hx) as (s & t & Ht). exists [s; t]. split; [reflexivity|].
    apply vec_ext; [rewrite lincomb_length by exact Ln; apply L, Hx|]. intros i. rewrite Ht, nth_lincomb by exact Ln. cbn. ring.
Qed.

(** ** The matrices of the two tests *)

Lemma transposed_shape n pts : dims n pts -> shape n (length pts) (transposed n pts).
Proof.
  intros D. unfold transposed. split; [rewrite map_length, seq_length; reflexivity|].
  intros r Hr. apply in_map_iff in Hr. destruct Hr as (j & <- & _). apply map_length.
Qed.
Lemma transposed_entry n (pts : list (list R)) i j : (i < length pts)%nat -> (j < n)%nat -> entry (transposed n pts) j i = entry pts i j.
Proof.
  intros Hi Hj. unfold entry, transposed.
  rewrite (nth_indep _ [] ((fun j => map (fun p => nth j p n0) pts) 0%nat)) by (rewrite map_length, seq_length; exact Hj).
  rewrite (map_nth (fun j => map (fun p => nth j p n0) pts)), seq_nth by exact Hj. cbn [Nat.add].
  rewrite (nth_indep _ 0 ((fun p => nth j p n0) [])) by (rewrite map_length; exact Hi).
  rewrite (map_nth (fun p => nth j p n0)). reflexivity.
Qed.

Lemma tolerance_singular n pts tol d svd : correct_svd svd -> dims n pts -> (0 < n)%nat -> (0 < length pts)%nat ->
  tolerance n pts tol d -> match tol with Some t => d = t | None => d = nth 0 (svd pts) 0 * INR (Nat.max (length pts) n) / 2 ^ 52 end.
Proof.
  intros C D Hn Hp. unfold tolerance. destruct tol as [t|]; [auto|]. intros (e & He & Ed).
  assert (Sh : shape (length pts) n pts) by (split; [reflexivity|exact D]).
  assert (Sv := C _ _ _ Sh). assert (N : svd pts <> []).
  { intros E. destruct Sv as [L _]. rewrite E in L. cbn in L. lia. }
  rewrite (extension_unique n pts e (nth 0 (svd pts) 0) He (extension_singular _ n pts _ Sh Sv N)) in Ed. exact Ed.
Qed.

Lemma singular_row_rank svd m n A k d : correct_svd svd -> shape m n A -> 0 <= d ->
  (nth k (svd A) 0 <= d <-> exists B, spanned_by n k B /\ within n A B d).
Proof.
  intros C Sh Hd. rewrite (singular_distance m n A (svd A) k d Sh (C m n A Sh) Hd). split.
  - intros (B & L & LB & Sp & Q). exists B. split; [exact Sp|]. apply within_iff. split; [destruct Sh; congruence|]. auto.
  - intros (B & Sp & W). apply within_iff in W. destruct W as (L & LB & Q). exists B.
    split; [destruct Sh; congruence|]. auto.
Qed.

Lemma unique_perm U pts : NoDup U -> (forall p, In p U <-> In p pts) -> Permutation U (unique_points (T := R) pts).
Proof.
  intros N H. apply NoDup_Permutation; [exact N|apply unique_points_NoDup|]. intros p. rewrite unique_points_In. apply H.
Qed.

Theorem collinear_tol_iff svd n pts U tol d : correct_svd svd -> pts <> [] -> dims n pts ->
  NoDup U -> (forall p, In p U <-> In p pts) -> tolerance n U tol d -> 0 <= d ->
  exists b, collinear_points_tol svd tol pts = Ok b /\
    (b = true <-> (length U <= 2)%nat \/ exists qs, on_line_through_origin n qs /\ within n U qs d).
Proof.
  intros C Ne D N S2 T Hd. destruct pts as [|p0 l] eqn:E; [contradiction|]. rewrite <- E in *.
  assert (L0 : length p0 = n) by (apply D; rewrite E; left; reflexivity).
  assert (P := unique_perm U pts N S2).
  assert (EQ : collinear_points_tol svd tol pts =
    if Nat.ltb (length (unique_points pts)) 3 then Ok true
    else do r <- matrix_rank svd tol (transposed n (unique_points pts)) n (length (unique_points pts)) ; Ok (Nat.leb r 1)).
  { unfold collinear_points_tol. rewrite E at 1. rewrite L0. reflexivity. }
  rewrite EQ. clear EQ. set (V := unique_points pts) in *. rewrite (Permutation_length P).
  destruct (Nat.ltb_spec (length V) 3) as [H3|H3].
  { exists true. split; [reflexivity|]. split; [intros _; left; lia|reflexivity]. }
  assert (DV : dims n V) by (intros v Hv; apply D, (proj1 (unique_points_In pts v)), Hv).
  assert (Hn : (0 < n)%nat).
  { destruct n as [|n]; [exfalso|lia].
    assert (NV : NoDup V) by apply unique_points_NoDup. destruct V as [|a [|b V]]; cbn in H3; try lia.
    assert (a = []) by (apply length_zero_iff_nil, DV; left; reflexivity).
    assert (b = []) by (apply length_zero_iff_nil, DV; right; left; reflexivity). subst a b.
    apply NoDup_cons_iff in NV. destruct NV as [NV _]. apply NV. left. reflexivity. }
  assert (TV := tolerance_perm n U V tol d P T).
  assert (Sh : shape (length V) n V) by (split; [reflexivity|exact DV]).
  assert (St : shape n (length V) (transposed n V)) by (apply transposed_shape, DV).
  assert (ES : svd (transposed n V) = svd V).
  { apply (singular_unique n (length V) (transposed n V)); [exact St|apply C, St|].
    apply (singular_transposed (length V) n V); [exact Sh|exact St| |apply C, Sh].
    intros i j Hi Hj. apply transposed_entry; assumption. }
  apply (tolerance_singular n V tol d svd C DV Hn ltac:(lia)) in TV.
  destruct (matrix_rank_le svd n (length V) (transposed n V) tol d C St Hn ltac:(lia)) as (r & Er & Hr).
  { destruct tol; [exact TV|]. rewrite ES, Nat.max_comm. exact TV. } { exact Hd. }
  rewrite Er. cbn [rbind]. exists (Nat.leb r 1). split; [reflexivity|]. rewrite Nat.leb_le, Hr, ES.
  rewrite (singular_row_rank svd (length V) n V 1 d C Sh Hd). split.
  - intros (B & Sp & W). right. destruct (within_perm n V U B d (Permutation_sym P) W) as (qs & W' & I). exists qs. split; [|exact W'].
    apply span_line in Sp; [|apply W]. destruct Sp as (u & Lu & Hu). exists u. split; [exact Lu|]. intros x Hx. apply Hu, I, Hx.
  - intros [K|(qs & On & W)]; [lia|]. destruct (within_perm n U V qs d P W) as (B & W' & I). exists B. split; [|exact W'].
    apply span_line; [apply W'|]. destruct On as (u & Lu & Hu). exists u. split; [exact Lu|]. intros x Hx. apply Hu, I, Hx.
Qed.

Lemma removelast_map {A B} (f : A -> B) l : removelast (map f l) = map f (removelast l).
Proof. induction l as [|a [|b l] IH]; try reflexivity. cbn [map removelast] in *. f_equal. exact IH. Qed.
Lemma removelast_length {A} (l : list A) : length (removelast l) = (length l - 1)%nat.
Proof. induction l as [|a [|b l] IH]; try reflexivity. cbn [removelast length] in *. rewrite IH. lia. Qed.

Lemma relative_rel pts : relative pts = removelast (map (fun r => vsub r (last pts [])) pts).
Proof. rewrite removelast_map. unfold relative. apply map_ext. intros p. apply minus_vsub. Qed.

Lemma relative_shape n pts : dims n pts -> pts <> [] -> shape (length pts - 1) n (relative pts).
Proof.
  intros D Ne. split; [unfold relative; rewrite map_length; apply removelast_length|].
  intros r Hr. unfold relative in Hr. apply in_map_iff in Hr. destruct Hr as (p & <- & Hp). rewrite minus_vsub.
  apply removelast_In in Hp. rewrite vsub_length; [apply D, Hp|]. rewrite (D p Hp). symmetry. apply D, last_In, Ne.
Qed.

Theorem coplanar_tol_iff svd n pts tol d : correct_svd svd -> (2 <= length pts)%nat -> dims n pts ->
  tolerance n (relative pts) tol d -> 0 <= d ->
  exists b, coplanar_points_tol svd tol pts = Ok b /\
    (b = true <-> (n < 3)%nat \/ exists qs, in_plane_through_origin n qs /\ within n (relative pts) qs d).
Proof.
  intros C L2 D T Hd. destruct pts as [|p0 l] eqn:E; [cbn in L2; lia|]. rewrite <- E in *.
  assert (Ne : pts <> []) by (rewrite E; discriminate).
  assert (L0 : length p0 = n) by (apply D; rewrite E; left; reflexivity).
  assert (EQ : coplanar_points_tol svd tol pts =
    if Nat.ltb n 3 then Ok true
    else do r <- matrix_rank svd tol (relative pts) (length pts - 1) n ; Ok (Nat.leb r 2)).
  { rewrite relative_rel. unfold coplanar_points_tol. rewrite E at 1. rewrite L0. reflexivity. }
  rewrite EQ. clear EQ. destruct (Nat.ltb_spec n 3) as [H3|H3].
  { exists true. split; [reflexivity|]. split; [auto|reflexivity]. }
  assert (Sh := relative_shape n pts D Ne).
  assert (Lr : length (relative pts) = (length pts - 1)%nat) by apply Sh.
  assert (TV := tolerance_singular n (relative pts) tol d svd C (proj2 Sh) ltac:(lia) ltac:(lia) T). rewrite Lr in TV.
  destruct (matrix_rank_le svd (length pts - 1) n (relative pts) tol d C Sh ltac:(lia) ltac:(lia) TV Hd) as (r & Er & Hr).
  rewrite Er. cbn [rbind]. exists (Nat.leb r 2). split; [reflexivity|]. rewrite Nat.leb_le, Hr.
  rewrite (singular_row_rank svd (length pts - 1) n (relative pts) 2 d C Sh Hd). split.
  - intros (B & Sp & W). right. exists B. split; [apply span_plane; [apply W|exact Sp]|exact W].
  - intros [K|(qs & On & W)]; [lia|]. exists qs. split; [apply span_plane; [apply W|exact On]|exact W].
Qed.

(** ** An svd function exists *)

Definition svd_R (M : list (list R)) : list R :=
  map (fun k => real (Glb_Rbar (fun d => 0 <= d /\ exists B, spanned_by (length (hd [] M)) k B /\ within (length (hd [] M)) M B d)))
    (seq 0 (Nat.min (length M) (length (hd [] M)))).

Lemma svd_R_correct : correct_svd svd_R.
Proof.
  intros m n M Sh. destruct (singular_exists m n M Sh) as (s & Sv).
  assert (E : svd_R M = s); [|rewrite E; exact Sv].
  destruct m as [|m].
  { destruct M; [|destruct Sh; discriminate]. destruct s; [reflexivity|destruct Sv as [L _]; discriminate]. }
  assert (Hn : length (hd [] M) = n).
  { destruct M as [|r M]; [destruct Sh; discriminate|]. apply Sh. left. reflexivity. }
  unfold svd_R. rewrite Hn, (proj1 Sh). assert (L : length s = Nat.min (S m) n) by apply Sv. rewrite <- L.
  apply (nth_ext _ _ 0 0); [rewrite map_length, seq_length; reflexivity|]. rewrite map_length, seq_length. intros k Hk.
  match goal with |- nth _ (map ?f _) _ = _ => rewrite (nth_indep _ 0 (f 0%nat)) by (rewrite map_length, seq_length; exact Hk); rewrite (map_nth f), seq_nth by exact Hk end.
  cbn [Nat.add].
  assert (G : is_glb_Rbar (fun d => 0 <= d /\ exists B, spanned_by n k B /\ within n M B d) (Finite (nth k s 0))).
  { assert (X : forall d, 0 <= d -> (nth k s 0 <= d <-> exists B, spanned_by n k B /\ within n M B d)).
    { intros d Hd. rewrite (singular_distance (S m) n M s k d Sh Sv Hd). split.
      - intros (B & L' & LB & Sp & Q). exists B. split; [exact Sp|]. apply within_iff. split; [destruct Sh; congruence|]. auto.
      - intros (B & Sp & W). apply within_iff in W. destruct W as (L' & LB & Q). exists B. split; [destruct Sh; congruence|]. auto. }
    split.
    - intros d (Hd & H). cbn. apply (X d Hd), H.
    - intros b Hb. apply Hb. split; [apply (singular_nonneg (S m) n M), Sv|]. apply X; [apply (singular_nonneg (S m) n M), Sv|lra]. }
  rewrite (is_glb_Rbar_unique _ _ G). reflexivity.
Qed.
