(** Property C96: what linear interpolation does to lengths and distances. *)
From Coq Require Import ZArith String List Bool Arith Lia PrimFloat Reals Lra Psatz.
From Verif Require Import Num Py Numeric Curve Vec Geom DiffGeom Registry Interp Spec GeomSpec.
From Verif Require Import ListFacts ArrayProofs VecFacts CurveProofs CurveProofs2 CurveProofs3 GeomProofs DiffGeomProofs.
From Verif Require Import InterpProofs InterpProofs2 InterpProofs3 ResampleProofs Properties_Container Properties_Interp.
Import ListNotations.
Local Open Scope string_scope.
Local Open Scope list_scope.
Local Open Scope R_scope.

(** The interpolated curve as a list of points. *)
Lemma linear_rows junk few (r : registry (icreate R)) name (c : curve R) s g :
  wf c -> (2 <= c_size c)%nat -> increasing (c_tval junk c) -> c_dtype c = DFloat ->
  reg_find r name = Some (linear junk few) -> get_grid junk few c s = Ok g ->
  exists c', interpolate junk few r name c s = Ok c' /\ c_rows c' = map (interp_at (c_tval junk c) (c_rows c)) g /\
    dims (c_ndim c) (c_rows c') /\ c_arclen junk c' = polyline (c_rows c').
Proof.
  intros W H I Dt F G. assert (L := tval_length junk c W (size_nonempty c ltac:(lia))).
  destruct (linear_eq junk few c W H I) as (f & Ef & Fg).
  assert (D : dims (c_ndim c) (c_rows c)) by (intros p Hp; apply W; assumption).
  destruct (C53_accepted junk few c s g G) as [Ng _].
  set (rows := map (interp_at (c_tval junk c) (c_rows c)) g).
  assert (Dr : dims (c_ndim c) rows) by (apply dims_interp; [assumption|unfold c_size in L; congruence|assumption|lia]).
  exists (mkCurve rows (c_ndim c) (c_dtype c) (if isparametric c then Some g else None)).
  split; [|split; [reflexivity|split; [exact Dr|]]].
  - unfold interpolate, get_interpolator. rewrite F, Ef. cbn [rbind].
    rewrite (interp_call_eq c junk few f g rows s); try assumption; [|apply map_length|apply Fg].
    rewrite Dt, map_cast_float. reflexivity.
  - apply (arclen_polyline (c_ndim c)); [exact Dr|].
    apply c_bool_wf; [|cbn [c_rows]; unfold rows; destruct g; [contradiction|discriminate]].
    split; [apply W|]. split; [exact Dr|]. cbn [c_t c_rows]. intros t. destruct (isparametric c); [|discriminate].
    intros Q. injection Q as <-. unfold rows. rewrite map_length. reflexivity.
Qed.

Lemma cumarclen_hyp junk (c : curve R) : wf c -> (2 <= c_size c)%nat ->
  length (c_cumarclen junk c) = length (c_tval junk c) /\ length (c_rows c) = length (c_tval junk c) /\
  dims (c_ndim c) (c_rows c) /\ (2 <= length (c_tval junk c))%nat /\
  (forall k, (S k < length (c_tval junk c))%nat ->
     nth (S k) (c_cumarclen junk c) 0 = nth k (c_cumarclen junk c) 0 + dist (nth k (c_rows c) []) (nth (S k) (c_rows c) [])).
Proof.
  intros W H. assert (N := size_nonempty c ltac:(lia)). assert (B := c_bool_wf c W N).
  assert (L := tval_length junk c W N).
  assert (D : dims (c_ndim c) (c_rows c)) by (intros p Hp; apply W; assumption).
  destruct (cumarclen_facts junk c W H) as (Lc & _).
  split; [congruence|]. split; [rewrite L; reflexivity|]. split; [assumption|]. split; [rewrite L; assumption|].
  intros k Hk. apply (cumarclen_step (c_ndim c)); try assumption. rewrite L in Hk. exact Hk.
Qed.

(** ** C96 Lengths and distances under linear interpolation *)

(** A grid within the parameter range never makes the curve longer ... *)
Theorem C96_no_longer : forall junk few (r : registry (icreate R)) name (c : curve R) s g,
  wf c -> (2 <= c_size c)%nat -> increasing (c_tval junk c) -> c_dtype c = DFloat ->
  reg_find r name = Some (linear junk few) -> get_grid junk few c s = Ok g ->
  (forall v, In v g -> nth 0 (c_tval junk c) 0 <= v <= nth (c_size c - 1) (c_tval junk c) 0) ->
  exists c', interpolate junk few r name c s = Ok c' /\ c_arclen junk c' <= c_arclen junk c.
Proof.
  intros junk few r name c s g W H I Dt F G Rg.
  destruct (linear_rows junk few r name c s g W H I Dt F G) as (c' & E & Er & _ & Ea). exists c'. split; [exact E|].
  rewrite Ea, Er. destruct (cumarclen_hyp junk c W H) as (Lc & L & D & H2 & C). destruct (cumarclen_facts junk c W H) as (_ & F0 & _ & Fl).
  destruct (C53_accepted junk few c s g G) as [Ng Ws]. destruct g as [|a g]; [contradiction|].
  assert (Ln : length (c_tval junk c) = c_size c) by (rewrite <- L; reflexivity).
  eapply Rle_trans; [apply (grid_length (c_ndim c) _ _ (c_cumarclen junk c)); try assumption; apply well_spaced_increasing, Ws|].
  assert (La : In (last (a :: g) 0) (a :: g)).
  { destruct (exists_last (l := a :: g)) as (m & z & Em); [discriminate|]. rewrite Em, last_last. apply in_or_app. right. left. reflexivity. }
  pose proof (upto_mono (c_ndim c) _ _ (c_cumarclen junk c) I L D H2 Lc C _ _ (proj1 (Rg a ltac:(left; reflexivity)))) as M1.
  pose proof (upto_mono (c_ndim c) _ _ (c_cumarclen junk c) I L D H2 Lc C _ _ (proj2 (Rg _ La))) as M2.
  rewrite (upto_node _ (c_rows c) (c_cumarclen junk c) I L H2 Lc) in M1, M2 by lia. rewrite F0 in M1. rewrite Fl in M2. lra.
Qed.
Print Assumptions C96_no_longer.

(** ... and keeps its length exactly when it contains all parameters of the curve. *)
Theorem C96_same_length : forall junk few (r : registry (icreate R)) name (c : curve R) s g,
  wf c -> (2 <= c_size c)%nat -> increasing (c_tval junk c) -> c_dtype c = DFloat ->
  reg_find r name = Some (linear junk few) -> get_grid junk few c s = Ok g ->
  (forall v, In v g -> nth 0 (c_tval junk c) 0 <= v <= nth (c_size c - 1) (c_tval junk c) 0) ->
  (forall t, In t (c_tval junk c) -> In t g) ->
  exists c', interpolate junk few r name c s = Ok c' /\ c_arclen junk c' = c_arclen junk c.
Proof.
  intros junk few r name c s g W H I Dt F G Rg Al.
  destruct (linear_rows junk few r name c s g W H I Dt F G) as (c' & E & Er & _ & Ea). exists c'. split; [exact E|].
  rewrite Ea, Er. destruct (cumarclen_hyp junk c W H) as (Lc & L & D & H2 & C). destruct (cumarclen_facts junk c W H) as (_ & F0 & _ & Fl).
  destruct (C53_accepted junk few c s g G) as [Ng Ws]. apply well_spaced_increasing in Ws. destruct g as [|a g]; [contradiction|].
  assert (Ln : length (c_tval junk c) = c_size c) by (rewrite <- L; reflexivity).
  assert (La : In (last (a :: g) 0) (a :: g)).
  { destruct (exists_last (l := a :: g)) as (m & z & Em); [discriminate|]. rewrite Em, last_last. apply in_or_app. right. left. reflexivity. }
  assert (B : forall x, In x (a :: g) -> a <= x <= last (a :: g) 0).
  { intros x Hx. apply (In_nth _ _ 0) in Hx as (i & Hi & <-). split; [apply (increasing_le _ Ws 0 i); lia|].
    apply (In_nth _ _ 0) in La as (j & Hj & Ej).
    assert (Q : last (a :: g) 0 = nth (length g) (a :: g) 0).
    { clear. revert a. induction g as [|b g IH]; intros a; [reflexivity|]. change (last (a :: b :: g) 0) with (last (b :: g) 0). rewrite IH. reflexivity. }
    rewrite Q. apply (increasing_le _ Ws). cbn [length] in *. lia. }
  rewrite (grid_exact (c_ndim c) _ _ (c_cumarclen junk c)); try assumption.
  - assert (E1 : a = nth 0 (c_tval junk c) 0).
    { apply Rle_antisym; [apply B, Al, nth_In; lia|apply Rg; left; reflexivity]. }
    assert (E2 : last (a :: g) 0 = nth (c_size c - 1) (c_tval junk c) 0).
    { apply Rle_antisym; [apply Rg, La|apply B, Al, nth_In; lia]. }
    rewrite E2, E1, !(upto_node _ (c_rows c) (c_cumarclen junk c) I L H2 Lc) by lia. lra.
  - intros x Hx Hx2. destruct (Al x Hx) as [->|Q]; [lra|exact Q].
Qed.
Print Assumptions C96_same_length.

Lemma increasing_sublist (g : list R) : forall g', increasing g -> increasing g' -> (forall x, In x g -> In x g') -> sublist g g'.
Proof.
  intros g' I I'. revert g I. induction g' as [|b g' IH]; intros g I Hin.
  - destruct g as [|a g]; [constructor|]. destruct (Hin a); left; reflexivity.
  - assert (Gt : forall x, In x g' -> b < x).
    { intros x Hx. apply (In_nth _ _ 0) in Hx as (i & Hi & <-). apply (increasing_lt _ I' 0 (S i)). cbn. lia. }
    destruct g as [|a g].
    + clear. induction (b :: g') as [|x l IH]; constructor. exact IH.
    + assert (Ga : forall x, In x g -> a < x).
      { intros x Hx. apply (In_nth _ _ 0) in Hx as (i & Hi & <-). apply (increasing_lt _ I 0 (S i)). cbn. lia. }
      destruct (Hin a) as [->|Ha]; [left; reflexivity| |].
      * apply sub_keep, IH; [apply increasing_tail with a; assumption|apply increasing_tail with a; assumption|].
        intros x Hx. destruct (Hin x ltac:(right; exact Hx)) as [->|Q]; [|exact Q]. apply Ga in Hx. lra.
      * apply sub_skip, IH; [apply increasing_tail with b; assumption|assumption|].
        intros x Hx. destruct (Hin x Hx) as [->|Q]; [|exact Q]. apply Gt in Ha. destruct Hx as [->|Hx]; [lra|]. apply Ga in Hx. lra.
Qed.
Lemma sublist_map {A B} (f : A -> B) l l' : sublist l l' -> sublist (map f l) (map f l').
Proof. induction 1; cbn; constructor; assumption. Qed.

(** A finer grid gives a curve at least as long. *)
Theorem C96_refine : forall junk few (r : registry (icreate R)) name (c : curve R) s s2 g g2,
  wf c -> (2 <= c_size c)%nat -> increasing (c_tval junk c) -> c_dtype c = DFloat ->
  reg_find r name = Some (linear junk few) -> get_grid junk few c s = Ok g -> get_grid junk few c s2 = Ok g2 ->
  (forall v, In v g -> In v g2) ->
  exists c1 c2, interpolate junk few r name c s = Ok c1 /\ interpolate junk few r name c s2 = Ok c2 /\ c_arclen junk c1 <= c_arclen junk c2.
Proof.
  intros junk few r name c s s2 g g2 W H I Dt F G G2 Sg.
  destruct (linear_rows junk few r name c s g W H I Dt F G) as (c1 & E1 & R1 & _ & A1).
  destruct (linear_rows junk few r name c s2 g2 W H I Dt F G2) as (c2 & E2 & R2 & D2 & A2).
  exists c1, c2. split; [exact E1|]. split; [exact E2|]. rewrite A1, A2.
  apply (polyline_sublist (c_ndim c)); [exact D2|]. rewrite R1, R2. apply sublist_map, increasing_sublist; [| |exact Sg].
  - apply well_spaced_increasing, (C53_accepted junk few c s g G).
  - apply well_spaced_increasing, (C53_accepted junk few c s2 g2 G2).
Qed.
Print Assumptions C96_refine.

Lemma upto_self junk (c : curve R) v : wf c -> (2 <= c_size c)%nat -> increasing (c_cumarclen junk c) ->
  upto (c_cumarclen junk c) (c_cumarclen junk c) v = v.
Proof.
  intros W H I. destruct (cumarclen_facts junk c W H) as (Lc & _).
  destruct (piece_of (c_cumarclen junk c) I ltac:(lia) v) as (k & K).
  rewrite (upto_piece _ (c_rows c) _ I ltac:(unfold c_size in Lc; congruence) ltac:(lia) eq_refl k v K). destruct K as (Hk & _). pose proof (I k Hk). field. lra.
Qed.

Lemma linear_near junk (c : curve R) v v' : wf c -> (2 <= c_size c)%nat -> isparametric c = false -> increasing (c_tval junk c) ->
  dist (interp_at (c_tval junk c) (c_rows c) v) (interp_at (c_tval junk c) (c_rows c) v') <= Rabs (v' - v).
Proof.
  intros W H P I. destruct (cumarclen_hyp junk c W H) as (Lc & L & D & H2 & C).
  assert (T : c_tval junk c = c_cumarclen junk c) by (unfold c_tval, isparametric in *; destruct (c_t c); [discriminate|reflexivity]).
  assert (Le : forall a b, a <= b -> dist (interp_at (c_tval junk c) (c_rows c) a) (interp_at (c_tval junk c) (c_rows c) b) <= b - a).
  { intros a b Hab. eapply Rle_trans; [apply (upto_dist (c_ndim c) _ _ (c_cumarclen junk c) I L D H2 Lc C a b Hab)|].
    rewrite T, !upto_self by (assumption || (rewrite <- T; assumption)). lra. }
  destruct (Rle_dec v v') as [V|V].
  - rewrite Rabs_right by lra. apply Le, V.
  - rewrite Rabs_left by lra. rewrite dist_sym.
    + eapply Rle_trans; [apply Le; lra|lra].
    + rewrite !(interp_at_length (c_ndim c)) by assumption. reflexivity.
Qed.

(** Without own parameters the parameter is the arc length: two interpolated points,
    or an interpolated and an original one, are no farther apart than their parameters,
    also where the grid leaves the parameter range. *)
Theorem C96_speed : forall junk few (r : registry (icreate R)) name (c : curve R) s g,
  wf c -> (2 <= c_size c)%nat -> isparametric c = false -> increasing (c_tval junk c) -> c_dtype c = DFloat ->
  reg_find r name = Some (linear junk few) -> get_grid junk few c s = Ok g ->
  exists c', interpolate junk few r name c s = Ok c' /\ c_size c' = length g /\
    (forall i j, (i < length g)%nat -> (j < length g)%nat ->
       dist (nth i (c_rows c') []) (nth j (c_rows c') []) <= Rabs (nth j g 0 - nth i g 0)) /\
    (forall i k, (i < length g)%nat -> (k < c_size c)%nat ->
       dist (nth i (c_rows c') []) (nth k (c_rows c) []) <= Rabs (nth k (c_cumarclen junk c) 0 - nth i g 0)).
Proof.
  intros junk few r name c s g W H P I Dt F G.
  destruct (linear_rows junk few r name c s g W H I Dt F G) as (c' & E & Er & _ & _). exists c'. split; [exact E|].
  split; [unfold c_size; rewrite Er; apply map_length|].
  assert (Nr : forall i, (i < length g)%nat -> nth i (c_rows c') [] = interp_at (c_tval junk c) (c_rows c) (nth i g 0)).
  { intros i Hi. rewrite Er. rewrite (nth_indep _ [] (interp_at (c_tval junk c) (c_rows c) 0)) by (rewrite map_length; assumption). apply map_nth. }
  split.
  - intros i j Hi Hj. rewrite !Nr by assumption. apply linear_near; assumption.
  - intros i k Hi Hk. rewrite Nr by assumption. destruct (cumarclen_hyp junk c W H) as (_ & L & D & H2 & _).
    rewrite <- (interp_at_node (c_ndim c) (c_tval junk c) (c_rows c) k) by (assumption || (rewrite <- L; exact Hk)).
    assert (T : c_tval junk c = c_cumarclen junk c) by (unfold c_tval, isparametric in *; destruct (c_t c); [discriminate|reflexivity]).
    rewrite <- T. apply linear_near; assumption.
Qed.
Print Assumptions C96_speed.

Lemma nearest_grid a h n v : (2 <= n)%nat -> 0 < h -> a <= v <= a + INR (n - 1) * h ->
  exists i, (i < n)%nat /\ Rabs (v - (a + INR i * h)) <= h / 2.
Proof.
  intros Hn Hh [V1 V2]. assert (M : exists i, (i < n)%nat /\ v <= a + INR i * h + h / 2 /\ forall j, (j < i)%nat -> a + INR j * h + h / 2 < v).
  { assert (P : exists i, (i < n)%nat /\ v <= a + INR i * h + h / 2) by (exists (n - 1)%nat; split; [lia|lra]).
    destruct P as (i & Hi & Vi). revert Hi Vi. induction i as [i IH] using lt_wf_ind. intros Hi Vi.
    destruct i as [|i]; [exists 0%nat; split; [lia|]; split; [exact Vi|intros; lia]|].
    destruct (Rle_dec v (a + INR i * h + h / 2)) as [Q|Q]; [apply (IH i); [lia|lia|exact Q]|].
    exists (S i). split; [exact Hi|]. split; [exact Vi|]. intros j Hj.
    assert (INR j <= INR i) by (apply le_INR; lia). assert (INR j * h <= INR i * h) by (apply Rmult_le_compat_r; lra). lra. }
  destruct M as (i & Hi & Vi & Mi). exists i. split; [exact Hi|]. apply Rabs_le. split; [|lra].
  destruct i as [|i]; [cbn [INR]; lra|]. specialize (Mi i ltac:(lia)). rewrite S_INR. lra.
Qed.

(** Resampling a curve without parameters to n points: the ends stay, neighbours are at
    most L/(n-1) apart, every point of the polygon has a new point within half of that,
    and the length lost is at most L/(n-1) for each inner point of the curve. *)
Theorem C96_uniform : forall junk few (r : registry (icreate R)) name (c : curve R) n,
  wf c -> (2 <= c_size c)%nat -> isparametric c = false -> increasing (c_tval junk c) -> c_dtype c = DFloat ->
  reg_find r name = Some (linear junk few) -> (2 <= n)%nat -> INR (n - 1) * / 100000000 < c_arclen junk c ->
  let h := c_arclen junk c / INR (n - 1) in
  exists c', interpolate junk few r name c (SInt (Z.of_nat n)) = Ok c' /\ c_size c' = n /\
    nth 0 (c_rows c') [] = nth 0 (c_rows c) [] /\ nth (n - 1) (c_rows c') [] = nth (c_size c - 1) (c_rows c) [] /\
    (forall i, (S i < n)%nat -> dist (nth i (c_rows c') []) (nth (S i) (c_rows c') []) <= h) /\
    (forall k x, (S k < c_size c)%nat -> on_segment (nth k (c_rows c) []) (nth (S k) (c_rows c) []) x ->
       exists i, (i < n)%nat /\ dist x (nth i (c_rows c') []) <= h / 2) /\
    c_arclen junk c - INR (c_size c - 2) * h <= c_arclen junk c' <= c_arclen junk c.
Proof.
  intros junk few r name c n W H P I Dt F Hn Ha h.
  assert (T : c_tval junk c = c_cumarclen junk c) by (unfold c_tval, isparametric in *; destruct (c_t c); [discriminate|reflexivity]).
  destruct (cumarclen_facts junk c W H) as (_ & F0 & _ & Fl). destruct (cumarclen_hyp junk c W H) as (Lc & L & D & H2 & C).
  assert (Ln : length (c_tval junk c) = c_size c) by (rewrite <- L; reflexivity).
  assert (Pn : 0 < INR (n - 1)) by (apply lt_0_INR; lia).
  assert (Hh : 0 < h) by (apply Rmult_lt_0_compat; [nra|apply Rinv_0_lt_compat; exact Pn]).
  destruct (C53_count_iff junk few c (Z.of_nat n) W H) as [[_ Cg] _]. cbv zeta in Cg. rewrite T, F0, Fl in Cg.
  destruct Cg as (g & G). { split; [lia|]. rewrite INR_IZR_INZ in Ha. replace (Z.of_nat n - 1)%Z with (Z.of_nat (n - 1)) by lia. lra. }
  assert (Ev : evenly 0 (c_arclen junk c) n g).
  { destruct (C51_points junk c n W H Hn) as (l & El & Ev). rewrite T, F0, Fl in Ev.
    revert G. unfold get_grid. unfold uniform_init. cbn [String.eqb Ascii.eqb Bool.eqb]. destruct (Z.ltb_spec (Z.of_nat n) 2); [lia|].
    cbn [rbind]. rewrite El. cbn [rmap rbind]. intros K. apply check_grid_inv in K as (-> & _). exact Ev. }
  destruct Ev as (Lg & _ & Ev). destruct (Ev Hn) as (E0 & E1 & Ei). clear Ev.
  assert (Rg : forall v, In v g -> nth 0 (c_tval junk c) 0 <= v <= nth (c_size c - 1) (c_tval junk c) 0).
  { rewrite T, F0, Fl. intros v Hv. apply (In_nth _ _ 0) in Hv as (i & Hi & <-). rewrite Lg in Hi.
    assert (Gi : increasing g) by (apply well_spaced_increasing, (C53_accepted junk few c _ g G)).
    pose proof (increasing_le g Gi 0 i ltac:(lia)) as B1. pose proof (increasing_le g Gi i (n - 1) ltac:(lia)) as B2.
    rewrite E0 in B1. rewrite E1 in B2. split; assumption. }
  destruct (C96_no_longer junk few r name c _ g W H I Dt F G Rg) as (c' & Ec & Up).
  destruct (C96_speed junk few r name c _ g W H P I Dt F G) as (c2 & Ec2 & Sz & Sp & _). rewrite Ec in Ec2. injection Ec2 as <-.
  destruct (C54_linear_points junk few r name c _ g W H I Dt F G) as (c3 & Ec3 & _ & Nd & _). rewrite Ec in Ec3. injection Ec3 as <-.
  destruct (linear_rows junk few r name c _ g W H I Dt F G) as (c4 & Ec4 & Er & _ & Ea). rewrite Ec in Ec4. injection Ec4 as <-.
  exists c'. split; [exact Ec|]. split; [congruence|].
  split; [apply Nd; [lia|lia|rewrite T, F0; exact E0]|].
  split; [apply Nd; [lia|lia|rewrite T, Fl; exact E1]|].
  assert (Gs : forall i, (S i < n)%nat -> nth (S i) g 0 - nth i g 0 = h).
  { intros i Hi. rewrite !Ei by lia. rewrite S_INR. unfold h. unfold Rdiv. ring. }
  split; [|split; [|split; [|exact Up]]].
  - intros i Hi. eapply Rle_trans; [apply Sp; lia|]. rewrite Gs by assumption. rewrite Rabs_right; lra.
  - intros k x Hk (t & Ht & At).
    set (v := nth k (c_tval junk c) 0 + t * (nth (S k) (c_tval junk c) 0 - nth k (c_tval junk c) 0)).
    pose proof (I k ltac:(lia)) as Ik.
    assert (Vk : nth k (c_tval junk c) 0 <= v <= nth (S k) (c_tval junk c) 0) by (unfold v; nra).
    assert (Ex : x = interp_at (c_tval junk c) (c_rows c) v).
    { apply (affine_unique (nth k (c_rows c) []) (nth (S k) (c_rows c) []) t x _ At).
      replace t with ((v - nth k (c_tval junk c) 0) / (nth (S k) (c_tval junk c) 0 - nth k (c_tval junk c) 0)) by (unfold v; field; lra).
      apply (interp_at_piece (c_ndim c)); try assumption; [lia|right; apply Vk|right; apply Vk]. }
    pose proof (increasing_le _ I 0 k ltac:(lia)) as B1. pose proof (increasing_le _ I (S k) (c_size c - 1) ltac:(lia)) as B2.
    rewrite T, F0 in B1. rewrite T, Fl in B2. rewrite T in Vk.
    destruct (nearest_grid 0 h n v Hn Hh) as (i & Hi & Vi).
    { unfold h. replace (0 + INR (n - 1) * (c_arclen junk c / INR (n - 1))) with (c_arclen junk c) by (field; lra). lra. }
    exists i. split; [exact Hi|]. rewrite Ex, Er.
    rewrite (nth_indep _ [] (interp_at (c_tval junk c) (c_rows c) 0)) by (rewrite map_length; lia). rewrite map_nth.
    eapply Rle_trans; [apply linear_near; assumption|]. rewrite Ei by lia. rewrite <- Rabs_Ropp.
    replace (- (0 + INR i * ((c_arclen junk c - 0) / INR (n - 1)) - v)) with (v - (0 + INR i * h)); [exact Vi|].
    unfold h. replace (c_arclen junk c - 0) with (c_arclen junk c) by lra. ring.
  - rewrite Ea, Er. destruct g as [|a g]; [cbn in Lg; lia|].
    assert (Gi : increasing (a :: g)) by (apply well_spaced_increasing, (C53_accepted junk few c _ _ G)).
    assert (Q : last (a :: g) 0 = nth (n - 1) (a :: g) 0).
    { rewrite <- Lg. clear. cbn [length]. rewrite Nat.sub_succ, Nat.sub_0_r. revert a. induction g as [|b g IH]; intros a; [reflexivity|].
      change (last (a :: b :: g) 0) with (last (b :: g) 0). rewrite IH. reflexivity. }
    assert (U : forall v, upto (c_tval junk c) (c_cumarclen junk c) v = v) by (intros v; rewrite T; apply upto_self; try assumption; rewrite <- T; assumption).
    pose proof (grid_loss (c_ndim c) (c_tval junk c) (c_rows c) (c_cumarclen junk c) I L D H2 Lc C h a g Gi) as K.
    rewrite !U in K. rewrite Q, E1 in K. assert (Ea0 : a = 0) by exact E0.
    pose proof (inside_all (c_tval junk c) (c_rows c) (c_cumarclen junk c) I L H2 Lc C) as Ia. rewrite Ln, T, F0, Fl in Ia. apply le_INR in Ia.
    assert (Hr : forall i, (S i < length (a :: g))%nat -> upto (c_tval junk c) (c_cumarclen junk c) (nth (S i) (a :: g) 0) - upto (c_tval junk c) (c_cumarclen junk c) (nth i (a :: g) 0) <= h).
    { intros i Hi. rewrite !U. rewrite Gs by lia. lra. }
    specialize (K Hr ltac:(lra)). rewrite Ea0, T in K. rewrite Ea0, T.
    pose proof (Rmult_le_compat_l h _ _ (Rlt_le _ _ Hh) Ia). lra.
Qed.
Print Assumptions C96_uniform.

Lemma rpath3_cum junk : c_cumarclen junk rpath3 = [0; 5; 17].
Proof.
  unfold c_cumarclen, c_chordlen, c_bool, c_size. cbn.
  replace ((3 - 0) * (3 - 0) + ((4 - 0) * (4 - 0) + 0)) with (5 * 5) by lra.
  replace ((3 - 3) * (3 - 3) + ((16 - 4) * (16 - 4) + 0)) with (12 * 12) by lra. rewrite !sqrt_square by lra. repeat f_equal; lra.
Qed.
Definition any : nat -> bool := fun _ => true.
Definition rlin : registry (icreate R) := [("linear", linear 0 any)].

(** The right-angled path of length 17: a grid that contains 0, 5 and 17, one that does not,
    and 18 points. *)
Example C96_ex : wf rpath3 /\ (2 <= c_size rpath3)%nat /\ isparametric rpath3 = false /\ increasing (c_tval 0 rpath3) /\
  reg_find rlin "linear" = Some (linear 0 any) /\
  get_grid 0 any rpath3 (SArr [0; 2; 5; 17]) = Ok [0; 2; 5; 17] /\
  get_grid 0 any rpath3 (SArr [0; 17]) = Ok [0; 17] /\
  (forall t, In t (c_tval 0 rpath3) -> In t [0; 2; 5; 17]) /\
  (forall v, In v [0; 2; 5; 17] -> nth 0 (c_tval 0 rpath3) 0 <= v <= nth (c_size rpath3 - 1) (c_tval 0 rpath3) 0) /\
  INR (18 - 1) * / 100000000 < c_arclen 0 rpath3.
Proof.
  split; [apply rpath3_wf|]. split; [cbn; lia|]. split; [reflexivity|].
  assert (T : c_tval 0 rpath3 = [0; 5; 17]) by (unfold c_tval; cbn [c_t rpath3]; apply rpath3_cum).
  rewrite T. split; [intros [|[|[|i]]] H; cbn in *; try lia; lra|]. split; [reflexivity|].
  split; [apply C53_validation_iff; split; [discriminate|]; intros [|[|[|[|i]]]] H; cbn in *; try lia; lra|].
  split; [apply C53_validation_iff; split; [discriminate|]; intros [|[|i]] H; cbn in *; try lia; lra|].
  split; [intros t [<-|[<-|[<-|[]]]]; cbn; auto|].
  split; [intros v [<-|[<-|[<-|[<-|[]]]]]; cbn; lra|].
  rewrite rpath3_arclen. replace (INR (18 - 1)) with 17 by (cbn; lra). lra.
Qed.

(** A grid that skips the corner cuts it, so the length is not kept in general ... *)
Theorem C96_corner_refuted : exists (c c' : curve float), wf c /\
  interpolate nan (fun _ => true) lin_reg "linear" c (SInt 2) = Ok c' /\
  c_arclen nan c = fz 7 /\ c_arclen nan c' = fz 5.
Proof.
  exists (mkCurve [[fz 0; fz 0]; [fz 3; fz 0]; [fz 3; fz 4]] 2 DFloat None). eexists.
  split; [wfr|]. split; [vm_compute; reflexivity|]. split; vm_compute; reflexivity.
Qed.
Print Assumptions C96_corner_refuted.
(** ... extrapolation lengthens the curve ... *)
Theorem C96_extrapolation_refuted : exists (c c' : curve float), wf c /\
  interpolate nan (fun _ => true) lin_reg "linear" c (SArr [fz 0; fz 3; fz 8]) = Ok c' /\
  c_arclen nan c = fz 7 /\ c_arclen nan c' = fz 8.
Proof.
  exists (mkCurve [[fz 0; fz 0]; [fz 3; fz 0]; [fz 3; fz 4]] 2 DFloat None). eexists.
  split; [wfr|]. split; [vm_compute; reflexivity|]. split; vm_compute; reflexivity.
Qed.
Print Assumptions C96_extrapolation_refuted.
(** ... and with own parameters evenly spaced values need not give close points: on the
    curve of length 8 with parameters 0, 1, 3, the first of two steps is 6.5 long. *)
Theorem C96_parametric_refuted : exists (c c' : curve float), wf c /\ isparametric c = true /\
  interpolate nan (fun _ => true) lin_reg "linear" c (SInt 3) = Ok c' /\
  c_arclen nan c = fz 8 /\ c_arclen nan c' = fz 8 /\ c_rows c' = [[fz 0; fz 0]; [fq 13 2; fz 0]; [fz 8; fz 0]].
Proof.
  exists (mkCurve [[fz 0; fz 0]; [fz 6; fz 0]; [fz 8; fz 0]] 2 DFloat (Some [fz 0; fz 1; fz 3])). eexists.
  split; [wfr|]. split; [reflexivity|]. split; [vm_compute; reflexivity|]. split; [vm_compute; reflexivity|]. split; vm_compute; reflexivity.
Qed.
Print Assumptions C96_parametric_refuted.
