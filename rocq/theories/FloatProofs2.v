(** The model in IEEE binary64: arc length, grids, closest points. *)
From Coq Require Import PrimFloat FloatOps FloatAxioms SpecFloat.
From Coq Require Import ZArith List Bool Arith Lia Reals Lra Psatz Permutation.
From Flocq Require Import Core BinarySingleNaN.
From Flocq Require Import IEEE754.PrimFloat.
From Verif Require Import Num Py Numeric Curve Vec Geom DiffGeom Interp Spec GeomSpec ListFacts VecFacts CurveProofs DiffGeomProofs FloatFacts FloatFacts2 FloatProofs.
Import ListNotations.
Local Open Scope R_scope.
Local Notation float := PrimFloat.float.

(** ** Arc length *)

(** [cs] are possible binary64 chord lengths of the polygon [rows]. *)
Fixpoint chord_values (rows : list (list float)) (cs : list float) : Prop :=
  match rows with
  | a :: ((b :: _) as rest) => match cs with r :: cs' => chord_value a b r /\ chord_values rest cs' | [] => False end
  | _ => cs = []
  end.

Lemma chord_values_model (rows : list (list float)) : chord_values rows (chordlen_rows rows).
Proof.
  induction rows as [|a [|b r] IH]; [reflexivity|reflexivity|]. change (chordlen_rows (a :: b :: r)) with
    (nsqrt (vsum (map (fun x => nmul x x) (row_diff a b))) :: chordlen_rows (b :: r)). split; [apply chord_model|exact IH].
Qed.
Lemma chord_values_nonneg rows : (forall p, In p rows -> fin_point p) -> forall cs, chord_values rows cs -> forall x, In x cs -> PrimFloat.leb 0 x = true.
Proof.
  induction rows as [|a [|b r] IH]; intros F cs C x I; [cbn in C; subst; destruct I|cbn in C; subst; destruct I|].
  destruct cs as [|c cs]; [destruct C|]. destruct C as (C & Cs). destruct I as [<-|I].
  - apply (chord_nonneg a b); [apply F; cbn; auto|apply F; cbn; auto|exact C].
  - apply (IH (fun p Ip => F p (or_intror Ip)) cs Cs x I).
Qed.

(** The chords together with the exact distances. *)
Lemma chord_values_label n k rows : (1 <= n)%nat -> (n + 4 <= 2 * k)%nat -> (forall p, In p rows -> length p = n /\ fin_point p) ->
  (forall i, (S i < length rows)%nat -> scaled (nth i rows []) (nth (S i) rows [])) ->
  forall cs, chord_values rows cs -> exists l : list (float * R), map fst l = cs /\ Rsum (map snd l) = polyline (map (map FR) rows) /\ length l = (length rows - 1)%nat /\
    forall x e, In (x, e) l -> ffin x -> 0 <= e /\ within k (FR x) e.
Proof.
  intros Hn Hk. induction rows as [|a [|b r] IH]; intros F Sc cs C.
  - exists []. cbn in C. subst. do 3 (split; [reflexivity|]). intros x e [].
  - exists []. cbn in C. subst. do 3 (split; [reflexivity|]). intros x e [].
  - destruct cs as [|c cs]; [destruct C|]. destruct C as (C & Cs).
    destruct (IH (fun p Ip => F p (or_intror Ip)) (fun i Hi => Sc (S i) ltac:(cbn in *; lia)) cs Cs) as (l & E1 & E2 & E3 & E4).
    exists ((c, dist (map FR a) (map FR b)) :: l). split; [cbn; rewrite E1; reflexivity|]. split.
    { cbn [map snd Rsum fold_right]. fold (Rsum (map snd l)). rewrite E2. reflexivity. }
    split; [cbn [length] in *; rewrite E3; lia|]. intros x e [E|I] Fx; [|exact (E4 x e I Fx)]. injection E as <- <-.
    split; [apply dist_nonneg|]. destruct (F a (or_introl eq_refl)) as (La & Fa). destruct (F b ltac:(cbn; auto)) as (Lb & Fb).
    apply (chord_error n k a b c La Lb Hn Hk Fa Fb); [exact (Sc 0%nat ltac:(cbn; lia))|exact C|exact Fx].
Qed.

Lemma length_error n k rows cs L : (1 <= n)%nat -> (n + 4 <= 2 * k)%nat -> (2 <= length rows)%nat -> (forall p, In p rows -> length p = n /\ fin_point p) ->
  (forall i, (S i < length rows)%nat -> scaled (nth i rows []) (nth (S i) rows [])) ->
  chord_values rows cs -> sums_to cs L -> ffin L -> within (k + (length rows - 2)) (FR L) (polyline (map (map FR) rows)).
Proof.
  intros Hn Hk Hr F Sc C S FL. destruct (chord_values_label n k rows Hn Hk F Sc cs C) as (l & <- & E2 & E3 & E4).
  destruct (sums_within k l L S FL E4) as (_ & W & _). rewrite E2, E3 in W. replace (length rows - 2)%nat with (length rows - 1 - 1)%nat by lia.
  apply W. intros ->. cbn in E3. lia.
Qed.

(** ** Cumulative sums *)

Lemma cumsum_from_length (l : list float) : forall a, length (cumsum_from a l) = length l.
Proof. induction l as [|x l IH]; intros a; cbn; [reflexivity|]. rewrite IH. reflexivity. Qed.
Lemma cumsum_from_sums (l : list float) : forall a la, sums_to la a -> forall i, (i < length l)%nat -> sums_to (la ++ firstn (S i) l) (nth i (cumsum_from a l) PrimFloat.zero).
Proof.
  induction l as [|x l IH]; intros a la Sa i Hi; [cbn in Hi; lia|]. cbn [cumsum_from].
  assert (Sx : sums_to (la ++ [x]) (PrimFloat.add a x)) by (apply (sums_add _ la [x]); [apply Permutation_refl|exact Sa|constructor]).
  destruct i as [|i]; [exact Sx|]. cbn [firstn nth]. specialize (IH _ _ Sx i ltac:(cbn in Hi; lia)). rewrite <- app_assoc in IH. exact IH.
Qed.
Lemma cumsum_sums (l : list float) i : (i < length l)%nat -> sums_to (firstn (S i) l) (nth i (cumsum l) PrimFloat.zero).
Proof.
  destruct l as [|x l]; intros Hi; [cbn in Hi; lia|]. cbn [cumsum]. destruct i as [|i]; [constructor|]. cbn [nth].
  apply (cumsum_from_sums l x [x] (sums_one x) i). cbn in Hi. lia.
Qed.
Lemma cumsum_from_mono (l : list float) : (forall x, In x l -> PrimFloat.leb 0 x = true) -> forall a, PrimFloat.leb 0 a = true ->
  forall i j, (i <= j)%nat -> (j < S (length l))%nat -> PrimFloat.leb (nth i (a :: cumsum_from a l) PrimFloat.zero) (nth j (a :: cumsum_from a l) PrimFloat.zero) = true.
Proof.
  induction l as [|x l IH]; intros H a Ha i j Hij Hj.
  - cbn in Hj. replace j with 0%nat by lia. replace i with 0%nat by lia. cbn. apply leb_refl_num. exact (proj2 (leb_num _ _ Ha)).
  - destruct (add_nonneg a x Ha (H x (or_introl eq_refl))) as (P & Q & _).
    destruct j as [|j]; [replace i with 0%nat by lia; cbn; apply leb_refl_num; exact (proj2 (leb_num _ _ Ha))|].
    specialize (IH (fun y I => H y (or_intror I)) (PrimFloat.add a x) P). destruct i as [|i].
    + eapply leb_trans; [exact Q|]. exact (IH 0%nat j ltac:(lia) ltac:(cbn in Hj; lia)).
    + exact (IH i j ltac:(lia) ltac:(cbn in Hj; lia)).
Qed.
Lemma cumsum_mono (l : list float) : (forall x, In x l -> PrimFloat.leb 0 x = true) ->
  forall i j, (i <= j)%nat -> (j < S (length l))%nat ->
  PrimFloat.leb (nth i (PrimFloat.zero :: cumsum l) PrimFloat.zero) (nth j (PrimFloat.zero :: cumsum l) PrimFloat.zero) = true.
Proof.
  intros H i j Hij Hj. destruct l as [|x l]; [cbn in Hj; replace j with 0%nat by lia; replace i with 0%nat by lia; reflexivity|].
  pose proof (H x (or_introl eq_refl)) as Hx. pose proof (cumsum_from_mono l (fun y I => H y (or_intror I)) x Hx) as M. cbn [cumsum].
  destruct i as [|i], j as [|j]; try lia; [reflexivity| |].
  - eapply leb_trans; [exact Hx|]. exact (M 0%nat j ltac:(lia) ltac:(cbn in Hj; lia)).
  - exact (M i j ltac:(lia) ltac:(cbn in Hj; lia)).
Qed.

(** ** Sign of norms, for any data *)

Definition pos_or_nan (x : float) : Prop := PrimFloat.is_nan x = true \/ PrimFloat.leb 0 x = true.

Lemma nan_add x y : PrimFloat.is_nan x = true \/ PrimFloat.is_nan y = true -> PrimFloat.is_nan (PrimFloat.add x y) = true.
Proof.
  rewrite !fnan_B, add_equiv. intros [H|H]; destruct (Prim2B x) as [s|s| |s m e E], (Prim2B y) as [s'|s'| |s' m' e' E']; try discriminate; reflexivity.
Qed.
Lemma nan_div x y : PrimFloat.is_nan x = true \/ PrimFloat.is_nan y = true -> PrimFloat.is_nan (PrimFloat.div x y) = true.
Proof.
  rewrite !fnan_B, div_equiv. intros [H|H]; destruct (Prim2B x) as [s|s| |s m e E], (Prim2B y) as [s'|s'| |s' m' e' E']; try discriminate; reflexivity.
Qed.
Lemma nan_mul x y : PrimFloat.is_nan x = true \/ PrimFloat.is_nan y = true -> PrimFloat.is_nan (PrimFloat.mul x y) = true.
Proof.
  rewrite !fnan_B, mul_equiv. intros [H|H]; destruct (Prim2B x) as [s|s| |s m e E], (Prim2B y) as [s'|s'| |s' m' e' E']; try discriminate; reflexivity.
Qed.
Lemma nan_sqrt x : PrimFloat.is_nan x = true -> PrimFloat.is_nan (PrimFloat.sqrt x) = true.
Proof. rewrite !fnan_B, sqrt_equiv. intros H; destruct (Prim2B x); try discriminate; reflexivity. Qed.
Lemma pos_or_nan_add x y : pos_or_nan x -> pos_or_nan y -> pos_or_nan (PrimFloat.add x y).
Proof.
  intros [Hx|Hx]; [intros _; left; apply nan_add; auto|]. intros [Hy|Hy]; [left; apply nan_add; auto|]. right. apply add_nonneg; assumption.
Qed.
Lemma pos_or_nan_sq x : pos_or_nan (PrimFloat.mul x x).
Proof. destruct (PrimFloat.is_nan x) eqn:E; [left; apply nan_mul; auto|right; apply mul_self_nonneg; exact E]. Qed.
Lemma pos_or_nan_sqrt x : pos_or_nan x -> pos_or_nan (PrimFloat.sqrt x).
Proof. intros [H|H]; [left; apply nan_sqrt; exact H|right; apply sqrt_nonneg; exact H]. Qed.
Lemma vdot_self_pos (u : list float) : pos_or_nan (vdot u u).
Proof.
  unfold vdot. induction u as [|x u IH]; [right; reflexivity|]. cbn [map2 vsum fold_right nmul nadd FNum]. apply pos_or_nan_add; [apply pos_or_nan_sq|exact IH].
Qed.
Lemma vnorm_pos (u : list float) : pos_or_nan (vnorm u).
Proof. apply pos_or_nan_sqrt, vdot_self_pos. Qed.
Lemma pos_or_nan_ltb x : pos_or_nan x -> PrimFloat.ltb x 0 = false.
Proof.
  intros [H|H]; [destruct (PrimFloat.ltb x 0) eqn:E; [|reflexivity]; apply ltb_num in E as [N _]; unfold fnum in N; congruence|].
  rewrite leb_ltb in H; [|reflexivity|exact (proj2 (leb_num _ _ H))]. destruct (PrimFloat.ltb x 0); [discriminate|reflexivity].
Qed.

(** ** Fractions in the unit interval *)

Definition unit_or_nan (x : float) : Prop := PrimFloat.is_nan x = true \/ (PrimFloat.leb 0 x = true /\ PrimFloat.leb x 1 = true).

Lemma unit_0 : unit_or_nan PrimFloat.zero. Proof. right. split; reflexivity. Qed.
Lemma unit_1 : unit_or_nan PrimFloat.one. Proof. right. split; reflexivity. Qed.

Lemma fin_div_inf x : ffin x -> ffin (PrimFloat.div x infinity) /\ FR (PrimFloat.div x infinity) = 0.
Proof.
  intros F. apply ffin_B in F. rewrite ffin_B. unfold FR. rewrite div_equiv. change (Prim2B infinity) with (@B754_infinity prec emax false).
  destruct (Prim2B x); try discriminate; split; reflexivity.
Qed.
(** A quotient of numbers 0 < x <= y. *)
Lemma unit_div x y : PrimFloat.ltb 0 x = true \/ PrimFloat.is_nan x = true -> PrimFloat.ltb y x = false -> unit_or_nan (PrimFloat.div x y).
Proof.
  intros [P|P] L; [|left; apply nan_div; auto]. destruct (ltb_num _ _ P) as [_ Nx].
  destruct (PrimFloat.is_nan y) eqn:Ny; [left; apply nan_div; auto|].
  assert (Lxy : PrimFloat.leb x y = true) by (rewrite leb_ltb, L by assumption; reflexivity).
  destruct (fnum_cases x Nx) as [-> | [-> | Fx]]; [|vm_compute in P; discriminate|].
  - destruct (fnum_cases y Ny) as [-> | [-> | Fy]]; [left; reflexivity|vm_compute in Lxy; discriminate|rewrite inf_leb_fin in Lxy by exact Fy; discriminate].
  - apply (ltb_R 0%float x ffin_0 Fx) in P. change (FR 0%float) with 0 in P.
    destruct (fnum_cases y Ny) as [-> | [-> | Fy]]; [|rewrite fin_leb_ninf in Lxy by exact Fx; discriminate|].
    + right. destruct (fin_div_inf x Fx) as (F & E). split; apply leb_R; try exact F; try exact ffin_0; try exact ffin_1; rewrite E; [change (FR 0%float) with 0; lra|]. change (FR 1%float) with (FR PrimFloat.one). rewrite FR_1. lra.
    + apply (leb_R x y Fx Fy) in Lxy. assert (Ny' : FR y <> 0) by lra. pose proof (div_rounded x y Fx Fy Ny') as R. right.
      assert (B : FR PrimFloat.zero <= FR x / FR y <= FR PrimFloat.one).
      { rewrite FR_0, FR_1. split; [unfold Rdiv; apply Rmult_le_pos; [lra|left; apply Rinv_0_lt_compat; lra]|]. apply (Rmult_le_reg_r (FR y)); [lra|]. unfold Rdiv. rewrite Rmult_assoc, Rinv_l by lra. lra. }
      split; [apply (rounded_le (FR PrimFloat.zero) _ 0%float _ (rounded_self 0%float ffin_0) R); apply B|apply (rounded_le _ (FR PrimFloat.one) _ 1%float R (rounded_self 1%float ffin_1)); apply B].
Qed.

Lemma not_lt0_cases x : PrimFloat.ltb x 0 = false -> PrimFloat.is_nan x = true \/ PrimFloat.leb 0 x = true.
Proof. intros H. destruct (PrimFloat.is_nan x) eqn:N; [auto|]. right. rewrite leb_ltb, H; [reflexivity|reflexivity|exact N]. Qed.
Lemma leb_eq_or_lt x y : PrimFloat.leb x y = true -> PrimFloat.ltb x y = true \/ PrimFloat.eqb x y = true.
Proof.
  intros H. destruct (leb_num _ _ H) as [Nx Ny]. destruct (PrimFloat.ltb x y) eqn:E; [auto|]. right. apply leb_antisym; [exact H|].
  rewrite leb_ltb, E by assumption. reflexivity.
Qed.

(** The last step of the closest point computation. *)
Lemma frac_unit tol x y : PrimFloat.ltb 0 tol = true -> PrimFloat.ltb x 0 = false -> PrimFloat.ltb y x = false ->
  unit_or_nan (if PrimFloat.ltb (PrimFloat.abs x) tol then PrimFloat.zero else PrimFloat.div x y).
Proof.
  intros T N L. destruct (PrimFloat.ltb (PrimFloat.abs x) tol) eqn:A; [apply unit_0|]. apply unit_div; [|exact L].
  destruct (not_lt0_cases x N) as [H|H]; [right; exact H|left]. destruct (leb_eq_or_lt _ _ H) as [P|E]; [exact P|].
  exfalso. apply eqb_leb in E as [_ E]. assert (Z : ffin x /\ FR x = 0).
  { destruct (nonneg_cases x H) as [-> | (F & P)]; [vm_compute in E; discriminate|]. split; [exact F|]. apply (leb_R x 0%float F ffin_0) in E. change (FR 0%float) with 0 in E. lra. }
  destruct Z as (F & Z). assert (Ax : PrimFloat.leb (PrimFloat.abs x) 0 = true).
  { apply leb_R; [apply ffin_abs; exact F|exact ffin_0|]. rewrite FR_abs, Z, Rabs_R0. change (FR 0%float) with 0. lra. }
  destruct (ltb_num _ _ T) as [_ Nt]. pose proof (proj1 (leb_num _ _ Ax)) as Na.
  assert (C : PrimFloat.leb tol (PrimFloat.abs x) = true) by (rewrite leb_ltb, A by assumption; reflexivity).
  pose proof (leb_trans _ _ _ C Ax) as D. rewrite leb_ltb, T in D; [discriminate|exact Nt|reflexivity].
Qed.

Lemma ltb_trans_false x y : PrimFloat.ltb x y = false -> PrimFloat.ltb 0 y = true -> PrimFloat.ltb x 0 = false.
Proof.
  intros A B. destruct (PrimFloat.ltb x 0) eqn:E; [|reflexivity]. exfalso. destruct (ltb_num _ _ E) as [Nx _]. destruct (ltb_num _ _ B) as [_ Ny].
  assert (C : PrimFloat.leb y x = true) by (rewrite leb_ltb, A by assumption; reflexivity).
  pose proof (leb_trans _ _ _ C (ltb_leb _ _ E)) as D. rewrite leb_ltb, B in D; [discriminate|exact Ny|reflexivity].
Qed.
Lemma ltb_irrefl x : PrimFloat.ltb x x = false.
Proof.
  destruct (PrimFloat.ltb x x) eqn:E; [|reflexivity]. destruct (ltb_num _ _ E) as [N _]. pose proof (leb_refl_num x N) as L. rewrite leb_ltb, E in L by assumption. discriminate.
Qed.

Lemma closest_params_unit (a b c d e tol : float) : PrimFloat.ltb 0 tol = true -> PrimFloat.ltb a 0 = false -> PrimFloat.ltb c 0 = false ->
  unit_or_nan (fst (closest_params a b c d e tol)) /\ unit_or_nan (snd (closest_params a b c d e tol)).
Proof.
  intros T Ha Hc. unfold closest_params. cbn [nltb nabs ndiv nopp nadd nsub nmul n0 n1 FNum].
  set (dd := PrimFloat.sub (PrimFloat.mul a c) (PrimFloat.mul b b)).
  assert (Z0 : forall y, unit_or_nan (if PrimFloat.ltb (PrimFloat.abs PrimFloat.zero) tol then PrimFloat.zero else PrimFloat.div PrimFloat.zero y)).
  { intros y. replace (PrimFloat.ltb (PrimFloat.abs PrimFloat.zero) tol) with true by (symmetry; exact T). apply unit_0. }
  assert (Q : forall x, PrimFloat.ltb x 0 = false -> unit_or_nan (if PrimFloat.ltb (PrimFloat.abs x) tol then PrimFloat.zero else PrimFloat.div x x)).
  { intros x Hx. apply frac_unit; [exact T|exact Hx|apply ltb_irrefl]. }
  set (first := if PrimFloat.ltb dd tol then _ else _).
  assert (I : exists sn sd tn td, first = (sn, sd, tn, td) /\ PrimFloat.ltb sd 0 = false /\ PrimFloat.ltb td 0 = false /\
    (sn = PrimFloat.zero \/ (PrimFloat.ltb sn 0 = false /\ PrimFloat.ltb sd sn = false))).
  { unfold first. destruct (PrimFloat.ltb dd tol) eqn:D.
    - exists PrimFloat.zero, PrimFloat.one, e, c. split; [reflexivity|]. split; [reflexivity|]. split; [exact Hc|]. left. reflexivity.
    - assert (Hd : PrimFloat.ltb dd 0 = false) by exact (ltb_trans_false dd tol D T).
      set (sn := PrimFloat.sub (PrimFloat.mul b e) (PrimFloat.mul c d)). destruct (PrimFloat.ltb sn PrimFloat.zero) eqn:S0.
      + exists PrimFloat.zero, dd, e, c. repeat split; auto.
      + destruct (PrimFloat.ltb dd sn) eqn:S1.
        * exists dd, dd, (PrimFloat.add e b), c. split; [reflexivity|]. split; [exact Hd|]. split; [exact Hc|]. right. split; [exact Hd|apply ltb_irrefl].
        * exists sn, dd, (PrimFloat.sub (PrimFloat.mul a e) (PrimFloat.mul b d)), dd. split; [reflexivity|]. split; [exact Hd|]. split; [exact Hd|]. right. split; [exact S0|exact S1]. }
  destruct I as (sn & sd & tn & td & -> & Hsd & Htd & Hsn). clearbody dd.
  assert (Hs : unit_or_nan (if PrimFloat.ltb (PrimFloat.abs sn) tol then PrimFloat.zero else PrimFloat.div sn sd)).
  { destruct Hsn as [-> | (S0 & S1)]; [apply Z0|apply frac_unit; assumption]. }
  destruct (PrimFloat.ltb tn PrimFloat.zero) eqn:T0.
  - destruct (PrimFloat.ltb (PrimFloat.opp d) PrimFloat.zero) eqn:D0; [cbn [fst snd]; split; apply Z0|].
    destruct (PrimFloat.ltb a (PrimFloat.opp d)) eqn:D1; cbn [fst snd]; (split; [|apply Z0]); [apply Q; exact Hsd|apply frac_unit; assumption].
  - destruct (PrimFloat.ltb td tn) eqn:T1.
    + destruct (PrimFloat.ltb (PrimFloat.add (PrimFloat.opp d) b) PrimFloat.zero) eqn:D0; [cbn [fst snd]; split; [apply Z0|apply Q; exact Htd]|].
      destruct (PrimFloat.ltb a (PrimFloat.add (PrimFloat.opp d) b)) eqn:D1; cbn [fst snd]; (split; [|apply Q; exact Htd]); [apply Q; exact Hsd|apply frac_unit; assumption].
    + cbn [fst snd]. split; [exact Hs|apply frac_unit; assumption].
Qed.
