(** Property C99: exactly which calls fail, and how. *)
From Coq Require Import ZArith QArith String List Bool Arith Lia Reals Lra.
From Verif Require Import Num Py Numeric Curve Program Spec Errors DiffGeom Intersect Registry Interp Splines Splines2.
From Verif Require Import ListFacts CurveProofs2 ProgramProofs ErrorsProofs DiffGeomProofs InterpProofs SplineProofs SplineProofs2 SplineProofs6 SplineProofs8 Properties_Splines2.
Import ListNotations.
Local Open Scope nat_scope.
Local Open Scope list_scope.

(** ** C99 Exactly which calls fail

    [fails st o e] (Errors.v) is a table: one row per operation, saying with
    which arguments it raises which exception, in terms of the numbers of
    points and coordinates of the curves involved. *)

(** In every reachable store, every operation raises exactly what the table
    says. *)
Theorem C99_failures :
  forall (T : Type) (NT : Num T) (ST : NumSqrt T) (prog : list (op T)) (o : op T) (e : exn),
    Forall valid_op prog -> valid_op o -> covered (run prog) o ->
    (exec (run prog) o = Raise e <-> fails (run prog) o e).
Proof. intros T NT ST prog o e H V C. apply fails_iff; [apply run_wf, H|exact V|exact C]. Qed.
Print Assumptions C99_failures.

(** ... and it succeeds exactly when no row of the table applies; then the
    store grows by one curve, and otherwise it stays as it is. *)
Theorem C99_success :
  forall (T : Type) (NT : Num T) (ST : NumSqrt T) (prog : list (op T)) (o : op T),
    Forall valid_op prog -> valid_op o -> covered (run prog) o ->
    ((forall e, ~ fails (run prog) o e) <-> exists c, run (prog ++ [o]) = run prog ++ [c]) /\
    ((exists e, fails (run prog) o e) <-> run (prog ++ [o]) = run prog).
Proof.
  intros T NT ST prog o H V C.
  assert (R : run (prog ++ [o]) = step (run prog) o) by (unfold run; rewrite fold_left_app; reflexivity).
  rewrite R. unfold step. pose proof (C99_failures T NT ST prog o) as F.
  destruct (exec (run prog) o) as [c|e] eqn:E.
  - assert (N : forall e, ~ fails (run prog) o e).
    { intros e X. apply (F e H V C) in X. discriminate. }
    split; split.
    + intros _. exists c. reflexivity.
    + intros _. exact N.
    + intros [e X]. destruct (N e X).
    + intros X. exfalso. apply (f_equal (@length _)) in X. rewrite app_length in X. cbn [length] in X. lia.
  - assert (X : fails (run prog) o e) by (apply (F e H V C); reflexivity). split; split.
    + intros N. destruct (N e X).
    + intros [c Y]. exfalso. apply (f_equal (@length _)) in Y. rewrite app_length in Y. cbn [length] in Y. lia.
    + reflexivity.
    + intros _. exists e. exact X.
Qed.
Print Assumptions C99_success.

(** No operation ever raises anything but NameError, IndexError or ValueError
    (also the insertions the table leaves out). *)
Theorem C99_kinds :
  forall (T : Type) (NT : Num T) (ST : NumSqrt T) (prog : list (op T)) (o : op T) (e : exn),
    Forall valid_op prog -> valid_op o -> exec (run prog) o = Raise e ->
    e = NameError \/ e = IndexError \/ e = ValueError.
Proof.
  intros T NT ST prog o e H V E. pose proof (run_wf prog H) as W.
  assert (K : forall c ix x, c_insert c ix x = Raise e -> e = IndexError \/ e = ValueError).
  { intros c ix x. unfold c_insert. destruct (negb _); [intros X; injection X as <-; auto|].
    set (vals := map (map (cast (c_dtype c))) (item_rows x)). intros X.
    assert (Y : np_insert_ix (c_rows c) ix vals = Raise e \/ e = ValueError).
    { destruct (np_insert_ix (c_rows c) ix vals) as [rows|e']; cbn [rbind] in X; [|left; injection X as <-; reflexivity]. right.
      unfold mk_curve in X. destruct (Nat.eqb _ 0); destruct (_ && _)%bool; congruence. }
    destruct Y as [Y|Y]; [|auto]. clear X.
    assert (O : forall (l : list (list T)) i v, np_insert l i v = Raise e -> e = IndexError \/ e = ValueError).
    { intros l i v. unfold np_insert. destruct (_ || _)%bool; [intros Z; injection Z as <-; auto|discriminate]. }
    assert (M : forall (l : list (list T)) is v, np_insert_many l is v = Raise e -> e = IndexError \/ e = ValueError).
    { intros l is v. unfold np_insert_many, insert_finals, norm_indices.
      set (g := fun i => match norm_index (length l + length is) i with Some k => Ok k | None => Raise IndexError end).
      match goal with |- context [rseq (map g ?q)] => generalize q; intros js end.
      assert (R : forall js e', rseq (map g js) = Raise e' -> e' = IndexError).
      { clear. intros js. induction js as [|j js IH]; intros e'; cbn [map rseq]; [discriminate|].
        unfold g at 1. destruct (norm_index _ j); [|congruence]. destruct (rseq (map g js)) as [x|x]; [discriminate|].
        intros Z. apply (IH e'). exact Z. }
      destruct (rseq (map g js)) as [fs|e'] eqn:Er; cbn [rbind]; [|intros Z; injection Z as <-; left; apply (R js e' Er)].
      destruct (Nat.eqb _ _); [|destruct v as [|v0 [|v1 v]]]; cbn [rbind]; try (intros Z; injection Z as <-; auto; fail);
        destruct (nodupb fs); intros Z; [discriminate|injection Z as <-; auto|discriminate|injection Z as <-; auto]. }
    destruct ix as [i|s|js]; cbn [np_insert_ix] in Y.
    - exact (O _ _ _ Y).
    - unfold slice_positions, slice_indices in Y. destruct (_ =? 0)%Z; cbn [rmap rbind] in Y; [injection Y as <-; auto|].
      match type of Y with context [map Z.of_nat ?q] => destruct (map Z.of_nat q) as [|j [|j' js]] end; eauto.
    - destruct js as [|j [|j' js]]; eauto. }
  assert (Or : covered (run prog) o \/ exists h, (exists ix p, o = OInsertPoint h ix p) \/ (exists ix h2, o = OInsertCurve h ix h2)).
  { destruct o; cbn [covered]; auto; right; eexists; eauto. }
  destruct Or as [C|(h & [(ix & p & ->)|(ix & h2 & ->)])].
  - apply (C99_failures T NT ST prog o e H V C) in E. clear -E W.
    assert (IX : forall n ix, index_fails n ix e -> e = NameError \/ e = IndexError \/ e = ValueError).
    { intros n [i|s|l]; cbn [index_fails]; intros [_ ->]; auto. }
    assert (NW : forall a td ax nm, @new_fails T a td ax nm e -> e = NameError \/ e = IndexError \/ e = ValueError).
    { intros a td ax nm [(k & _ & _ & X)|[_ [(_ & _ & X)|[_ [[_ X]|[[_ X]|(k & m & _ & _ & _ & X)]]]]]]; auto. }
    assert (PT : forall c ix n k, @put_fails T c ix n k e -> e = NameError \/ e = IndexError \/ e = ValueError).
    { intros c ix n k [[_ X]|[_ X]]; [auto|]. destruct ix as [i|s|l]; cbn [insert_fails] in X.
      - destruct X as [_ X]. auto.
      - destruct X as [X _]. auto.
      - destruct X as [[_ X]|(_ & _ & _ & _ & X)]; auto. }
    assert (DF : forall c a v, @dim_fails T c a v e -> e = NameError \/ e = IndexError \/ e = ValueError).
    { intros c a v [[_ X]|(_ & X & _)]; auto. }
    destruct o; cbn [fails] in E; unfold with_curve in E; eauto;
      repeat match type of E with context [nth_error (run prog) ?h] => destruct (nth_error (run prog) h) as [?c|]; [|now auto] end;
      eauto; try (destruct E as [_ E]; auto; fail); try contradiction.
    + destruct E as (k & _ & _ & E). auto.
    + destruct E as [[_ E]|[[_ E]|(_ & _ & _ & _ & E)]]; eauto.
    + destruct (isa (c_rows c)); cbn [drop_fails] in E; [destruct E as [_ E]..|]; auto.
    + destruct E as (_ & _ & E). auto.
  - cbn [exec] in E. unfold deref in E. destruct (nth_error (run prog) h) as [c|]; cbn [rbind] in E; [|injection E as <-; auto].
    right. exact (K _ _ _ E).
  - cbn [exec] in E. unfold deref in E. destruct (nth_error (run prog) h) as [c|]; cbn [rbind] in E; [|injection E as <-; auto].
    destruct (nth_error (run prog) h2) as [c2|]; cbn [rbind] in E; [|injection E as <-; auto].
    right. exact (K _ _ _ E).
Qed.
Print Assumptions C99_kinds.

(** One run over the rationals that meets most rows of the table. *)
#[local] Instance QSqrt_any : NumSqrt Q := { nsqrt x := x }.
Definition ex_prog : list (op Q) :=
  [ONewArray (mkNd [3; 2] [0; 0; 1; 0; 1; 2]%Q) DFloat None None None None;
   ONewArray (mkNd [2; 3] [0; 0; 1; 0; 1; 2]%Q) DFloat (Some (mkNd [2] [0; 1]%Q)) None None None;
   ONewArray (mkNd [0] []) DFloat None None None None].
Definition ex_errors : list (op Q) :=
  [ONewArray (mkNd [3; 2] [0; 0; 1; 0; 1; 2]%Q) DFloat None (Some 2%Z) None None;
   ONewArray (mkNd [3; 2] [0; 0; 1; 0; 1; 2]%Q) DFloat None (Some (-5)%Z) None None;
   ONewArray (mkNd [3] [0; 0; 1]%Q) DFloat None None None None;
   ONewArray (mkNd [3; 2] [0; 0; 1; 0; 1; 2]%Q) DFloat (Some (mkNd [2] [0; 1]%Q)) None None None;
   ONewCurve 0 None None (Some 1%Z) None;
   OSlice 0 (mkSlice None None (Some 0%Z)); OList 0 [0%Z; 3%Z]; OMask 0 [true]; OAdd 0 1;
   OInsertPoint 0 (IxInt 4) [0; 0]%Q; OInsertPoint 0 (IxInt 0) [0; 0; 0]%Q; OInsertCurve 0 (IxList [0%Z; 1%Z]) 0;
   OAppendCurve 0 1; ODelete 0 (IxInt (-4)); OInsertDim 0 (-3) None; OAppendDim 0 (Some [1; 2]%Q);
   ODeleteDim 0 (IxInt 0); ODeleteDim 1 (IxList [0%Z; 1%Z]); ODeleteDim 1 (IxInt 3);
   ODrop 0 (fun _ => DropMask [true]); ODrop 0 (fun _ => DropNumeric2); OCoorient 0 0 2; OCopy 7].
Example C99_failures_ex :
  Forall valid_op ex_prog /\ Forall valid_op ex_errors /\ Forall (covered (run ex_prog)) ex_errors /\
  length (run ex_prog) = 3 /\
  map (fun o => match exec (run ex_prog) o with Ok _ => None | Raise e => Some e end) ex_errors
  = map Some [ValueError; IndexError; ValueError; ValueError; ValueError; ValueError; IndexError; IndexError; ValueError;
              IndexError; ValueError; ValueError; ValueError; IndexError; IndexError; ValueError; ValueError; ValueError;
              IndexError; IndexError; ValueError; IndexError; NameError] /\
  fails (run ex_prog) (ONonsingular 2) ValueError /\ (forall e, ~ fails (run ex_prog) (OInsertPoint 0 (IxInt (-3)) [0; 0]%Q) e).
Proof.
  assert (V : Forall valid_op ex_prog).
  { repeat constructor; cbn; intros t E; try congruence; inversion E; subst; reflexivity. }
  split; [exact V|]. split; [|split; [|split; [vm_compute; reflexivity|split; [vm_compute; reflexivity|split]]]].
  - repeat constructor; cbn; intros t E; try congruence; inversion E; subst; reflexivity.
  - repeat constructor; intros c E; cbn [low_list]; try tauto. injection E as <-. intros [_ X].
    apply Exists_exists in X. destruct X as (i & [<-|[<-|[]]] & Hi); vm_compute in Hi; discriminate.
  - split; [vm_compute; reflexivity|reflexivity].
  - intros e [[X _]|[_ [[X|X] _]]]; vm_compute in X; try discriminate. apply X. reflexivity.
Qed.
Example C99_success_ex :
  length (run (ex_prog ++ [OInsertPoint 0 (IxInt (-3)) [0; 0]%Q])) = 4 /\ run (ex_prog ++ [OCoorient 0 0 2]) = run ex_prog /\
  exec (run ex_prog) (OInsertPoint 0 (IxList [-4; 0]%Z) [5; 5]%Q) <> Raise IndexError.
Proof. vm_compute. split; [reflexivity|]. split; [reflexivity|discriminate]. Qed.

(** *** The spline constructors *)

Lemma gdiff_length {T} {NT : Num T} (l : list T) : length (diff l) = length l - 1.
Proof. induction l as [|a [|b l] IH]; [reflexivity|reflexivity|]. cbn [diff length] in *. rewrite IH. lia. Qed.
Lemma gdiff_nth {T} {NT : Num T} (l : list T) : forall i, S i < length l -> nth i (diff l) n0 = (nth (S i) l n0 - nth i l n0)%num.
Proof.
  induction l as [|a [|b l] IH]; intros i Hi; cbn [length] in Hi; try lia.
  destruct i as [|i]; [reflexivity|]. change (diff (a :: b :: l)) with ((b - a)%num :: diff (b :: l)).
  cbn [nth]. rewrite IH by (cbn [length]; lia). reflexivity.
Qed.

(** The Hermite spline over any numbers: at least two abscissae, as many points
    and slopes, everything finite, every step positive; otherwise ValueError. *)
Theorem C99_hermite :
  forall (T : Type) (NT : Num T) (qnan : T) ex (xs : list T) (ys : list (list T)) (ds : option (list (list T))) ndim e,
    hermite_new qnan ex xs ys ds ndim = Raise e <->
    e = ValueError /\
    ~ (2 <= length xs /\ length ys = length xs /\ (exists d, ds = Some d /\ length d = length xs /\ forall r x, In r d -> In x r -> isfinite x = true) /\
       (forall x, In x xs -> isfinite x = true) /\ (forall r x, In r ys -> In x r -> isfinite x = true) /\
       (forall i, S i < length xs -> nleb (nth (S i) xs n0 - nth i xs n0)%num n0 = false)).
Proof.
  intros T NT qnan ex xs ys ds ndim e.
  assert (FR : forall m : list (list T), forallb (forallb isfinite) m = true <-> forall r x, In r m -> In x r -> isfinite x = true).
  { intros m. rewrite forallb_forall. split.
    - intros H r x Hr. specialize (H r Hr). rewrite forallb_forall in H. apply H.
    - intros H r Hr. apply forallb_forall. intros x. apply H, Hr. }
  assert (PO : prepare_ok xs ys = true <->
     2 <= length xs /\ length ys = length xs /\ (forall x, In x xs -> isfinite x = true) /\
     (forall r x, In r ys -> In x r -> isfinite x = true) /\
     (forall i, S i < length xs -> nleb (nth (S i) xs n0 - nth i xs n0)%num n0 = false)).
  { unfold prepare_ok. rewrite !andb_true_iff, negb_true_iff, Nat.leb_le, Nat.eqb_eq, FR, forallb_forall.
    assert (D : existsb (fun d => nleb d n0) (diff xs) = false <->
                forall i, S i < length xs -> nleb (nth (S i) xs n0 - nth i xs n0)%num n0 = false).
    { clear. rewrite <- not_true_iff_false, existsb_exists. split.
      - intros H i Hi. apply not_true_iff_false. intros X. apply H. exists (nth i (diff xs) n0). split.
        + apply nth_In. rewrite gdiff_length. lia.
        + rewrite gdiff_nth by lia. exact X.
      - intros H (d & Hd & X). destruct (In_nth _ _ n0 Hd) as (i & Hi & Ed). rewrite gdiff_length in Hi.
        rewrite gdiff_nth in Ed by lia. specialize (H i ltac:(lia)). congruence. }
    rewrite D. intuition. }
  unfold hermite_new. destruct (prepare_ok xs ys) eqn:P.
  - destruct (proj1 PO eq_refl) as (P1 & P2 & P3 & P4 & P5). destruct ds as [d|].
    + destruct (Nat.eqb_spec (length d) (length ys)) as [L|L]; cbn [andb].
      * destruct (forallb (forallb isfinite) d) eqn:F.
        -- split; [discriminate|]. intros [_ X]. destruct X. repeat split; auto. exists d.
           split; [reflexivity|]. split; [congruence|]. apply FR. exact F.
        -- split.
           ++ intros X. injection X as <-. split; [reflexivity|]. intros (_ & _ & (d' & E & _ & G) & _). injection E as <-.
              apply FR in G. congruence.
           ++ intros [-> _]. reflexivity.
      * split.
        -- intros X. injection X as <-. split; [reflexivity|]. intros (_ & _ & (d' & E & G & _) & _). injection E as <-. congruence.
        -- intros [-> _]. reflexivity.
    + split.
      * intros X. injection X as <-. split; [reflexivity|]. intros (_ & _ & (d' & E & _) & _). discriminate.
      * intros [-> _]. reflexivity.
  - split.
    + intros X. injection X as <-. split; [reflexivity|]. intros (A & B & _ & C & D & E). 
      assert (false = true) by (apply PO; auto). discriminate.
    + intros [-> _]. reflexivity.
Qed.
Print Assumptions C99_hermite.

Lemma hermite_new_kind {T} {NT : Num T} (qnan : T) ex xs ys ds ndim e :
  hermite_new qnan ex xs ys ds ndim = Raise e -> e = ValueError.
Proof. intros H. apply C99_hermite in H. apply H. Qed.

(** The four interpolators of scipy, over any numbers, raise nothing but
    ValueError (and 'cubic' unless its 'periodic' branch does). *)
Theorem C99_spline_kinds :
  forall (T : Type) (NT : Num T) (ST : NumSqrt T) (junk qnan : T) ex empty per b (c : curve T) e,
    (hermite junk qnan ex c = Raise e -> e = ValueError) /\
    (pchip junk qnan ex c = Raise e -> e = ValueError) /\
    (akima junk qnan empty c = Raise e -> e = ValueError) /\
    (is_periodic b = false -> cubic junk qnan per b ex c = Raise e -> e = ValueError).
Proof.
  intros T NT ST junk qnan ex empty per b c e. split; [|split; [|split]].
  - unfold hermite. assert (Q : forall x, curve_prop junk c PFrenet1 <> Raise x) by (intros x; unfold curve_prop; destruct (negb _); discriminate).
    destruct (curve_prop junk c PFrenet1) as [d|x]; [|destruct (Q x eq_refl)]. cbn [rbind].
    match goal with |- context [hermite_new ?a ?b ?c ?d ?e ?f] => destruct (hermite_new a b c d e f) as [g|x] eqn:E end; cbn [rbind]; [discriminate|].
    intros X. injection X as <-. apply hermite_new_kind in E. exact E.
  - unfold pchip. destruct (prepare_ok _ _); [|intros X; injection X as <-; reflexivity].
    match goal with |- context [hermite_new ?a ?b ?c ?d ?e ?f] => destruct (hermite_new a b c d e f) as [g|x] eqn:E end; cbn [rbind]; [discriminate|].
    intros X. injection X as <-. apply hermite_new_kind in E. exact E.
  - unfold akima. destruct (prepare_ok _ _); [|intros X; injection X as <-; reflexivity].
    match goal with |- context [hermite_new ?a ?b ?c ?d ?e ?f] => destruct (hermite_new a b c d e f) as [g|x] eqn:E end; cbn [rbind]; [discriminate|].
    intros X. injection X as <-. apply hermite_new_kind in E. exact E.
  - intros Nb. unfold cubic. rewrite Nb. destruct (prepare_ok _ _); [|intros X; injection X as <-; reflexivity].
    assert (P : forall a x, parse_bc (c_ndim c) a = Raise x -> x = ValueError).
    { intros [s|o v] x; cbn [parse_bc].
      - destruct (String.eqb _ _); [discriminate|]. destruct (String.eqb _ _); [discriminate|]. destruct (String.eqb _ _); congruence.
      - destruct (negb _); [congruence|]. destruct (negb _); congruence. }
    assert (V : forall x, validate_bc (c_ndim c) b = Raise x -> x = ValueError).
    { intros x. destruct b as [s|a1 a2|]; cbn [validate_bc].
      - destruct (parse_bc (c_ndim c) (BName s)) as [y|y] eqn:E; cbn [rbind]; [discriminate|]. intros X. injection X as <-. exact (P _ _ E).
      - destruct (parse_bc (c_ndim c) a1) as [y|y] eqn:E; cbn [rbind]; [|intros X; injection X as <-; exact (P _ _ E)].
        destruct (parse_bc (c_ndim c) a2) as [z|z] eqn:E2; cbn [rbind]; [discriminate|]. intros X. injection X as <-. exact (P _ _ E2).
      - congruence. }
    destruct (validate_bc (c_ndim c) b) as [bcs|x]; cbn [rbind]; [|intros X; injection X as <-; exact (V x eq_refl)].
    match goal with |- context [hermite_new ?a ?b ?c ?d ?e ?f] => destruct (hermite_new a b c d e f) as [g|x] eqn:E end; cbn [rbind]; [discriminate|].
    intros X. injection X as <-. apply hermite_new_kind in E. exact E.
Qed.
Print Assumptions C99_spline_kinds.

(** Over the reals the conditions are exact: two points, strictly increasing
    parameters, and for 'cubic' known boundary conditions. *)
Theorem C99_splines :
  forall junk qnan ex empty per b (c : curve R) e, wf c ->
    let good := 2 <= c_size c /\ increasing (c_tval junk c) in
    (hermite junk qnan ex c = Raise e <-> e = ValueError /\ ~ good) /\
    (pchip junk qnan ex c = Raise e <-> e = ValueError /\ ~ good) /\
    (akima junk qnan empty c = Raise e <-> e = ValueError /\ ~ good) /\
    (is_periodic b = false -> (cubic junk qnan per b ex c = Raise e <-> e = ValueError /\ ~ (good /\ bc_ok (c_ndim c) b))).
Proof.
  intros junk qnan ex empty per b c e W good.
  destruct (C99_spline_kinds R _ _ junk qnan ex empty per b c e) as (K1 & K2 & K3 & K4).
  split; [|split; [|split]].
  - split.
    + intros H. split; [exact (K1 H)|]. intros [G1 G2]. rewrite hermite_eq in H by assumption. discriminate.
    + intros [-> N]. destruct (hermite_fails junk qnan ex c N) as [x X]. rewrite X. f_equal.
      destruct (C99_spline_kinds R _ _ junk qnan ex empty per b c x) as (Y & _). exact (Y X).
  - split.
    + intros H. split; [exact (K2 H)|]. intros [G1 G2]. rewrite pchip_eq in H by assumption. discriminate.
    + intros [-> N]. destruct (pchip_fails junk qnan ex c N) as [x X]. rewrite X. f_equal.
      destruct (C99_spline_kinds R _ _ junk qnan ex empty per b c x) as (_ & Y & _). exact (Y X).
  - split.
    + intros H. split; [exact (K3 H)|]. intros [G1 G2]. rewrite akima_eq in H by assumption. discriminate.
    + intros [-> N]. destruct (akima_fails junk qnan empty c N) as [x X]. rewrite X. f_equal.
      destruct (C99_spline_kinds R _ _ junk qnan ex empty per b c x) as (_ & _ & Y & _). exact (Y X).
  - intros Nb. destruct (validate_ok (c_ndim c) b) as [V1 V2]. split.
    + intros H. split; [exact (K4 Nb H)|]. intros [[G1 G2] B]. destruct (V1 B) as (x & E & _).
      rewrite (cubic_eq junk qnan per b ex c x) in H by assumption. discriminate.
    + intros [-> N]. destruct (cubic_fails junk qnan per b ex c Nb) as [x X].
      { intros bcs (A & B & C). apply N. split; [split; assumption|]. exact (V2 bcs C). }
      rewrite X. f_equal. destruct (C99_spline_kinds R _ _ junk qnan ex empty per b c x) as (_ & _ & _ & Y). exact (Y Nb X).
Qed.
Print Assumptions C99_splines.

Example C99_splines_ex :
  let c := mkCurve [[0; 0]; [1; 2]; [3; 1]]%R 2 DFloat (Some [0; 1; 1]%R) in
  wf c /\ hermite 0%R 0%R true c = Raise ValueError /\ pchip 0%R 0%R true c = Raise ValueError /\
  akima 0%R 0%R (fun _ => 0%R) c = Raise ValueError /\
  cubic 0%R 0%R (fun _ => Raise TypeError) (BCName "flat"%string) true c = Raise ValueError /\
  hermite_new 0%Q true [0; 1]%Q [[0; 0]; [1; 1]]%Q (Some [[0; 0]]%Q) 2 = Raise ValueError.
Proof.
  intros c. assert (W : wf c).
  { split; [cbn; lia|]. split; [intros p [<-|[<-|[<-|[]]]]; reflexivity|]. intros t E. injection E as <-. reflexivity. }
  assert (N : ~ (2 <= c_size c /\ increasing (c_tval 0%R c))).
  { intros [_ I]. specialize (I 1 ltac:(cbn; lia)). cbn in I. lra. }
  split; [exact W|].
  destruct (C99_splines 0%R 0%R true (fun _ => 0%R) (fun _ => Raise TypeError) (BCName "flat"%string) c ValueError W) as (A & B & C & D).
  split; [apply A; auto|]. split; [apply B; auto|]. split; [apply C; auto|]. split; [apply D; [reflexivity|tauto]|reflexivity].
Qed.
