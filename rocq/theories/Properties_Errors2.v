(** Property C99, continued: the constructors of the periodic and of the FITPACK
    splines. *)
From Coq Require Import ZArith QArith String List Bool Arith Lia Reals Lra.
From Verif Require Import Num Py Numeric Curve Spec DiffGeom Intersect Registry Interp Splines Splines2 Periodic FitSpline.
From Verif Require Import ListFacts CurveProofs2 InterpProofs SplineProofs SplineProofs2 PeriodicProofs3 Properties_Splines2 Properties_Periodic Properties_Errors.
Import ListNotations.
Local Open Scope nat_scope.
Local Open Scope string_scope.
Local Open Scope list_scope.

(** 'cubic' with any boundary condition and 'hermite', with any extrapolate and
    over any numbers, raise nothing but ValueError. *)
Theorem C99_periodic_kinds :
  forall (T : Type) (NT : Num T) (ST : NumSqrt T) (junk qnan : T) fm b ex (c : curve T) e,
    (cubic_any junk qnan fm b ex c = Raise e -> e = ValueError) /\ (hermite_any junk qnan fm ex c = Raise e -> e = ValueError).
Proof.
  intros T NT ST junk qnan fm b ex c e.
  assert (N : forall m xs ys ds n x, spline_new qnan fm m xs ys ds n = Raise x -> x = ValueError).
  { intros m xs ys [ds|] n x; cbn [spline_new]; [|congruence].
    destruct (hermite_new qnan false xs ys (Some ds) n) as [f|y] eqn:E; cbn [rbind]; [discriminate|].
    intros X. injection X as <-. exact (hermite_new_kind _ _ _ _ _ _ _ E). }
  assert (P : forall m x, cubic_periodic junk qnan fm m c = Raise x -> x = ValueError).
  { intros m x. unfold cubic_periodic. cbv zeta. destruct (prepare_ok _ _); [|congruence]. destruct (ends_close _ _); [|congruence].
    match goal with |- context [spline_new ?a ?b ?c ?d ?e ?f ?g] => destruct (spline_new a b c d e f g) as [h|y] eqn:E end; cbn [rbind]; [discriminate|].
    intros X. injection X as <-. exact (N _ _ _ _ _ _ E). }
  assert (Q : forall m per k x, (forall y, per c = Raise y -> y = ValueError) -> cubic junk qnan per b k c = Raise x -> m = x -> x = ValueError).
  { intros m per k x Hp X _. destruct (is_periodic b) eqn:Pb.
    - unfold cubic in X. rewrite Pb in X. exact (Hp _ X).
    - destruct (C99_spline_kinds T NT ST junk qnan k (fun _ => junk) per b c x) as (_ & _ & _ & Y). exact (Y Pb X). }
  split.
  - unfold cubic_any. destruct ex as [[k|]|].
    + intros X. apply (Q e _ _ e) in X; auto. intros y. apply P.
    + destruct (is_periodic b) eqn:Pb; [apply P|]. cbv zeta. destruct (prepare_ok _ _) eqn:Pp; [|congruence].
      pose proof (C99_spline_kinds T NT ST junk qnan true (fun _ => junk) (cubic_periodic junk qnan fm None) b c) as K.
      unfold cubic in K. rewrite Pb, Pp in K.
      destruct (validate_bc (c_ndim c) b) as [bcs|y]; cbn [rbind] in *.
      * match goal with |- context [spline_new ?a ?b ?c ?d ?e ?f ?g] => destruct (spline_new a b c d e f g) as [h|y] eqn:E end; cbn [rbind]; [discriminate|].
        intros X. injection X as <-. exact (N _ _ _ _ _ _ E).
      * intros X. injection X as <-. destruct (K y) as (_ & _ & _ & Y). exact (Y eq_refl eq_refl).
    + intros X. apply (Q e _ _ e) in X; auto. intros y. apply P.
  - unfold hermite_any. assert (F : forall x, curve_prop junk c PFrenet1 <> Raise x) by (intros x; unfold curve_prop; destruct (negb _); discriminate).
    destruct (curve_prop junk c PFrenet1) as [d|x]; [|destruct (F x eq_refl)]. cbn [rbind].
    match goal with |- context [spline_new ?a ?b ?c ?d ?e ?f ?g] => destruct (spline_new a b c d e f g) as [h|y] eqn:E end; cbn [rbind]; [discriminate|].
    intros X. injection X as <-. exact (N _ _ _ _ _ _ E).
Qed.
Print Assumptions C99_periodic_kinds.

(** Over the reals the periodic spline is refused exactly for fewer than two
    points, parameters that do not increase, or ends apart. *)
Theorem C99_periodic :
  forall junk qnan fm ex (c : curve R) e, wf c ->
    (cubic_any junk qnan fm (BCName "periodic") ex c = Raise e <->
     e = ValueError /\ ~ (2 <= c_size c /\ increasing (c_tval junk c) /\ nearly_closed c)).
Proof.
  intros junk qnan fm ex c e W. rewrite <- nearly_closed_iff. split.
  - intros H. split; [exact (proj1 (C99_periodic_kinds R _ _ junk qnan fm _ ex c e) H)|]. intros (A & B & C).
    rewrite (cubic_any_ok junk qnan fm (BCName "periodic") ex c W A B C) in H. discriminate.
  - intros [-> N]. destruct (cubic_any_fails junk qnan fm (BCName "periodic") ex c N) as [x X]. rewrite X. f_equal.
    exact (proj1 (C99_periodic_kinds R _ _ junk qnan fm _ ex c x) X).
Qed.
Print Assumptions C99_periodic.

Example C99_periodic_ex :
  let c := mkCurve [[0; 0]; [1; 2]; [0; 1]]%R 2 DFloat (Some [0; 1; 2]%R) in
  wf c /\ 2 <= c_size c /\ increasing (c_tval 0%R c) /\ ~ nearly_closed c /\
  cubic_any 0%R 0%R (fun a _ => a) (BCName "periodic") None c = Raise ValueError.
Proof.
  intros c. assert (W : wf c).
  { split; [cbn; lia|]. split; [intros p [<-|[<-|[<-|[]]]]; reflexivity|]. intros t E. injection E as <-. reflexivity. }
  assert (N : ~ nearly_closed c).
  { intros H. specialize (H 1%nat ltac:(cbn; lia)). cbn in H. rewrite Rabs_left in H by lra. rewrite Rabs_pos_eq in H by lra. lra. }
  split; [exact W|]. split; [cbn; lia|]. split.
  { intros [|[|i]] Hi; cbn in *; lra || lia. }
  split; [exact N|]. apply C99_periodic; [exact W|]. tauto.
Qed.

(** *** UnivariateSpline *)

(** The values of ext that scipy knows. *)
Definition known_ext (a : xarg) : Prop :=
  match a with XInt z => (0 <= z <= 3)%Z | XName s => In s ["extrapolate"; "zeros"; "raise"; "const"] end.

(** What makes the arguments of UnivariateSpline wrong: a step that is not
    positive (not nonnegative, if smoothing), different numbers of abscissae,
    values or weights, a degree outside of 1..5, a negative smoothing factor, an
    unknown ext. *)
Definition wrong_args {T} {NT : Num T} (k : Z) (s : T) (w : option (list T)) (ext : xarg) (xs ys : list T) : Prop :=
  (exists i, S i < length xs /\
     (if nltb n0 s then nleb n0 (nth (S i) xs n0 - nth i xs n0)%num else nltb n0 (nth (S i) xs n0 - nth i xs n0)%num) = false) \/
  length ys <> length xs \/ (exists w', w = Some w' /\ length w' <> length xs) \/ ~ (1 <= k <= 5)%Z \/ nleb n0 s = false \/ ~ known_ext ext.

(** Over any numbers: wrong arguments are a ValueError, too few points are an
    error of the FITPACK wrapper, and apart from that only a smoothing spline
    can fail. *)
Theorem C99_fitpack :
  forall (T : Type) (NT : Num T) (ST : NumSqrt T) smoothing k s w ext (xs ys : list T) e,
    univariate smoothing k s w ext xs ys = Raise e <->
    (e = ValueError /\ wrong_args k s w ext xs ys) \/
    (e = OtherError /\ ~ wrong_args k s w ext xs ys /\ (Z.of_nat (length xs) <= k)%Z) \/
    (~ wrong_args k s w ext xs ys /\ (k < Z.of_nat (length xs))%Z /\ nltb n0 s = true /\
     smoothing (Z.to_nat k) s (match w with Some w' => w' | None => repeat n1 (length xs) end) xs ys = Raise e).
Proof.
  intros T NT ST sm k s w ext xs ys e.
  assert (D : forall p : T -> bool, existsb (fun d => negb (p d)) (diff xs) = true <->
              exists i, S i < length xs /\ p (nth (S i) xs n0 - nth i xs n0)%num = false).
  { intros p. rewrite existsb_exists. split.
    - intros (d & Hd & X). destruct (In_nth _ _ n0 Hd) as (i & Hi & Ed). rewrite gdiff_length in Hi.
      rewrite gdiff_nth in Ed by lia. exists i. split; [lia|]. rewrite Ed. now apply negb_true_iff.
    - intros (i & Hi & X). exists (nth i (diff xs) n0). split; [apply nth_In; rewrite gdiff_length; lia|].
      rewrite gdiff_nth by lia. now rewrite X. }
  assert (Xk : forall m, xmode_of ext = Ok m -> known_ext ext).
  { intros m. destruct ext as [z|q]; cbn [xmode_of known_ext].
    - repeat match goal with |- context [Z.eqb z ?n] => destruct (Z.eqb_spec z n); [intros _; lia|] end. discriminate.
    - repeat match goal with |- context [String.eqb q ?n] => destruct (String.eqb_spec q n) as [->|]; [intros _; cbn; tauto|] end. discriminate. }
  assert (Xr : forall x, xmode_of ext = Raise x -> x = ValueError /\ ~ known_ext ext).
  { intros x. destruct ext as [z|q]; cbn [xmode_of known_ext].
    - repeat match goal with |- context [Z.eqb z ?n] => destruct (Z.eqb_spec z n); [discriminate|] end. intros X. split; [congruence|lia].
    - repeat match goal with |- context [String.eqb q ?n] => destruct (String.eqb_spec q n) as [->|]; [discriminate|] end.
      intros X. split; [congruence|]. cbn. intuition congruence. }
  assert (Bad : wrong_args k s w ext xs ys -> (univariate sm k s w ext xs ys = Raise e <->
    (e = ValueError /\ wrong_args k s w ext xs ys) \/
    (e = OtherError /\ ~ wrong_args k s w ext xs ys /\ (Z.of_nat (length xs) <= k)%Z) \/
    (~ wrong_args k s w ext xs ys /\ (k < Z.of_nat (length xs))%Z /\ nltb n0 s = true /\
     sm (Z.to_nat k) s (match w with Some w' => w' | None => repeat n1 (length xs) end) xs ys = Raise e)) <->
    (univariate sm k s w ext xs ys = Raise e <-> e = ValueError)) by tauto.
  unfold univariate. unfold univariate in Bad.
  match goal with |- context [if ?b then Raise ValueError else if negb (Nat.eqb _ _) then _ else _] => destruct b eqn:E1 end.
  { apply Bad; [|split; congruence]. left. destruct (nltb n0 s); apply D, E1. }
  destruct (Nat.eqb_spec (length xs) (length ys)) as [E2|E2]; cbn [negb] in *.
  2:{ apply Bad; [|split; congruence]. right. left. congruence. }
  match goal with |- context [if ?b then Raise ValueError else if negb (_ && _) then _ else _] => destruct b eqn:E3 end.
  { apply Bad; [|split; congruence]. right. right. left. destruct w as [w'|]; [|discriminate]. exists w'. split; [reflexivity|].
    apply negb_true_iff, Nat.eqb_neq in E3. exact E3. }
  destruct ((1 <=? k)%Z && (k <=? 5)%Z) eqn:E4; cbn [negb] in *.
  2:{ apply Bad; [|split; congruence]. right. right. right. left. apply andb_false_iff in E4. lia. }
  destruct (nleb n0 s) eqn:E5; cbn [negb] in *.
  2:{ apply Bad; [|split; congruence]. right. right. right. right. left. exact E5. }
  destruct (xmode_of ext) as [m|x] eqn:E6; cbn [rbind] in *.
  2:{ destruct (Xr x eq_refl) as [-> K]. apply Bad; [|split; congruence]. unfold wrong_args. tauto. }
  clear Bad. assert (G : ~ wrong_args k s w ext xs ys).
  { unfold wrong_args. rewrite E5. specialize (Xk m eq_refl). apply andb_true_iff in E4. intros [X|[X|[(w' & -> & X)|[X|[X|X]]]]]; try congruence; try lia; try tauto.
    - destruct (nltb n0 s); apply D in X; congruence.
    - apply negb_false_iff, Nat.eqb_eq in E3. congruence. }
  apply andb_true_iff in E4.
  destruct (Nat.leb_spec (length xs) (Z.to_nat k)) as [L|L].
  { split; [intros X; injection X as <-; right; left; repeat split; auto; lia|].
    intros [[_ X]|[[-> _]|(_ & X & _)]]; [tauto|reflexivity|lia]. }
  destruct (nltb n0 s); cbn [rbind].
  - set (ws := match w with Some w' => w' | None => repeat n1 (length xs) end).
    destruct (sm (Z.to_nat k) s ws xs ys) as [f|x] eqn:Es; cbn [rbind].
    + split; [discriminate|]. intros [[_ X]|[(_ & _ & X)|(_ & _ & _ & X)]]; [tauto|lia|discriminate].
    + split; [intros X; injection X as <-; right; right; repeat split; auto; lia|].
      intros [[_ X]|[(_ & _ & X)|(_ & _ & _ & X)]]; [tauto|lia|injection X as <-; reflexivity].
  - split; [discriminate|]. intros [[_ X]|[(_ & _ & X)|(_ & _ & X & _)]]; [tauto|lia|discriminate].
Qed.
Print Assumptions C99_fitpack.

(** An argument of ext = 2 or 'raise' that is outside of the samples is the only
    thing that can fail later. *)
Theorem C99_fitpack_call :
  forall (T : Type) (NT : Num T) (ST : NumSqrt T) smoothing k s w ext (xs ys g : list T) f e,
    univariate smoothing k s w ext xs ys = Ok f ->
    (f g = Raise e <-> e = ValueError /\ (ext = XInt 2 \/ ext = XName "raise") /\
       exists x, In x g /\ (nltb x (nth 0 xs n0) = true \/ nltb (nth (length xs - 1) xs n0) x = true)).
Proof.
  intros T NT ST sm k s w ext xs ys g f e. unfold univariate.
  match goal with |- context [if ?b then Raise ValueError else if negb (Nat.eqb _ _) then _ else _] => destruct b; [discriminate|] end.
  destruct (negb _); [discriminate|]. match goal with |- context [if ?b then Raise ValueError else if negb (_ && _) then _ else _] => destruct b; [discriminate|] end.
  destruct (negb _); [discriminate|]. destruct (negb _); [discriminate|].
  assert (M : forall m, xmode_of ext = Ok m -> (m = XRaise <-> ext = XInt 2 \/ ext = XName "raise")).
  { intros m. destruct ext as [z|q]; cbn [xmode_of].
    - destruct (Z.eqb_spec z 0) as [->|]; [intros X; injection X as <-; intuition discriminate|].
      destruct (Z.eqb_spec z 1) as [->|]; [intros X; injection X as <-; intuition discriminate|].
      destruct (Z.eqb_spec z 2) as [->|]; [intros X; injection X as <-; intuition discriminate|].
      destruct (Z.eqb_spec z 3) as [->|]; [intros X; injection X as <-; intuition discriminate|discriminate].
    - destruct (String.eqb_spec q "extrapolate") as [->|]; [intros X; injection X as <-; intuition discriminate|].
      destruct (String.eqb_spec q "zeros") as [->|]; [intros X; injection X as <-; intuition discriminate|].
      destruct (String.eqb_spec q "raise") as [->|]; [intros X; injection X as <-; intuition discriminate|].
      destruct (String.eqb_spec q "const") as [->|]; [intros X; injection X as <-; intuition discriminate|discriminate]. }
  destruct (xmode_of ext) as [m|x]; cbn [rbind]; [|discriminate]. specialize (M m eq_refl).
  destruct (Nat.leb _ _); [discriminate|].
  match goal with |- context [rbind ?r _] => destruct r as [h|x]; cbn [rbind]; [|discriminate] end.
  intros X. injection X as <-.
  destruct m; cbn [splev]; try (split; [discriminate|]; intros (_ & A & _); apply M in A; discriminate).
  destruct (existsb _ g) eqn:E.
  - apply existsb_exists in E. destruct E as (x & Hx & O). apply orb_true_iff in O. split.
    + intros Y. injection Y as <-. split; [reflexivity|]. split; [apply M; reflexivity|]. exists x. auto.
    + intros [-> _]. reflexivity.
  - split; [discriminate|]. intros (_ & _ & x & Hx & O). rewrite <- not_true_iff_false, existsb_exists in E. destruct E.
    exists x. split; [exact Hx|]. apply orb_true_iff. exact O.
Qed.
Print Assumptions C99_fitpack_call.

Example C99_fitpack_ex :
  let u k s w ext xs ys := @univariate Q _ (fun _ _ _ _ _ => Raise TypeError) k s w ext xs ys in
  let kind {A} (r : res A) := match r with Ok _ => None | Raise e => Some e end in
  kind (u 1%Z 0%Q None (XInt 2) [0; 1; 1] [0; 1; 2])%Q = Some ValueError /\
  kind (u 1%Z 1%Q None (XInt 2) [0; 1; 1] [0; 1; 2])%Q = Some TypeError /\
  kind (u 3%Z 0%Q None (XInt 2) [0; 1; 2] [0; 1; 2])%Q = Some OtherError /\
  kind (u 6%Z 0%Q None (XInt 2) [0; 1; 2] [0; 1; 2])%Q = Some ValueError /\
  kind (u 1%Z 0%Q (Some [1]) (XInt 2) [0; 1; 2] [0; 1; 2])%Q = Some ValueError /\
  kind (u 1%Z 0%Q None (XName "wrap") [0; 1; 2] [0; 1; 2])%Q = Some ValueError /\
  kind (u 1%Z 0%Q None (XName "raise") [0; 1; 2] [0; 1; 2])%Q = None /\
  kind (do f <- u 1%Z 0%Q None (XName "raise") [0; 1; 2] [0; 1; 2] ; f [0; 3])%Q = Some ValueError /\
  kind (do f <- u 1%Z 0%Q None (XName "raise") [0; 1; 2] [0; 1; 2] ; f [0; 2])%Q = None.
Proof. vm_compute. repeat split. Qed.
