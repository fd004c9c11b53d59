(** The almost method on small 64-bit integers (C92). *)
From Coq Require Import PrimFloat FloatOps SpecFloat FloatAxioms.
From Coq Require Import ZArith List Bool Arith Reals Lra Lia.
From Verif Require Import Num Py Numeric Curve Vec VecFacts Geom GeomSpec GeomProofs3 Intersect CurveProofs3 IntersectProofs3 IntProofs
  FloatFacts FloatFacts2 Int64 Int64Proofs.
Import ListNotations.

(** *** One entry of the masked updates, for any numbers *)
Section Entry.
  Context {T : Type} {NT : Num T}.
  Local Open Scope num_scope.
  Definition gentry (a b c d e tol : T) : (T * T) * (T * T) :=
    let up (x : T) (m : bool) (y : T) := if m then y else x in
    let dd := a * c - b * b in
    let lt_tol := dd <? tol in
    let sd := up dd lt_tol n1 in
    let tn := up n0 lt_tol e in
    let td := up dd lt_tol c in
    let sn := up n0 (negb lt_tol) (b * e - c * d) in
    let tn := up tn (negb lt_tol) (a * e - b * d) in
    let m1 := (sn <? n0) && negb lt_tol in
    let sn := up sn m1 n0 in
    let tn := up tn m1 e in
    let td := up td m1 c in
    let m2 := (sd <? sn) && negb lt_tol in
    let sn := up sn m2 sd in
    let tn := up tn m2 (e + b) in
    let td := up td m2 c in
    let m3 := tn <? n0 in
    let tn := up tn m3 n0 in
    let k1 := (nopp d <? n0) && m3 in
    let k2 := (a <? nopp d) && m3 in
    let k3 := (negb k1 && negb k2) && m3 in
    let sn := up sn k1 n0 in
    let sn := up sn k2 sd in
    let sn := up sn k3 (nopp d) in
    let sd := up sd k3 a in
    let m4 := td <? tn in
    let tn := up tn m4 td in
    let j1 := (b - d <? n0) && m4 in
    let j2 := (a <? b - d) && m4 in
    let j3 := (negb j1 && negb j2) && m4 in
    let sn := up sn j1 n0 in
    let sn := up sn j2 sd in
    let sn := up sn j3 (b - d) in
    let sd := up sd j3 a in
    ((sn, sd), (tn, td)).
  Definition gquot (tol : T) (nd : T * T) : T := if negb (nabs (fst nd) <? tol) then fst nd / snd nd else n0.
End Entry.

Lemma params_entry {T} {NT : Num T} (data1 data2 : list (list T)) tol i j :
  let u := row_dir data1 i in let v := row_dir data2 j in let w := vsub (nth i data1 []) (nth j data2 []) in
  let q := gentry (vdot u u) (vdot u v) (vdot v v) (vdot u w) (vdot v w) tol in
  fst (segments_params data1 data2 tol) i j = gquot tol (fst q) /\ snd (segments_params data1 data2 tol) i j = gquot tol (snd q).
Proof. split; reflexivity. Qed.

(** *** The same on integers *)
Local Open Scope Z_scope.
Definition zentry (a b c d e : Z) : (Z * Z) * (Z * Z) :=
  let dd := a * c - b * b in
  let '(sn, sd, tn, td) :=
    if dd <? 1 then (0, 1, e, c)
    else
      let sn := b * e - c * d in
      let tn := a * e - b * d in
      if sn <? 0 then (0, dd, e, c)
      else if dd <? sn then (dd, dd, e + b, c)
      else (sn, dd, tn, dd) in
  let '(sn, sd, tn) :=
    if tn <? 0 then
      if - d <? 0 then (0, sd, 0)
      else if a <? - d then (sd, sd, 0)
      else (- d, a, 0)
    else if td <? tn then
      if b - d <? 0 then (0, sd, td)
      else if a <? b - d then (sd, sd, td)
      else (b - d, a, td)
    else (sn, sd, tn) in
  ((sn, sd), (tn, td)).

Ltac zlt := match goal with |- context [Z.ltb ?x ?y] =>
  lazymatch x with context [Z.ltb] => fail | _ => lazymatch y with context [Z.ltb] => fail | _ =>
  let E := fresh "E" in destruct (Z.ltb x y) eqn:E; [apply Z.ltb_lt in E|apply Z.ltb_ge in E];
  cbn [negb andb orb]; try (exfalso; lia) end end end.

Lemma zentry_bounds a b c d e K : 0 <= a <= K -> 0 <= c <= K -> 0 <= a * c - b * b <= K -> 1 <= K ->
  let '((sn, sd), (tn, td)) := zentry a b c d e in 0 <= sn <= sd /\ sd <= K /\ 0 <= tn <= td /\ td <= K.
Proof.
  intros Ha Hc Hd HK. unfold zentry. cbv zeta. set (D := a * c - b * b) in *. set (X := b * e - c * d). set (Y := a * e - b * d).
  clearbody D X Y. repeat zlt; lia.
Qed.

(** At npnum and at the reals. *)
Definition lift {A} (f : Z -> A) (q : (Z * Z) * (Z * Z)) : (A * A) * (A * A) :=
  ((f (fst (fst q)), f (snd (fst q))), (f (fst (snd q)), f (snd (snd q)))).

Lemma np_small_ops a b : Z.abs (a * b) < 2 ^ 62 -> nmul (NI a) (NI b) = NI (a * b).
Proof. intros H. change (NI (wrap (a * b)) = NI (a * b)). rewrite wrap_id by lia. reflexivity. Qed.
Lemma np_add a b : Z.abs (a + b) < 2 ^ 62 -> nadd (NI a) (NI b) = NI (a + b).
Proof. intros H. change (NI (wrap (a + b)) = NI (a + b)). rewrite wrap_id by lia. reflexivity. Qed.
Lemma np_sub a b : Z.abs (a - b) < 2 ^ 62 -> nsub (NI a) (NI b) = NI (a - b).
Proof. intros H. change (NI (wrap (a - b)) = NI (a - b)). rewrite wrap_id by lia. reflexivity. Qed.
Lemma np_opp a : Z.abs a < 2 ^ 62 -> nopp (NI a) = NI (- a).
Proof. intros H. change (NI (wrap (- a)) = NI (- a)). rewrite wrap_id by lia. reflexivity. Qed.
Lemma np_abs a : Z.abs a < 2 ^ 62 -> nabs (NI a) = NI (Z.abs a).
Proof. intros H. change (NI (wrap (Z.abs a)) = NI (Z.abs a)). rewrite wrap_id by lia. reflexivity. Qed.
Lemma np_lt a b : nltb (NI a) (NI b) = Z.ltb a b. Proof. reflexivity. Qed.
Lemma np_lt_tol z t : Z.abs z < 2 ^ 53 -> ffin t -> (0 < FR t <= 1)%R -> nltb (NI z) (NF t) = Z.ltb z 1.
Proof.
  intros H F T. change (PrimFloat.ltb (f_of_Z z) t = Z.ltb z 1). destruct (f_of_Z_exact z H) as (Fz & Ez).
  destruct (Z.ltb_spec z 1) as [L|L].
  - apply (ltb_R _ _ Fz F). rewrite Ez. assert (IZR z <= 0)%R by (apply IZR_le; lia). lra.
  - apply not_true_is_false. intros C. apply (ltb_R _ _ Fz F) in C. rewrite Ez in C. assert (1 <= IZR z)%R by (apply IZR_le; lia). lra.
Qed.
Lemma r_lt a b : Rltb (IZR a) (IZR b) = Z.ltb a b.
Proof.
  destruct (Z.ltb_spec a b) as [L|L]; [apply Rltb_iff, IZR_lt, L|]. apply not_true_is_false. intros C. apply Rltb_iff in C.
  apply IZR_le in L. lra.
Qed.
Lemma r_lt_tol z t : (0 < t <= 1)%R -> Rltb (IZR z) t = Z.ltb z 1.
Proof.
  intros T. destruct (Z.ltb_spec z 1) as [L|L].
  - apply Rltb_iff. assert (IZR z <= 0)%R by (apply IZR_le; lia). lra.
  - apply not_true_is_false. intros C. apply Rltb_iff in C. assert (1 <= IZR z)%R by (apply IZR_le; lia). lra.
Qed.

Ltac nlt := match goal with
  | |- context [nltb (NI ?x) (NI ?y)] => change (nltb (NI x) (NI y)) with (Z.ltb x y);
      let E := fresh "E" in destruct (Z.ltb x y) eqn:E; [apply Z.ltb_lt in E|apply Z.ltb_ge in E]; cbn [negb andb orb]; try (exfalso; lia)
  | |- context [Z.ltb ?x ?y] =>
      lazymatch x with context [nltb] => fail | _ => lazymatch y with context [nltb] => fail | _ =>
      let E := fresh "E" in destruct (Z.ltb x y) eqn:E; [apply Z.ltb_lt in E|apply Z.ltb_ge in E]; cbn [negb andb orb]; try (exfalso; lia) end end
  end.

#[local] Opaque wrap.
Lemma gentry_np a b c d e t : ffin t -> (0 < FR t <= 1)%R ->
  Z.abs a <= 2 ^ 26 -> Z.abs b <= 2 ^ 26 -> Z.abs c <= 2 ^ 26 -> Z.abs d <= 2 ^ 26 -> Z.abs e <= 2 ^ 26 ->
  0 <= a -> 0 <= c -> 0 <= a * c - b * b ->
  gentry (NI a) (NI b) (NI c) (NI d) (NI e) (NF t) = lift NI (zentry a b c d e).
Proof.
  intros F T Ba Bb Bc Bd Be Ha Hc Hd. unfold gentry.
  assert (M : forall x y, Z.abs x <= 2 ^ 26 -> Z.abs y <= 2 ^ 26 -> Z.abs (x * y) <= 2 ^ 52) by (intros x y X Y; rewrite Z.abs_mul; nia).
  pose proof (M a c Ba Bc) as P1. pose proof (M b b Bb Bb) as P2. pose proof (M b e Bb Be) as P3. pose proof (M c d Bc Bd) as P4.
  pose proof (M a e Ba Be) as P5. pose proof (M b d Bb Bd) as P6. clear M.
  assert (W : forall z, Z.abs z <= 2 ^ 52 -> Z.abs z < 2 ^ 62) by (clear; intros; lia).
  rewrite (np_small_ops a c), (np_small_ops b b), (np_small_ops b e), (np_small_ops c d), (np_small_ops a e), (np_small_ops b d) by (apply W; assumption).
  assert (N1 : Z.abs (a * c - b * b) < 2 ^ 53) by (clear - P1 P2 Hd; nia).
  assert (N2 : Z.abs (b * e - c * d) < 2 ^ 62) by (clear - P3 P4; lia).
  assert (N3 : Z.abs (a * e - b * d) < 2 ^ 62) by (clear - P5 P6; lia).
  assert (N4 : Z.abs (a * c - b * b) < 2 ^ 62) by (clear - N1; lia).
  rewrite (np_sub _ _ N4), (np_sub _ _ N2), (np_sub _ _ N3).
  rewrite (np_sub b d), (np_add e b), (np_opp d) by (clear - Bb Bd Be; lia).
  rewrite (np_lt_tol (a * c - b * b) t) by assumption.
  change (n0 (T := npnum)) with (NI 0). change (n1 (T := npnum)) with (NI 1).
  unfold zentry. cbv zeta. set (D := a * c - b * b) in *. set (X := b * e - c * d). set (Y := a * e - b * d). clearbody D X Y.
  clear - Ha Hc Hd. repeat nlt; reflexivity.
Qed.

Ltac rlt := match goal with
  | |- context [nltb (IZR ?x) (IZR ?y)] => change (nltb (IZR x) (IZR y)) with (Rltb (IZR x) (IZR y)); rewrite (r_lt x y);
      let E := fresh "E" in destruct (Z.ltb x y) eqn:E; [apply Z.ltb_lt in E|apply Z.ltb_ge in E]; cbn [negb andb orb]; try (exfalso; lia)
  | |- context [Z.ltb ?x ?y] =>
      lazymatch x with context [nltb] => fail | _ => lazymatch y with context [nltb] => fail | _ =>
      let E := fresh "E" in destruct (Z.ltb x y) eqn:E; [apply Z.ltb_lt in E|apply Z.ltb_ge in E]; cbn [negb andb orb]; try (exfalso; lia) end end
  end.
Lemma gentry_R a b c d e t : (0 < t <= 1)%R -> 0 <= a -> 0 <= c -> 0 <= a * c - b * b ->
  gentry (IZR a) (IZR b) (IZR c) (IZR d) (IZR e) t = lift IZR (zentry a b c d e).
Proof.
  intros T Ha Hc Hd. unfold gentry.
  assert (M : forall x y, nmul (IZR x) (IZR y) = IZR (x * y)) by (intros; symmetry; apply mult_IZR).
  assert (S : forall x y, nsub (IZR x) (IZR y) = IZR (x - y)) by (intros; symmetry; apply minus_IZR).
  assert (A : forall x y, nadd (IZR x) (IZR y) = IZR (x + y)) by (intros; symmetry; apply plus_IZR).
  assert (O : forall x, nopp (IZR x) = IZR (- x)) by (intros; symmetry; apply opp_IZR).
  rewrite (M a c), (M b b), (M b e), (M c d), (M a e), (M b d), (S (a * c)), (S (b * e)), (S (a * e)), (S b d), (A e b), (O d).
  change (nltb (IZR (a * c - b * b)) t) with (Rltb (IZR (a * c - b * b)) t). rewrite (r_lt_tol _ t T).
  change (n0 (T := R)) with (IZR 0). change (n1 (T := R)) with (IZR 1).
  unfold zentry. cbv zeta. set (D := a * c - b * b) in *. set (X := b * e - c * d). set (Y := a * e - b * d). clearbody D X Y.
  clear - Ha Hc Hd. repeat rlt; reflexivity.
Qed.

(** *** The quotients, stored in an integer array *)
Definition zpar (nd : Z * Z) : Z := if Z.abs (fst nd) <? 1 then 0 else if fst nd =? snd nd then 1 else 0.
Lemma zpar_01 nd : zpar nd = 0 \/ zpar nd = 1.
Proof. unfold zpar. destruct (_ <? _); [auto|]. destruct (_ =? _); auto. Qed.

Lemma f_to_Z_unit x : ffin x -> (0 <= FR x <= 1)%R -> f_to_Z x = if Req_EM_T (FR x) 1 then 1 else 0.
Proof.
  intros F H. unfold f_to_Z. destruct (SF_cases x) as [(_ & E)|[(s & _ & E)|[(s & E & _ & Z)|(s & m & e & E)]]].
  - exfalso. apply ffin_num in F. unfold fnum in F. congruence.
  - exfalso. destruct s; subst x; [exact (ninf_not_fin F)|exact (inf_not_fin F)].
  - rewrite E. destruct (Req_EM_T (FR x) 1) as [Q|Q]; [lra|]. reflexivity.
  - destruct (FR_finite x s m e E) as (_ & V & M). rewrite E. assert (P : (0 < IZR (Z.pos m))%R) by (apply IZR_lt; lia).
    pose proof (Raux.bpow_gt_0 Zaux.radix2 e) as B. assert (PB : (0 < IZR (Z.pos m) * Raux.bpow Zaux.radix2 e)%R) by (apply Rmult_lt_0_compat; assumption).
    destruct s; [exfalso; lra|]. rewrite V in H |- *. rewrite Rmult_1_l in H |- *. destruct (Z.leb_spec 0 e) as [L|L].
    + rewrite bpow_pos_Z in H |- * by exact L. rewrite <- mult_IZR in H |- *. destruct H as [_ H].
      assert (Q : (Z.pos m * 2 ^ e <= 1)%Z) by (apply le_IZR; exact H). assert (0 < 2 ^ e)%Z by (apply Z.pow_pos_nonneg; lia).
      assert (Z.pos m * 2 ^ e = 1)%Z by nia. destruct (Req_EM_T _ 1) as [C|C]; [assumption|]. exfalso. apply C. rewrite H1. reflexivity.
    + rewrite bpow_neg_Z in H |- * by exact L. set (k := (2 ^ (- e))%Z) in *. assert (K : 0 < k) by (apply Z.pow_pos_nonneg; lia).
      assert (K' : (0 < IZR k)%R) by (apply IZR_lt; exact K).
      assert (Q : (Z.pos m <= k)%Z). { apply le_IZR. destruct H as [_ H]. apply (Rmult_le_compat_r (IZR k)) in H; [|lra]. rewrite Rmult_assoc, Rinv_l in H by lra. lra. }
      destruct (Req_EM_T _ 1) as [C|C].
      * assert (IZR (Z.pos m) = IZR k) as C'. { apply (f_equal (fun y => y * IZR k)%R) in C. rewrite Rmult_assoc, Rinv_l in C by lra. lra. }
        apply eq_IZR in C'. rewrite C'. apply Z.div_same. lia.
      * apply Z.div_small. split; [lia|]. destruct (Z.eq_dec (Z.pos m) k) as [D|D]; [|lia]. exfalso. apply C. rewrite D. apply Rinv_r. lra.
Qed.
Lemma to_int64_unit x : ffin x -> (0 <= FR x <= 1)%R -> to_int64 x = if Req_EM_T (FR x) 1 then 1 else 0.
Proof.
  intros F H. unfold to_int64. cbv zeta. destruct (ffin_flags x F) as [-> ->]. rewrite (f_to_Z_unit x F H).
  destruct (Req_EM_T (FR x) 1); reflexivity.
Qed.

Lemma below_1 : ffin 0x1.fffffffffffffp-1%float /\ FR 0x1.fffffffffffffp-1%float = (1 - / 9007199254740992)%R.
Proof.
  split; [reflexivity|]. rewrite FR_SF. change (Prim2SF 0x1.fffffffffffffp-1%float) with (S754_finite false 9007199254740991 (-53)).
  cbn. unfold Defs.F2R. cbn. lra.
Qed.

Lemma gquot_np n d t : ffin t -> (0 < FR t <= 1)%R -> 0 <= n <= d -> d <= 2 ^ 52 ->
  ntrunc (gquot (NF t) (NI n, NI d)) = NI (zpar (n, d)).
Proof.
  intros F T H D. unfold gquot, zpar. cbn [fst snd]. rewrite np_abs by lia. rewrite (np_lt_tol _ t) by (try assumption; lia).
  destruct (Z.ltb_spec (Z.abs n) 1) as [L|L]; cbn [negb]; [reflexivity|].
  change (NI (to_int64 (PrimFloat.div (f_of_Z n) (f_of_Z d))) = NI (if n =? d then 1 else 0)). f_equal.
  destruct (f_of_Z_exact n ltac:(lia)) as (Fn & En). destruct (f_of_Z_exact d ltac:(lia)) as (Fd & Ed).
  assert (Dp : (0 < IZR d)%R) by (apply IZR_lt; lia).
  pose proof (div_rounded _ _ Fn Fd ltac:(lra)) as Q. rewrite En, Ed in Q. set (q := PrimFloat.div _ _) in *.
  destruct (Z.eqb_spec n d) as [<-|Ne].
  - unfold Rdiv in Q. rewrite Rinv_r in Q by lra. rewrite <- FR_1 in Q. destruct (rounded_exact _ _ ffin_1 Q) as (Fq & Eq). rewrite FR_1 in Eq.
    rewrite to_int64_unit by (try assumption; lra). destruct (Req_EM_T _ 1); [reflexivity|lra].
  - destruct below_1 as (Fb & Eb). destruct (rounded_between PrimFloat.zero _ _ q ffin_0 Fb Q) as (Fq & Eq).
    + rewrite FR_0, Eb. assert (N0 : (0 <= IZR n)%R) by (apply IZR_le; lia). assert (N1 : (IZR n <= IZR d - 1)%R) by (rewrite <- minus_IZR; apply IZR_le; lia).
      assert (DB : (IZR d <= 4503599627370496)%R) by (apply IZR_le; lia).
      split; [apply Rmult_le_pos; [exact N0|left; apply Rinv_0_lt_compat; exact Dp]|].
      apply (Rmult_le_reg_r (IZR d)); [exact Dp|]. unfold Rdiv. rewrite Rmult_assoc, Rinv_l by lra. lra.
    + rewrite FR_0, Eb in Eq. rewrite to_int64_unit by (try assumption; lra). destruct (Req_EM_T _ 1); [lra|reflexivity].
Qed.
Lemma gquot_R n d t : (0 < t <= 1)%R -> 0 <= n <= d -> ntrunc (gquot t (IZR n, IZR d)) = IZR (zpar (n, d)).
Proof.
  intros T H. unfold gquot, zpar. cbn [fst snd]. change (nabs (IZR n)) with (Rabs (IZR n)). rewrite <- abs_IZR.
  change (nltb (IZR (Z.abs n)) t) with (Rltb (IZR (Z.abs n)) t). rewrite (r_lt_tol _ t T).
  destruct (Z.ltb_spec (Z.abs n) 1) as [L|L]; cbn [negb].
  - destruct (trunc_unit 0) as [[_ E]|[E _]]; [lra|exact E|lra].
  - assert (Dp : (0 < IZR d)%R) by (apply IZR_lt; lia). assert (N0 : (0 <= IZR n)%R) by (apply IZR_le; lia). assert (N1 : (IZR n <= IZR d)%R) by (apply IZR_le; lia).
    change (ndiv (IZR n) (IZR d)) with (IZR n / IZR d)%R.
    assert (B : (0 <= IZR n / IZR d <= 1)%R).
    { split; [apply Rmult_le_pos; [exact N0|left; apply Rinv_0_lt_compat; exact Dp]|]. apply (Rmult_le_reg_r (IZR d)); [exact Dp|]. unfold Rdiv. rewrite Rmult_assoc, Rinv_l by lra. lra. }
    destruct (trunc_unit _ B) as [[C ->]|[C ->]]; destruct (Z.eqb_spec n d) as [Q|Q]; try reflexivity; exfalso.
    + subst d. unfold Rdiv in C. rewrite Rinv_r in C by lra. lra.
    + apply (f_equal (fun y => y * IZR d)%R) in C. unfold Rdiv in C. rewrite Rmult_assoc, Rinv_l in C by lra. apply Q, eq_IZR. lra.
Qed.

(** *** Vectors *)
Definition zsub (p q : list Z) : list Z := map2 Z.sub p q.
Definition zdot (u v : list Z) : Z := fold_right Z.add 0 (map2 Z.mul u v).
Definition zmove (p u : list Z) (k : Z) : list Z := map2 Z.add p (map (fun x => x * k) u).
Definition within_box (n : nat) (B : Z) (p : list Z) : Prop := length p = n /\ forall x, In x p -> Z.abs x <= B.

Lemma box_nil B : within_box 0 B []. Proof. split; [reflexivity|intros x []]. Qed.
Lemma box_inv n B a p : within_box n B (a :: p) -> exists m, n = S m /\ Z.abs a <= B /\ within_box m B p.
Proof. intros [L H]. cbn in L. exists (length p). split; [lia|]. split; [apply H; left; reflexivity|]. split; [reflexivity|]. intros x Hx. apply H. right. exact Hx. Qed.
Lemma box_cons n B a p : Z.abs a <= B -> within_box n B p -> within_box (S n) B (a :: p).
Proof. intros A [L H]. split; [cbn; lia|]. intros x [<-|Hx]; auto. Qed.
Lemma zsub_box n B p q : within_box n B p -> within_box n B q -> within_box n (2 * B) (zsub p q).
Proof.
  revert n q. induction p as [|a p IH]; intros n q Hp Hq.
  - destruct Hp as [<- _]. apply box_nil.
  - apply box_inv in Hp as (m & -> & A & Hp). destruct q as [|b q]; [destruct Hq as [L _]; cbn in L; lia|]. apply box_inv in Hq as (m' & E & A' & Hq).
    injection E as <-. cbn [zsub map2]. apply box_cons; [lia|]. apply IH; assumption.
Qed.
Lemma zmove_box n B p u k : within_box n B p -> within_box n (2 * B) u -> k = 0 \/ k = 1 -> within_box n (3 * B) (zmove p u k).
Proof.
  revert n u. induction p as [|a p IH]; intros n u Hp Hu Hk.
  - destruct Hp as [<- _]. apply box_nil.
  - apply box_inv in Hp as (m & -> & A & Hp). destruct u as [|b u]; [destruct Hu as [L _]; cbn in L; lia|]. apply box_inv in Hu as (m' & E & A' & Hu).
    injection E as <-. cbn [zmove map map2]. apply box_cons; [destruct Hk as [-> | ->]; lia|]. apply IH; assumption.
Qed.
Lemma zdot_bound n M u v : 0 <= M -> within_box n M u -> within_box n M v -> Z.abs (zdot u v) <= Z.of_nat n * (M * M).
Proof.
  intros HM. revert n v. induction u as [|a u IH]; intros n v Hu Hv.
  - destruct Hu as [<- _]. cbn. lia.
  - apply box_inv in Hu as (m & -> & A & Hu). destruct v as [|b v]; [destruct Hv as [L _]; cbn in L; lia|]. apply box_inv in Hv as (m' & E & A' & Hv).
    injection E as <-. specialize (IH m v Hu Hv). unfold zdot in *. cbn [map2 fold_right]. rewrite Nat2Z.inj_succ.
    assert (Z.abs (a * b) <= M * M) by (rewrite Z.abs_mul; nia). lia.
Qed.
Lemma zdot_self u : 0 <= zdot u u.
Proof. induction u as [|a u IH]; unfold zdot in *; cbn [map2 fold_right]; [apply Z.le_refl|]. pose proof (Z.square_nonneg a). lia. Qed.

Lemma np_vsub n B p q : 0 <= B < 2 ^ 60 -> within_box n B p -> within_box n B q -> vsub (map NI p) (map NI q) = map NI (zsub p q).
Proof.
  intros HB. revert n q. induction p as [|a p IH]; intros n q Hp Hq; [reflexivity|].
  apply box_inv in Hp as (m & -> & A & Hp). destruct q as [|b q]; [reflexivity|]. apply box_inv in Hq as (m' & E & A' & Hq). injection E as <-.
  cbn [map]. unfold vsub in *. cbn [map2 zsub map]. rewrite (IH m q Hp Hq), np_sub by lia. reflexivity.
Qed.
Lemma r_vsub p q : vsub (map IZR p) (map IZR q) = map IZR (zsub p q).
Proof.
  revert q. induction p as [|a p IH]; intros [|b q]; try reflexivity. unfold vsub in *. cbn [map map2 zsub]. rewrite IH. cbn [map]. f_equal.
  symmetry. apply minus_IZR.
Qed.
Lemma np_vdot n M u v : 0 <= M -> within_box n M u -> within_box n M v -> Z.of_nat n * (M * M) < 2 ^ 62 -> vdot (map NI u) (map NI v) = NI (zdot u v).
Proof.
  intros HM. revert n v. induction u as [|a u IH]; intros n v Hu Hv H; [reflexivity|]. pose proof (zdot_bound n M (a :: u) v HM Hu Hv) as TB.
  apply box_inv in Hu as (m & -> & A & Hu). destruct v as [|b v]; [destruct Hv as [L _]; cbn in L; lia|]. apply box_inv in Hv as (m' & E & A' & Hv). injection E as <-.
  rewrite Nat2Z.inj_succ in *.
  unfold vdot, vsum, zdot in *. cbn [map map2 fold_right] in *. rewrite (IH m v Hu Hv) by nia. rewrite np_small_ops by (rewrite Z.abs_mul; nia). apply np_add. lia.
Qed.
Lemma r_vdot u v : vdot (map IZR u) (map IZR v) = IZR (zdot u v).
Proof.
  revert v. induction u as [|a u IH]; intros [|b v]; try reflexivity. unfold vdot, vsum, zdot in *. cbn [map map2 fold_right]. rewrite IH.
  rewrite plus_IZR, mult_IZR. reflexivity.
Qed.
Lemma np_move n B p u k : 0 <= B < 2 ^ 60 -> within_box n B p -> within_box n (2 * B) u -> k = 0 \/ k = 1 ->
  vadd (map NI p) (vscale (map NI u) (NI k)) = map NI (zmove p u k).
Proof.
  intros HB. revert n u. induction p as [|a p IH]; intros n u Hp Hu Hk; [reflexivity|].
  apply box_inv in Hp as (m & -> & A & Hp). destruct u as [|b u]; [reflexivity|]. apply box_inv in Hu as (m' & E & A' & Hu). injection E as <-.
  unfold vadd, vscale, zmove in *. cbn [map map2]. rewrite (IH m u Hp Hu Hk). cbn [map]. f_equal.
  rewrite np_small_ops by (destruct Hk as [-> | ->]; lia). apply np_add. destruct Hk as [-> | ->]; lia.
Qed.
Lemma r_move p u k : vadd (map IZR p) (vscale (map IZR u) (IZR k)) = map IZR (zmove p u k).
Proof.
  revert u. induction p as [|a p IH]; intros [|b u]; try reflexivity. unfold vadd, vscale, zmove in *. cbn [map map2]. rewrite IH. cbn [map]. f_equal.
  rewrite plus_IZR, mult_IZR. reflexivity.
Qed.

(** *** The end points of the connecting segments *)
Definition int_rows {T} (f : Z -> T) (rows : list (list Z)) : list (list T) := map (map f) rows.
Lemma nth_int_rows {T} (f : Z -> T) rows i : nth i (int_rows f rows) [] = map f (nth i rows []).
Proof. unfold int_rows. change (@nil T) with (map f []) at 1. apply map_nth. Qed.

Lemma points_agree n B rows1 rows2 t t' i j : 0 <= B -> Z.of_nat n * (B * B) <= 2 ^ 24 -> (0 < n)%nat ->
  (forall r, In r rows1 -> within_box n B r) -> (forall r, In r rows2 -> within_box n B r) ->
  ffin t -> (0 < FR t <= 1)%R -> (0 < t' <= 1)%R -> (S i < length rows1)%nat -> (S j < length rows2)%nat ->
  exists P Q, within_box n (3 * B) P /\ within_box n (3 * B) Q /\
    segments_points DInt (int_rows NI rows1) (int_rows NI rows2) (NF t) i j = (map NI P, map NI Q) /\
    segments_points DInt (int_rows IZR rows1) (int_rows IZR rows2) t' i j = (map IZR P, map IZR Q).
Proof.
  intros HB HN Hn D1 D2 F T T' Hi Hj.
  assert (BB : B <= 2 ^ 12) by nia.
  set (p := nth i rows1 []). set (p' := nth (S i) rows1 []). set (q := nth j rows2 []). set (q' := nth (S j) rows2 []).
  assert (Hp : within_box n B p) by (apply D1, nth_In; lia). assert (Hp' : within_box n B p') by (apply D1, nth_In; lia).
  assert (Hq : within_box n B q) by (apply D2, nth_In; lia). assert (Hq' : within_box n B q') by (apply D2, nth_In; lia).
  set (u := zsub p' p). set (v := zsub q' q). set (w := zsub p q).
  assert (Hu : within_box n (2 * B) u) by (apply zsub_box; assumption). assert (Hv : within_box n (2 * B) v) by (apply zsub_box; assumption).
  assert (Hw : within_box n (2 * B) w) by (apply zsub_box; assumption).
  assert (SM : Z.of_nat n * (2 * B * (2 * B)) <= 2 ^ 26) by nia.
  assert (BD : forall x y, within_box n (2 * B) x -> within_box n (2 * B) y -> Z.abs (zdot x y) <= 2 ^ 26).
  { intros x y Hx Hy. pose proof (zdot_bound n (2 * B) x y ltac:(lia) Hx Hy). lia. }
  assert (DD : 0 <= zdot u u * zdot v v - zdot u v * zdot u v).
  { assert (L : length (map IZR u) = length (map IZR v)) by (rewrite !map_length; destruct Hu as [-> _], Hv as [-> _]; reflexivity).
    pose proof (cauchy_schwarz (map IZR u) (map IZR v) L) as C. rewrite !r_vdot, <- !mult_IZR in C. apply le_IZR in C. lia. }
  set (z := zentry (zdot u u) (zdot u v) (zdot v v) (zdot u w) (zdot v w)).
  pose proof (zentry_bounds (zdot u u) (zdot u v) (zdot v v) (zdot u w) (zdot v w) (2 ^ 52)) as ZB. fold z in ZB.
  pose proof (BD u u Hu Hu) as B1. pose proof (BD u v Hu Hv) as B2. pose proof (BD v v Hv Hv) as B3. pose proof (BD u w Hu Hw) as B4. pose proof (BD v w Hv Hw) as B5.
  pose proof (zdot_self u) as A1. pose proof (zdot_self v) as A2.
  specialize (ZB ltac:(lia) ltac:(lia)). specialize (ZB ltac:(split; [exact DD|]; clear - A1 A2 B1 B3; pose proof (Z.square_nonneg (zdot u v)); nia) ltac:(lia)).
  destruct z as [[sn sd] [tn td]] eqn:EZ. destruct ZB as (S1 & S2 & S3 & S4).
  pose proof (zpar_01 (sn, sd)) as K1. pose proof (zpar_01 (tn, td)) as K2.
  exists (zmove p u (zpar (sn, sd))), (zmove q v (zpar (tn, td))).
  split; [apply zmove_box; assumption|]. split; [apply zmove_box; assumption|]. split.
  - unfold segments_points. pose proof (params_entry (int_rows NI rows1) (int_rows NI rows2) (NF t) i j) as (E1 & E2).
    destruct (segments_params (int_rows NI rows1) (int_rows NI rows2) (NF t)) as [t1 t2]. cbn [fst snd] in E1, E2.
    unfold row_dir in *. rewrite !nth_int_rows in *. fold p p' q q' in E1, E2 |- *.
    rewrite (np_vsub n B p' p), (np_vsub n B q' q), (np_vsub n B p q) in E1, E2 by (try assumption; lia). rewrite (np_vsub n B p' p), (np_vsub n B q' q) by (try assumption; lia).
    fold u v w in E1, E2 |- *.
    rewrite (np_vdot n (2 * B) u u), (np_vdot n (2 * B) u v), (np_vdot n (2 * B) v v), (np_vdot n (2 * B) u w), (np_vdot n (2 * B) v w) in E1, E2 by (try assumption; lia).
    rewrite gentry_np in E1, E2 by (try assumption; lia). fold z in E1, E2. rewrite EZ in E1, E2. unfold lift in E1, E2. cbn [fst snd] in E1, E2.
    cbn [cast]. rewrite E1, E2. rewrite !gquot_np by (try assumption; lia). rewrite (np_move n B p u), (np_move n B q v) by (try assumption; lia). reflexivity.
  - unfold segments_points. pose proof (params_entry (int_rows IZR rows1) (int_rows IZR rows2) t' i j) as (E1 & E2).
    destruct (segments_params (int_rows IZR rows1) (int_rows IZR rows2) t') as [t1 t2]. cbn [fst snd] in E1, E2.
    unfold row_dir in *. rewrite !nth_int_rows in *. fold p p' q q' in E1, E2 |- *.
    rewrite (r_vsub p' p), (r_vsub q' q), (r_vsub p q) in E1, E2. rewrite (r_vsub p' p), (r_vsub q' q). fold u v w in E1, E2 |- *. rewrite !r_vdot in E1, E2.
    rewrite gentry_R in E1, E2 by (try assumption; lia). fold z in E1, E2. rewrite EZ in E1, E2. unfold lift in E1, E2. cbn [fst snd] in E1, E2.
    cbn [cast]. rewrite E1, E2. rewrite !gquot_R by (try assumption; lia). rewrite !r_move. reflexivity.
Qed.

(** *** The pairs found *)
Lemma indices_ext m1 m2 (m m' : nat -> nat -> bool) self : (forall i j, (i < m1)%nat -> (j < m2)%nat -> m i j = m' i j) ->
  curves_intersect_indices m1 m2 m self = curves_intersect_indices m1 m2 m' self.
Proof.
  intros H. unfold curves_intersect_indices.
  assert (E : forall k k' : nat -> nat -> bool, (forall i j, (i < m1)%nat -> (j < m2)%nat -> k i j = k' i j) ->
    flat_map (fun i => map (fun j => (i, j)) (filter (k i) (seq 0 m2))) (seq 0 m1) = flat_map (fun i => map (fun j => (i, j)) (filter (k' i) (seq 0 m2))) (seq 0 m1)).
  { intros k k' K. rewrite !flat_map_concat_map. f_equal. apply map_ext_in. intros i Hi. apply in_seq in Hi. f_equal. apply filter_ext_in.
    intros j Hj. apply in_seq in Hj. apply K; lia. }
  destruct self; [f_equal|]; apply E; [|exact H]. intros i j Hi Hj. rewrite (H i j Hi Hj). reflexivity.
Qed.

Lemma np_vdist n B P Q : 0 <= B < 2 ^ 28 -> within_box n B P -> within_box n B Q -> Z.of_nat n * (2 * B * (2 * B)) < 2 ^ 62 ->
  vdist (map NI P) (map NI Q) = NF (PrimFloat.sqrt (f_of_Z (zdot (zsub P Q) (zsub P Q)))).
Proof.
  intros HB HP HQ HN. unfold vdist, vnorm. rewrite (np_vsub n B P Q) by (try assumption; lia).
  rewrite (np_vdot n (2 * B)); [reflexivity|lia| | |exact HN]; apply zsub_box; assumption.
Qed.
Lemma r_vdist P Q : vdist (map IZR P) (map IZR Q) = sqrt (IZR (zdot (zsub P Q) (zsub P Q))).
Proof. unfold vdist, vnorm. rewrite r_vsub, r_vdot. reflexivity. Qed.
Lemma near_np n B P Q t : 0 <= B < 2 ^ 28 -> within_box n B P -> within_box n B Q -> Z.of_nat n * (2 * B * (2 * B)) < 2 ^ 62 ->
  ffin t -> (0 < FR t <= 1)%R -> nltb (vdist (map NI P) (map NI Q)) (NF t) = (zdot (zsub P Q) (zsub P Q) =? 0).
Proof.
  intros HB HP HQ HN F T. rewrite (np_vdist n B) by assumption. set (g := zdot _ _).
  assert (G : 0 <= g < 2 ^ 63).
  { split; [apply zdot_self|]. pose proof (zdot_bound n (2 * B) (zsub P Q) (zsub P Q) ltac:(lia) (zsub_box _ _ _ _ HP HQ) (zsub_box _ _ _ _ HP HQ)). fold g in H. lia. }
  destruct (sqrt_of_Z g G) as (Fx & _ & X0 & X1). set (x := PrimFloat.sqrt _) in *. change (PrimFloat.ltb x t = (g =? 0)).
  destruct (Z.eqb_spec g 0) as [E|E].
  - apply (ltb_R x t Fx F). rewrite (X0 E). lra.
  - apply not_true_is_false. intros C. apply (ltb_R x t Fx F) in C. specialize (X1 ltac:(lia)). lra.
Qed.
Lemma near_R P Q t : (0 < t <= 1)%R -> nltb (vdist (map IZR P) (map IZR Q)) t = (zdot (zsub P Q) (zsub P Q) =? 0).
Proof.
  intros T. rewrite r_vdist. set (g := zdot _ _). assert (G : 0 <= g) by apply zdot_self. change (Rltb (sqrt (IZR g)) t = (g =? 0)).
  destruct (Z.eqb_spec g 0) as [E|E].
  - apply Rltb_iff. rewrite E, sqrt_0. lra.
  - apply not_true_is_false. intros C. apply Rltb_iff in C. assert (1 <= sqrt (IZR g))%R; [|lra].
    rewrite <- sqrt_1. apply sqrt_le_1; [lra|apply IZR_le; lia|apply IZR_le; lia].
Qed.

(** The results at the two kinds of numbers. *)
Definition int_curve_of {T} (f : Z -> T) (rows : list (list Z)) (n : nat) (t : option (list T)) : curve T := mkCurve (int_rows f rows) n DInt t.
Definition same_pair (rows1 rows2 : list (list Z)) (x : inter npnum) (y : inter R) : Prop :=
  exists i j P Q, (S i < length rows1)%nat /\ (S j < length rows2)%nat /\
    in_seg1 x = SegOf true (Z.of_nat i) (mkSeg (map NI (nth i rows1 [])) (map NI (nth (S i) rows1 []))) /\
    in_seg2 x = SegOf false (Z.of_nat j) (mkSeg (map NI (nth j rows2 [])) (map NI (nth (S j) rows2 []))) /\
    in_info x = mkInfo (IDSegment (mkSeg (map NI P) (map NI Q))) IAlmost /\
    in_seg1 y = SegOf true (Z.of_nat i) (mkSeg (map IZR (nth i rows1 [])) (map IZR (nth (S i) rows1 []))) /\
    in_seg2 y = SegOf false (Z.of_nat j) (mkSeg (map IZR (nth j rows2 [])) (map IZR (nth (S j) rows2 []))) /\
    in_info y = mkInfo (IDSegment (mkSeg (map IZR P) (map IZR Q))) IAlmost.

Lemma eps_np : (f_eps : npnum) = NF (fq 1 4503599627370496). Proof. reflexivity. Qed.
Lemma eps_fin : ffin (fq 1 4503599627370496) /\ (0 < FR (fq 1 4503599627370496) <= 1)%R.
Proof.
  split; [reflexivity|]. assert (F : ffin (fq 1 4503599627370496)) by reflexivity. split.
  - rewrite <- FR_0. apply (ltb_R PrimFloat.zero _ ffin_0 F). reflexivity.
  - rewrite <- FR_1. apply (leb_R _ PrimFloat.one F ffin_1). reflexivity.
Qed.

Lemma almost_agree n B rows1 rows2 t1 t2 t1' t2' (pr : almost_params npnum) (pr' : almost_params R) order order' same tol :
  0 <= B -> Z.of_nat n * (B * B) <= 2 ^ 24 -> (0 < n)%nat ->
  (forall r, In r rows1 -> within_box n B r) -> (forall r, In r rows2 -> within_box n B r) ->
  al_dist_tol pr = NF tol -> ffin tol -> (0 < FR tol <= 1)%R -> (0 < al_dist_tol pr' <= 1)%R ->
  al_remove_extra pr = false -> al_correct_overlap pr = false -> al_remove_extra pr' = false -> al_correct_overlap pr' = false ->
  exists l l', almost_curves pr order (int_curve_of NI rows1 n t1) (int_curve_of NI rows2 n t2) same = Ok l /\
    almost_curves pr' order' (int_curve_of IZR rows1 n t1') (int_curve_of IZR rows2 n t2') same = Ok l' /\
    Forall2 (same_pair rows1 rows2) l l'.
Proof.
  intros HB HN Hn D1 D2 ET F T T' R1 C1 R2 C2. rewrite !almost_curves_eq. cbv zeta. rewrite R1, C1, R2, C2, ET.
  cbn [c_dtype int_curve_of promote c_rows c_size]. unfold c_size. cbn [c_rows int_curve_of].
  set (np := segments_points DInt (int_rows NI rows1) (int_rows NI rows2) f_eps).
  set (rp := segments_points DInt (int_rows IZR rows1) (int_rows IZR rows2) f_eps).
  assert (PA : forall i j, (S i < length rows1)%nat -> (S j < length rows2)%nat -> exists P Q,
    within_box n (3 * B) P /\ within_box n (3 * B) Q /\ np i j = (map NI P, map NI Q) /\ rp i j = (map IZR P, map IZR Q)).
  { intros i j Hi Hj. apply points_agree; try assumption; try (rewrite f_eps_R; lra); apply eps_fin. }
  assert (BB : B <= 2 ^ 12) by nia.
  assert (L : forall T (f : Z -> T) rows, length (int_rows f rows) = length rows) by (intros; apply map_length). rewrite !L.
  rewrite (indices_ext _ _ (fun i j => nltb (vdist (fst (np i j)) (snd (np i j))) (NF tol)) (fun i j => nltb (vdist (fst (rp i j)) (snd (rp i j))) (al_dist_tol pr'))).
  2:{ intros i j Hi Hj. destruct (PA i j ltac:(lia) ltac:(lia)) as (P & Q & HP & HQ & -> & ->). cbn [fst snd].
      rewrite (near_np n (3 * B)) by (try assumption; nia). rewrite near_R by assumption. reflexivity. }
  set (prs := curves_intersect_indices _ _ _ _).
  assert (IP : forall i j, In (i, j) prs -> (S i < length rows1)%nat /\ (S j < length rows2)%nat) by (intros i j H; apply indices_In in H; lia).
  clearbody prs.
  set (c1 := int_curve_of NI rows1 n t1). set (c2 := int_curve_of NI rows2 n t2). set (c1' := int_curve_of IZR rows1 n t1'). set (c2' := int_curve_of IZR rows2 n t2').
  set (g := fun ij => pair_inter c1 c2 (mkInfo (IDSegment (mkSeg (fst (np (fst ij) (snd ij))) (snd (np (fst ij) (snd ij))))) IAlmost) ij).
  set (g' := fun ij => pair_inter c1' c2' (mkInfo (IDSegment (mkSeg (fst (rp (fst ij) (snd ij))) (snd (rp (fst ij) (snd ij))))) IAlmost) ij).
  match goal with |- context [rseq (map ?f prs)] => assert (E1 : rseq (map f prs) = Ok (map g prs)) end.
  { apply rseq_map_ok. intros (i & j) H. unfold g. cbn [fst snd]. destruct (IP i j H) as [Hi Hj]. destruct (PA i j Hi Hj) as (P & Q & [HP _] & [HQ _] & -> & _).
    cbn [fst snd]. unfold mk_segment. rewrite !map_length, HP, HQ, Nat.eqb_refl. destruct (Nat.eqb_spec n 0); [lia|]. reflexivity. }
  rewrite E1. clear E1.
  match goal with |- context [rseq (map ?f prs)] => assert (E2 : rseq (map f prs) = Ok (map g' prs)) end.
  { apply rseq_map_ok. intros (i & j) H. unfold g'. cbn [fst snd]. destruct (IP i j H) as [Hi Hj]. destruct (PA i j Hi Hj) as (P & Q & [HP _] & [HQ _] & _ & ->).
    cbn [fst snd]. unfold mk_segment. rewrite !map_length, HP, HQ, Nat.eqb_refl. destruct (Nat.eqb_spec n 0); [lia|]. reflexivity. }
  rewrite E2. clear E2. cbn [rbind].
  exists (map g prs), (map g' prs). split; [destruct prs; reflexivity|]. split; [destruct prs; reflexivity|].
  assert (SP : forall ij, In ij prs -> same_pair rows1 rows2 (g ij) (g' ij)).
  { intros (i & j) H. destruct (IP i j H) as [Hi Hj]. destruct (PA i j Hi Hj) as (P & Q & _ & _ & EN & ER).
    exists i, j, P, Q. unfold g, g', pair_inter, seg_at, c1, c2, c1', c2'. cbn [fst snd in_seg1 in_seg2 in_info int_curve_of c_rows].
    rewrite EN, ER. cbn [fst snd]. rewrite !nth_int_rows. repeat split; assumption. }
  clear - SP. induction prs as [|ij prs IH]; cbn [map]; constructor; [apply SP; left; reflexivity|]. apply IH. intros x Hx. apply SP. right. exact Hx.
Qed.
