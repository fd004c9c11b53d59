(** Smoothing splines: elimination, the linear system, the smoothing function. *)
From Coq Require Import ZArith String List Bool Arith Lia Reals Lra Psatz.
From Verif Require Import Num Py Numeric Curve Vec Geom DiffGeom Intersect Registry Interp Splines Splines2 Csaps Spec GeomSpec.
From Verif Require Import ListFacts VecFacts CurveProofs3 GeomProofs GeomProofs2 DiffGeomProofs2 InterpProofs InterpProofs2 InterpProofs3.
From Verif Require Import SplineProofs SplineProofs2 SplineProofs3 SplineProofs4 SplineProofs5 SplineProofs6.
Import ListNotations.
Local Open Scope list_scope.
Local Open Scope R_scope.

(** ** Gauss elimination *)

(** The quadratic form of the coefficients is positive. *)
Definition pos_def (k : nat) (rows : list (list R)) : Prop :=
  forall x, length x = k -> (exists i, (i < k)%nat /\ nth i x 0 <> 0) -> 0 < vdot x (map (fun r => vdot r x) rows).

Lemma vdot_cons_map (c p : R) q' r (z : list R) : length q' = length r -> p <> 0 ->
  vdot (map2 (fun a b => a - c / p * b) q' r) z = vdot q' z - c / p * vdot r z.
Proof.
  intros L Np. revert r z L. induction q' as [|a q IH]; intros [|b r] z L; try discriminate L.
  - cbn. ring.
  - destruct z as [|w z]; [cbn; ring|]. cbn [map2]. rewrite !vdot_cons, IH by (cbn in L; lia). ring.
Qed.

Definition rsub (p : R) (r q : list R) : list R := match q with [] => [] | c :: q' => map2 (fun a b => a - c / p * b) q' r end.

Lemma pos_def_pivot k p r rest : pos_def (S k) ((p :: r) :: rest) -> 0 < p.
Proof.
  intros H. specialize (H (1 :: repeat 0 k)). rewrite <- (Rmult_1_r p).
  assert (K : vdot (1 :: repeat 0 k) (map (fun r => vdot r (1 :: repeat 0 k)) ((p :: r) :: rest)) = p * 1).
  { cbn [map]. rewrite !vdot_cons, vdot_zero_l, vdot_zero_r. ring. }
  rewrite <- K. apply H; [cbn; rewrite repeat_length; reflexivity|]. exists 0%nat. cbn. split; [lia|lra].
Qed.

Lemma rsub_vdot k p r q z : length r = S k -> length q = S (S k) -> p <> 0 ->
  vdot (rsub p r q) z = vdot q ((- (vdot r z / p)) :: z).
Proof.
  intros Lr Lq Np. destruct q as [|c q]; [discriminate|]. cbn [rsub]. rewrite vdot_cons_map by (try assumption; cbn in Lq; lia).
  rewrite vdot_cons. field. assumption.
Qed.

Lemma pos_def_sub k p r rest : length r = S k -> (forall q, In q rest -> length q = S (S k)) ->
  pos_def (S k) ((p :: r) :: rest) -> pos_def k (map (rsub p r) rest).
Proof.
  intros Lr Lq H z Lz (i & Hi & Ni). assert (P := pos_def_pivot _ _ _ _ H).
  assert (E : vdot z (map (fun r => vdot r z) (map (rsub p r) rest)) =
              vdot ((- (vdot r z / p)) :: z) (map (fun q => vdot q ((- (vdot r z / p)) :: z)) ((p :: r) :: rest))).
  { cbn [map]. rewrite (vdot_cons (- (vdot r z / p))). rewrite (vdot_cons p).
    replace (- (vdot r z / p) * (p * - (vdot r z / p) + vdot r z)) with 0 by (field; lra). rewrite Rplus_0_l. f_equal.
    rewrite map_map. apply map_ext_in. intros q Hq. apply (rsub_vdot k); auto. lra. }
  rewrite E. apply H; [cbn; congruence|]. exists (S i). split; [lia|assumption].
Qed.

Theorem gauss_ok k : forall rows, length rows = k -> (forall r, In r rows -> length r = S k) -> pos_def k rows ->
  length (gauss k rows) = k /\ forall r, In r rows -> vdot r (gauss k rows) = nth k r 0.
Proof.
  induction k as [|k IH]; intros rows Lr Lq H.
  - destruct rows; [|discriminate]. split; [reflexivity|]. intros r [].
  - destruct rows as [|r0 rest]; [discriminate|]. assert (L0 := Lq r0 (or_introl eq_refl)).
    destruct r0 as [|p r]; [discriminate|]. cbn [gauss]. change (map _ rest) with (map (rsub p r) rest).
    assert (Np := pos_def_pivot _ _ _ _ H).
    destruct (IH (map (rsub p r) rest)) as [La Hs].
    + rewrite map_length. cbn in Lr. lia.
    + intros q' Hq. apply in_map_iff in Hq as (q & <- & Hq). specialize (Lq q (or_intror Hq)). destruct q as [|c q]; [discriminate|].
      cbn [rsub]. rewrite map2_length. cbn in Lq, L0. lia.
    + apply pos_def_sub; [cbn in L0; lia|intros; apply Lq; right; assumption|assumption].
    + set (sol := gauss k (map (rsub p r) rest)) in *. split; [cbn [length]; lia|].
      intros q [<-|Hq].
      * rewrite vdot_cons. cbn [nth]. rnum. field. lra.
      * assert (E := Hs (rsub p r q) (in_map _ _ _ Hq)). assert (L1 := Lq q (or_intror Hq)).
        rewrite (rsub_vdot k) in E by (try assumption; cbn in L0; try lia; lra).
        destruct q as [|c q]; [discriminate|]. cbn [rsub nth] in E |- *. rewrite vdot_cons in E |- *.
        rewrite (nth_map2 _ q r k 0 0 0) in E by (cbn in L0, L1; lia). rnum.
        assert (E' : vdot q sol = nth k q 0 - c / p * nth k r 0 + c * (vdot r sol / p)) by lra.
        rewrite E'. field. lra.
Qed.

Theorem gauss_unique k rows x : length rows = k -> (forall r, In r rows -> length r = S k) -> pos_def k rows ->
  length x = k -> (forall r, In r rows -> vdot r x = nth k r 0) -> x = gauss k rows.
Proof.
  intros Lr Lq H Lx Hx. destruct (gauss_ok k rows Lr Lq H) as [Lg Hg]. set (g := gauss k rows) in *.
  apply vec_ext; [congruence|]. intros i. destruct (Nat.lt_ge_cases i k) as [Hi|Hi]; [|rewrite !nth_overflow by lia; reflexivity].
  destruct (Req_dec (nth i x 0) (nth i g 0)) as [|N]; [assumption|exfalso].
  assert (P : 0 < vdot (vsub x g) (map (fun r => vdot r (vsub x g)) rows)).
  { apply H; [unfold vsub; rewrite map2_length; lia|]. exists i. split; [assumption|]. unfold vsub. rewrite (nth_map2 _ x g i 0 0 0) by lia. rnum. lra. }
  assert (E : map (fun r => vdot r (vsub x g)) rows = repeat 0 (length rows)).
  { clearbody g. clear - Hx Hg Lx Lg. induction rows as [|r l IH]; [reflexivity|]. cbn [map length repeat]. f_equal.
    2:{ apply IH; intros; [apply Hx|apply Hg]; right; assumption. }
    assert (Hr : In r (r :: l)) by (left; reflexivity). rewrite vdot_sub_r by congruence. rewrite Hx, Hg by assumption. ring. }
  rewrite E, vdot_zero_r in P. lra.
Qed.

(** ** Sums *)

Fixpoint bsum (f : nat -> R) (n : nat) : R := match n with O => 0 | S m => bsum f m + f m end.

Lemma bsum_ext f g n : (forall i, (i < n)%nat -> f i = g i) -> bsum f n = bsum g n.
Proof. intros H. induction n as [|n IH]; cbn [bsum]; [reflexivity|]. rewrite IH, H by (intros; try apply H; lia). reflexivity. Qed.
Lemma bsum_plus f g n : bsum (fun i => f i + g i) n = bsum f n + bsum g n.
Proof. induction n as [|n IH]; cbn [bsum]; [ring|]. rewrite IH. ring. Qed.
Lemma bsum_scal s f n : bsum (fun i => s * f i) n = s * bsum f n.
Proof. induction n as [|n IH]; cbn [bsum]; [ring|]. rewrite IH. ring. Qed.
Lemma bsum_zero n : bsum (fun _ => 0) n = 0.
Proof. induction n as [|n IH]; cbn [bsum]; [reflexivity|]. rewrite IH. ring. Qed.
Lemma bsum_swap f n m : bsum (fun i => bsum (fun j => f i j) m) n = bsum (fun j => bsum (fun i => f i j) n) m.
Proof.
  induction n as [|n IH]; cbn [bsum]; [symmetry; apply bsum_zero|]. rewrite IH, <- bsum_plus. reflexivity.
Qed.
Lemma bsum_nonneg f n : (forall i, (i < n)%nat -> 0 <= f i) -> 0 <= bsum f n.
Proof. intros H. induction n as [|n IH]; cbn [bsum]; [lra|]. pose proof (IH ltac:(intros; apply H; lia)). pose proof (H n ltac:(lia)). lra. Qed.
Lemma bsum_pos f n i : (forall i, (i < n)%nat -> 0 <= f i) -> (i < n)%nat -> 0 < f i -> 0 < bsum f n.
Proof.
  intros H Hi P. induction n as [|n IH]; [lia|]. cbn [bsum]. pose proof (H n ltac:(lia)).
  assert (N := bsum_nonneg f n ltac:(intros; apply H; lia)).
  destruct (Nat.eq_dec i n) as [->|]; [lra|]. pose proof (IH ltac:(intros; apply H; lia) ltac:(lia)). lra.
Qed.
(** A sum with one term. *)
Lemma bsum_one c F a n : bsum (fun l => (if Nat.eqb l a then c else 0) * F l) n = if Nat.ltb a n then c * F a else 0.
Proof.
  induction n as [|n IH]; cbn [bsum]; [reflexivity|]. rewrite IH.
  destruct (Nat.eqb_spec n a) as [->|N].
  - rewrite (proj2 (Nat.ltb_ge a a)) by lia. rewrite (proj2 (Nat.ltb_lt a (S a))) by lia. ring.
  - destruct (Nat.ltb_spec a n), (Nat.ltb_spec a (S n)); try lia; ring.
Qed.

Lemma vdot_seq f (x : list R) n : vdot (map f (seq 0 n)) x = bsum (fun i => f i * nth i x 0) (Nat.min n (length x)).
Proof.
  revert x f. induction n as [|n IH]; intros [|a x] f; try reflexivity. cbn [seq map length Nat.min]. rewrite vdot_cons, <- seq_shift, map_map, IH.
  generalize (Nat.min n (length x)). intros m. induction m as [|m IHm]; cbn [bsum nth] in *; [ring|]. rewrite <- Rplus_assoc, IHm. reflexivity.
Qed.
Lemma vdot_app_one (r : list R) b x : (length x <= length r)%nat -> vdot (r ++ [b]) x = vdot r x.
Proof.
  revert x. induction r as [|a r IH]; intros [|w x] L; cbn [app] in *; try (cbn in L; lia); try (cbn; reflexivity).
  rewrite !vdot_cons, IH by (cbn in L; lia). reflexivity.
Qed.
Lemma vsum_app_one (l : list R) a : vsum (l ++ [a]) = vsum l + a.
Proof. unfold vsum. induction l as [|b l IH]; cbn [app fold_right]; [rnum; ring|]. rewrite IH. rnum. ring. Qed.
Lemma vsum_seq f n : vsum (map f (seq 0 n)) = bsum f n.
Proof. induction n as [|n IH]; [reflexivity|]. rewrite seq_S, map_app. cbn [map bsum]. rewrite vsum_app_one, IH. reflexivity. Qed.
Lemma nth_map_seq (f : nat -> R) n i d : (i < n)%nat -> nth i (map f (seq 0 n)) d = f i.
Proof. intros Hi. rewrite (nth_map_in f _ i 0%nat) by (rewrite seq_length; assumption). rewrite seq_nth by assumption. reflexivity. Qed.
Lemma bsum_zero_inv f n : (forall i, (i < n)%nat -> 0 <= f i) -> bsum f n = 0 -> forall i, (i < n)%nat -> f i = 0.
Proof.
  intros H Z i Hi. destruct (Req_dec (f i) 0) as [|N]; [assumption|]. pose proof (H i Hi). pose proof (bsum_pos f n i H Hi ltac:(lra)). lra.
Qed.

(** ** The linear system *)

Definition pad (g : list R) (k : nat) : R := match k with O => 0 | S l => nth l g 0 end.
Lemma nth_pad g k : nth k ([0] ++ g ++ [0]) 0 = pad g k.
Proof.
  destruct k as [|l]; [reflexivity|]. cbn [app nth pad]. destruct (Nat.lt_ge_cases l (length g)) as [L|L].
  - rewrite app_nth1 by assumption. reflexivity.
  - rewrite app_nth2, (nth_overflow g) by lia. destruct (l - length g)%nat as [|[|]]; reflexivity.
Qed.

Section System.
  Variables (xs ws : list R).
  Hypothesis I : increasing xs.
  Hypothesis H3 : (3 <= length xs)%nat.
  Hypothesis W : forall i, (i < length xs)%nat -> 0 < nth i ws 0.
  Let n := length xs.
  Let N := unknowns xs.
  Let h k := nth (S k) xs 0 - nth k xs 0.
  Let Ln : n = S (S N). Proof. unfold N, unknowns. fold n. unfold n. lia. Qed.
  Let hp k : (S k < n)%nat -> 0 < h k. Proof. intros K. specialize (I k K). unfold h. lra. Qed.

  (** The first differences of u, and the differences of these, zero outside. *)
  Definition e1_of (U : nat -> R) (k : nat) : R := match k with O => 0 | S l => if Nat.ltb (S l) n then (U (S l) - U l) / h l else 0 end.
  Definition d2_of (U : nat -> R) (i : nat) : R := e1_of U (S i) - e1_of U i.
  Definition r_of (U : nat -> R) (k : nat) : R := h k * U k + 2 * (h k + h (S k)) * U (S k) + h (S k) * U (S (S k)).

  Lemma r_sum x k : length x = N -> (k < N)%nat -> bsum (fun l => r_entry xs k l * nth l x 0) N = r_of (pad x) k.
  Proof.
    intros Lx Hk. unfold r_of.
    rewrite (bsum_ext _ (fun l => ((if Nat.eqb l k then 2 * (h k + h (S k)) else 0) * nth l x 0
      + (if Nat.eqb l (S k) then h (S k) else 0) * nth l x 0)
      + match k with O => 0 | S k' => (if Nat.eqb l k' then h k else 0) * nth l x 0 end)).
    - rewrite !bsum_plus, !bsum_one. rewrite (proj2 (Nat.ltb_lt k N)) by assumption.
      replace (if Nat.ltb (S k) N then h (S k) * nth (S k) x 0 else 0) with (h (S k) * nth (S k) x 0).
      2:{ destruct (Nat.ltb_spec (S k) N); [reflexivity|]. rewrite (nth_overflow x) by lia. ring. }
      destruct k as [|k']; cbn [pad]; [rewrite bsum_zero; ring|]. rewrite bsum_one.
      rewrite (proj2 (Nat.ltb_lt k' N)) by lia. ring.
    - intros l Hl. unfold r_entry. change (step_at xs k) with (h k). change (step_at xs (S k)) with (h (S k)). rn.
      destruct k as [|k'].
      + destruct (Nat.eqb_spec l 0), (Nat.eqb_spec l 1); try lia; cbn [Nat.eqb]; ring.
      + destruct (Nat.eqb_spec l (S k')), (Nat.eqb_spec l (S (S k'))), (Nat.eqb_spec l k'), (Nat.eqb_spec (S k') (S l)); try lia; ring.
  Qed.

  Lemma q_sum (v : nat -> R) k : (k < N)%nat -> bsum (fun i => q_entry xs k i * v i) n = (v (S (S k)) - v (S k)) / h (S k) - (v (S k) - v k) / h k.
  Proof.
    intros Hk. rewrite (bsum_ext _ (fun i => ((if Nat.eqb i k then 1 / h k else 0) * v i
      + (if Nat.eqb i (S k) then - (1 / h (S k) + 1 / h k) else 0) * v i)
      + (if Nat.eqb i (S (S k)) then 1 / h (S k) else 0) * v i)).
    - rewrite !bsum_plus, !bsum_one, !(proj2 (Nat.ltb_lt _ n)) by lia. pose proof (hp k ltac:(lia)). pose proof (hp (S k) ltac:(lia)). field. lra.
    - intros i _. unfold q_entry. change (step_at xs k) with (h k). change (step_at xs (S k)) with (h (S k)). rn.
      destruct (Nat.eqb_spec i k), (Nat.eqb_spec i (S k)), (Nat.eqb_spec i (S (S k))); try lia; ring.
  Qed.

  Lemma q_sum_t x i : length x = N -> (i < n)%nat -> bsum (fun l => q_entry xs l i * nth l x 0) N = d2_of (pad x) i.
  Proof.
    intros Lx Hi. rewrite (bsum_ext _ (fun l => ((if Nat.eqb l i then 1 / h i else 0) * nth l x 0
      + match i with O => 0 | S i' => (if Nat.eqb l i' then - (1 / h i + 1 / h i') else 0) * nth l x 0 end)
      + match i with S (S i') => (if Nat.eqb l i' then 1 / h (S i') else 0) * nth l x 0 | _ => 0 end)).
    - rewrite !bsum_plus, !bsum_one. unfold d2_of, e1_of. destruct i as [|[|i]]; rewrite ?bsum_zero, ?bsum_one; cbn [pad].
      + rewrite !(proj2 (Nat.ltb_lt _ _)) by lia. field. pose proof (hp 0 ltac:(lia)). lra.
      + rewrite (proj2 (Nat.ltb_lt 0 N)), !(proj2 (Nat.ltb_lt _ n)) by lia.
        pose proof (hp 0 ltac:(lia)). pose proof (hp 1 ltac:(lia)).
        destruct (Nat.ltb_spec 1 N) as [K|K]; [|rewrite (nth_overflow x 0 (n := 1%nat)) by lia]; field; lra.
      + pose proof (hp i ltac:(lia)). pose proof (hp (S i) ltac:(lia)). rewrite (proj2 (Nat.ltb_lt i N)), (proj2 (Nat.ltb_lt (S (S i)) n)) by lia.
        destruct (Nat.ltb_spec (S (S (S i))) n) as [K|K].
        * pose proof (hp (S (S i)) ltac:(lia)). rewrite (proj2 (Nat.ltb_lt (S i) N)) by lia.
          destruct (Nat.ltb_spec (S (S i)) N) as [K'|K']; [|rewrite (nth_overflow x 0 (n := S (S i))) by lia]; field; lra.
        * rewrite !(proj2 (Nat.ltb_ge _ N)) by lia. rewrite (nth_overflow x 0 (n := S i)) by lia. field. lra.
    - intros l Hl. unfold q_entry. change (step_at xs l) with (h l). change (step_at xs (S l)) with (h (S l)). rn.
      destruct i as [|[|i]].
      + destruct (Nat.eqb_spec 0 l), (Nat.eqb_spec l 0); subst; try lia; cbn [Nat.eqb]; ring.
      + destruct (Nat.eqb_spec 1 l), (Nat.eqb_spec l 1), (Nat.eqb_spec 1 (S l)), (Nat.eqb_spec l 0), (Nat.eqb_spec 1 (S (S l))); subst; try lia; ring.
      + destruct (Nat.eqb_spec (S (S i)) l), (Nat.eqb_spec l (S (S i))), (Nat.eqb_spec (S (S i)) (S l)), (Nat.eqb_spec l (S i)), (Nat.eqb_spec l i), (Nat.eqb_spec (S (S i)) (S (S l))); subst; try lia; ring.
  Qed.

  Lemma gram_sum k l : gram xs ws k l = bsum (fun i => q_entry xs k i * (q_entry xs l i / nth i ws 0)) n.
  Proof.
    unfold gram, qtw_row. rewrite vdot_seq, map_length, seq_length. fold n. rewrite Nat.min_id. apply bsum_ext. intros i Hi.
    rewrite (nth_map_seq _ n i 0) by lia. rnum. pose proof (W i Hi) as P. pose proof (sqrt_lt_R0 _ P). rewrite <- (sqrt_sqrt (nth i ws 0)) at 3 by lra.
    field. lra.
  Qed.

  Lemma gram_row x k : length x = N -> (k < N)%nat ->
    bsum (fun l => gram xs ws k l * nth l x 0) N = bsum (fun i => q_entry xs k i * (d2_of (pad x) i / nth i ws 0)) n.
  Proof.
    intros Lx Hk. rewrite (bsum_ext _ (fun l => bsum (fun i => q_entry xs k i / nth i ws 0 * (q_entry xs l i * nth l x 0)) n)).
    - rewrite bsum_swap. apply bsum_ext. intros i Hi. rewrite bsum_scal, q_sum_t by assumption. pose proof (W i Hi). field. lra.
    - intros l _. rewrite gram_sum, Rmult_comm, <- bsum_scal. apply bsum_ext. intros i Hi. pose proof (W i Hi). field. lra.
  Qed.

  Variable p : R.
  Hypothesis P : 0 <= p <= 1.
  Variable ys : list R.
  Let m k := (nth (S k) ys 0 - nth k ys 0) / h k.

  Lemma sys_rows : length (csaps_system xs ws p ys) = N /\ forall r, In r (csaps_system xs ws p ys) -> length r = S N.
  Proof.
    unfold csaps_system. fold N. rewrite map_length, seq_length. split; [reflexivity|]. intros r Hr. apply in_map_iff in Hr as (k & <- & _).
    rewrite app_length, map_length, seq_length. cbn. lia.
  Qed.

  Definition sys_lhs (U : nat -> R) (k : nat) : R :=
    6 * (1 - p) * bsum (fun i => q_entry xs k i * (d2_of U i / nth i ws 0)) n + p * r_of U k.

  Lemma row_dot x k : length x = N -> (k < N)%nat ->
    vdot (map (fun l => nadd (nmul (rough p) (gram xs ws k l)) (nmul p (r_entry xs k l))) (seq 0 N)
          ++ [nsub (slope_at xs ys (S k)) (slope_at xs ys k)]) x = sys_lhs (pad x) k.
  Proof.
    intros Lx Hk. rewrite vdot_app_one by (rewrite map_length, seq_length; lia). rewrite vdot_seq, Lx, Nat.min_id. unfold sys_lhs.
    rewrite <- gram_row, <- r_sum by assumption. rewrite <- !bsum_scal, <- bsum_plus. apply bsum_ext. intros l _. unfold rough. rn. ring.
  Qed.

  Lemma r_form (U : nat -> R) j : U O = 0 ->
    bsum (fun k => U (S k) * r_of U k) j
    = bsum (fun k => 2 * h k * (U k * U k + U k * U (S k) + U (S k) * U (S k))) (S j) - 2 * h j * (U (S j) * U (S j)) - h j * (U j * U (S j)).
  Proof.
    intros Z. induction j as [|j IH]; [cbn [bsum]; rewrite Z; ring|].
    replace (bsum (fun k => U (S k) * r_of U k) (S j)) with (bsum (fun k => U (S k) * r_of U k) j + U (S j) * r_of U j) by reflexivity.
    rewrite IH. cbn [bsum]. unfold r_of. ring.
  Qed.

  Lemma sys_form x : length x = N ->
    vdot x (map (fun r => vdot r x) (csaps_system xs ws p ys))
    = 6 * (1 - p) * bsum (fun i => d2_of (pad x) i * d2_of (pad x) i / nth i ws 0) n
      + p * bsum (fun k => 2 * h k * (pad x k * pad x k + pad x k * pad x (S k) + pad x (S k) * pad x (S k))) (S N).
  Proof.
    intros Lx. unfold csaps_system. fold N. rewrite map_map.
    rewrite (map_ext_in _ (sys_lhs (pad x))) by (intros k Hk; apply in_seq in Hk; apply row_dot; [assumption|lia]).
    rewrite vdot_comm, vdot_seq, Lx, Nat.min_id. unfold sys_lhs.
    rewrite (bsum_ext _ (fun k => 6 * (1 - p) * bsum (fun i => d2_of (pad x) i / nth i ws 0 * (q_entry xs k i * nth k x 0)) n
                                   + p * (pad x (S k) * r_of (pad x) k))).
    - rewrite bsum_plus, !bsum_scal, bsum_swap. f_equal.
      + f_equal. apply bsum_ext. intros i Hi. rewrite bsum_scal, q_sum_t by assumption. unfold Rdiv. ring.
      + f_equal. rewrite (r_form (pad x)) by reflexivity. replace (pad x (S N)) with 0 by (cbn [pad]; rewrite nth_overflow by lia; reflexivity). ring.
    - intros k Hk. rewrite Rmult_plus_distr_r. f_equal; [|cbn [pad]; ring].
      rewrite Rmult_assoc. f_equal. rewrite Rmult_comm, <- bsum_scal. apply bsum_ext. intros i _. ring.
  Qed.

  Lemma sq_pos a b : b <> 0 -> 0 < a * a + a * b + b * b.
  Proof.
    intros Nb. assert (0 < b * b) by (apply Rlt_0_sqr; assumption). assert (0 <= (a + b / 2) * (a + b / 2)) by apply Rle_0_sqr. lra.
  Qed.
  Lemma sq_nonneg a b : 0 <= a * a + a * b + b * b.
  Proof. pose proof (Rle_0_sqr (a + b / 2)) as K. pose proof (Rle_0_sqr b) as K'. unfold Rsqr in *. lra. Qed.

  Lemma sys_pos_def : pos_def N (csaps_system xs ws p ys).
  Proof.
    intros x Lx (i & Hi & Ni). rewrite sys_form by assumption.
    assert (A : forall i, (i < n)%nat -> 0 <= d2_of (pad x) i * d2_of (pad x) i / nth i ws 0).
    { intros l Hl. apply Rmult_le_pos; [apply Rle_0_sqr|]. apply Rlt_le, Rinv_0_lt_compat, W, Hl. }
    assert (B : forall k, (k < S N)%nat -> 0 <= 2 * h k * (pad x k * pad x k + pad x k * pad x (S k) + pad x (S k) * pad x (S k))).
    { intros k Hk. apply Rmult_le_pos; [|apply sq_nonneg]. pose proof (hp k ltac:(lia)). lra. }
    assert (B1 : 0 < bsum (fun k => 2 * h k * (pad x k * pad x k + pad x k * pad x (S k) + pad x (S k) * pad x (S k))) (S N)).
    { apply (bsum_pos _ _ i B); [lia|]. apply Rmult_lt_0_compat; [pose proof (hp i ltac:(lia)); lra|]. apply sq_pos. exact Ni. }
    assert (A1 : 0 < bsum (fun i => d2_of (pad x) i * d2_of (pad x) i / nth i ws 0) n).
    { destruct (Req_dec (bsum (fun i => d2_of (pad x) i * d2_of (pad x) i / nth i ws 0) n) 0) as [Z|Nz].
      2:{ pose proof (bsum_nonneg _ _ A). lra. }
      exfalso. assert (Zi := bsum_zero_inv _ _ A Z).
      assert (Z2 : forall k, (k < n)%nat -> d2_of (pad x) k = 0).
      { intros k Hk. specialize (Zi k Hk). cbv beta in Zi. pose proof (Rinv_0_lt_compat _ (W k Hk)). unfold Rdiv in Zi.
        apply Rmult_integral in Zi as [Zi|]; [|lra]. apply Rmult_integral in Zi as [|]; assumption. }
      assert (Z1 : forall k, (k <= n)%nat -> e1_of (pad x) k = 0).
      { intros k. induction k as [|k IH]; intros Hk; [reflexivity|]. specialize (Z2 k ltac:(lia)). unfold d2_of in Z2. rewrite IH in Z2 by lia. lra. }
      assert (Z0 : forall k, (k < n)%nat -> pad x k = 0).
      { intros k. induction k as [|k IH]; intros Hk; [reflexivity|]. specialize (Z1 (S k) ltac:(lia)). cbn [e1_of] in Z1.
        rewrite (proj2 (Nat.ltb_lt _ _)) in Z1 by lia. rewrite (IH ltac:(lia)) in Z1. pose proof (hp k ltac:(lia)) as Hh.
        pose proof (Rinv_0_lt_compat _ Hh). unfold Rdiv in Z1. apply Rmult_integral in Z1 as [|]; lra. }
      apply Ni. apply (Z0 (S i)). lia. }
    set (a := bsum _ n) in *. set (b := bsum _ (S N)) in *.
    destruct (Req_dec p 0) as [->|Np]; [lra|].
    assert (0 <= 6 * (1 - p) * a) by (apply Rmult_le_pos; lra). assert (0 < p * b) by (apply Rmult_lt_0_compat; lra). lra.
  Qed.

  (** The solution. *)
  Definition cu (k : nat) : R := nth k (csaps_u xs ws p ys) 0.
  Definition cz (i : nat) : R := nth i ys 0 - 6 * (1 - p) * (d2_of cu i / nth i ws 0).

  Lemma cu_pad : exists x, length x = N /\ (forall k, cu k = pad x k)
    /\ forall k, (k < N)%nat -> sys_lhs (pad x) k = m (S k) - m k.
  Proof.
    destruct sys_rows as [L1 L2]. destruct (gauss_ok N _ L1 L2 sys_pos_def) as [Lg Hg].
    exists (gauss N (csaps_system xs ws p ys)). split; [assumption|]. split; [intros k; apply nth_pad|]. intros k Hk.
    rewrite <- (row_dot _ k Lg Hk).
    assert (Hin : In (map (fun l => nadd (nmul (rough p) (gram xs ws k l)) (nmul p (r_entry xs k l))) (seq 0 N)
          ++ [nsub (slope_at xs ys (S k)) (slope_at xs ys k)]) (csaps_system xs ws p ys)).
    { unfold csaps_system. fold N. apply in_map_iff. exists k. split; [reflexivity|]. apply in_seq. lia. }
    rewrite (Hg _ Hin). rewrite app_nth2, map_length, seq_length, Nat.sub_diag by (rewrite map_length, seq_length; lia). reflexivity.
  Qed.

  Lemma d2_ext U V i : (forall k, U k = V k) -> d2_of U i = d2_of V i.
  Proof. intros E. unfold d2_of, e1_of. destruct i; rewrite ?E; reflexivity. Qed.

  (** The ends. *)
  Lemma cu_ends : cu 0 = 0 /\ cu (n - 1) = 0.
  Proof.
    destruct cu_pad as (x & Lx & E & _). rewrite !E. split; [reflexivity|]. replace (n - 1)%nat with (S N) by lia. cbn [pad]. apply nth_overflow. lia.
  Qed.

  (** The equations: the second difference of the fitted values. *)
  Lemma cz_eq k : (S (S k) < n)%nat ->
    (cz (S (S k)) - cz (S k)) / h (S k) - (cz (S k) - cz k) / h k = p * r_of cu k.
  Proof.
    intros Hk. destruct cu_pad as (x & Lx & E & Eq). specialize (Eq k ltac:(lia)). unfold sys_lhs in Eq. rewrite q_sum in Eq by lia.
    replace (r_of cu k) with (r_of (pad x) k) by (unfold r_of; rewrite !E; reflexivity).
    unfold cz. rewrite !(d2_ext cu (pad x)) by assumption. unfold m in Eq.
    pose proof (hp k ltac:(lia)). pose proof (hp (S k) ltac:(lia)).
    pose proof (W k ltac:(fold n; lia)). pose proof (W (S k) ltac:(fold n; lia)). pose proof (W (S (S k)) ltac:(fold n; lia)).
    set (d0 := d2_of _ k / _) in *. set (d1 := d2_of _ (S k) / _) in *. set (d2 := d2_of _ (S (S k)) / _) in *.
    assert (E' : p * r_of (pad x) k = (nth (S (S k)) ys 0 - nth (S k) ys 0) / h (S k) - (nth (S k) ys 0 - nth k ys 0) / h k
       - 6 * (1 - p) * ((d2 - d1) / h (S k) - (d1 - d0) / h k)) by lra. rewrite E'. field. lra.
  Qed.

  (** The fitted values of the model. *)
  Lemma csaps_d1_nth k : (k <= n)%nat -> nth k (csaps_d1 xs (csaps_u xs ws p ys)) 0 = e1_of cu k.
  Proof.
    intros Hk. unfold csaps_d1. fold n. change (@n0 R RNum) with 0. rewrite nth_pad. destruct k as [|l]; [reflexivity|]. cbn [pad e1_of].
    destruct (Nat.ltb_spec (S l) n) as [L|L].
    - rewrite nth_map_seq by lia. reflexivity.
    - apply nth_overflow. rewrite map_length, seq_length. lia.
  Qed.
  Lemma csaps_fit_eq i : (i < n)%nat -> csaps_fit xs ws p ys (csaps_u xs ws p ys) i = cz i.
  Proof.
    intros Hi. unfold csaps_fit, cz, rough. change (@n0 R RNum) with 0. rewrite !csaps_d1_nth by lia. unfold d2_of. rn. pose proof (W i Hi). field. lra.
  Qed.

  (** The smoothing spline is the natural cubic spline through the fitted values. *)
  Definition fitted : list R := map cz (seq 0 n).
  Lemma fitted_nth i : (i < n)%nat -> nth i fitted 0 = cz i.
  Proof. intros Hi. unfold fitted. apply nth_map_seq. assumption. Qed.
  Let z i := nth i fitted 0.
  Let mz k := (z (S k) - z k) / h k.
  Let ce k := if Nat.ltb (S k) n then mz k - h k * (2 * (p * cu k) + p * cu (S k))
              else mz (k - 1) + h (k - 1)%nat * (p * cu (k - 1)%nat + 2 * (p * cu k)).

  Lemma ce_left k : (S k < n)%nat -> ce k = mz k - h k * (2 * (p * cu k) + p * cu (S k)).
  Proof. intros Hk. unfold ce. rewrite (proj2 (Nat.ltb_lt _ _)) by assumption. reflexivity. Qed.
  Lemma ce_right k : (S k < n)%nat -> ce (S k) = mz k + h k * (p * cu k + 2 * (p * cu (S k))).
  Proof.
    intros Hk. unfold ce. destruct (Nat.ltb_spec (S (S k)) n) as [L|L].
    - pose proof (cz_eq k L) as E. unfold mz, z. rewrite !fitted_nth by lia. unfold r_of in E. lra.
    - replace (S k - 1)%nat with k by lia. reflexivity.
  Qed.

  Lemma ce_system : system_eq (D2 0) (D2 0) xs fitted ce.
  Proof.
    destruct cu_ends as [U0 Un]. unfold system_eq.
    replace (parabola_case (D2 0) (D2 0) xs) with false by (unfold parabola_case; rewrite andb_false_r; reflexivity).
    split; [|split].
    - intros k Hk. fold n in Hk. change (h (S k) * ce k + 2 * (h k + h (S k)) * ce (S k) + h k * ce (S (S k)) = 3 * (h (S k) * mz k + h k * mz (S k))).
      assert (E1 := ce_left k ltac:(lia)). assert (E2 := ce_right k ltac:(lia)). assert (E3 := ce_left (S k) ltac:(lia)). assert (E4 := ce_right (S k) ltac:(lia)).
      replace (h (S k) * ce k + 2 * (h k + h (S k)) * ce (S k) + h k * ce (S (S k)))
        with (h (S k) * ce k + 2 * h (S k) * ce (S k) + 2 * h k * ce (S k) + h k * ce (S (S k))) by ring.
      rewrite E3 at 2. rewrite E1, E2, E4. ring.
    - unfold start_eq. change (2 * h 0%nat * ce 0%nat + h 0%nat * ce 1%nat = - 0 / 2 * (h 0%nat * h 0%nat) + 3 * (z 1%nat - z 0%nat)).
      rewrite ce_left, ce_right, U0 by lia. unfold mz. pose proof (hp 0 ltac:(lia)). field. lra.
    - unfold end_eq. fold n. change (h (n - 2)%nat * ce (n - 2)%nat + 2 * h (n - 2)%nat * ce (n - 1)%nat
              = 0 / 2 * (h (n - 2)%nat * h (n - 2)%nat) + 3 * (z (n - 1)%nat - z (n - 2)%nat)).
      replace (n - 1)%nat with (S (n - 2)) in * by lia. rewrite ce_left, ce_right, Un by lia. unfold mz. pose proof (hp (n - 2)%nat ltac:(lia)). field. lra.
  Qed.

  Lemma ce_deriv k : (k < n)%nat -> deriv_at (D2 0) (D2 0) xs fitted k = ce k.
  Proof. intros Hk. symmetry. apply deriv_at_unique; [assumption|lia|apply ce_system|assumption]. Qed.

  Let pc k : (S k < n)%nat -> pc2 xs z (deriv_at (D2 0) (D2 0) xs fitted) k = 3 * (p * cu k)
    /\ pc3 xs z (deriv_at (D2 0) (D2 0) xs fitted) k = (p * cu (S k) - p * cu k) / h k.
  Proof.
    intros Hk. unfold pc2, pc3. rewrite !ce_deriv, ce_left, ce_right by lia. pose proof (hp k Hk).
    change (nth (S k) xs 0 - nth k xs 0) with (h k). fold (mz k). split; field; lra.
  Qed.

  Theorem smoothing_curvature k : (k < n)%nat -> spl2 (D2 0) (D2 0) xs fitted (nth k xs 0) = 6 * p * cu k.
  Proof.
    intros Hk. assert (A := q2_agree (D2 0) (D2 0) xs fitted I ltac:(lia)). unfold spl2.
    destruct (Nat.eq_dec (S k) n) as [E|E].
    - destruct k as [|k]; [lia|]. rewrite (pw_eq xs I ltac:(lia) _ k) by (try assumption; apply (in_piece_at xs I); lia). unfold cp2. change (fun k : nat => nth k fitted 0) with z.
      destruct (pc k ltac:(lia)) as [-> ->]. change (nth (S k) xs 0 - nth k xs 0) with (h k). pose proof (hp k ltac:(lia)). field. lra.
    - rewrite (pw_eq xs I ltac:(lia) _ k) by (try assumption; apply (in_piece_at xs I); fold n; lia). unfold cp2. change (fun k : nat => nth k fitted 0) with z.
      destruct (pc k ltac:(lia)) as [-> _]. ring.
  Qed.

  (** The pieces of the model. *)
  Lemma coeffs_eval k v : (S k < n)%nat ->
    poly_eval (csaps_coeffs xs ws p ys k) (v - nth k xs 0) = cp0 xs z (deriv_at (D2 0) (D2 0) xs fitted) k v.
  Proof.
    intros Hk. unfold cp0. destruct (pc k Hk) as [-> ->]. rewrite ce_deriv, ce_left by lia.
    unfold csaps_coeffs, poly_eval. cbv zeta. rewrite !csaps_fit_eq by lia. change (@n0 R RNum) with 0. fold (cu k) (cu (S k)).
    change (step_at xs k) with (h k). unfold mz, z. rewrite !fitted_nth by lia. rn. pose proof (hp k Hk). field. lra.
  Qed.

  Theorem csaps_spline v : poly_eval (csaps_coeffs xs ws p ys (piece_of xs v)) (v - nth (piece_of xs v) xs 0) = spl0 (D2 0) (D2 0) xs fitted v.
  Proof.
    destruct (piece_exists xs I ltac:(lia) v) as (k & Hk & E & _). unfold spl0, pw. rewrite E. apply coeffs_eval. assumption.
  Qed.
End System.
