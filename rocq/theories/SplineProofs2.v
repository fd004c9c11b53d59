(** Piecewise cubic interpolation of curves: proofs over the reals. *)
From Coq Require Import ZArith String List Bool Arith Lia Reals Lra Psatz.
From Verif Require Import Num Py Numeric Curve Vec Geom DiffGeom Intersect Registry Interp Splines Spec GeomSpec.
From Verif Require Import ListFacts VecFacts CurveProofs CurveProofs2 CurveProofs3 GeomProofs DiffGeomProofs DiffGeomProofs2 InterpProofs InterpProofs2 SplineProofs.
Import ListNotations.
Local Open Scope list_scope.
Local Open Scope R_scope.

(** ** Cubics given by values and derivatives at two abscissae *)

(** The cubic polynomial with value y0 and derivative d0 at x0, and y1 and d1 at
    x1, has the value p at v. *)
Definition cubic_between (x0 y0 d0 x1 y1 d1 v p : R) : Prop :=
  exists a0 a1 a2 a3,
    let f x := a0 + a1 * x + a2 * (x * x) + a3 * (x * x * x) in
    let f' x := a1 + 2 * a2 * x + 3 * a3 * (x * x) in
    f x0 = y0 /\ f' x0 = d0 /\ f x1 = y1 /\ f' x1 = d1 /\ f v = p.

Lemma cubic_unique x0 y0 d0 x1 y1 d1 v p q : x0 <> x1 ->
  cubic_between x0 y0 d0 x1 y1 d1 v p -> cubic_between x0 y0 d0 x1 y1 d1 v q -> p = q.
Proof.
  intros N (a0 & a1 & a2 & a3 & A1 & A2 & A3 & A4 & A5) (b0 & b1 & b2 & b3 & B1 & B2 & B3 & B4 & B5).
  cbv zeta in *. set (h := x1 - x0). assert (Nh : h <> 0) by (unfold h; lra).
  set (c0 := a0 - b0). set (c1 := a1 - b1). set (c2 := a2 - b2). set (c3 := a3 - b3).
  assert (Z1 : c0 + c1 * x0 + c2 * (x0 * x0) + c3 * (x0 * x0 * x0) = 0) by (unfold c0, c1, c2, c3; lra).
  assert (Z2 : c1 + 2 * c2 * x0 + 3 * c3 * (x0 * x0) = 0) by (unfold c1, c2, c3; lra).
  assert (Z3 : c0 + c1 * x1 + c2 * (x1 * x1) + c3 * (x1 * x1 * x1) = 0) by (unfold c0, c1, c2, c3; lra).
  assert (Z4 : c1 + 2 * c2 * x1 + 3 * c3 * (x1 * x1) = 0) by (unfold c1, c2, c3; lra).
  assert (G : c0 + c1 * v + c2 * (v * v) + c3 * (v * v * v) = 0).
  { clearbody c0 c1 c2 c3. clear A1 A2 A3 A4 A5 B1 B2 B3 B4 B5.
    assert (E1 : c3 * (h * h * h) = 0).
    { replace (c3 * (h * h * h)) with
        (h * ((c1 + 2 * c2 * x1 + 3 * c3 * (x1 * x1)) + (c1 + 2 * c2 * x0 + 3 * c3 * (x0 * x0)))
         - 2 * ((c0 + c1 * x1 + c2 * (x1 * x1) + c3 * (x1 * x1 * x1)) - (c0 + c1 * x0 + c2 * (x0 * x0) + c3 * (x0 * x0 * x0))))
        by (unfold h; ring). rewrite Z1, Z2, Z3, Z4. ring. }
    assert (h * h * h <> 0) by (repeat apply Rmult_integral_contrapositive_currified; assumption).
    assert (c3 = 0) by (apply Rmult_integral in E1; destruct E1; [assumption|contradiction]). subst c3.
    assert (E2 : c2 * h = 0) by (unfold h; lra).
    assert (c2 = 0) by (apply Rmult_integral in E2; destruct E2; [assumption|contradiction]). subst c2.
    assert (c1 = 0) by lra. subst c1. lra. }
  unfold c0, c1, c2, c3 in G. lra.
Qed.

Lemma hval_cubic x0 y0 d0 x1 y1 d1 v : x0 <> x1 -> cubic_between x0 y0 d0 x1 y1 d1 v (hval (x1 - x0) y0 y1 d0 d1 (v - x0)).
Proof.
  intros N. set (h := x1 - x0). assert (Nh : h <> 0) by (unfold h; lra).
  set (c := (3 * ((y1 - y0) / h) - 2 * d0 - d1) / h). set (d := (d0 + d1 - 2 * ((y1 - y0) / h)) / (h * h)).
  exists (y0 - d0 * x0 + c * (x0 * x0) - d * (x0 * x0 * x0)), (d0 - 2 * c * x0 + 3 * d * (x0 * x0)), (c - 3 * d * x0), d.
  cbv zeta. rewrite hval_eq by assumption. fold c d.
  assert (H1 : c * h + d * (h * h) = (y1 - y0) / h - d0) by (unfold c, d; field; assumption).
  assert (H2 : 2 * c * h + 3 * d * (h * h) = d1 - d0) by (unfold c, d; field; assumption).
  assert (H3 : (y1 - y0) / h * h = y1 - y0) by (field; assumption).
  assert (E : x1 = x0 + h) by (unfold h; lra). clearbody c d h. subst x1.
  repeat split; try ring.
  - replace (y0 - d0 * x0 + c * (x0 * x0) - d * (x0 * x0 * x0) + (d0 - 2 * c * x0 + 3 * d * (x0 * x0)) * (x0 + h)
       + (c - 3 * d * x0) * ((x0 + h) * (x0 + h)) + d * ((x0 + h) * (x0 + h) * (x0 + h)))
      with (y0 + d0 * h + (c * h + d * (h * h)) * h) by ring. rewrite H1. ring_simplify. lra.
  - replace (d0 - 2 * c * x0 + 3 * d * (x0 * x0) + 2 * (c - 3 * d * x0) * (x0 + h) + 3 * d * ((x0 + h) * (x0 + h)))
      with (d0 + (2 * c * h + 3 * d * (h * h))) by ring. rewrite H2. ring.
Qed.

(** ** Creation *)

Lemma hermite_new_ok qnan ex (xs : list R) ys ds n : (2 <= length xs)%nat -> length ys = length xs -> increasing xs ->
  length ds = length xs -> hermite_new qnan ex xs ys (Some ds) n = Ok (fun g => map (hermite_at qnan ex xs ys ds n) g).
Proof.
  intros H2 L I Ld. unfold hermite_new. rewrite (proj2 (prepare_ok_iff xs ys)) by (repeat split; assumption).
  rewrite forallb_finite_rows, Ld, L, Nat.eqb_refl. reflexivity.
Qed.

Lemma curve_prop_frenet1 junk (c : curve R) : c_bool c = true -> curve_prop junk c PFrenet1 = Ok (AMat (frenet1_rows (c_rows c))).
Proof. intros B. unfold curve_prop. rewrite B. reflexivity. Qed.

Lemma hermite_eq junk qnan ex (c : curve R) : wf c -> (2 <= c_size c)%nat -> increasing (c_tval junk c) ->
  hermite junk qnan ex c = Ok (as_array (c_ndim c)
    (map (hermite_at qnan ex (c_tval junk c) (c_rows c) (frenet1_rows (c_rows c)) (c_ndim c)))).
Proof.
  intros W H I. assert (N := size_nonempty c ltac:(lia)). assert (L := tval_length junk c W N).
  unfold hermite. rewrite curve_prop_frenet1 by (apply c_bool_wf; assumption). cbn [rbind].
  rewrite hermite_new_ok; [reflexivity| | | |]; unfold c_size in *; rewrite ?frenet1_length; (lia || assumption).
Qed.

Lemma hermite_fails junk qnan ex (c : curve R) : ~ ((2 <= c_size c)%nat /\ increasing (c_tval junk c)) ->
  exists e, hermite junk qnan ex c = Raise e.
Proof.
  intros N. unfold hermite. destruct (curve_prop junk c PFrenet1) as [d|e]; cbn [rbind]; [|eauto].
  unfold hermite_new. destruct (prepare_ok (c_tval junk c) (c_rows c)) eqn:P; [|cbn [rbind]; eauto].
  exfalso. apply prepare_ok_iff in P. apply N. unfold c_size. destruct P as (P1 & P2 & P3). rewrite P2. auto.
Qed.

Lemma pchip_rows_length (xs : list R) rows n : length (pchip_rows xs rows n) = length xs.
Proof. unfold pchip_rows. rewrite map_length, seq_length. reflexivity. Qed.

Lemma pchip_eq junk qnan ex (c : curve R) : wf c -> (2 <= c_size c)%nat -> increasing (c_tval junk c) ->
  pchip junk qnan ex c = Ok (as_array (c_ndim c)
    (map (hermite_at qnan ex (c_tval junk c) (c_rows c) (pchip_rows (c_tval junk c) (c_rows c) (c_ndim c)) (c_ndim c)))).
Proof.
  intros W H I. assert (N := size_nonempty c ltac:(lia)). assert (L := tval_length junk c W N).
  unfold pchip. rewrite (proj2 (prepare_ok_iff _ _)) by (unfold c_size in *; repeat split; (lia || assumption)).
  rewrite hermite_new_ok; [reflexivity| | | |]; unfold c_size in *; rewrite ?pchip_rows_length; (lia || assumption).
Qed.

Lemma pchip_fails junk qnan ex (c : curve R) : ~ ((2 <= c_size c)%nat /\ increasing (c_tval junk c)) ->
  exists e, pchip junk qnan ex c = Raise e.
Proof.
  intros N. unfold pchip. destruct (prepare_ok (c_tval junk c) (c_rows c)) eqn:P; [|eauto].
  exfalso. apply prepare_ok_iff in P. apply N. unfold c_size. destruct P as (P1 & P2 & P3). rewrite P2. auto.
Qed.

(** ** Evaluation *)

Lemma get_grid_nonempty junk few (c : curve R) s g : get_grid junk few c s = Ok g -> g <> [] /\ well_spaced g.
Proof.
  unfold get_grid. destruct (match s with SGrid _ => _ | _ => _ end) as [d|e]; cbn [rbind]; [|discriminate].
  destruct d as [l0| |]; try discriminate. intros H. apply check_grid_inv in H as (-> & H). assumption.
Qed.

Lemma spline_result junk few qnan ex (r : registry (icreate R)) name (c : curve R) s g create ds :
  wf c -> (2 <= c_size c)%nat -> reg_find r name = Some create ->
  create c = Ok (as_array (c_ndim c) (map (hermite_at qnan ex (c_tval junk c) (c_rows c) ds (c_ndim c)))) ->
  get_grid junk few c s = Ok g ->
  interpolate junk few r name c s
  = Ok (mkCurve (map (map (cast (c_dtype c))) (map (hermite_at qnan ex (c_tval junk c) (c_rows c) ds (c_ndim c)) g))
          (c_ndim c) (c_dtype c) (if isparametric c then Some g else None)).
Proof.
  intros W H F E G. destruct (get_grid_nonempty _ _ _ _ _ G) as [Ng _].
  unfold interpolate, get_interpolator. rewrite F, E. cbn [rbind].
  apply interp_call_eq; try assumption; [apply map_length| |reflexivity].
  intros p Hp. apply in_map_iff in Hp as (v & <- & _). apply hermite_at_length.
Qed.

Lemma nth_map_in {A B} (f : A -> B) (l : list A) i d e : (i < length l)%nat -> nth i (map f l) e = f (nth i l d).
Proof. intros H. rewrite (nth_indep _ e (f d)) by (rewrite map_length; assumption). apply map_nth. Qed.

(** ** The PCHIP derivatives *)

Lemma pchip_rows_nth (xs : list R) rows n k j : (k < length xs)%nat -> (j < n)%nat ->
  nth j (nth k (pchip_rows xs rows n) []) 0 = nth k (pchip_derivs xs (column rows j)) 0.
Proof.
  intros Hk Hj. unfold pchip_rows. rewrite (nth_map_in _ _ _ 0%nat) by (rewrite seq_length; assumption).
  rewrite (nth_map_in _ _ _ 0%nat) by (rewrite seq_length; assumption). rewrite !seq_nth by assumption. reflexivity.
Qed.

Lemma column_nth (rows : list (list R)) j k : (k < length rows)%nat -> nth k (column rows j) 0 = nth j (nth k rows []) 0.
Proof. intros H. unfold column. apply (nth_map_in (fun r => nth j r 0) rows k [] 0 H). Qed.

Section Derivs.
  Variables xs ys : list R.
  Hypothesis I : increasing xs.
  Hypothesis H2 : (2 <= length xs)%nat.
  Let h k := nth (S k) xs 0 - nth k xs 0.
  Let m k := (nth (S k) ys 0 - nth k ys 0) / h k.
  Let d k := nth k (pchip_derivs xs ys) 0.

  Lemma pd_h k : (S k < length xs)%nat -> 0 < h k.
  Proof. intros H. unfold h. pose proof (I k H). lra. Qed.

  Lemma pd_eq k : (k < length xs)%nat -> d k =
    (if Nat.eqb (length xs) 2 then m 0
     else if Nat.eqb k 0 then pchip_edge (h 0) (h 1) (m 0) (m 1)
     else if Nat.eqb k (length xs - 1) then pchip_edge (h (length xs - 2)) (h (length xs - 3)) (m (length xs - 2)) (m (length xs - 3))
     else pchip_inner (h (k - 1)) (h k) (m (k - 1)) (m k))%nat.
  Proof.
    intros Hk. unfold d, pchip_derivs. cbv zeta. rewrite (nth_map_in _ _ _ 0%nat) by (rewrite seq_length; assumption).
    rewrite seq_nth by assumption. reflexivity.
  Qed.

  Lemma tame_self x : tame x x.
  Proof. destruct (Rle_dec 0 x); [left|right]; lra. Qed.

  Lemma pd_left k : (S k < length xs)%nat -> tame (d k) (m k).
  Proof.
    intros Hk. rewrite pd_eq by lia. destruct (Nat.eqb_spec (length xs) 2) as [E|E].
    - replace k with 0%nat by lia. apply tame_self.
    - destruct (Nat.eqb_spec k 0) as [->|K]; [apply pchip_edge_tame; apply pd_h; lia|].
      destruct (Nat.eqb_spec k (length xs - 1)); [lia|]. apply pchip_inner_tame; apply pd_h; lia.
  Qed.
  Lemma pd_right k : (S k < length xs)%nat -> tame (d (S k)) (m k).
  Proof.
    intros Hk. rewrite pd_eq by lia. destruct (Nat.eqb_spec (length xs) 2) as [E|E].
    - replace k with 0%nat by lia. apply tame_self.
    - change (Nat.eqb (S k) 0) with false. cbv iota. destruct (Nat.eqb_spec (S k) (length xs - 1)) as [K|K].
      + replace k with (length xs - 2)%nat by lia. apply pchip_edge_tame; apply pd_h; lia.
      + replace (S k - 1)%nat with k by lia. apply pchip_inner_tame; apply pd_h; lia.
  Qed.
  Lemma pd_affine b : (forall k, (S k < length xs)%nat -> m k = b) -> forall k, (k < length xs)%nat -> d k = b.
  Proof.
    intros Hm k Hk. rewrite pd_eq by lia. destruct (Nat.eqb_spec (length xs) 2) as [E|E]; [apply Hm; lia|].
    destruct (Nat.eqb_spec k 0) as [->|K]; [rewrite !Hm by lia; apply pchip_edge_equal; apply pd_h; lia|].
    destruct (Nat.eqb_spec k (length xs - 1)); rewrite !Hm by lia; [apply pchip_edge_equal|apply pchip_inner_equal]; apply pd_h; lia.
  Qed.
End Derivs.

(** A coordinate of a PCHIP spline. *)
Section Pchip.
  Variables (qnan : R) (ex : bool) (xs : list R) (rows : list (list R)) (n : nat).
  Hypothesis I : increasing xs.
  Hypothesis H2 : (2 <= length xs)%nat.
  Hypothesis L : length rows = length xs.
  Let P v j := nth j (hermite_at qnan ex xs rows (pchip_rows xs rows n) n v) 0.
  Let y k j := nth j (nth k rows []) 0.

  Lemma pr_tame k j : (S k < length xs)%nat -> (j < n)%nat ->
    tame (nth j (nth k (pchip_rows xs rows n) []) 0) ((y (S k) j - y k j) / (nth (S k) xs 0 - nth k xs 0)) /\
    tame (nth j (nth (S k) (pchip_rows xs rows n) []) 0) ((y (S k) j - y k j) / (nth (S k) xs 0 - nth k xs 0)).
  Proof.
    intros Hk Hj. rewrite !pchip_rows_nth by lia.
    pose proof (pd_left xs (column rows j) I H2 k Hk) as A. pose proof (pd_right xs (column rows j) I H2 k Hk) as B.
    cbv beta zeta in A, B. rewrite !column_nth in A, B by lia. split; assumption.
  Qed.

  Lemma pchip_piece v k j : (S k < length xs)%nat -> (j < n)%nat -> nth k xs 0 <= v <= nth (S k) xs 0 ->
    P v j = hval (nth (S k) xs 0 - nth k xs 0) (y k j) (y (S k) j)
              (nth j (nth k (pchip_rows xs rows n) []) 0) (nth j (nth (S k) (pchip_rows xs rows n) []) 0) (v - nth k xs 0).
  Proof.
    intros Hk Hj Hv. unfold P, y. apply hermite_at_eq; try assumption; [|right; apply Hv|right; apply Hv].
    right. split.
    - apply Rle_trans with (nth k xs 0); [apply increasing_le; [assumption|lia]|apply Hv].
    - apply Rle_trans with (nth (S k) xs 0); [apply Hv|apply increasing_le; [assumption|lia]].
  Qed.

  Lemma pchip_between v k j : (S k < length xs)%nat -> (j < n)%nat -> nth k xs 0 <= v <= nth (S k) xs 0 ->
    Rmin (y k j) (y (S k) j) <= P v j <= Rmax (y k j) (y (S k) j).
  Proof.
    intros Hk Hj Hv. rewrite (pchip_piece v k j) by assumption. pose proof (I k Hk). destruct (pr_tame k j Hk Hj).
    apply hval_between; [lra|assumption|assumption|lra].
  Qed.

  Lemma pchip_mono_piece v w k j : (S k < length xs)%nat -> (j < n)%nat -> nth k xs 0 <= v -> v <= w -> w <= nth (S k) xs 0 ->
    y k j <= y (S k) j -> P v j <= P w j.
  Proof.
    intros Hk Hj Hv Hvw Hw Hy. rewrite !(pchip_piece _ k j) by (assumption || lra). pose proof (I k Hk) as Ik.
    destruct (pr_tame k j Hk Hj) as [T1 T2].
    assert (0 <= (y (S k) j - y k j) / (nth (S k) xs 0 - nth k xs 0)).
    { apply Rmult_le_pos; [lra|]. apply Rlt_le, Rinv_0_lt_compat. lra. }
    apply hval_mono; try lra; [destruct T1; lra|destruct T2; lra].
  Qed.
  Lemma pchip_anti_piece v w k j : (S k < length xs)%nat -> (j < n)%nat -> nth k xs 0 <= v -> v <= w -> w <= nth (S k) xs 0 ->
    y (S k) j <= y k j -> P w j <= P v j.
  Proof.
    intros Hk Hj Hv Hvw Hw Hy. rewrite !(pchip_piece _ k j) by (assumption || lra). pose proof (I k Hk) as Ik.
    destruct (pr_tame k j Hk Hj) as [T1 T2]. set (hh := nth (S k) xs 0 - nth k xs 0) in *. assert (Ph : 0 < hh) by (unfold hh; lra).
    set (d0 := nth j (nth k (pchip_rows xs rows n) []) 0) in *. set (d1 := nth j (nth (S k) (pchip_rows xs rows n) []) 0) in *.
    assert (M : (- y (S k) j - - y k j) / hh = - ((y (S k) j - y k j) / hh)) by (field; lra).
    assert (Q : 0 <= (- y (S k) j - - y k j) / hh).
    { apply Rmult_le_pos; [lra|]. apply Rlt_le, Rinv_0_lt_compat. lra. }
    pose proof (hval_mono hh (- y k j) (- y (S k) j) (- d0) (- d1) (v - nth k xs 0) (w - nth k xs 0)) as G.
    rewrite !hval_opp, M in G by lra. rewrite M in Q.
    assert (R1 : 0 <= - d0 <= 3 * - ((y (S k) j - y k j) / hh)) by (destruct T1; lra).
    assert (R2 : 0 <= - d1 <= 3 * - ((y (S k) j - y k j) / hh)) by (destruct T2; lra).
    specialize (G Ph ltac:(lra) R1 R2 ltac:(lra) ltac:(lra) ltac:(unfold hh; lra)). lra.
  Qed.

  Lemma locate v : nth 0 xs 0 <= v <= nth (length xs - 1) xs 0 -> exists k, (S k < length xs)%nat /\ nth k xs 0 <= v <= nth (S k) xs 0.
  Proof.
    intros Hv. destruct (piece_exists xs v I H2) as (k & Hk & Hl & Hr). exists k. split; [assumption|]. split.
    - destruct Hl as [->|Hl]; lra.
    - destruct Hr as [E|Hr]; [|assumption]. replace (length xs - 1)%nat with (S k) in Hv by lia. lra.
  Qed.

  (** Monotone data: a monotone coordinate. *)
  Lemma chain_le (f : nat -> R) : (forall k, (S k < length xs)%nat -> f k <= f (S k)) -> forall i k, (i <= k)%nat -> (k < length xs)%nat -> f i <= f k.
  Proof. intros H i k Hik. induction Hik as [|k Hik IH]; intros Hk; [lra|]. pose proof (H k Hk). specialize (IH ltac:(lia)). lra. Qed.

  Lemma pchip_mono v w j : (j < n)%nat -> (forall k, (S k < length xs)%nat -> y k j <= y (S k) j) ->
    nth 0 xs 0 <= v -> v <= w -> w <= nth (length xs - 1) xs 0 -> P v j <= P w j.
  Proof.
    intros Hj Hy Hv Hvw Hw.
    destruct (locate v ltac:(lra)) as (a & Ha & Ia). destruct (locate w ltac:(lra)) as (b & Hb & Ib).
    destruct (Nat.lt_trichotomy a b) as [T|[T|T]].
    - pose proof (pchip_between v a j Ha Hj Ia) as A. pose proof (pchip_between w b j Hb Hj Ib) as B.
      pose proof (Hy a Ha). pose proof (Hy b Hb). rewrite Rmax_right in A by assumption. rewrite Rmin_left in B by assumption.
      pose proof (chain_le (fun k => y k j) Hy (S a) b ltac:(lia) ltac:(lia)) as C. cbv beta in C. lra.
    - subst b. apply (pchip_mono_piece v w a j); try assumption; try lra. apply Hy. assumption.
    - pose proof (increasing_le xs I (S b) a ltac:(lia)). assert (v = w) by lra. subst w. lra.
  Qed.
  Lemma pchip_anti v w j : (j < n)%nat -> (forall k, (S k < length xs)%nat -> y (S k) j <= y k j) ->
    nth 0 xs 0 <= v -> v <= w -> w <= nth (length xs - 1) xs 0 -> P w j <= P v j.
  Proof.
    intros Hj Hy Hv Hvw Hw.
    destruct (locate v ltac:(lra)) as (a & Ha & Ia). destruct (locate w ltac:(lra)) as (b & Hb & Ib).
    destruct (Nat.lt_trichotomy a b) as [T|[T|T]].
    - pose proof (pchip_between v a j Ha Hj Ia) as A. pose proof (pchip_between w b j Hb Hj Ib) as B.
      pose proof (Hy a Ha). pose proof (Hy b Hb). rewrite Rmin_right in A by assumption. rewrite Rmax_left in B by assumption.
      pose proof (chain_le (fun k => - y k j) ltac:(intros k Hk; pose proof (Hy k Hk); lra) (S a) b ltac:(lia) ltac:(lia)) as C. cbv beta in C. lra.
    - subst b. apply (pchip_anti_piece v w a j); try assumption; try lra. apply Hy. assumption.
    - pose proof (increasing_le xs I (S b) a ltac:(lia)). assert (v = w) by lra. subst w. lra.
  Qed.

  (** Affine data are reproduced, also outside. *)
  Lemma pchip_affine v j a b : (j < n)%nat -> (ex = true \/ inside xs v) ->
    (forall k, (k < length xs)%nat -> y k j = a + b * nth k xs 0) -> P v j = a + b * v.
  Proof.
    intros Hj Hex Hy. destruct (piece_exists xs v I H2) as (k & Hk & Hl & Hr).
    unfold P. rewrite (hermite_at_eq qnan ex xs rows (pchip_rows xs rows n) n I H2 v k j Hk Hj Hex Hl Hr).
    assert (M : forall i, (i < length xs)%nat -> nth i (pchip_derivs xs (column rows j)) 0 = b).
    { apply pd_affine; try assumption. cbv beta zeta. intros i Hi. rewrite !column_nth by lia. fold (y i j) (y (S i) j). rewrite !Hy by lia.
      pose proof (I i Hi). field. lra. }
    rewrite !pchip_rows_nth, !M by lia. fold (y k j) (y (S k) j). rewrite !Hy by lia. pose proof (I k Hk).
    replace (a + b * nth (S k) xs 0) with (a + b * nth k xs 0 + b * (nth (S k) xs 0 - nth k xs 0)) by ring.
    rewrite hval_linear by lra. ring.
  Qed.
End Pchip.

(** ** Straight lines *)

(** The points p + s_k u of a line with a unit direction u. *)
Definition line_rows (p u s : list R) (rows : list (list R)) : Prop :=
  length s = length rows /\ norm u = 1 /\
  forall k, (k < length rows)%nat -> length (nth k rows []) = length u /\
    forall j, nth j (nth k rows []) 0 = nth j p 0 + nth k s 0 * nth j u 0.

Lemma line_dims p u s rows : line_rows p u s rows -> dims (length u) rows.
Proof. intros (_ & _ & H) r Hr. apply (In_nth _ _ []) in Hr as (k & Hk & <-). apply H. assumption. Qed.

Lemma line_step p u s rows k : line_rows p u s rows -> increasing s -> (S k < length rows)%nat ->
  dist (nth k rows []) (nth (S k) rows []) = nth (S k) s 0 - nth k s 0.
Proof.
  intros (Ls & U & H) I Hk. destruct (H k ltac:(lia)) as [L0 H0]. destruct (H (S k) Hk) as [L1 H1].
  unfold dist. rewrite minus_vsub.
  replace (vsub (nth (S k) rows []) (nth k rows [])) with (vscale u (nth (S k) s 0 - nth k s 0)).
  - rewrite norm_vnorm, vnorm_scale, <- norm_vnorm, U. pose proof (I k ltac:(lia)). rewrite Rabs_right by lra. lra.
  - apply vec_ext; [rewrite vscale_length, vsub_length; congruence|]. intros j.
    rewrite nth_vscale, nth_vsub, H0, H1 by congruence. lra.
Qed.

Lemma line_cumarclen junk (c : curve R) p u s : c_bool c = true -> line_rows p u s (c_rows c) -> increasing s ->
  forall k, (k < length (c_rows c))%nat -> nth k (c_cumarclen junk c) 0 = nth k s 0 - nth 0 s 0.
Proof.
  intros B H I. induction k as [|k IH]; intros Hk.
  - rewrite cumarclen_nth by assumption. cbn. lra.
  - rewrite (cumarclen_step (length u)) by (try assumption; apply (line_dims p u s); assumption).
    rewrite IH by lia. rewrite (line_step p u s) by assumption. lra.
Qed.

Lemma line_frenet1 p u s rows k : line_rows p u s rows -> (2 <= length rows)%nat -> (k < length rows)%nat ->
  / 100000000 < slope (length rows) (fun i => nth i s 0) k -> nth k (frenet1_rows rows) [] = u.
Proof.
  intros H H2 Hk Hs. assert (D := line_dims _ _ _ _ H). destruct H as (Ls & U & H).
  rewrite frenet1_nth by assumption. unfold deriv1.
  destruct (gradient_nth (length u) rows k D H2 Hk) as [Lg Hg].
  set (sl := slope (length rows) (fun i => nth i s 0) k) in *.
  assert (E : nth k (gradient rows) [] = vscale u sl).
  { apply vec_ext; [rewrite vscale_length; assumption|]. intros j. rewrite Hg, nth_vscale.
    rewrite (slope_ext _ _ (fun i => 1 * nth j p 0 + nth j u 0 * nth i s 0)) by (try assumption; intros i Hi; unfold coord; rewrite (proj2 (H i Hi)); lra).
    rewrite slope_linear, slope_const. fold sl. lra. }
  rewrite E. assert (V : vnorm (vscale u sl) = sl) by (rewrite vnorm_scale, <- norm_vnorm, U, Rabs_right by lra; lra).
  rewrite unit_row_scale, frenet_norm_far, V by (rewrite V; assumption).
  apply vec_ext; [rewrite !vscale_length; reflexivity|]. intros j. rewrite !nth_vscale. field. lra.
Qed.

(** Evenly enough spaced: the one-sided differences at the ends and the central
    differences inside are positive (and not tiny). *)
Definition even_enough (s : list R) : Prop :=
  let m := length s in let x k := nth k s 0 in
  (m = 2%nat -> 1 / 100000000 < x 1%nat - x 0%nat) /\
  ((3 <= m)%nat ->
     2 / 100000000 < 4 * (x 1%nat - x 0%nat) - (x 2%nat - x 0%nat) /\
     2 / 100000000 < 4 * (x (m - 1)%nat - x (m - 2)%nat) - (x (m - 1)%nat - x (m - 3)%nat) /\
     forall k, (1 <= k)%nat -> (S k < m)%nat -> 2 / 100000000 < x (S k) - x (k - 1)%nat).

Lemma even_slope s k : even_enough s -> (2 <= length s)%nat -> (k < length s)%nat -> / 100000000 < slope (length s) (fun i => nth i s 0) k.
Proof.
  intros [E2 E3] H Hk. unfold slope. destruct (Nat.eqb_spec (length s) 2) as [E|E]; [specialize (E2 E); lra|].
  destruct (E3 ltac:(lia)) as (A & B & C). destruct (Nat.eqb_spec k 0) as [->|K]; [lra|].
  destruct (Nat.eqb_spec k (length s - 1)) as [->|K']; [lra|].
  specialize (C k ltac:(lia) ltac:(lia)). replace (k + 1)%nat with (S k) by lia. lra.
Qed.

(** A spline with the derivative u at all points of a line. *)
Lemma hermite_line qnan ex (xs : list R) p u s rows ds v : increasing xs -> (2 <= length xs)%nat -> length rows = length xs ->
  line_rows p u s rows -> (forall k, (k < length xs)%nat -> nth k xs 0 = nth k s 0 - nth 0 s 0) ->
  (forall k, (k < length xs)%nat -> nth k ds [] = u) -> (ex = true \/ inside xs v) ->
  forall j, (j < length u)%nat -> nth j (hermite_at qnan ex xs rows ds (length u) v) 0 = nth j p 0 + (nth 0 s 0 + v) * nth j u 0.
Proof.
  intros I H2 L (Ls & U & H) Hx Hd Hex j Hj. destruct (piece_exists xs v I H2) as (k & Hk & Hl & Hr).
  rewrite (hermite_at_eq qnan ex xs rows ds (length u) I H2 v k j Hk Hj Hex Hl Hr).
  rewrite !Hd by lia. rewrite (proj2 (H k ltac:(lia))), (proj2 (H (S k) ltac:(lia))).
  pose proof (I k Hk). rewrite !Hx in * by lia.
  replace (nth j p 0 + nth (S k) s 0 * nth j u 0) with
    (nth j p 0 + nth k s 0 * nth j u 0 + nth j u 0 * (nth (S k) s 0 - nth 0 s 0 - (nth k s 0 - nth 0 s 0))) by ring.
  rewrite hval_linear by lra. ring.
Qed.
