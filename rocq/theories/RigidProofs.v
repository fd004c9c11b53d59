(** Maps of points that preserve all distances: they are affine, and the
    geometry of curves and segments follows them. *)
From Coq Require Import ZArith List Bool Arith Lia Reals Lra Psatz.
From Verif Require Import Num Py Numeric Curve Vec DiffGeom Geom Spec GeomSpec.
From Verif Require Import ListFacts VecFacts CurveProofs2 CurveProofs3 RankProofs GeomProofs DiffGeomProofs DiffGeomProofs2.
Import ListNotations.
Local Open Scope R_scope.

Section Linear.
  Variables (n m : nat) (g : list R -> list R).
  Hypothesis I : isometry n m g.
  Notation L := (vector_of n g).
  Notation z := (repeat 0 n).

  Lemma z_length : length z = n. Proof. apply repeat_length. Qed.
  Lemma g_length p : length p = n -> length (g p) = m. Proof. apply I. Qed.
  Lemma L_vsub v : L v = vsub (g v) (g z). Proof. apply minus_vsub. Qed.
  Lemma L_length v : length v = n -> length (L v) = m.
  Proof. intros H. rewrite L_vsub, vsub_length by (rewrite !g_length; auto using z_length). apply g_length, H. Qed.

  Lemma g_sq p q : length p = n -> length q = n ->
    vdot (vsub (g p) (g q)) (vsub (g p) (g q)) = vdot (vsub p q) (vsub p q).
  Proof.
    intros Hp Hq. destruct I as [_ H]. specialize (H q p Hq Hp).
    assert (Q := f_equal (fun x => x * x) H). cbv beta in Q. rewrite !dist_sq, !inner_vdot, !minus_vsub in Q. exact Q.
  Qed.
  Lemma L_minus u v : length u = n -> length v = n -> vsub (L u) (L v) = vsub (g u) (g v).
  Proof.
    intros Hu Hv. pose proof (g_length u Hu). pose proof (g_length v Hv). pose proof (g_length z z_length).
    apply vec_ext; [rewrite !vsub_length; rewrite ?L_length; auto; congruence|].
    intros i. rewrite !L_vsub, !nth_vsub; try (rewrite ?vsub_length; congruence). ring.
  Qed.
  Lemma vsub_zero u : length u = n -> vsub u z = u.
  Proof.
    intros Hu. pose proof z_length. apply vec_ext; [rewrite vsub_length; congruence|].
    intros i. rewrite nth_vsub by congruence. rewrite nth_zeros. ring.
  Qed.
  Lemma L_sq u : length u = n -> vdot (L u) (L u) = vdot u u.
  Proof. intros Hu. rewrite L_vsub, g_sq by auto using z_length. rewrite vsub_zero by assumption. reflexivity. Qed.
  Lemma L_dot u v : length u = n -> length v = n -> vdot (L u) (L v) = vdot u v.
  Proof.
    intros Hu Hv. pose proof (g_sq u v Hu Hv) as Q. rewrite <- L_minus in Q by assumption.
    pose proof (L_length u Hu). pose proof (L_length v Hv).
    rewrite !vdot_sub_l, !vdot_sub_r in Q by congruence. rewrite !L_sq in Q by assumption.
    rewrite (vdot_comm (L v) (L u)), (vdot_comm v u) in Q. lra.
  Qed.
  Lemma vdiff0 u v : length u = length v -> vdot (vsub u v) (vsub u v) = 0 -> u = v.
  Proof.
    intros H Q. apply vdot_eq0 in Q. apply vec_ext; [assumption|]. intros i.
    assert (E := f_equal (fun x => nth i x 0) Q). cbv beta in E. rewrite nth_zeros, nth_vsub in E by assumption. lra.
  Qed.
  Lemma L_add u v : length u = n -> length v = n -> L (vadd u v) = vadd (L u) (L v).
  Proof.
    intros Hu Hv. assert (Hw : length (vadd u v) = n) by (rewrite vadd_length; congruence).
    pose proof (L_length u Hu) as Lu. pose proof (L_length v Hv) as Lv. pose proof (L_length _ Hw) as Lw.
    assert (La : length (vadd (L u) (L v)) = m) by (rewrite vadd_length; congruence).
    apply vdiff0; [congruence|].
    rewrite !vdot_sub_l, !vdot_sub_r by congruence. rewrite !vdot_add_l, !vdot_add_r by congruence.
    rewrite !L_dot by assumption. rewrite !vdot_add_l, !vdot_add_r by congruence. rewrite (vdot_comm v u). ring.
  Qed.
  Lemma L_scale u s : length u = n -> L (vscale u s) = vscale (L u) s.
  Proof.
    intros Hu. assert (Hw : length (vscale u s) = n) by (rewrite vscale_length; assumption).
    pose proof (L_length u Hu) as Lu. pose proof (L_length _ Hw) as Lw.
    assert (La : length (vscale (L u) s) = m) by (rewrite vscale_length; congruence).
    apply vdiff0; [congruence|].
    rewrite !vdot_sub_l, !vdot_sub_r by congruence. rewrite !vdot_scale_l, !vdot_scale_r.
    rewrite !L_dot by assumption. rewrite !vdot_scale_l, !vdot_scale_r. ring.
  Qed.
  Lemma L_sub u v : length u = n -> length v = n -> L (vsub u v) = vsub (L u) (L v).
  Proof.
    intros Hu Hv. assert (E : vsub u v = vadd u (vscale v (-1))).
    { apply vec_ext; [rewrite vsub_length, vadd_length; rewrite ?vscale_length; congruence|].
      intros i. rewrite nth_vsub, nth_vadd, nth_vscale by (rewrite ?vscale_length; congruence). ring. }
    rewrite E, L_add, L_scale by (rewrite ?vscale_length; assumption).
    pose proof (L_length u Hu). pose proof (L_length v Hv).
    apply vec_ext; [rewrite vsub_length, vadd_length; rewrite ?vscale_length; congruence|].
    intros i. rewrite nth_vsub, nth_vadd, nth_vscale by (rewrite ?vscale_length; congruence). ring.
  Qed.
  Lemma L_norm u : length u = n -> vnorm (L u) = vnorm u.
  Proof. intros Hu. unfold vnorm. rewrite L_sq by assumption. reflexivity. Qed.
  Lemma g_minus p q : length p = n -> length q = n -> vsub (g p) (g q) = L (vsub p q).
  Proof. intros Hp Hq. rewrite L_sub, L_minus by assumption. reflexivity. Qed.
  Lemma g_plus p v : length p = n -> length v = n -> g (vadd p v) = vadd (g p) (L v).
  Proof.
    intros Hp Hv. assert (Hw : length (vadd p v) = n) by (rewrite vadd_length; congruence).
    pose proof (g_minus (vadd p v) p Hw Hp) as Q.
    assert (E : vsub (vadd p v) p = v).
    { apply vec_ext; [rewrite vsub_length; congruence|]. intros i. rewrite nth_vsub, nth_vadd by congruence. ring. }
    rewrite E in Q. pose proof (g_length p Hp). pose proof (g_length _ Hw). pose proof (L_length v Hv).
    apply vec_ext; [rewrite vadd_length; congruence|]. intros i. rewrite nth_vadd by congruence.
    rewrite <- Q, nth_vsub by congruence. ring.
  Qed.
  (** g p = L p + g 0, coordinate by coordinate. *)
  Lemma nth_g p i : length p = n -> nth i (g p) 0 = nth i (L p) 0 + nth i (g z) 0.
  Proof. intros Hp. rewrite L_vsub, nth_vsub by (rewrite !g_length; auto using z_length). ring. Qed.

  (** The adjoint map: L* L = id. *)
  Definition unit_vec (k : nat) : list R := map (fun i => if Nat.eqb i k then 1 else 0) (seq 0 n).
  Definition adj (y : list R) : list R := map (fun k => vdot y (L (unit_vec k))) (seq 0 n).
  Lemma unit_vec_length k : length (unit_vec k) = n.
  Proof. unfold unit_vec. rewrite map_length, seq_length. reflexivity. Qed.
  Lemma adj_length y : length (adj y) = n.
  Proof. unfold adj. rewrite map_length, seq_length. reflexivity. Qed.
End Linear.

Lemma vdot_unit_vec_gen (w : list R) k a :
  vdot w (map (fun i => if Nat.eqb i k then 1 else 0) (seq a (length w))) = (if (a <=? k)%nat then nth (k - a) w 0 else 0).
Proof.
  revert a. induction w as [|x w IH]; intros a.
  - cbn. destruct (a <=? k)%nat; [destruct (k - a)%nat|]; reflexivity.
  - cbn [length seq map]. rewrite vdot_cons, IH.
    destruct (Nat.eqb_spec a k) as [->|N].
    + rewrite Nat.leb_refl, Nat.sub_diag. cbn [nth].
      replace (S k <=? k)%nat with false by (symmetry; apply Nat.leb_gt; lia). ring.
    + destruct (Nat.leb_spec (S a) k), (Nat.leb_spec a k); try lia; [|ring].
      replace (k - a)%nat with (S (k - S a)) by lia. cbn [nth]. ring.
Qed.
Lemma vdot_unit_vec n (w : list R) k : length w = n -> vdot w (unit_vec n k) = nth k w 0.
Proof. intros <-. unfold unit_vec. rewrite vdot_unit_vec_gen. cbn [Nat.leb]. rewrite Nat.sub_0_r. reflexivity. Qed.

Section Linear2.
  Variables (n m : nat) (g : list R -> list R).
  Hypothesis I : isometry n m g.
  Notation L := (vector_of n g).

  Lemma nth_adj y k : (k < n)%nat -> nth k (adj n g y) 0 = vdot y (L (unit_vec n k)).
  Proof.
    intros Hk. unfold adj. set (f := fun k => vdot y (L (unit_vec n k))).
    rewrite (nth_indep _ 0 (f 0%nat)) by (rewrite map_length, seq_length; assumption).
    rewrite map_nth, seq_nth by assumption. reflexivity.
  Qed.
  Lemma adj_L w : length w = n -> adj n g (L w) = w.
  Proof.
    intros Hw. apply vec_ext; [rewrite adj_length; congruence|]. intros i.
    destruct (Nat.lt_ge_cases i n) as [Hi|Hi].
    - rewrite nth_adj by assumption. rewrite (L_dot n m) by (try exact I; auto using unit_vec_length). apply vdot_unit_vec, Hw.
    - rewrite !nth_overflow by (rewrite ?adj_length; lia). reflexivity.
  Qed.
  Lemma nth_adj_comb y u v s t i : length y = m -> length u = m -> length v = m ->
    (forall i, nth i y 0 = s * nth i u 0 + t * nth i v 0) ->
    nth i (adj n g y) 0 = s * nth i (adj n g u) 0 + t * nth i (adj n g v) 0.
  Proof.
    intros Hy Hu Hv H. destruct (Nat.lt_ge_cases i n) as [Hi|Hi].
    - rewrite !nth_adj by assumption. assert (E : y = vadd (vscale u s) (vscale v t)).
      { apply vec_ext; [rewrite vadd_length; rewrite ?vscale_length; congruence|].
        intros k. rewrite nth_vadd, !nth_vscale by (rewrite !vscale_length; congruence). rewrite H. ring. }
      rewrite E, vdot_add_l, !vdot_scale_l by (rewrite !vscale_length; congruence). reflexivity.
    - rewrite !nth_overflow by (rewrite ?adj_length; lia). ring.
  Qed.
  Lemma g_inj p q : length p = n -> length q = n -> g p = g q -> p = q.
  Proof.
    intros Hp Hq E. apply vdiff0; [congruence|]. rewrite <- (g_sq n m g I p q Hp Hq), E.
    assert (Z : forall x, vdot (vsub x x) (vsub x x) = 0).
    { induction x as [|a x IHx]; [reflexivity|]. change (vsub (a :: x) (a :: x)) with ((a - a) :: vsub x x).
      rewrite vdot_cons, IHx. ring. }
    apply Z.
  Qed.

  (** *** Derivatives and Frenet vectors *)
  Definition dims_map (f : list R -> list R) rows : dims n rows -> (forall p, length p = n -> length (f p) = m) -> dims m (map f rows).
  Proof. intros D H p Hp. apply in_map_iff in Hp. destruct Hp as (q & <- & Hq). apply H, D, Hq. Qed.

  Lemma half_scale (u : list R) : map (fun x => ndiv x (nlit 2 1)) u = vscale u (/ 2).
  Proof. unfold vscale. apply map_ext. intros x. cbn. unfold Rdiv. f_equal. f_equal. lra. Qed.

  (** A map that is [f p = L p + b]. *)
  Lemma gradient_map (f : list R -> list R) b rows : (2 <= length rows)%nat -> dims n rows ->
    (forall p, length p = n -> length (f p) = m) ->
    (forall p i, length p = n -> nth i (f p) 0 = nth i (L p) 0 + nth i b 0) ->
    gradient (map f rows) = map L (gradient rows).
  Proof.
    intros H2 D Lf Hf.
    assert (Ln : forall k, (k < length rows)%nat -> length (nth k rows []) = n) by (intros; apply dims_nth; assumption).
    assert (Nf : forall k, (k < length rows)%nat -> nth k (map f rows) [] = f (nth k rows [])).
    { intros k Hk. rewrite (nth_indep _ [] (f [])) by (rewrite map_length; assumption). apply map_nth. }
    assert (LL : forall v, length v = n -> length (L v) = m) by (apply L_length; exact I).
    assert (Main : forall e, (e = true -> (3 <= length rows)%nat) -> np_gradient e (map f rows) = map L (np_gradient e rows)).
    { intros e He. apply (nth_ext _ _ [] (L [])).
      - unfold np_gradient. rewrite !map_length, !seq_length, ?map_length. reflexivity.
      - intros i Hi. rewrite map_nth. unfold np_gradient in Hi. rewrite map_length, seq_length, ?map_length in Hi.
        rewrite !np_gradient_nth by (rewrite ?map_length; assumption). cbv zeta. rewrite map_length.
        rewrite !half_scale.
        destruct (Nat.eqb_spec i 0) as [->|N0]; [|destruct (Nat.eqb_spec i (length rows - 1)) as [->|NL]].
        + destruct e.
          * specialize (He eq_refl). rewrite !Nf by lia.
            pose proof (Ln 0%nat ltac:(lia)) as L0. pose proof (Ln 1%nat ltac:(lia)) as L1. pose proof (Ln 2%nat ltac:(lia)) as L2.
            set (p := nth 0 rows []) in *. set (q := nth 1 rows []) in *. set (r := nth 2 rows []) in *.
            pose proof (Lf p L0). pose proof (Lf q L1). pose proof (Lf r L2). pose proof (LL p L0). pose proof (LL q L1). pose proof (LL r L2).
            rewrite !(L_add n m), !(L_scale n m); try exact I; rewrite ?vadd_length, ?vscale_length; rewrite ?vscale_length; try congruence.
            apply vec_ext; [rewrite !vadd_length, !vscale_length; rewrite ?vadd_length, ?vscale_length; rewrite ?vscale_length; congruence|].
            intros j. rewrite !nth_vadd, !nth_vscale; rewrite ?vadd_length, ?vscale_length; rewrite ?vscale_length; try congruence.
            rewrite !Hf by assumption. cbn. lra.
          * rewrite !Nf by lia. pose proof (Ln 0%nat ltac:(lia)) as L0. pose proof (Ln 1%nat ltac:(lia)) as L1.
            set (p := nth 0 rows []) in *. set (q := nth 1 rows []) in *. rewrite (L_sub n m) by assumption.
            pose proof (Lf p L0). pose proof (Lf q L1). pose proof (LL p L0). pose proof (LL q L1).
            apply vec_ext; [rewrite !vsub_length; congruence|]. intros j. rewrite !nth_vsub by congruence. rewrite !Hf by assumption. ring.
        + destruct e.
          * specialize (He eq_refl). rewrite !Nf by lia.
            pose proof (Ln (length rows - 3)%nat ltac:(lia)) as L0. pose proof (Ln (length rows - 2)%nat ltac:(lia)) as L1.
            pose proof (Ln (length rows - 1)%nat ltac:(lia)) as L2.
            set (p := nth (length rows - 3) rows []) in *. set (q := nth (length rows - 2) rows []) in *. set (r := nth (length rows - 1) rows []) in *.
            pose proof (Lf p L0). pose proof (Lf q L1). pose proof (Lf r L2). pose proof (LL p L0). pose proof (LL q L1). pose proof (LL r L2).
            rewrite !(L_add n m), !(L_scale n m); try exact I; rewrite ?vadd_length, ?vscale_length; rewrite ?vscale_length; try congruence.
            apply vec_ext; [rewrite !vadd_length, !vscale_length; rewrite ?vadd_length, ?vscale_length; rewrite ?vscale_length; congruence|].
            intros j. rewrite !nth_vadd, !nth_vscale; rewrite ?vadd_length, ?vscale_length; rewrite ?vscale_length; try congruence.
            rewrite !Hf by assumption. cbn. lra.
          * rewrite !Nf by lia. pose proof (Ln (length rows - 1)%nat ltac:(lia)) as L0. pose proof (Ln (length rows - 2)%nat ltac:(lia)) as L1.
            set (p := nth (length rows - 1) rows []) in *. set (q := nth (length rows - 2) rows []) in *. rewrite (L_sub n m) by assumption.
            pose proof (Lf p L0). pose proof (Lf q L1). pose proof (LL p L0). pose proof (LL q L1).
            apply vec_ext; [rewrite !vsub_length; congruence|]. intros j. rewrite !nth_vsub by congruence. rewrite !Hf by assumption. ring.
        + rewrite !Nf by lia. pose proof (Ln (i + 1)%nat ltac:(lia)) as L0. pose proof (Ln (i - 1)%nat ltac:(lia)) as L1.
          set (p := nth (i + 1) rows []) in *. set (q := nth (i - 1) rows []) in *.
          rewrite (L_scale n m), (L_sub n m) by (try exact I; rewrite ?vsub_length; congruence).
          pose proof (Lf p L0). pose proof (Lf q L1). pose proof (LL p L0). pose proof (LL q L1).
          apply vec_ext; [rewrite !vscale_length, !vsub_length; congruence|]. intros j. rewrite !nth_vscale, !nth_vsub by congruence.
          rewrite !Hf by assumption. ring. }
    unfold gradient. rewrite map_length. destruct (length rows) as [|[|[|k]]] eqn:E; [lia|lia| |]; apply Main; intros; try discriminate; lia.
  Qed.

  Lemma L_map (rows : list (list R)) : forall p i, length p = n -> nth i (L p) 0 = nth i (L p) 0 + nth i [] 0.
  Proof. intros p i _. destruct i; cbn; ring. Qed.
  Lemma gradient_L rows : (2 <= length rows)%nat -> dims n rows -> gradient (map L rows) = map L (gradient rows).
  Proof.
    intros H2 D. apply (gradient_map L []); try assumption; [apply L_length; exact I|].
    intros p [|i] _; cbn; ring.
  Qed.
  Lemma gradient_g rows : (2 <= length rows)%nat -> dims n rows -> gradient (map g rows) = map L (gradient rows).
  Proof.
    intros H2 D. apply (gradient_map g (g (repeat 0 n))); try assumption; [apply I|].
    intros p i Hp. apply (nth_g n m); assumption.
  Qed.

  Lemma frenet_norm_L v : length v = n -> frenet_norm (L v) = frenet_norm v.
  Proof. intros H. unfold frenet_norm. rewrite (L_norm n m) by assumption. reflexivity. Qed.
  Lemma unit_row_L v : length v = n -> unit_row (L v) = L (unit_row v).
  Proof. intros H. rewrite !unit_row_scale, frenet_norm_L, (L_scale n m) by assumption. reflexivity. Qed.
  Lemma reject_L v e : length v = n -> length e = n -> reject (L v) (L e) = L (reject v e).
  Proof.
    intros Hv He. unfold reject. rewrite (L_dot n m), (L_sub n m), (L_scale n m) by (try exact I; rewrite ?vscale_length; assumption).
    reflexivity.
  Qed.
  Lemma map_unit_L rows : dims n rows -> map unit_row (map L rows) = map L (map unit_row rows).
  Proof. intros D. rewrite !map_map. apply map_ext_in. intros v Hv. apply unit_row_L, D, Hv. Qed.
  Lemma map2_L {A B C} (f : A -> B -> C) (f' : A -> B -> C) (h : A -> A) (k : B -> B) (o : C -> C) u v :
    (forall a b, In a u -> In b v -> f' (h a) (k b) = o (f a b)) -> map2 f' (map h u) (map k v) = map o (map2 f u v).
  Proof.
    revert v. induction u as [|a u IH]; intros [|b v] H; try reflexivity. cbn [map map2]. f_equal.
    - apply H; left; reflexivity.
    - apply IH. intros; apply H; right; assumption.
  Qed.
  Lemma combine_map {A B C D} (h : A -> C) (k : B -> D) u v :
    combine (map h u) (map k v) = map (fun '(a, b) => (h a, k b)) (combine u v).
  Proof. revert v. induction u as [|a u IH]; intros [|b v]; try reflexivity. cbn. rewrite IH. reflexivity. Qed.
  Lemma map_id_in {A} (l : list A) : map (fun x => x) l = l.
  Proof. apply map_id. Qed.
  Lemma dims_combine (u v : list (list R)) e : dims n u -> dims n v -> In e (combine u v) -> length (fst e) = n /\ length (snd e) = n.
  Proof. intros Du Dv H. destruct e as [a b]. split; [apply Du; eapply in_combine_l, H|apply Dv; eapply in_combine_r, H]. Qed.

  Section Rows.
    Variable rows : list (list R).
    Hypothesis H2 : (2 <= length rows)%nat.
    Hypothesis D : dims n rows.

    Lemma rows_ne : rows <> []. Proof. destruct rows; [cbn in H2; lia|discriminate]. Qed.
    Lemma d1_dims : dims n (deriv1 rows). Proof. apply gradient_dims; assumption. Qed.
    Lemma d1_len : length (deriv1 rows) = length rows. Proof. apply gradient_length. Qed.
    Lemma d2_dims : dims n (deriv2 rows). Proof. apply gradient_dims; [apply d1_dims|rewrite d1_len; assumption]. Qed.
    Lemma d2_len : length (deriv2 rows) = length rows. Proof. unfold deriv2. rewrite gradient_length. apply d1_len. Qed.
    Lemma d3_dims : dims n (deriv3 rows). Proof. apply gradient_dims; [apply d2_dims|rewrite d2_len; assumption]. Qed.
    Lemma d3_len : length (deriv3 rows) = length rows. Proof. unfold deriv3. rewrite gradient_length. apply d2_len. Qed.
    Lemma unit_dims rs : dims n rs -> dims n (map unit_row rs).
    Proof. intros K p Hp. apply in_map_iff in Hp. destruct Hp as (q & <- & Hq). rewrite unit_row_length. apply K, Hq. Qed.
    Lemma f1_dims : dims n (frenet1_rows rows). Proof. apply unit_dims, d1_dims. Qed.
    Lemma f1_len : length (frenet1_rows rows) = length rows. Proof. unfold frenet1_rows. rewrite map_length. apply d1_len. Qed.
    Lemma map2_dims {A B} (f : A -> B -> list R) u v : (forall a b, In a u -> In b v -> length (f a b) = n) -> dims n (map2 f u v).
    Proof.
      revert v. induction u as [|a u IH]; intros [|b v] K p Hp; try destruct Hp.
      - subst p. apply K; left; reflexivity.
      - refine (IH v _ p H). intros; apply K; right; assumption.
    Qed.
    Lemma nr_dims : dims n (normal_rows rows).
    Proof. apply map2_dims. intros a b Ha Hb. rewrite reject_length; [apply d2_dims, Ha|]. rewrite (d2_dims a Ha), (f1_dims b Hb). reflexivity. Qed.
    Lemma nr_len : length (normal_rows rows) = length rows.
    Proof. unfold normal_rows. rewrite map2_length, d2_len, f1_len. apply Nat.min_id. Qed.
    Lemma f2_dims : dims n (frenet2_rows rows). Proof. apply unit_dims, nr_dims. Qed.
    Lemma f2_len : length (frenet2_rows rows) = length rows. Proof. unfold frenet2_rows. rewrite map_length. apply nr_len. Qed.
    Lemma bn_dims : dims n (binormal_rows rows).
    Proof.
      apply map2_dims. intros a [e1 e2] Ha Hb. destruct (dims_combine _ _ _ f1_dims f2_dims Hb) as [A B]. cbn [fst snd] in A, B.
      pose proof (d3_dims a Ha). rewrite !vsub_length; rewrite ?vsub_length; rewrite ?vscale_length; congruence.
    Qed.
    Lemma f3_dims : dims n (frenet3_rows rows). Proof. apply unit_dims, bn_dims. Qed.

    Lemma deriv1_g : deriv1 (map g rows) = map L (deriv1 rows). Proof. apply gradient_g; assumption. Qed.
    Lemma deriv2_g : deriv2 (map g rows) = map L (deriv2 rows).
    Proof. unfold deriv2. rewrite deriv1_g. apply gradient_L; [rewrite d1_len; assumption|apply d1_dims]. Qed.
    Lemma deriv3_g : deriv3 (map g rows) = map L (deriv3 rows).
    Proof. unfold deriv3. rewrite deriv2_g. apply gradient_L; [rewrite d2_len; assumption|apply d2_dims]. Qed.
    Lemma frenet1_g : frenet1_rows (map g rows) = map L (frenet1_rows rows).
    Proof. unfold frenet1_rows. rewrite deriv1_g. apply map_unit_L, d1_dims. Qed.
    Lemma normal_g : normal_rows (map g rows) = map L (normal_rows rows).
    Proof.
      unfold normal_rows. rewrite deriv2_g, frenet1_g. apply map2_L. intros a b Ha Hb.
      apply reject_L; [apply d2_dims, Ha|apply f1_dims, Hb].
    Qed.
    Lemma frenet2_g : frenet2_rows (map g rows) = map L (frenet2_rows rows).
    Proof. unfold frenet2_rows. rewrite normal_g. apply map_unit_L, nr_dims. Qed.
    Lemma binormal_g : binormal_rows (map g rows) = map L (binormal_rows rows).
    Proof.
      unfold binormal_rows. rewrite deriv3_g, frenet1_g, frenet2_g, combine_map. apply map2_L. intros a [e1 e2] Ha Hb.
      destruct (dims_combine _ _ _ f1_dims f2_dims Hb) as [A B]. cbn [fst snd] in A, B. pose proof (d3_dims a Ha).
      rewrite !(L_dot n m), !(L_sub n m), !(L_scale n m); try exact I; rewrite ?vsub_length; rewrite ?vscale_length; try congruence.
    Qed.
    Lemma frenet3_g : frenet3_rows (map g rows) = map L (frenet3_rows rows).
    Proof. unfold frenet3_rows. rewrite binormal_g. apply map_unit_L, bn_dims. Qed.
    Lemma speed_g : speed_rows (map g rows) = speed_rows rows.
    Proof. unfold speed_rows. rewrite deriv1_g, map_map. apply map_ext_in. intros v Hv. apply (L_norm n m); [exact I|]. apply d1_dims, Hv. Qed.
    Lemma curvature_g : curvature_space (map g rows) = curvature_space rows.
    Proof.
      unfold curvature_space. rewrite frenet1_g, deriv1_g, gradient_L by (rewrite ?f1_len; auto using f1_dims).
      rewrite <- (map_id (map2 _ _ (deriv1 rows))). apply map2_L. intros a b Ha Hb.
      rewrite !(L_norm n m); try exact I; [reflexivity|apply d1_dims, Hb|].
      refine (gradient_dims n _ f1_dims _ a Ha). rewrite f1_len. assumption.
    Qed.
    Lemma torsion_g : torsion_rows (map g rows) = torsion_rows rows.
    Proof.
      unfold torsion_rows. rewrite frenet2_g, frenet3_g, deriv1_g, gradient_L by (rewrite ?f2_len; auto using f2_dims).
      rewrite combine_map. rewrite <- (map_id (map2 _ _ (deriv1 rows))). apply map2_L. intros [a e] b Ha Hb.
      assert (G : dims n (gradient (frenet2_rows rows))) by (apply gradient_dims; [apply f2_dims|rewrite f2_len; assumption]).
      destruct (dims_combine _ _ _ G f3_dims Ha) as [A B]. cbn [fst snd] in A, B.
      rewrite (L_norm n m), (L_dot n m); try exact I; try assumption; [reflexivity|apply d1_dims, Hb].
    Qed.
  End Rows.

  (** *** Segments *)
  Definition moved (s : segment R) : segment R := mkSeg (g (sg_p1 s)) (g (sg_p2 s)).
  Lemma sg_dir_g s : seg_wf n s -> sg_dir (moved s) = L (sg_dir s).
  Proof. intros [H1 H2]. unfold sg_dir, moved. cbn. apply (g_minus n m); assumption. Qed.
  Lemma sg_point_g s t : seg_wf n s -> sg_point (moved s) t = g (sg_point s t).
  Proof.
    intros H. pose proof (sg_dir_length n s H). unfold sg_point. rewrite sg_dir_g by assumption.
    rewrite (g_plus n m), (L_scale n m); try exact I; rewrite ?vscale_length; try apply H; try assumption. reflexivity.
  Qed.
  Lemma parallel_g s o tol : seg_wf n s -> seg_wf n o -> parallel_segments (moved s) (moved o) tol = parallel_segments s o tol.
  Proof.
    intros H1 H2. unfold parallel_segments. rewrite !sg_dir_g by assumption.
    rewrite !(L_dot n m); try exact I; try reflexivity; apply sg_dir_length; assumption.
  Qed.
  Lemma to_point_g s p : seg_wf n s -> length p = n -> segment_to_point (moved s) (g p) = segment_to_point s p.
  Proof.
    intros H Hp. unfold segment_to_point. rewrite sg_dir_g by assumption. cbn [moved sg_p1].
    assert (length (sg_dir s) = n) by (apply sg_dir_length; assumption). destruct H as [H1 H2].
    rewrite (g_minus n m) by assumption.
    rewrite !(L_dot n m); try exact I; try reflexivity; try assumption; rewrite vsub_length; congruence.
  Qed.
  Lemma to_segment_g s o tol : seg_wf n s -> seg_wf n o -> segment_to_segment (moved s) (moved o) tol = segment_to_segment s o tol.
  Proof.
    intros Hs Ho. unfold segment_to_segment. rewrite !sg_dir_g by assumption. cbn [moved sg_p1].
    assert (length (sg_dir s) = n) by (apply sg_dir_length; assumption).
    assert (length (sg_dir o) = n) by (apply sg_dir_length; assumption). destruct Hs, Ho.
    rewrite (g_minus n m) by assumption.
    rewrite !(L_dot n m); try exact I; try reflexivity; try assumption; rewrite vsub_length; congruence.
  Qed.
  Lemma sg_len_g s : seg_wf n s -> sg_len (moved s) = sg_len s.
  Proof.
    intros [H1 H2]. unfold sg_len, vdist. cbn [moved sg_p1 sg_p2]. rewrite (g_minus n m) by assumption.
    apply (L_norm n m); [exact I|]. rewrite vsub_length; congruence.
  Qed.
End Linear2.
