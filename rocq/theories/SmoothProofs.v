(** Lemmas on finite sums, boundary extension and the window filter. *)
From Coq Require Import ZArith String List Bool Arith Lia Reals Lra Psatz.
From Verif Require Import Num Py Numeric Curve Vec Registry Smooth Spec GeomSpec.
From Verif Require Import ListFacts ArrayProofs VecFacts CurveProofs CurveProofs2 CurveProofs3.
Import ListNotations.
Local Open Scope R_scope.

(** ** Sums *)

Lemma vsum_app (l l' : list R) : vsum (l ++ l') = vsum l + vsum l'.
Proof.
  induction l as [|a l IH]; [change (vsum []) with 0; cbn [app]; ring|]. cbn [app].
  change (a + vsum (l ++ l') = a + vsum l + vsum l'). rewrite IH. ring.
Qed.
Lemma vsum_cons a (l : list R) : vsum (a :: l) = a + vsum l.
Proof. reflexivity. Qed.
Lemma vsum_rev (l : list R) : vsum (rev l) = vsum l.
Proof. induction l as [|a l IH]; [reflexivity|]. cbn [rev]. rewrite vsum_app, IH, !vsum_cons. change (vsum []) with 0. lra. Qed.

Lemma sum_plus {A} (f g : A -> R) l : vsum (map (fun x => f x + g x) l) = vsum (map f l) + vsum (map g l).
Proof. induction l as [|a l IH]; [unfold vsum; cbn; rnum; lra|]. cbn [map]. rewrite !vsum_cons, IH. lra. Qed.
Lemma sum_scale {A} (f : A -> R) s l : vsum (map (fun x => s * f x) l) = s * vsum (map f l).
Proof. induction l as [|a l IH]; [unfold vsum; cbn; rnum; lra|]. cbn [map]. rewrite !vsum_cons, IH. lra. Qed.
Lemma sum_scale_r {A} (f : A -> R) s l : vsum (map (fun x => f x * s) l) = vsum (map f l) * s.
Proof. induction l as [|a l IH]; [unfold vsum; cbn; rnum; lra|]. cbn [map]. rewrite !vsum_cons, IH. lra. Qed.
Lemma sum_zero {A} (l : list A) : vsum (map (fun _ => 0) l) = 0.
Proof. induction l as [|a l IH]; [reflexivity|]. cbn [map]. rewrite vsum_cons, IH. lra. Qed.
Lemma sum_ext {A} (f g : A -> R) l : (forall x, In x l -> f x = g x) -> vsum (map f l) = vsum (map g l).
Proof. intros H. f_equal. apply map_ext_in. assumption. Qed.
Lemma sum_le {A} (f g : A -> R) l : (forall x, In x l -> f x <= g x) -> vsum (map f l) <= vsum (map g l).
Proof.
  induction l as [|a l IH]; intros H; [unfold vsum; cbn; rnum; lra|]. cbn [map]. rewrite !vsum_cons.
  pose proof (H a (or_introl eq_refl)). specialize (IH (fun x Hx => H x (or_intror Hx))). lra.
Qed.
Lemma sum_swap {A B} (f : A -> B -> R) la lb :
  vsum (map (fun a => vsum (map (f a) lb)) la) = vsum (map (fun b => vsum (map (fun a => f a b) la)) lb).
Proof.
  induction la as [|a la IH]; cbn [map]; [symmetry; apply sum_zero|].
  rewrite vsum_cons, IH, <- sum_plus. apply sum_ext. intros b _. rewrite vsum_cons. reflexivity.
Qed.
Lemma sum_nth (l : list R) : vsum (map (fun k => nth k l 0) (seq 0 (length l))) = vsum l.
Proof.
  induction l as [|a l IH]; [reflexivity|]. cbn [length seq map]. rewrite !vsum_cons, <- seq_shift, map_map. rewrite <- IH. reflexivity.
Qed.
Lemma rev_seq_map {A} (f : nat -> A) m : map f (rev (seq 0 m)) = map (fun k => f (m - 1 - k)%nat) (seq 0 m).
Proof.
  apply (nth_ext _ _ (f 0%nat) (f 0%nat)); [rewrite !map_length, rev_length; reflexivity|].
  intros i Hi. rewrite map_length, rev_length, seq_length in Hi.
  rewrite map_nth, rev_nth, seq_length, seq_nth by (rewrite ?seq_length; lia).
  rewrite (nth_indep _ (f 0%nat) (f (m - 1 - 0)%nat)) by (rewrite map_length, seq_length; lia).
  rewrite (map_nth (fun k => f (m - 1 - k)%nat)), seq_nth by lia. f_equal. lia.
Qed.
Lemma sum_reindex (f : nat -> R) m : vsum (map f (seq 0 m)) = vsum (map (fun k => f (m - 1 - k)%nat) (seq 0 m)).
Proof. rewrite <- rev_seq_map, map_rev, vsum_rev. reflexivity. Qed.

Lemma inner_sum n (a x : list R) : length a = n -> length x = n ->
  inner a x = vsum (map (fun j => nth j a 0 * nth j x 0) (seq 0 n)).
Proof.
  revert a x. induction n as [|n IH]; intros [|u a] [|v x] Ha Hx; try discriminate; [reflexivity|].
  cbn [inner seq map]. rewrite vsum_cons, <- seq_shift, map_map, (IH a x) by (cbn in *; lia). reflexivity.
Qed.

(** The point with coordinates sum_k v_k * (X_k)_j. *)
Definition comb (n : nat) (v : nat -> R) (X : nat -> list R) (m : nat) : list R :=
  map (fun j => vsum (map (fun k => v k * nth j (X k) 0) (seq 0 m))) (seq 0 n).
Lemma comb_length n v X m : length (comb n v X m) = n.
Proof. unfold comb. rewrite map_length. apply seq_length. Qed.
Lemma comb_nth n v X m j : (j < n)%nat -> nth j (comb n v X m) 0 = vsum (map (fun k => v k * nth j (X k) 0) (seq 0 m)).
Proof.
  intros H. unfold comb. set (f := fun j => _). rewrite (nth_indep _ 0 (f 0%nat)) by (rewrite map_length, seq_length; assumption).
  rewrite map_nth, seq_nth by assumption. reflexivity.
Qed.
Lemma comb_ext n v v' X X' m : (forall k, (k < m)%nat -> v k = v' k) -> (forall k, (k < m)%nat -> X k = X' k) -> comb n v X m = comb n v' X' m.
Proof.
  intros Hv HX. unfold comb. apply map_ext. intros j. apply sum_ext. intros k Hk. apply in_seq in Hk. rewrite Hv, HX by lia. reflexivity.
Qed.
Lemma inner_comb n v X m a : length a = n -> (forall k, (k < m)%nat -> length (X k) = n) ->
  inner a (comb n v X m) = vsum (map (fun k => v k * inner a (X k)) (seq 0 m)).
Proof.
  intros Ha HX. rewrite (inner_sum n) by (assumption || apply comb_length).
  rewrite (sum_ext _ (fun j => vsum (map (fun k => nth j a 0 * (v k * nth j (X k) 0)) (seq 0 m)))).
  - rewrite sum_swap. apply sum_ext. intros k Hk. apply in_seq in Hk. rewrite (inner_sum n) by (assumption || apply HX; lia).
    rewrite <- sum_scale. apply sum_ext. intros j _. ring.
  - intros j Hj. apply in_seq in Hj. rewrite comb_nth by lia. rewrite sum_scale. reflexivity.
Qed.

(** ** Boundary extension *)

Lemma ext_index_in m n j : (0 <= j < Z.of_nat n)%Z -> ext_index m n j = Some (Z.to_nat j).
Proof.
  intros H. destruct m; cbn [ext_index].
  - rewrite Z.mod_small by lia. destruct (Z.ltb_spec j (Z.of_nat n)); [reflexivity|lia].
  - f_equal. lia.
  - destruct (Nat.eqb_spec n 1) as [->|N]; [f_equal; lia|].
    destruct (Z.eq_dec j (2 * (Z.of_nat n - 1))); [lia|]. rewrite Z.mod_small by lia. destruct (Z.ltb_spec j (Z.of_nat n)); [reflexivity|lia].
  - rewrite Z.mod_small by lia. reflexivity.
  - destruct (Z.leb_spec 0 j), (Z.ltb_spec j (Z.of_nat n)); try lia. reflexivity.
Qed.

Lemma some_inj {A} (a b : A) : Some a = Some b -> a = b.
Proof. congruence. Qed.
Lemma ext_index_lt m n j i : (0 < n)%nat -> ext_index m n j = Some i -> (i < n)%nat.
Proof.
  intros Hn. destruct m; cbn [ext_index].
  - intros E. apply some_inj in E. subst i. pose proof (Z.mod_pos_bound j (2 * Z.of_nat n) ltac:(lia)). destruct (Z.ltb_spec (j mod (2 * Z.of_nat n)) (Z.of_nat n)); lia.
  - intros E. apply some_inj in E. subst i. lia.
  - destruct (Nat.eqb_spec n 1) as [->|N]; intros E; apply some_inj in E; subst i; [lia|].
    pose proof (Z.mod_pos_bound j (2 * (Z.of_nat n - 1)) ltac:(lia)). destruct (Z.ltb_spec (j mod (2 * (Z.of_nat n - 1))) (Z.of_nat n)); lia.
  - intros E. apply some_inj in E. subst i. pose proof (Z.mod_pos_bound j (Z.of_nat n) ltac:(lia)). lia.
  - destruct (Z.leb_spec 0 j), (Z.ltb_spec j (Z.of_nat n)); cbn; intros E; try discriminate. apply some_inj in E. subst i. lia.
Qed.

Lemma ext_index_some m n j : m <> BConstant -> exists i, ext_index m n j = Some i.
Proof. intros H. destruct m; cbn [ext_index]; try (eexists; reflexivity); [|congruence]. destruct (Nat.eqb n 1); eexists; reflexivity. Qed.

Lemma mod_eq j b r : (0 <= r < b)%Z -> (exists q, j = b * q + r)%Z -> (j mod b = r)%Z.
Proof. intros H (q & ->). rewrite Z.add_comm, Z.mul_comm, Z_mod_plus_full. apply Z.mod_small. assumption. Qed.

(** Extending the reversed line reverses the extension. *)
Lemma ext_index_rev m n j : (0 < n)%nat ->
  ext_index m n (Z.of_nat n - 1 - j) = option_map (fun i => n - 1 - i)%nat (ext_index m n j).
Proof.
  intros Hn. destruct m; cbn [ext_index].
  - set (z := Z.of_nat n). pose proof (Z.mod_pos_bound j (2 * z) ltac:(lia)) as B. pose proof (Z.div_mod j (2 * z) ltac:(lia)) as D.
    set (k := (j mod (2 * z))%Z) in *. set (q := (j / (2 * z))%Z) in *. cbn [option_map]. f_equal.
    destruct (Z.ltb_spec k z) as [C|C].
    + rewrite (mod_eq _ _ (z - 1 - k)); [|lia|exists (- q)%Z; lia]. destruct (Z.ltb_spec (z - 1 - k) z); lia.
    + rewrite (mod_eq _ _ (3 * z - 1 - k)); [|lia|exists (- q - 1)%Z; lia]. destruct (Z.ltb_spec (3 * z - 1 - k) z); lia.
  - cbn [option_map]. f_equal. lia.
  - destruct (Nat.eqb_spec n 1) as [->|N]; [reflexivity|].
    set (z := Z.of_nat n). pose proof (Z.mod_pos_bound j (2 * (z - 1)) ltac:(lia)) as B. pose proof (Z.div_mod j (2 * (z - 1)) ltac:(lia)) as D.
    set (k := (j mod (2 * (z - 1)))%Z) in *. set (q := (j / (2 * (z - 1)))%Z) in *. cbn [option_map]. f_equal.
    destruct (Z.ltb_spec k z) as [C|C].
    + rewrite (mod_eq _ _ (z - 1 - k)); [|lia|exists (- q)%Z; lia]. destruct (Z.ltb_spec (z - 1 - k) z); lia.
    + rewrite (mod_eq _ _ (3 * (z - 1) - k)); [|lia|exists (- q - 1)%Z; lia]. destruct (Z.ltb_spec (3 * (z - 1) - k) z); lia.
  - set (z := Z.of_nat n). pose proof (Z.mod_pos_bound j z ltac:(lia)) as B. pose proof (Z.div_mod j z ltac:(lia)) as D.
    cbn [option_map]. f_equal. rewrite (mod_eq _ _ (z - 1 - j mod z)); [lia|lia|]. exists (- (j / z))%Z. lia.
  - destruct (Z.leb_spec 0 j), (Z.ltb_spec j (Z.of_nat n)), (Z.leb_spec 0 (Z.of_nat n - 1 - j)), (Z.ltb_spec (Z.of_nat n - 1 - j) (Z.of_nat n));
      cbn; try lia; try reflexivity. f_equal. lia.
Qed.

Lemma ext_row_length m cval (rows : list (list R)) n j : dims n rows -> rows <> [] -> length (ext_row m cval rows n j) = n.
Proof.
  intros D N. unfold ext_row. destruct (ext_index m (length rows) j) as [i|] eqn:E; [|apply repeat_length].
  apply D, nth_In, (ext_index_lt m _ j); [|assumption]. destruct rows; [contradiction|cbn; lia].
Qed.

Lemma conv_row_comb m cval (w : list R) rows n i :
  conv_row m cval w rows n i =
  comb n (fun k => nth k w 0) (fun k => ext_row m cval rows n (Z.of_nat i + Z.of_nat (length w / 2) - Z.of_nat k)) (length w).
Proof. reflexivity. Qed.

(** ** Normalised windows *)

Lemma normalise_nth (w : list R) k : nth k (normalise w) 0 = nth k w 0 / vsum w.
Proof.
  unfold normalise. change (map (fun x : R => (x / vsum w)%num) w) with (map (fun x => x / vsum w) w).
  replace 0 with (0 / vsum w) at 1 by (unfold Rdiv; ring). exact (map_nth (fun x => x / vsum w) w 0 k).
Qed.
Lemma normalise_length (w : list R) : length (normalise w) = length w.
Proof. apply map_length. Qed.
Lemma normalise_sum (w : list R) : vsum w <> 0 -> vsum (normalise w) = 1.
Proof.
  intros H. unfold normalise. change (vsum (map (fun x => x / vsum w) w) = 1). unfold Rdiv. rewrite sum_scale_r, map_id. field. assumption.
Qed.
Lemma normalise_scale (w : list R) s : s <> 0 -> vsum w <> 0 -> normalise (map (fun x => s * x) w) = normalise w.
Proof.
  intros Hs H. unfold normalise. rewrite map_map, (sum_scale (fun x => x) s w), map_id. apply map_ext. intros x. rnum. field. split; assumption.
Qed.
Lemma normalise_rev (w : list R) : normalise (rev w) = rev (normalise w).
Proof. unfold normalise. rewrite vsum_rev, map_rev. reflexivity. Qed.

(** ** Casts over the reals *)

Lemma Int_part_IZR z : Int_part (IZR z) = z.
Proof. unfold Int_part. rewrite <- (tech_up (IZR z) (z + 1)); rewrite ?plus_IZR; try lra. lia. Qed.
Lemma Rtrunc_IZR z : Rtrunc (IZR z) = IZR z.
Proof.
  unfold Rtrunc. destruct (Rle_dec 0 (IZR z)); [rewrite Int_part_IZR; reflexivity|].
  rewrite <- (opp_IZR z), Int_part_IZR, opp_IZR. lra.
Qed.
Lemma Rtrunc_int x : exists z, Rtrunc x = IZR z.
Proof. unfold Rtrunc. destruct (Rle_dec 0 x); eexists; [reflexivity|]. rewrite <- opp_IZR. reflexivity. Qed.
Lemma cast_idem d (x : R) : cast d (cast d x) = cast d x.
Proof. destruct d; [|reflexivity]. cbn. destruct (Rtrunc_int x) as (z & ->). apply Rtrunc_IZR. Qed.

(** ** The window method *)

Lemma curve_init_array (rows : list (list R)) n d : rows <> [] -> (2 <= n)%nat -> dims n rows ->
  curve_init (SArray (mkNd [length rows; n] (concat rows)) d) None None None None = Ok (mkCurve (map (map (cast d)) rows) n d None).
Proof.
  intros Hne Hn Hr. unfold curve_init. change (2 <? 2)%Z with false. cbv iota.
  assert (Hz : (length rows * n <> 0)%nat) by (destruct rows; [contradiction|]; cbn; lia).
  rewrite as2d_id by assumption. cbn [rbind]. rewrite map_length.
  destruct (Nat.eqb_spec (length rows * n) 0); [contradiction|]. rewrite map_length.
  destruct (Nat.eqb_spec (length rows * n) 0); [contradiction|].
  destruct (Nat.ltb_spec n 2); [lia|]. reflexivity.
Qed.

Definition smoothed (m : bmode) (cval : R) (w : list R) (c : curve R) : curve R :=
  mkCurve (map (fun i => map (cast (c_dtype c)) (conv_row m cval (normalise w) (c_rows c) (c_ndim c) i)) (seq 0 (c_size c)))
          (c_ndim c) (c_dtype c) None.

Lemma smooth_window get_window (r : registry (smethod R)) name (c : curve R) size wt mode m cval w :
  wf c -> c_rows c <> [] -> reg_find r name = Some (fun c => window_filter get_window c size wt mode cval) ->
  match wt with WCall f => f size = Ok (WFloat w) | WName s => get_window s size = Ok w end ->
  bmode_of mode = Ok m -> w <> [] ->
  smooth r name c = Ok (smoothed m cval w c).
Proof.
  intros W N F Hw Hm Nw. unfold smooth, reg_get. rewrite F. cbn [rbind]. unfold window_filter.
  assert (E : (do w0 <- match wt with
                        | WCall f => match f size with Ok w0 => Ok w0 | Raise _ => Raise ValueError end
                        | WName s => rmap WFloat (get_window s size)
                        end ; Ok w0) = Ok (WFloat w)).
  { destruct wt; rewrite Hw; reflexivity. }
  destruct (match wt with WCall _ => _ | WName _ => _ end) as [w1|]; [|discriminate]. cbn [rbind] in E. injection E as ->. cbn [rbind].
  unfold convolve1d. destruct (normalise w) as [|v0 v] eqn:Ev.
  { apply (f_equal (@length R)) in Ev. rewrite normalise_length in Ev. destruct w; [contradiction|discriminate]. }
  rewrite <- Ev, Hm. cbn [rbind]. set (rows := map _ _).
  assert (Lr : length rows = c_size c) by (unfold rows; rewrite map_length, seq_length; reflexivity). rewrite <- Lr.
  rewrite curve_init_array.
  - unfold smoothed. f_equal. f_equal. unfold rows. rewrite map_map. apply map_ext. intros i. rewrite map_map. apply map_ext. intros x. apply cast_idem.
  - intros Q. rewrite Q in Lr. unfold c_size in Lr. destruct (c_rows c); [contradiction|discriminate].
  - apply W.
  - intros p Hp. unfold rows in Hp. apply in_map_iff in Hp as (i & <- & _). rewrite map_length, conv_row_comb. apply comb_length.
Qed.
