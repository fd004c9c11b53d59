(** C93: linear interpolation, points of segments and rescaling in binary64. *)
From Coq Require Import PrimFloat FloatOps SpecFloat FloatAxioms.
From Coq Require Import String ZArith List Bool Arith Reals Lra Lia.
From Flocq Require Import Core.
From Verif Require Import Num Py Numeric Curve Spec Vec VecFacts Geom DiffGeom Registry Interp FloatFacts FloatFacts2 FloatProofs FloatFacts3 FloatLinearProofs.
Import ListNotations.
Local Open Scope R_scope.
Local Open Scope string_scope.
Local Notation float := PrimFloat.float.

(** ** C93 Linear functions in binary64

    [FR x] is the real value of a finite binary64 number, [ffin x] says that it is
    finite.  [rising xs] (FloatLinearProofs.v): finite and strictly increasing. *)

Lemma bound_eq A h : 8 * uro * A + 2 * eta * (1 + h) = A * bpow radix2 (-50) + (1 + h) * bpow radix2 (-1074).
Proof.
  assert (E1 : 8 * uro = bpow radix2 (-50)).
  { unfold uro. change (-50)%Z with (3 + -53)%Z. rewrite bpow_plus. change (bpow radix2 3) with 8. cbn [bpow]. change (Z.pow_pos radix2 53) with 9007199254740992%Z. reflexivity. }
  assert (E2 : 2 * eta = bpow radix2 (-1074)) by (unfold eta; change (-1074)%Z with (1 + -1075)%Z; rewrite bpow_plus; reflexivity).
  rewrite E1, E2. ring.
Qed.

(** What the linear interpolator returns on a float curve with rising parameters:
    one point per grid value; every finite coordinate is within a few units in the last place
    of the points' coordinates of the exact value, ... *)
Theorem C93_error : forall junk few (r : registry (icreate float)) name (c : curve float) s g,
  wf c -> (2 <= c_size c)%nat -> rising (c_tval junk c) -> length (c_tval junk c) = c_size c -> c_dtype c = DFloat ->
  reg_find r name = Some (linear junk few) -> get_grid junk few c s = Ok g -> (forall v, In v g -> ffin v) ->
  exists c', interpolate junk few r name c s = Ok c' /\ c_size c' = length g /\ c_ndim c' = c_ndim c /\
    forall i k j, (i < length g)%nat -> (S k < c_size c)%nat -> (j < c_ndim c)%nat ->
      let v := FR (nth i g 0%float) in let xl := FR (nth k (c_tval junk c) 0%float) in let xh := FR (nth (S k) (c_tval junk c) 0%float) in
      let yl := FR (nth j (nth k (c_rows c) []) 0%float) in let yh := FR (nth j (nth (S k) (c_rows c) []) 0%float) in
      let y := nth j (nth i (c_rows c') []) 0%float in
      (k = 0%nat \/ xl < v) -> xl <= v <= xh -> ffin (PrimFloat.sub (nth (S k) (c_tval junk c) 0%float) (nth k (c_tval junk c) 0%float)) -> ffin y ->
      Rabs (FR y - (yl + (v - xl) / (xh - xl) * (yh - yl))) <= (Rabs yl + Rabs yh) * bpow radix2 (-50) + (1 + (xh - xl)) * bpow radix2 (-1074).
Proof.
  intros junk few r name c s g W H Rs L Dt F G Fg. eexists. split; [apply (linear_rising junk few r name c s g); try assumption; exact (get_grid_ne _ _ _ _ _ G)|].
  cbn [c_rows c_ndim]. unfold c_size at 1. cbn [c_rows]. rewrite map_length. split; [reflexivity|]. split; [reflexivity|].
  intros i k j Hi Hk Hj Hl Hv Fh Fy.
  rewrite (nth_indep (map _ g) [] (interp_at (c_tval junk c) (c_rows c) 0%float)) in * by (rewrite map_length; exact Hi). rewrite map_nth in *.
  rewrite (interp_at_nth (c_ndim c) _ _ _ k j) in * by (try assumption; try (apply Fg, nth_In; exact Hi); try (unfold c_size in *; congruence); try apply W; try lia; right; exact (proj2 Hv)).
  rewrite <- bound_eq. apply line_err; try assumption. destruct Rs as [_ Rs]. apply Rs. lia.
Qed.
Print Assumptions C93_error.

(** ... between two neighbouring parameters every coordinate is monotone, rounding
    included, the first point is met, and a coordinate that the two neighbours share is kept. *)
Theorem C93_piece : forall junk few (r : registry (icreate float)) name (c : curve float) s g,
  wf c -> (2 <= c_size c)%nat -> rising (c_tval junk c) -> length (c_tval junk c) = c_size c -> c_dtype c = DFloat ->
  reg_find r name = Some (linear junk few) -> get_grid junk few c s = Ok g -> (forall v, In v g -> ffin v) ->
  exists c', interpolate junk few r name c s = Ok c' /\
    forall i i' k j, (i < length g)%nat -> (i' < length g)%nat -> (S k < c_size c)%nat -> (j < c_ndim c)%nat ->
      let v := FR (nth i g 0%float) in let v' := FR (nth i' g 0%float) in
      let xl := FR (nth k (c_tval junk c) 0%float) in let xh := FR (nth (S k) (c_tval junk c) 0%float) in
      let yl := FR (nth j (nth k (c_rows c) []) 0%float) in let yh := FR (nth j (nth (S k) (c_rows c) []) 0%float) in
      let y := nth j (nth i (c_rows c') []) 0%float in let y' := nth j (nth i' (c_rows c') []) 0%float in
      ffin (PrimFloat.sub (nth (S k) (c_tval junk c) 0%float) (nth k (c_tval junk c) 0%float)) -> ffin y -> ffin y' ->
      (k = 0%nat \/ xl < v) -> (S (S k) = c_size c \/ v' <= xh) -> v <= v' ->
      (yl <= yh -> FR y <= FR y') /\ (yh <= yl -> FR y' <= FR y) /\ (v = xl -> FR y = yl) /\ (yl = yh -> FR y = yl).
Proof.
  intros junk few r name c s g W H Rs L Dt F G Fg. eexists. split; [apply (linear_rising junk few r name c s g); try assumption; exact (get_grid_ne _ _ _ _ _ G)|].
  cbn [c_rows c_ndim]. intros i i' k j Hi Hi' Hk Hj Fh Fy Fy' Hl Hr Hv. set (v := FR (nth i g 0%float)) in *. set (v' := FR (nth i' g 0%float)) in *. set (xl := FR (nth k (c_tval junk c) 0%float)) in *. set (xh := FR (nth (S k) (c_tval junk c) 0%float)) in *.
  rewrite !(nth_indep (map _ g) [] (interp_at (c_tval junk c) (c_rows c) 0%float)) in * by (rewrite map_length; assumption). rewrite !map_nth in *.
  assert (Fv : ffin (nth i g 0%float)) by (apply Fg, nth_In; exact Hi). assert (Fv' : ffin (nth i' g 0%float)) by (apply Fg, nth_In; exact Hi').
  assert (Hx : xl < xh) by (destruct Rs as [_ Rs']; apply Rs'; lia).
  assert (E : forall u, ffin u -> (k = 0%nat \/ xl < FR u) -> (S (S k) = length (c_tval junk c) \/ FR u <= xh) ->
    nth j (interp_at (c_tval junk c) (c_rows c) u) 0%float = line (nth k (c_tval junk c) 0%float) (nth (S k) (c_tval junk c) 0%float) (nth j (nth k (c_rows c) []) 0%float) (nth j (nth (S k) (c_rows c) []) 0%float) u).
  { intros u Fu A B. apply (interp_at_nth (c_ndim c)); try assumption; [unfold c_size in *; congruence|apply W|lia]. }
  rewrite !E in *; try assumption; try (rewrite L; destruct Hr as [Hr|Hr]; [left; lia|right; fold v; fold v'; lra]); try (destruct Hl as [Hl|Hl]; [left; exact Hl|right; fold v; fold v'; lra]).
  destruct (line_parts _ _ _ _ _ Fh Fy) as (Fs & _). destruct (slope_sign _ _ _ _ Hx Fh Fs) as [S1 S2]. destruct (line_mono _ _ _ _ _ _ Hv Fv Fv' Fy Fy') as [M1 M2].
  split; [intros A; apply M1, S1, A|]. split; [intros A; apply M2, S2, A|]. split; [intros A; apply line_start; assumption|].
  intros A. apply line_const; try assumption. fold xl. fold xh. lra.
Qed.
Print Assumptions C93_piece.

(** But the inner curve points are not always met, a coordinate of a monotone curve need
    not be monotone across them, and parameters whose difference overflows lose everything. *)
Definition float_reg : registry (icreate float) := [("linear", linear nan (fun _ => true))].
Definition inner_curve : curve float := mkCurve [[fz 0; fz 0]; [fq 31 10; fz 0]; [fq 31 10; fz 1]] 2 DFloat (Some [fz 0; fz 3; fz 4]).
Theorem C93_inner_refuted : exists (c c' : curve float), wf c /\ rising (c_tval nan c) /\
  interpolate nan (fun _ => true) float_reg "linear" c (SArr [fz 0; fz 3; fq 7 2]) = Ok c' /\
  (forall i k, (i <= k)%nat -> (k < 3)%nat -> PrimFloat.leb (nth 0 (nth i (c_rows c) []) nan) (nth 0 (nth k (c_rows c) []) nan) = true) /\
  nth 1 (c_tval nan c) nan = fz 3 /\ PrimFloat.ltb (nth 0 (nth 1 (c_rows c) []) nan) (nth 0 (nth 1 (c_rows c') []) nan) = true /\
  PrimFloat.ltb (nth 0 (nth 2 (c_rows c') []) nan) (nth 0 (nth 1 (c_rows c') []) nan) = true.
Proof.
  exists inner_curve. eexists. split; [split; [cbn; lia|]; split; [intros p Hp; cbn in Hp; destruct Hp as [<-|[<-|[<-|[]]]]; reflexivity|intros t E; cbn in E; injection E as <-; reflexivity]|].
  split.
  { split; [intros x Hx; cbn in Hx; destruct Hx as [<-|[<-|[<-|[]]]]; vm_compute; reflexivity|].
    intros i Hi. cbn in Hi. apply ltb_R; (destruct i as [|[|i]]; [| |lia]); vm_compute; reflexivity. }
  split; [vm_compute; reflexivity|]. split.
  { intros i k Hik Hk. destruct k as [|[|[|k]]]; try lia; destruct i as [|[|[|i]]]; try lia; vm_compute; reflexivity. }
  split; [reflexivity|]. split; vm_compute; reflexivity.
Qed.
Print Assumptions C93_inner_refuted.
(** 2^1023, -2^1023, 2^1000 and 2^-1000. *)
Definition p1023 : float := 0x1p+1023%float.
Definition m1023 : float := (-0x1p+1023)%float.
Definition p1000 : float := 0x1p+1000%float.
Definition p_1000 : float := 0x1p-1000%float.
Theorem C93_overflow_refuted :
  (exists (c c' : curve float), wf c /\ (forall p, In p (c_rows c) -> forall x, In x p -> ffin x) /\ rising (c_tval nan c) /\ interpolate nan (fun _ => true) float_reg "linear" c (SArr [fz 0; p1023]) = Ok c' /\
     c_rows c = [[fz 0; fz 0]; [fz 1; fz 1]] /\ c_rows c' = [[fz 0; fz 0]; [nan; nan]]) /\
  (exists (c c' : curve float), wf c /\ (forall p, In p (c_rows c) -> forall x, In x p -> ffin x) /\ rising (c_tval nan c) /\ interpolate nan (fun _ => true) float_reg "linear" c (SArr [fz 0; fz 1]) = Ok c' /\
     nth 0 (c_tval nan c) nan = fz 0 /\ PrimFloat.is_nan (nth 0 (nth 0 (c_rows c') []) 0%float) = true).
Proof.
  split.
  - exists (mkCurve [[fz 0; fz 0]; [fz 1; fz 1]] 2 DFloat (Some [m1023; p1023])). eexists.
    split; [split; [cbn; lia|]; split; [intros p Hp; cbn in Hp; destruct Hp as [<-|[<-|[]]]; reflexivity|intros t E; cbn in E; injection E as <-; reflexivity]|].
    split; [intros p Hp x Hx; cbn in Hp; destruct Hp as [<-|[<-|[]]]; cbn in Hx; destruct Hx as [<-|[<-|[]]]; vm_compute; reflexivity|].
    split. { split; [intros x Hx; cbn in Hx; destruct Hx as [<-|[<-|[]]]; vm_compute; reflexivity|]. intros i Hi. cbn in Hi. destruct i as [|i]; [|lia]. apply ltb_R; vm_compute; reflexivity. }
    split; [vm_compute; reflexivity|]. split; reflexivity.
  - exists (mkCurve [[fz 0; fz 0]; [p1000; fz 1]] 2 DFloat (Some [fz 0; p_1000])). eexists.
    split; [split; [cbn; lia|]; split; [intros p Hp; cbn in Hp; destruct Hp as [<-|[<-|[]]]; reflexivity|intros t E; cbn in E; injection E as <-; reflexivity]|].
    split; [intros p Hp x Hx; cbn in Hp; destruct Hp as [<-|[<-|[]]]; cbn in Hx; destruct Hx as [<-|[<-|[]]]; vm_compute; reflexivity|].
    split. { split; [intros x Hx; cbn in Hx; destruct Hx as [<-|[<-|[]]]; vm_compute; reflexivity|]. intros i Hi. cbn in Hi. destruct i as [|i]; [|lia]. apply ltb_R; vm_compute; reflexivity. }
    split; [vm_compute; reflexivity|]. split; [reflexivity|vm_compute; reflexivity].
Qed.
Print Assumptions C93_overflow_refuted.

(** The point of a segment at the parameter t: the start at t = 0, monotone in t, and for t in [0, 1]
    within a few units in the last place. *)
Theorem C93_segment : forall (s : segment float) t j, length (sg_p1 s) = length (sg_p2 s) -> (j < length (sg_p1 s))%nat ->
  let a := FR (nth j (sg_p1 s) 0%float) in let b := FR (nth j (sg_p2 s) 0%float) in let x := nth j (sg_point s t) 0%float in
  ffin x ->
  (FR t = 0 -> FR x = a) /\
  (0 <= FR t <= 1 -> Rabs (FR x - (a + FR t * (b - a))) <= (Rabs a + Rabs b) * bpow radix2 (-51) + bpow radix2 (-1074)) /\
  forall t', let x' := nth j (sg_point s t') 0%float in ffin x' -> FR t <= FR t' -> (a <= b -> FR x <= FR x') /\ (b <= a -> FR x' <= FR x).
Proof.
  intros s t j L H a b x Fx. unfold x in *. rewrite sg_point_nth in * by assumption. split; [apply seg_start; exact Fx|]. split.
  - intros Ht. eapply Rle_trans; [apply seg_err; assumption|]. right.
    assert (E1 : 4 * uro = bpow radix2 (-51)).
    { unfold uro. change (-51)%Z with (2 + -53)%Z. rewrite bpow_plus. change (bpow radix2 2) with 4. cbn [bpow]. change (Z.pow_pos radix2 53) with 9007199254740992%Z. reflexivity. }
    assert (E2 : 2 * eta = bpow radix2 (-1074)) by (unfold eta; change (-1074)%Z with (1 + -1075)%Z; rewrite bpow_plus; reflexivity).
    rewrite E1, E2. fold a. fold b. ring.
  - intros t'. cbv zeta. intros Fx' Htt. rewrite sg_point_nth in * by assumption. apply seg_mono; assumption.
Qed.
Print Assumptions C93_segment.

(** linrescale keeps the order, maps the lower end to the lower end and the upper end to
    olo + (ohi - olo) as computed, and everything between them in between; ... *)
Theorem C93_rescale : forall l lo hi olo ohi, ffin lo -> ffin hi -> ffin (PrimFloat.sub hi lo) -> FR lo < FR hi ->
  ffin olo -> ffin (PrimFloat.sub ohi olo) -> FR olo <= FR ohi -> (forall x, In x l -> ffin x /\ FR lo <= FR x <= FR hi) ->
  let l' := linrescale l (lo, hi) (olo, ohi) in let top := PrimFloat.add (PrimFloat.sub ohi olo) olo in
  length l' = length l /\
  forall i, (i < length l)%nat ->
    PrimFloat.leb olo (nth i l' nan) = true /\ PrimFloat.leb (nth i l' nan) top = true /\
    (FR (nth i l 0%float) = FR lo -> PrimFloat.eqb (nth i l' nan) olo = true) /\ (FR (nth i l 0%float) = FR hi -> PrimFloat.eqb (nth i l' nan) top = true) /\
    forall k, (k < length l)%nat -> FR (nth i l 0%float) <= FR (nth k l 0%float) -> PrimFloat.leb (nth i l' nan) (nth k l' nan) = true.
Proof.
  intros l lo hi olo ohi Fl Fh Fd H Fol Fo Ho D l' top. unfold l'. rewrite linrescale_map. split; [apply map_length|].
  assert (N : forall i, (i < length l)%nat -> nth i (map (rescaled lo hi olo ohi) l) nan = rescaled lo hi olo ohi (nth i l 0%float)).
  { intros i Hi. rewrite (nth_indep _ nan (rescaled lo hi olo ohi 0%float)) by (rewrite map_length; exact Hi). apply map_nth. }
  assert (RT : rounded (rnd (FR ohi - FR olo) + FR olo) top) by (rewrite <- (sub_R _ _ Fo); apply add_rounded; assumption).
  pose proof (sub_sign _ _ Fo Ho) as Pd. assert (Pr : 0 <= rnd (FR ohi - FR olo)) by (rewrite <- sub_R by exact Fo; exact Pd).
  assert (Rr : rnd (rnd (FR ohi - FR olo)) = rnd (FR ohi - FR olo)) by (rewrite <- (sub_R _ _ Fo); apply rnd_FR).
  intros i Hi. rewrite (N i Hi). destruct (D (nth i l 0%float) (nth_In _ _ Hi)) as [Fx Bx]. set (x := nth i l 0%float) in *.
  pose proof (rescaled_R lo hi olo ohi Fl Fh Fd Fo H x Fx Bx Fol Ho) as Rx. destruct (quot_fin lo hi Fl Fh Fd H x Fx Bx) as (_ & _ & Bq).
  set (q := FR (PrimFloat.div (PrimFloat.sub x lo) (PrimFloat.sub hi lo))) in *.
  split. { apply (rounded_le _ _ _ _ (rounded_self olo Fol) Rx). assert (0 <= rnd (q * rnd (FR ohi - FR olo))) by (rewrite <- rnd_0; apply rnd_le; nra). lra. }
  split. { apply (rounded_le _ _ _ _ Rx RT). apply Rplus_le_compat_r. rewrite <- Rr at 2. apply rnd_le. nra. }
  destruct (quot_ends lo hi Fl Fh Fd H) as [Q0 Q1].
  split. { intros E. assert (Eq : q = 0). { unfold q. rewrite <- Q0. apply Rle_antisym; apply (quot_mono lo hi); try assumption; lra. }
    rewrite Eq, Rmult_0_l, rnd_0, Rplus_0_l in Rx. exact (rounded_eq _ _ _ Rx (rounded_self olo Fol)). }
  split. { intros E. assert (Eq : q = 1). { unfold q. rewrite <- Q1. apply Rle_antisym; apply (quot_mono lo hi); try assumption; lra. }
    rewrite Eq, Rmult_1_l, Rr in Rx. exact (rounded_eq _ _ _ Rx RT). }
  intros k Hk Hik. rewrite (N k Hk). destruct (D (nth k l 0%float) (nth_In _ _ Hk)) as [Fy By].
  pose proof (rescaled_R lo hi olo ohi Fl Fh Fd Fo H (nth k l 0%float) Fy By Fol Ho) as Ry. apply (rounded_le _ _ _ _ Rx Ry).
  apply Rplus_le_compat_r, rnd_le, Rmult_le_compat_r; [exact Pr|]. apply (quot_mono lo hi); try assumption; lra.
Qed.
Print Assumptions C93_rescale.
(** ... to the unit interval the upper end is met as well, ... *)
Theorem C93_rescale_unit : forall l lo hi, ffin lo -> ffin hi -> ffin (PrimFloat.sub hi lo) -> FR lo < FR hi -> (forall x, In x l -> ffin x /\ FR lo <= FR x <= FR hi) ->
  forall i, (i < length l)%nat -> let y := nth i (linrescale l (lo, hi) (fz 0, fz 1)) nan in
    ffin y /\ 0 <= FR y <= 1 /\ (FR (nth i l 0%float) = FR lo -> FR y = 0) /\ (FR (nth i l 0%float) = FR hi -> FR y = 1).
Proof.
  intros l lo hi Fl Fh Fd H D i Hi y. assert (F1 : ffin (PrimFloat.sub (fz 1) (fz 0))) by (vm_compute; reflexivity).
  destruct (C93_rescale l lo hi (fz 0) (fz 1) Fl Fh Fd H) as (_ & A); try (vm_compute; reflexivity); try assumption.
  { apply leb_R; vm_compute; reflexivity. }
  destruct (A i Hi) as (B1 & B2 & E0 & E1 & _). fold y in B1, B2, E0, E1. change (PrimFloat.add (PrimFloat.sub (fz 1) (fz 0)) (fz 0)) with PrimFloat.one in *. change (fz 0) with PrimFloat.zero in *.
  destruct (nonneg_cases y B1) as [E|(Fy & Py)]; [rewrite E in B2; vm_compute in B2; discriminate|]. split; [exact Fy|].
  apply leb_R in B2; [|exact Fy|exact ffin_1]. rewrite FR_1 in B2. split; [lra|]. split.
  - intros E. specialize (E0 E). apply eqb_R in E0; [|exact Fy|exact ffin_0]. rewrite E0. apply FR_0.
  - intros E. specialize (E1 E). apply eqb_R in E1; [|exact Fy|exact ffin_1]. rewrite E1. apply FR_1.
Qed.
Print Assumptions C93_rescale_unit.
(** ... in general it is not: rescaling [0, 1] to [0.3, 0.9] maps 1 above 0.9. *)
Theorem C93_rescale_refuted : exists l, linrescale [fz 0; fz 1] (fz 0, fz 1) (fq 3 10, fq 9 10) = l /\ PrimFloat.ltb (fq 9 10) (nth 1 l nan) = true.
Proof. eexists. split; [reflexivity|vm_compute; reflexivity]. Qed.
Print Assumptions C93_rescale_refuted.

(** The hypotheses are met, and runs. *)
Example C93_ex : wf inner_curve /\ length (c_tval nan inner_curve) = c_size inner_curve /\
  (exists g, get_grid nan (fun _ => true) inner_curve (SInt 5) = Ok g) /\
  (exists c', interpolate nan (fun _ => true) float_reg "linear" inner_curve (SArr [fz 0; fq 7 2; fz 4]) = Ok c' /\ c_rows c' = [[fz 0; fz 0]; [fq 31 10; fq 1 2]; [fq 31 10; fz 1]]).
Proof.
  split; [split; [cbn; lia|]; split; [intros p Hp; cbn in Hp; destruct Hp as [<-|[<-|[<-|[]]]]; reflexivity|intros t E; cbn in E; injection E as <-; reflexivity]|].
  split; [reflexivity|]. split; [eexists; vm_compute; reflexivity|]. eexists. split; vm_compute; reflexivity.
Qed.
Example C93_segment_ex : sg_point (mkSeg [fz 0; fz 1] [fz 4; fz 3]) (fq 1 4) = [fz 1; fq 3 2].
Proof. vm_compute. reflexivity. Qed.
Example C93_rescale_ex : linrescale [fz 2; fz 3; fz 6] (fz 2, fz 6) (fz 0, fz 1) = [fz 0; fq 1 4; fz 1] /\
  ffin (PrimFloat.sub (fz 6) (fz 2)) /\ PrimFloat.ltb (fz 2) (fz 6) = true.
Proof. repeat split; vm_compute; reflexivity. Qed.
