(** C114: an interpolated point and its grid value. *)
From Coq Require Import PrimFloat.
From Coq Require Import String ZArith List Bool Arith Lia.
From Verif Require Import Num Py Numeric Curve Vec DiffGeom Registry Interp Splines Splines2 Periodic Csaps Spec ListFacts VecFacts LocalProofs LocalProofs3 CoordProofs.
From Verif Require Import DiffGeomProofs Properties_Local Properties_Local3.
Import ListNotations.
Local Open Scope string_scope.
Local Notation float := PrimFloat.float.

Section ByValue.
  Context {T : Type} {NT : Num T} {ST : NumSqrt T} {RT : NumRound T}.

  (** The interpolator computes row by row, or fails. *)
  Definition by_value (create : icreate T) : Prop := forall c f, wf c -> (2 <= c_size c)%nat -> create c = Ok f ->
    exists F : T -> list T, (forall g z, f g = Ok z -> z = mkNd [length g; c_ndim c] (concat (map F g))) /\ forall v, length (F v) = c_ndim c.

  Lemma as_array_by_value (c : curve T) F f : f = as_array (c_ndim c) (map F) -> (forall v, length (F v) = c_ndim c) ->
    exists F : T -> list T, (forall g z, f g = Ok z -> z = mkNd [length g; c_ndim c] (concat (map F g))) /\ forall v, length (F v) = c_ndim c.
  Proof. intros -> L. exists F. split; [|exact L]. intros g z E. unfold as_array in E. apply ok_inj in E. symmetry. exact E. Qed.

  Lemma hermite_by_value (qnan : T) ex xs ys ds (c : curve T) h f : hermite_new qnan ex xs ys ds (c_ndim c) = Ok h -> Ok (as_array (c_ndim c) h) = Ok f ->
    exists F : T -> list T, (forall g z, f g = Ok z -> z = mkNd [length g; c_ndim c] (concat (map F g))) /\ forall v, length (F v) = c_ndim c.
  Proof.
    intros E Ef. apply ok_inj in Ef. subst f. destruct ds as [ds|]; [|unfold hermite_new in E; destruct (prepare_ok _ _); discriminate].
    apply hermite_new_at in E as (-> & _). apply (as_array_by_value c (hermite_at qnan ex xs ys ds (c_ndim c))); [reflexivity|]. intros v. apply hermite_at_len.
  Qed.
  Lemma spline_by_value (qnan : T) fm ex xs ys ds (c : curve T) h f : spline_new qnan fm ex xs ys ds (c_ndim c) = Ok h -> Ok (as_array (c_ndim c) h) = Ok f ->
    exists F : T -> list T, (forall g z, f g = Ok z -> z = mkNd [length g; c_ndim c] (concat (map F g))) /\ forall v, length (F v) = c_ndim c.
  Proof.
    intros E Ef. apply ok_inj in Ef. subst f. unfold spline_new in E. destruct ds as [ds|]; [|discriminate]. destruct (hermite_new _ _ _ _ _ _); cbn [rbind] in E; [|discriminate].
    apply ok_inj in E. subst h. apply (as_array_by_value c (spline_at qnan fm ex xs ys ds (c_ndim c))); [reflexivity|]. intros v. destruct ex; apply hermite_at_len.
  Qed.

  Lemma insert_in {Y} (p q : T * Y) l : In q (insert_sample p l) -> q = p \/ In q l.
  Proof.
    induction l as [|r l IH]; cbn [insert_sample]; [intros [->|[]]; left; reflexivity|].
    destruct (lt_nan _ _); intros [->|X]; [left; reflexivity|right; exact X|right; left; reflexivity|]. destruct (IH X) as [->|Y0]; [left; reflexivity|right; right; exact Y0].
  Qed.
  Lemma insert_len {Y} (p : T * Y) l : length (insert_sample p l) = S (length l).
  Proof. induction l as [|r l IH]; cbn [insert_sample]; [reflexivity|]. destruct (lt_nan _ _); cbn [length]; [reflexivity|]. rewrite IH. reflexivity. Qed.
  Lemma fold_in {Y} (l acc : list (T * Y)) q : In q (fold_left (fun a p => insert_sample p a) l acc) -> In q l \/ In q acc.
  Proof.
    revert acc. induction l as [|p l IH]; intros acc X; [right; exact X|]. cbn [fold_left] in X. destruct (IH _ X) as [Y0|Y0]; [left; right; exact Y0|].
    apply insert_in in Y0 as [->|Y0]; [left; left; reflexivity|right; exact Y0].
  Qed.
  Lemma fold_len {Y} (l acc : list (T * Y)) : length (fold_left (fun a p => insert_sample p a) l acc) = (length l + length acc)%nat.
  Proof. revert acc. induction l as [|p l IH]; intros acc; [reflexivity|]. cbn [fold_left length]. rewrite IH, insert_len. lia. Qed.

  Lemma linear_by_value junk few : by_value (linear junk few).
  Proof.
    intros c f W H E. unfold linear, interp1d in E. unfold c_size in H.
    destruct (Nat.eqb_spec (length (c_tval junk c)) (length (c_rows c))) as [L|]; cbn [negb] in E; [|discriminate].
    destruct (Nat.ltb_spec (length (c_tval junk c)) 2); [lia|]. cbn [rbind] in E. cbv zeta in E. apply ok_inj in E. subst f.
    set (s := sort_samples (combine (c_tval junk c) (c_rows c))).
    exists (interp_at (map fst s) (map snd s)). split.
    - intros g z E. rewrite (InterpProofs.rseq_map_ok (interp_at (map fst s) (map snd s))) in E. cbn [rbind] in E. apply ok_inj in E. symmetry. exact E.
    - intros v. assert (Ls : length s = length (c_rows c)) by (unfold s, sort_samples; rewrite fold_len, combine_length; cbn [length]; lia).
      assert (B : forall i, (i < length (c_rows c))%nat -> length (nth i (map snd s) []) = c_ndim c).
      { intros i Hi. apply W. assert (Hs : In (nth i (map snd s) []) (map snd s)) by (apply nth_In; rewrite map_length; lia).
        apply in_map_iff in Hs as ([x p] & <- & Hs). unfold s, sort_samples in Hs. apply fold_in in Hs as [Hs|[]]. apply in_combine_r in Hs. exact Hs. }
      unfold interp_at. cbv zeta. rewrite map2_length, !B by (rewrite map_length; lia). apply Nat.min_id.
  Qed.
End ByValue.

(** ** C114 An interpolated point depends on its grid value, not on the rest of the grid *)
Theorem C114_value : forall T (NT : Num T) (ST : NumSqrt T) (RT : NumRound T) (junk qnan : T) few fm (r : registry (icreate T)) name create (c a a2 : curve T) s s2 g g2 i k,
  wf c -> (2 <= c_size c)%nat ->
  create = linear junk few \/ (exists ex, create = hermite junk qnan ex) \/ (exists ex, create = pchip junk qnan ex) \/ (exists empty, create = akima junk qnan empty) \/
  (exists b ex, create = cubic_any junk qnan fm b ex) \/ (exists ex, create = hermite_any junk qnan fm ex) \/ (exists p w, create = csaps junk qnan p w) ->
  reg_find r name = Some create ->
  get_grid junk few c s = Ok g -> get_grid junk few c s2 = Ok g2 -> interpolate junk few r name c s = Ok a -> interpolate junk few r name c s2 = Ok a2 ->
  (i < length g)%nat -> (k < length g2)%nat -> nth i g n0 = nth k g2 n0 -> nth i (c_rows a) [] = nth k (c_rows a2) [].
Proof.
  intros T NT ST RT junk qnan few fm r name create c a a2 s s2 g g2 i k W H Cr F G G2 E E2 Hi Hk V.
  assert (B : by_value create).
  { destruct Cr as [->|[(ex & ->)|[(ex & ->)|[(em & ->)|[(b & ex & ->)|[(ex & ->)|(p & w & ->)]]]]]].
    - apply linear_by_value.
    - intros c0 f _ _ C. unfold hermite in C. destruct (curve_prop junk c0 PFrenet1) as [d|e]; cbn [rbind] in C; [|discriminate].
      destruct (hermite_new _ _ _ _ _ _) as [h|e] eqn:Eh; cbn [rbind] in C; [|discriminate]. exact (hermite_by_value _ _ _ _ _ _ _ _ Eh C).
    - intros c0 f _ _ C. unfold pchip in C. cbv zeta in C. destruct (prepare_ok _ _); [|discriminate].
      destruct (hermite_new _ _ _ _ _ _) as [h|e] eqn:Eh; cbn [rbind] in C; [|discriminate]. exact (hermite_by_value _ _ _ _ _ _ _ _ Eh C).
    - intros c0 f _ _ C. unfold akima in C. cbv zeta in C. destruct (prepare_ok _ _); [|discriminate].
      destruct (hermite_new _ _ _ _ _ _) as [h|e] eqn:Eh; cbn [rbind] in C; [|discriminate]. exact (hermite_by_value _ _ _ _ _ _ _ _ Eh C).
    - assert (P : forall m, by_value (cubic_periodic junk qnan fm m)).
      { intros m c0 f _ _ C. unfold cubic_periodic in C. cbv zeta in C. destruct (prepare_ok _ _); [|discriminate]. destruct (ends_close _ _); [|discriminate].
        destruct (spline_new _ _ _ _ _ _ _) as [h|e] eqn:Eh; cbn [rbind] in C; [|discriminate]. exact (spline_by_value _ _ _ _ _ _ _ _ _ Eh C). }
      assert (Q : forall per e, by_value per -> by_value (cubic junk qnan per b e)).
      { intros per e Hp c0 f W0 H0 C. unfold cubic in C. destruct (is_periodic b); [exact (Hp c0 f W0 H0 C)|]. cbv zeta in C. destruct (prepare_ok _ _); [|discriminate].
        destruct (validate_bc _ _) as [bcs|x]; cbn [rbind] in C; [|discriminate].
        destruct (hermite_new _ _ _ _ _ _) as [h|x] eqn:Eh; cbn [rbind] in C; [|discriminate]. exact (hermite_by_value _ _ _ _ _ _ _ _ Eh C). }
      intros c0 f W0 H0 C. unfold cubic_any in C. destruct ex as [[e|]|]; [exact (Q _ _ (P _) c0 f W0 H0 C)| |exact (Q _ _ (P _) c0 f W0 H0 C)].
      destruct (is_periodic b); [exact (P _ c0 f W0 H0 C)|]. cbv zeta in C. destruct (prepare_ok _ _); [|discriminate]. destruct (validate_bc _ _) as [bcs|x]; cbn [rbind] in C; [|discriminate].
      destruct (spline_new _ _ _ _ _ _ _) as [h|e] eqn:Eh; cbn [rbind] in C; [|discriminate]. exact (spline_by_value _ _ _ _ _ _ _ _ _ Eh C).
    - intros c0 f _ _ C. unfold hermite_any in C. destruct (curve_prop junk c0 PFrenet1) as [d|e]; cbn [rbind] in C; [|discriminate].
      destruct (spline_new _ _ _ _ _ _ _) as [h|e] eqn:Eh; cbn [rbind] in C; [|discriminate]. exact (spline_by_value _ _ _ _ _ _ _ _ _ Eh C).
    - intros c0 f _ _ C. unfold csaps in C. cbv zeta in C. destruct (_ && _ && _ && _); [|discriminate]. apply ok_inj in C. subst f.
      match goal with |- context [csaps_at ?q ?xs ?ws ?sm ?rows ?n] => apply (as_array_by_value c0 (csaps_at q xs ws sm rows n)) end; [reflexivity|].
      intros v. unfold csaps_at. cbv zeta. rewrite map_length, seq_length. reflexivity. }
  destruct (interpolate_created _ _ _ _ _ _ _ _ F E) as (f & Cf). destruct (B c f W H Cf) as (Fv & Ff & LF).
  assert (X : forall s g a, get_grid junk few c s = Ok g -> interpolate junk few r name c s = Ok a -> c_rows a = map (map (cast (c_dtype c))) (map Fv g)).
  { intros s0 g0 a0 G0 E0. assert (Fg : exists z, f g0 = Ok z).
    { unfold interpolate, get_interpolator in E0. rewrite F, Cf in E0. cbn [rbind] in E0. unfold interp_call in E0.
      rewrite (c_bool_wf c W) in E0 by (intros Y; unfold c_size in H; rewrite Y in H; cbn in H; lia). cbn [negb] in E0.
      destruct (Nat.eqb_spec (c_size c) 1); [lia|]. rewrite G0 in E0. cbn [rbind] in E0. destruct (f g0) as [z|e]; [exists z; reflexivity|]. destruct e; discriminate. }
    destruct Fg as (z & Fg). apply (interp_rows junk few r name c s0 g0 a0 create f (map Fv g0) W H F Cf G0).
    - rewrite Fg. f_equal. exact (Ff _ _ Fg).
    - apply map_length.
    - intros p Hp. apply in_map_iff in Hp as (v & <- & _). apply LF.
    - exact E0. }
  rewrite (X s g a G E), (X s2 g2 a2 G2 E2), !map_map.
  rewrite (nth_indep _ [] (map (cast (c_dtype c)) (Fv n0))) by (rewrite map_length; exact Hi). rewrite (nth_indep (map _ g2) [] (map (cast (c_dtype c)) (Fv n0))) by (rewrite map_length; exact Hk).
  rewrite !(map_nth (fun x => map (cast (c_dtype c)) (Fv x))). rewrite V. reflexivity.
Qed.
Print Assumptions C114_value.

(** A case: the value at 5/2, in two grids that share nothing else. *)
Example C114_ex : forall name, In name ["linear"; "hermite"; "pchip"; "akima"; "cubic"] ->
  let c := mkCurve [[fz 0; fz 3]; [fz 1; fz 0]; [fz 3; fz 7]; [fz 4; fz 7]; [fz 2; fz 9]] 2 DFloat (Some (map fz [0; 1; 2; 4; 5]%Z)) in
  exists p q u v, lrows name c [fq 5 2; fz 4] = Ok [p; q] /\ lrows name c [fq 1 2; fz 1; fq 5 2] = Ok [u; v; p].
Proof.
  intros name Hn c. destruct Hn as [<-|[<-|[<-|[<-|[<-|[]]]]]]; (do 4 eexists; split; [vm_compute; reflexivity|vm_compute; reflexivity]).
Qed.
