(** Lemmas about the plotting model. *)
From Coq Require Import ZArith List Bool Arith Lia Reals Lra.
From Verif Require Import Num Py Numeric Curve Vec DiffGeom Interp Plot Spec GeomSpec ListFacts CurveProofs CurveProofs2 CurveProofs3 VecFacts GeomProofs.
From Verif Require Import DiffGeomProofs DiffGeomProofs2 DiffGeomProofs3 DiffGeomProofs4 InterpProofs.
Import ListNotations.
Local Open Scope list_scope.

Section Gen.
  Context {T : Type} {NT : Num T} {ST : NumSqrt T}.
  Variable junk : T.

  (** What a call draws for a curve on its axes, and how it ends. *)
  Definition drawn (c : curve T) (param : option vparam) (nrm mk : bool) : list (cmd T) * option exn :=
    match (match param with Some v => multicolor junk c v mk | None => Ok [CLine (c_values_all c)] end) with
    | Raise e => ([], Some e)
    | Ok cs =>
        if nrm then
          match plot_normals junk c with
          | Raise e => (cs, Some e)
          | Ok ns => if is2d c then (cs ++ [CQuiver (c_values_all c) ns], None) else (cs, Some NotImplementedError)
          end
        else (cs, None)
    end.

  Lemma draw_app (w : world T) a cs1 cs2 : draw (draw w a cs1) a cs2 = draw w a (cs1 ++ cs2) :> world T.
  Proof. unfold draw. cbn [w_axes w_log]. rewrite map_app, app_assoc. reflexivity. Qed.
  Lemma draw_nil (w : world T) a : draw w a [] = w :> world T.
  Proof. unfold draw. rewrite app_nil_r. destruct w; reflexivity. Qed.

  (** plot in two steps: the axes, then the commands. *)
  Lemma plot_split (w : world T) (c : curve T) param nrm mk axes : (c_ndim c <= 3)%nat ->
    plot junk w c param nrm mk axes =
    match choose_axes w c axes with
    | (w1, Raise e) => (w1, Raise e)
    | (w1, Ok a) => (draw w1 a (fst (drawn c param nrm mk)),
                     match snd (drawn c param nrm mk) with Some e => Raise e | None => Ok a end)
    end.
  Proof.
    intros H. unfold plot, drawn. destruct (Nat.ltb_spec 3 (c_ndim c)); [lia|].
    destruct (choose_axes w c axes) as [w1 [a|e]]; [|reflexivity].
    destruct (match param with Some v => multicolor junk c v mk | None => Ok [CLine (c_values_all c)] end) as [cs|e].
    - destruct nrm; [|reflexivity]. destruct (plot_normals junk c) as [ns|e]; [|reflexivity].
      destruct (is2d c); [|reflexivity]. cbn [fst snd]. rewrite draw_app. reflexivity.
    - cbn [fst snd]. rewrite draw_nil. reflexivity.
  Qed.

  Definition fits (c : curve T) (w : world T) (a : nat) : Prop :=
    c_ndim c = 2 \/ c_ndim c = 3 /\ nth_error (w_axes w) a = Some Ax3.

  Lemma choose_given (w : world T) (c : curve T) a : c_ndim c = 2 \/ c_ndim c = 3 ->
    (fits c w a -> choose_axes w c (Some a) = (w, Ok a)) /\
    (~ fits c w a -> choose_axes w c (Some a) = (w, Raise TypeError)).
  Proof.
    intros H. unfold fits, choose_axes, is3d. destruct H as [H|H]; rewrite H; cbn [Nat.eqb andb].
    - split; [reflexivity|]. intros N. exfalso. auto.
    - destruct (nth_error (w_axes w) a) as [[|]|]; split; try reflexivity; intros N; exfalso.
      + destruct N as [N|[_ N]]; discriminate.
      + apply N. auto.
      + destruct N as [N|[_ N]]; discriminate.
  Qed.

  Lemma choose_fresh (w : world T) (c : curve T) : c_ndim c = 2 \/ c_ndim c = 3 ->
    choose_axes w c None = (mkWorld (w_axes w ++ [if is3d c then Ax3 else Ax2]) (w_log w), Ok (length (w_axes w))).
  Proof. intros H. unfold choose_axes, is2d, is3d. destruct H as [H|H]; rewrite H; reflexivity. Qed.

  Lemma plot_fits (w : world T) (c : curve T) param nrm mk a : fits c w a ->
    plot junk w c param nrm mk (Some a) =
    (draw w a (fst (drawn c param nrm mk)), match snd (drawn c param nrm mk) with Some e => Raise e | None => Ok a end).
  Proof.
    intros F. assert (D : c_ndim c = 2 \/ c_ndim c = 3) by (destruct F as [F|[F _]]; auto).
    rewrite plot_split by lia. rewrite (proj1 (choose_given w c a D) F). reflexivity.
  Qed.

  (** The values of a curve: column i, row j. *)
  Lemma values_all_spec (c : curve T) : length (c_values_all c) = c_ndim c /\
    forall i j d, (i < c_ndim c)%nat -> (j < c_size c)%nat ->
      nth j (nth i (c_values_all c) []) d = nth i (nth j (c_rows c) []) n0.
  Proof.
    unfold c_values_all. split; [rewrite map_length, seq_length; reflexivity|]. intros i j d Hi Hj.
    rewrite nth_indep with (d' := (fun k => map (fun r => nth k r n0) (c_rows c)) 0) by (rewrite map_length, seq_length; assumption).
    rewrite map_nth with (f := fun k => map (fun r => nth k r n0) (c_rows c)), seq_nth by assumption. cbn [Nat.add].
    rewrite nth_indep with (d' := (fun r => nth i r n0) []) by (rewrite map_length; assumption).
    rewrite map_nth with (f := fun r => nth i r n0). reflexivity.
  Qed.

  Lemma plot_segments_spec (c : curve T) : length (plot_segments c) = (c_size c - 1)%nat /\
    forall i, (S i < c_size c)%nat -> nth i (plot_segments c) ([], []) = (nth i (c_rows c) [], nth (S i) (c_rows c) []).
  Proof.
    unfold plot_segments, c_size. generalize (c_rows c) as l. intros l.
    assert (L : length (combine (removelast l) (tl l)) = (length l - 1)%nat).
    { rewrite combine_length, removelast_firstn_len, firstn_length. destruct l; cbn; lia. }
    split; [assumption|]. intros i Hi.
    rewrite combine_nth by (rewrite removelast_firstn_len, firstn_length; destruct l; cbn; lia).
    f_equal.
    - rewrite removelast_firstn_len. destruct l as [|a l]; [cbn in Hi; lia|]. cbn [length pred] in *.
      rewrite <- (firstn_skipn (length l) (a :: l)) at 2. rewrite app_nth1; [reflexivity|]. rewrite firstn_length. cbn. lia.
    - destruct l; [cbn in Hi; lia|reflexivity].
  Qed.

  (** The outcome of the multicolour plot, by cases. *)
  Lemma multicolor_nonempty (c : curve T) v mk : wf c -> c_bool c = true ->
    match vprop v with
    | None => multicolor junk c v mk = Raise OtherError
    | Some q =>
        if (match v with VCurvature => true | _ => false end && Nat.eqb (c_ndim c) 2 && Nat.eqb (c_size c) 1)%bool
        then multicolor junk c v mk = Raise IndexError
        else exists vals lo hi, curve_prop junk c q = Ok (AVec vals) /\ length vals = c_size c /\
               np_min vals = Ok lo /\ np_max vals = Ok hi /\
               multicolor junk c v mk = Ok ([CSegments (plot_segments c) vals lo hi; CScale]
                ++ (if mk then [CScatter (c_values_all c) vals] else []) ++ [CColorbar lo hi])
    end.
  Proof.
    intros W B. unfold multicolor.
    assert (G : forall q vals, curve_prop junk c q = Ok (AVec vals) ->
      exists vals0 lo hi, Ok (AVec vals) = Ok (AVec vals0) :> res (arr T) /\ length vals0 = c_size c /\
               np_min vals0 = Ok lo /\ np_max vals0 = Ok hi /\
               (do lo <- np_min vals ; do hi <- np_max vals ;
                Ok ([CSegments (plot_segments c) vals lo hi; CScale]
                ++ (if mk then [CScatter (c_values_all c) vals] else []) ++ [CColorbar lo hi]))
               = Ok ([CSegments (plot_segments c) vals0 lo hi; CScale]
                ++ (if mk then [CScatter (c_values_all c) vals0] else []) ++ [CColorbar lo hi])).
    { intros q vals E. destruct (prop_entries junk c q _ W B E) as [L _]. cbn [entries] in L.
      destruct vals as [|x vals].
      - exfalso. apply c_bool_rows in B. unfold c_size in L. destruct (c_rows c); [contradiction|]. discriminate L.
      - exists (x :: vals), (fold_left npmin vals x), (fold_left npmax vals x).
        split; [reflexivity|]. split; [assumption|]. split; [reflexivity|]. split; [reflexivity|]. reflexivity. }
    destruct v; cbn [vprop andb]; try reflexivity.
    - pose proof (G PT) as Gq. rewrite prop_nonempty in * by assumption. cbn [rbind]. eapply Gq. reflexivity.
    - pose proof (G PCumarclen) as Gq. rewrite prop_nonempty in * by assumption. cbn [rbind]. eapply Gq. reflexivity.
    - pose proof (G PSpeed) as Gq. rewrite prop_nonempty in * by assumption. cbn [rbind]. eapply Gq. reflexivity.
    - pose proof (G PCurvature) as Gq. rewrite prop_nonempty in * by assumption. unfold curvature_plane, c_size in *.
    destruct (Nat.eqb (c_ndim c) 2); cbn [andb]; [destruct (Nat.eqb (length (c_rows c)) 1); [reflexivity|]|];
      cbn [rmap rbind]; eapply Gq; reflexivity.
    - pose proof (G PTorsion) as Gq. rewrite prop_nonempty in * by assumption. cbn [rbind]. eapply Gq. reflexivity.
  Qed.

  (** One point: no second coordinate. *)
  Lemma normals_one (c : curve T) p : wf c -> c_rows c = [p] -> plot_normals junk c = Raise IndexError.
  Proof.
    intros (W & _) E. unfold plot_normals.
    rewrite prop_nonempty by (unfold c_bool, c_size; rewrite E; destruct (c_ndim c) as [|[|m]]; [lia|lia|reflexivity]).
    rewrite E. cbn [rbind].
    destruct (c_ndim c) as [|[|m]]; [lia|lia|]. cbn [seq map rseq].
    unfold frenet2_rows, normal_rows, frenet1_rows, deriv2, deriv1. cbn [gradient length map map2]. reflexivity.
  Qed.
  Lemma normals_none (c : curve T) : c_rows c = [] -> plot_normals junk c = Raise IndexError.
  Proof. intros E. unfold plot_normals, curve_prop. replace (c_bool c) with false; [reflexivity|]. unfold c_bool, c_size. rewrite E. destruct (c_ndim c); reflexivity. Qed.
End Gen.

Lemma frenet2_dims n (rows : list (list R)) : dims n rows -> (2 <= length rows)%nat -> dims n (frenet2_rows rows).
Proof.
  intros D L p Hp. destruct (In_nth _ _ [] Hp) as (k & Hk & <-). rewrite frenet2_length in Hk.
  rewrite frenet2_nth, unit_row_length by assumption.
  assert (D1 : dims n (deriv1 rows)) by (apply gradient_dims; assumption).
  assert (D2 : dims n (deriv2 rows)) by (apply gradient_dims; [assumption|rewrite deriv1_length; assumption]).
  rewrite reject_length; [apply dims_nth; [assumption|rewrite deriv2_length; assumption]|].
  rewrite unit_row_length, !(dims_nth n) by (assumption || rewrite ?deriv1_length, ?deriv2_length; assumption). reflexivity.
Qed.

Lemma normals_many junk (c : curve R) : wf c -> (2 <= c_size c)%nat ->
  plot_normals junk c = Ok (map (fun i => map (fun r => nth i r 0%R) (frenet2_rows (c_rows c))) (seq 0 (c_ndim c))).
Proof.
  intros W L. assert (N : c_rows c <> []) by (unfold c_size in L; destruct (c_rows c); [cbn in L; lia|discriminate]).
  unfold plot_normals. rewrite prop_nonempty by (apply c_bool_wf; assumption). cbn [rbind].
  assert (D : dims (c_ndim c) (frenet2_rows (c_rows c))).
  { apply frenet2_dims; [|exact L]. intros p Hp. apply W. assumption. }
  rewrite (map_ext_in _ (fun i => Ok (map (fun r => nth i r 0%R) (frenet2_rows (c_rows c))))); [apply rseq_map_ok|].
  intros i Hi. apply in_seq in Hi.
  rewrite (map_ext_in _ (fun r => Ok (nth i r 0%R))); [apply rseq_map_ok|].
  intros r Hr. apply np_get_pyindex. specialize (D r Hr). unfold py_index. lia.
Qed.
