(** Model of /repo/skcurve/plot.py: which drawing commands CurvePlot sends to
    which axes.  What matplotlib does with them, the keyword arguments that are
    only passed on, and parameters whose values are matrices are not modelled. *)

From Coq Require Import ZArith String List Bool Arith.
From Verif Require Import Num Py Numeric Curve Vec DiffGeom Interp.
Import ListNotations.
Local Open Scope list_scope.

(** Two kinds of axes: /repo/skcurve/plot.py:165-171. *)
Inductive axkind : Type := Ax2 | Ax3.

(** The attribute named by [param]: an array with one number per point, or no
    attribute of the curve at all.  /repo/skcurve/plot.py:130. *)
Inductive vparam : Type := VT | VCumarclen | VSpeed | VCurvature | VTorsion | VMissing.

(** The property of that name: /repo/skcurve/plot.py:130. *)
Definition vprop (v : vparam) : option prop :=
  match v with
  | VT => Some PT | VCumarclen => Some PCumarclen | VSpeed => Some PSpeed
  | VCurvature => Some PCurvature | VTorsion => Some PTorsion | VMissing => None
  end.

Section Plot.
  Context {T : Type} {NT : Num T} {ST : NumSqrt T}.
  Variable junk : T.

  (** The drawing commands: plot, add_collection (segments, their colour values
      and the range of colours), autoscale, scatter, colorbar, quiver.
      /repo/skcurve/plot.py:148-158, 178, 184. *)
  Inductive cmd : Type :=
  | CLine (values : list (list T))
  | CSegments (segs : list (list T * list T)) (colours : list T) (lo hi : T)
  | CScale
  | CScatter (values : list (list T)) (colours : list T)
  | CColorbar (lo hi : T)
  | CQuiver (values normals : list (list T)).

  (** All axes that exist, and the commands so far with the axes they went to:
      /repo/skcurve/plot.py:161-185. *)
  Record world : Type := mkWorld { w_axes : list axkind; w_log : list (nat * cmd) }.

  (** A command sent to the axes [a]: /repo/skcurve/plot.py:178. *)
  Definition draw (w : world) (a : nat) (cs : list cmd) : world :=
    mkWorld (w_axes w) (w_log w ++ map (fun x => (a, x)) cs).

  (** Curve.is2d: /repo/skcurve/_base.py:1485-1498. *)
  Definition is2d (c : curve T) : bool := Nat.eqb (c_ndim c) 2.
  (** Curve.is3d: /repo/skcurve/_base.py:1500-1513. *)
  Definition is3d (c : curve T) : bool := Nat.eqb (c_ndim c) 3.
  (** Curve.isspatial: /repo/skcurve/_base.py:1515-1528. *)
  Definition isspatial (c : curve T) : bool := Nat.leb 3 (c_ndim c).

  (** Consecutive points: np.concatenate([points[:-1], points[1:]], axis=1),
      /repo/skcurve/plot.py:127-128. *)
  Definition plot_segments (c : curve T) : list (list T * list T) :=
    combine (removelast (c_rows c)) (tl (c_rows c)).

  (** _multicolor_plot: /repo/skcurve/plot.py:123-159.  Everything that can fail
      comes before the first command.  [marker]: is one given? *)
  Definition multicolor (c : curve T) (v : vparam) (marker : bool) : res (list cmd) :=
    match vprop v with
    | None => Raise OtherError
    | Some q =>
        do a <- curve_prop junk c q ;
        match a with
        | AVec vals =>
            do lo <- np_min vals ;
            do hi <- np_max vals ;
            Ok ([CSegments (plot_segments c) vals lo hi; CScale]
                ++ (if marker then [CScatter (c_values_all c) vals] else [])
                ++ [CColorbar lo hi])
        | _ => Raise ValueError
        end
    end.

  (** [frenet2[:, i] for i in range(ndim)]: the empty curve has an array of shape
      (1, 0) or (1, 1, 0), one point an array of shape (1, 1).
      /repo/skcurve/plot.py:181. *)
  Definition plot_normals (c : curve T) : res (list (list T)) :=
    do a <- curve_prop junk c PFrenet2 ;
    match a with
    | AMat rows => rseq (map (fun i => rseq (map (fun r => np_get r (Z.of_nat i)) rows)) (seq 0 (c_ndim c)))
    | _ => Raise IndexError
    end.

  (** The axes of the plot: new ones of the right kind, or the given ones.
      /repo/skcurve/plot.py:162-171; no axes for other dimensions: the first use
      of None is an AttributeError. *)
  Definition choose_axes (w : world) (c : curve T) (axes : option nat) : world * res nat :=
    match axes with
    | None =>
        if is2d c then (mkWorld (w_axes w ++ [Ax2]) (w_log w), Ok (length (w_axes w)))
        else if is3d c then (mkWorld (w_axes w ++ [Ax3]) (w_log w), Ok (length (w_axes w)))
        else (w, Raise OtherError)
    | Some a =>
        if is3d c && match nth_error (w_axes w) a with Some Ax3 => false | _ => true end then (w, Raise TypeError)
        else (w, Ok a)
    end.

  (** CurvePlot(curve, param=..., show_normals=..., axes=..., marker=...):
      __init__ and _plot, /repo/skcurve/plot.py:50-69, 161-195.  The result is the
      axes of the new object. *)
  Definition plot (w : world) (c : curve T) (param : option vparam) (show_normals marker : bool) (axes : option nat)
    : world * res nat :=
    if Nat.ltb 3 (c_ndim c) then (w, Raise ValueError)
    else
      let '(w1, r) := choose_axes w c axes in
      match r with
      | Raise e => (w1, Raise e)
      | Ok a =>
          match (match param with
                 | Some v => multicolor c v marker
                 | None => Ok [CLine (c_values_all c)]
                 end) with
          | Raise e => (w1, Raise e)
          | Ok cs =>
              let w2 := draw w1 a cs in
              if show_normals then
                match plot_normals c with
                | Raise e => (w2, Raise e)
                | Ok ns =>
                    if is2d c then (draw w2 a [CQuiver (c_values_all c) ns], Ok a)
                    else (w2, Raise NotImplementedError)
                end
              else (w2, Ok a)
          end
      end.

  (** The arguments of one call of curveplot: /repo/skcurve/plot.py:75-82. *)
  Record call : Type := mkCall { k_curve : curve T; k_param : option vparam; k_normals : bool; k_marker : bool }.

  (** curveplot(c1).curveplot(c2)...: every call uses the axes of the object
      before.  /repo/skcurve/plot.py:75-121. *)
  Fixpoint chain (w : world) (axes : option nat) (l : list call) : world * res (option nat) :=
    match l with
    | [] => (w, Ok axes)
    | k :: l' =>
        let '(w1, r) := plot w (k_curve k) (k_param k) (k_normals k) (k_marker k) axes in
        match r with
        | Raise e => (w1, Raise e)
        | Ok a => chain w1 (Some a) l'
        end
    end.
End Plot.
Arguments world T : clear implicits.
Arguments cmd T : clear implicits.
Arguments call T : clear implicits.
