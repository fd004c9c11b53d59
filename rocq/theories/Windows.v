(** Model of the windows that 'window' smoothing obtains by name,
    scipy.signal.windows.get_window(window_type, window_size, fftbins=False) of
    /repo/skcurve/_smooth.py:168 (over the reals, since the windows need sine and
    cosine), after the sources of scipy before 1.6; newer versions add names.
    Sizes are Python integers. *)
From Coq Require Import ZArith String List Reals.
From Verif Require Import Num Py Interp.
Import ListNotations.
Local Open Scope string_scope.
Local Open Scope list_scope.
Local Open Scope R_scope.

(** The windows without parameters: /repo/skcurve/_smooth.py:168. *)
Inductive window : Type :=
  | Barthann | Bartlett | Blackman | BlackmanHarris | Bohman | Boxcar | Cosine | Flattop
  | Hamming | Hann | Nuttall | Parzen | Triang.

(** np.arange(m): /repo/skcurve/_smooth.py:168. *)
Definition arange (m : nat) : list R := map INR (seq 0 m).

(** windows.general_cosine(M, a): the sum of a[k] cos(k x) over M arguments from
    -pi to pi.  /repo/skcurve/_smooth.py:168. *)
Definition general_cosine (m : nat) (a : list R) : list R :=
  map (fun x => fold_left (fun s k => s + nth k a 0 * cos (INR k * x)) (seq 0 (length a)) 0)
      (linspace_nat (- PI) PI m).

(** windows.triang: the first half, then its mirror image; for an odd size the
    middle is not repeated.  /repo/skcurve/_smooth.py:168. *)
Definition triang (m : nat) : list R :=
  let n := map INR (seq 1 (Nat.div (m + 1) 2)) in
  if Nat.even m then
    let w := map (fun n => (2 * n - 1) / INR m) n in w ++ rev w
  else
    let w := map (fun n => 2 * n / (INR m + 1)) n in w ++ tl (rev w).

(** windows.parzen: cubics outside and inside a quarter of the width.
    /repo/skcurve/_smooth.py:168. *)
Definition parzen (m : nat) : list R :=
  let n := map (fun k => - (INR m - 1) / 2 + INR k) (seq 0 m) in
  let q := (INR m - 1) / 4 in
  let na := filter (fun x => Rltb x (- q)) n in
  let nb := filter (fun x => Rleb (Rabs x) q) n in
  let wa := map (fun x => 2 * (1 - Rabs x / (INR m / 2)) ^ 3) na in
  let wb := map (fun x => 1 - 6 * (Rabs x / (INR m / 2)) ^ 2 + 6 * (Rabs x / (INR m / 2)) ^ 3) nb in
  wa ++ wb ++ rev wa.

(** windows.bohman: zero at both ends.  /repo/skcurve/_smooth.py:168. *)
Definition bohman (m : nat) : list R :=
  let fac := map Rabs (removelast (tl (linspace_nat (-1) 1 m))) in
  [0] ++ map (fun f => (1 - f) * cos (PI * f) + 1 / PI * sin (PI * f)) fac ++ [0].

(** windows.bartlett: /repo/skcurve/_smooth.py:168. *)
Definition bartlett (m : nat) : list R :=
  map (fun n => if Rleb n ((INR m - 1) / 2) then 2 * n / (INR m - 1) else 2 - 2 * n / (INR m - 1)) (arange m).

(** windows.barthann: /repo/skcurve/_smooth.py:168. *)
Definition barthann (m : nat) : list R :=
  map (fun n => let fac := Rabs (n / (INR m - 1) - 0.5) in 0.62 - 0.48 * fac + 0.38 * cos (2 * PI * fac)) (arange m).

(** windows.cosine: /repo/skcurve/_smooth.py:168. *)
Definition cosine (m : nat) : list R := map (fun n => sin (PI / INR m * (n + 0.5))) (arange m).

(** The window of [m] > 1 values: /repo/skcurve/_smooth.py:168. *)
Definition window_values (w : window) (m : nat) : list R :=
  match w with
  | Barthann => barthann m
  | Bartlett => bartlett m
  | Blackman => general_cosine m [0.42; 0.50; 0.08]
  | BlackmanHarris => general_cosine m [0.35875; 0.48829; 0.14128; 0.01168]
  | Bohman => bohman m
  | Boxcar => repeat 1 m
  | Cosine => cosine m
  | Flattop => general_cosine m [0.21557895; 0.41663158; 0.277263158; 0.083578947; 0.006947368]
  | Hamming => general_cosine m [0.54; 1 - 0.54]
  | Hann => general_cosine m [0.5; 1 - 0.5]
  | Nuttall => general_cosine m [0.3635819; 0.4891775; 0.1365995; 0.0106411]
  | Parzen => parzen m
  | Triang => triang m
  end.

(** The names: /repo/skcurve/_smooth.py:168. *)
Definition win_equiv : list (string * window) :=
  [("barthann", Barthann); ("brthan", Barthann); ("bth", Barthann);
   ("bartlett", Bartlett); ("bart", Bartlett); ("brt", Bartlett);
   ("blackman", Blackman); ("black", Blackman); ("blk", Blackman);
   ("blackmanharris", BlackmanHarris); ("blackharr", BlackmanHarris); ("bkh", BlackmanHarris);
   ("bohman", Bohman); ("bman", Bohman); ("bmn", Bohman);
   ("boxcar", Boxcar); ("box", Boxcar); ("ones", Boxcar); ("rect", Boxcar); ("rectangular", Boxcar);
   ("cosine", Cosine); ("halfcosine", Cosine);
   ("flattop", Flattop); ("flat", Flattop); ("flt", Flattop);
   ("hamming", Hamming); ("hamm", Hamming); ("ham", Hamming);
   ("hanning", Hann); ("hann", Hann); ("han", Hann);
   ("nuttall", Nuttall); ("nutl", Nuttall); ("nut", Nuttall);
   ("parzen", Parzen); ("parz", Parzen); ("par", Parzen);
   ("triangle", Triang); ("triang", Triang); ("tri", Triang)].

(** _len_guards and the return value for sizes 0 and 1: /repo/skcurve/_smooth.py:168. *)
Definition guarded (f : nat -> list R) (size : Z) : res (list R) :=
  if (size <? 0)%Z then Raise ValueError
  else if (size <=? 1)%Z then Ok (repeat 1 (Z.to_nat size)) else Ok (f (Z.to_nat size)).

(** get_window(name, size, fftbins=False).  [py_float]: Python's float() of a
    string (None: ValueError) - a name that is a number is the parameter of a
    Kaiser window; [kaiser]: its values.  Names of windows that need a parameter
    and unknown names are both a ValueError.  /repo/skcurve/_smooth.py:168. *)
Definition get_window (py_float : string -> option R) (kaiser : R -> nat -> list R) (name : string) (size : Z) : res (list R) :=
  match py_float name with
  | Some beta => guarded (kaiser beta) size
  | None =>
      match find (fun e => String.eqb (fst e) name) win_equiv with
      | Some (_, w) => guarded (window_values w) size
      | None => Raise ValueError
      end
  end.
