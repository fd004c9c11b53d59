(** The windows as functions of the distance from the middle, for the statements
    of C88. *)
From Coq Require Import String List Arith Reals.
From Verif Require Import Num Windows.
Import ListNotations.
Local Open Scope R_scope.

(** The distance of place [k] of a window of [m] values from the middle, in half
    steps: m - 1 at the ends. *)
Definition half_steps (m k : nat) : R := Rabs (2 * INR k - (INR m - 1)).

(** The value at distance [d]. *)
Definition taper (w : window) (m : nat) (d : R) : R :=
  let u := d / (INR m - 1) in
  match w with
  | Barthann => 0.62 - 0.24 * u + 0.38 * cos (PI * u)
  | Bartlett => 1 - u
  | Blackman => 0.42 + 0.5 * cos (PI * u) + 0.08 * cos (2 * (PI * u))
  | BlackmanHarris => 0.35875 + 0.48829 * cos (PI * u) + 0.14128 * cos (2 * (PI * u)) + 0.01168 * cos (3 * (PI * u))
  | Bohman => (1 - u) * cos (PI * u) + sin (PI * u) / PI
  | Boxcar => 1
  | Cosine => cos (PI * d / (2 * INR m))
  | Flattop => 0.21557895 + 0.41663158 * cos (PI * u) + 0.277263158 * cos (2 * (PI * u)) + 0.083578947 * cos (3 * (PI * u))
               + 0.006947368 * cos (4 * (PI * u))
  | Hamming => 0.54 + 0.46 * cos (PI * u)
  | Hann => 0.5 + 0.5 * cos (PI * u)
  | Nuttall => 0.3635819 + 0.4891775 * cos (PI * u) + 0.1365995 * cos (2 * (PI * u)) + 0.0106411 * cos (3 * (PI * u))
  | Parzen => let v := d / INR m in if Rle_dec d ((INR m - 1) / 2) then 1 - 6 * v ^ 2 * (1 - v) else 2 * (1 - v) ^ 3
  | Triang => if Nat.even m then 1 - d / INR m else 1 - d / (INR m + 1)
  end.

(** The windows that are zero at both ends. *)
Definition zero_ended (w : window) : bool :=
  match w with Barthann | Bartlett | Blackman | Bohman | Hann => true | _ => false end.

(** The names under which scipy knows a window. *)
Definition aliases (w : window) : list string :=
  match w with
  | Barthann => ["barthann"; "brthan"; "bth"]
  | Bartlett => ["bartlett"; "bart"; "brt"]
  | Blackman => ["blackman"; "black"; "blk"]
  | BlackmanHarris => ["blackmanharris"; "blackharr"; "bkh"]
  | Bohman => ["bohman"; "bman"; "bmn"]
  | Boxcar => ["boxcar"; "box"; "ones"; "rect"; "rectangular"]
  | Cosine => ["cosine"; "halfcosine"]
  | Flattop => ["flattop"; "flat"; "flt"]
  | Hamming => ["hamming"; "hamm"; "ham"]
  | Hann => ["hanning"; "hann"; "han"]
  | Nuttall => ["nuttall"; "nutl"; "nut"]
  | Parzen => ["parzen"; "parz"; "par"]
  | Triang => ["triangle"; "triang"; "tri"]
  end%string.
