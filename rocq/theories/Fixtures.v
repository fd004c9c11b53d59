(** Concrete curves used by the examples that accompany the theorems.
    Nothing here models /repo; these are test inputs. *)
From Coq Require Import ZArith List QArith PrimFloat.
From Verif Require Import Num Py Numeric Curve.
Import ListNotations.

(** A parametric plane curve with four points (one repeated). *)
Definition q4 : curve Q :=
  mkCurve [[0; 0]; [1; 0]; [1; 1]; [1; 0]]%Q 2 DFloat (Some [0; 1; 2; 3]%Q).
(** A non-parametric plane curve with two points. *)
Definition q2 : curve Q := mkCurve [[5; 6]; [7; 8]]%Q 2 DFloat None.
(** A parametric plane curve with two points. *)
Definition q2t : curve Q := mkCurve [[5; 6]; [7; 8]]%Q 2 DFloat (Some [4; 9]%Q).
(** A spatial curve with three points. *)
Definition q3d : curve Q := mkCurve [[0; 1; 2]; [3; 4; 5]; [6; 7; 8]]%Q 3 DFloat None.
(** An empty spatial curve. *)
Definition qe3 : curve Q := mkCurve [] 3 DFloat None.
(** A binary64 curve with a NaN point between two equal points. *)
Definition fnan : curve float :=
  mkCurve [[fz 1; fz 1]; [nan; nan]; [fz 1; fz 1]] 2 DFloat None.
(** A binary64 curve with a repeated point and an infinite one. *)
Definition finf : curve float :=
  mkCurve [[fz 0; fz 0]; [fz 0; fz 0]; [fz 3; fz 4]; [infinity; fz 1]] 2 DFloat (Some [fz 0; fz 1; fz 2; fz 3]).
