(** The vocabulary of C100: how large boxes and pixel coordinates get. *)
From Coq Require Import Reals ZArith.
Require Import Verif.Py Verif.Geom.
Open Scope Z_scope.

(** Values of the 32 bit integers that the C++ classes Point2I, Extent2I and Box2I hold. *)
Definition int32 (z : Z) : Prop := - 2 ^ 31 <= z < 2 ^ 31.

(** All numbers the API gives out for a box: minimum, dimensions, end (one past the maximum). *)
Definition fits32 (b : box) : Prop :=
  int32 (minx b) /\ int32 (miny b) /\ int32 (dimx b) /\ int32 (dimy b)
  /\ int32 (minx b + dimx b) /\ int32 (miny b + dimy b).

(** [b] is non-empty and stays within [gx] (along x) and [gy] (along y) pixels of [a]. *)
Definition near_box (gx gy : Z) (a b : box) : Prop :=
  0 < dimx b /\ 0 < dimy b
  /\ minx a - gx <= minx b /\ minx b + dimx b <= minx a + dimx a + gx
  /\ miny a - gy <= miny b /\ miny b + dimy b <= miny a + dimy a + gy.
