(** Vocabulary for the properties of pixel look-up with positions in binary64. *)
From Coq Require Import Reals.
From Flocq Require Import Core BinarySingleNaN.
Require Import Verif.Py Verif.Geom Verif.TractInfo Verif.Spec Verif.RingsFloat.
Open Scope Z_scope.

(** A finite position at most 2^49 from 0. *)
Definition position (p : f64 * f64) : Prop :=
  (finite (fst p) = true /\ Rabs (f2R (fst p)) <= 562949953421312)%R
  /\ (finite (snd p) = true /\ Rabs (f2R (snd p)) <= 562949953421312)%R.

(** The number [x] lies in the pixel [n], which covers [n - 1/2, n + 1/2). *)
Definition in_pixel (x : R) (n : Z) : Prop := (IZR n - / 2 <= x < IZR n + / 2)%R.
(** The point lies in the region the pixels of a box cover. *)
Definition on_box (p : f64 * f64) (b : box) : Prop :=
  (IZR (minx b) - / 2 <= f2R (fst p) < IZR (minx b + dimx b) - / 2)%R
  /\ (IZR (miny b) - / 2 <= f2R (snd p) < IZR (miny b + dimy b) - / 2)%R.

(** The double next to 1/2 on the side of 0: 1/2 - 2^-54. *)
Definition before_half : R := (/ 2 - / 18014398509481984)%R.

(** The pixel bounding box of some positions: it holds the pixel of each, its lower edges are attained, and its upper
    edges exceed the largest position by at most half a pixel plus rounding (relative 2^-50). *)
Record positions_box (l : list (f64 * f64)) (B : box) : Prop := {
  pb_holds : forall p px py, In p l -> in_pixel (f2R (fst p)) px -> in_pixel (f2R (snd p)) py -> in_box px py B;
  pb_left : exists p, In p l /\ in_pixel (f2R (fst p)) (minx B);
  pb_bottom : exists p, In p l /\ in_pixel (f2R (snd p)) (miny B);
  pb_right : exists p, In p l
    /\ (IZR (minx B + dimx B - 1) - / 2 < f2R (fst p) + / 1125899906842624 * Rmax 1 (Rabs (f2R (fst p))))%R;
  pb_top : exists p, In p l
    /\ (IZR (miny B + dimy B - 1) - / 2 < f2R (snd p) + / 1125899906842624 * Rmax 1 (Rabs (f2R (snd p))))%R }.
