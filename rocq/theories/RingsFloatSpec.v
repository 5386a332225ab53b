(** Vocabulary for the properties of the binary64 look-up. *)
From Coq Require Import Reals.
From Flocq Require Import Core BinarySingleNaN.
Require Import Verif.Py Verif.Geom Verif.Float64 Verif.Rings Verif.RingsSpec Verif.RingsFloat.
Open Scope Z_scope.

(** The same map in exact arithmetic. *)
Definition exact_rings (g : frings) : rings :=
  mkRings (fr_numRings g) (fr_nums g) (ring_size (fr_numRings g)) (f2R (fr_raStart g)) (fr_version g).

(** At least one and fewer than 2^31 - 1 rings, as many tract counts, each from 1 to 2^31; raStart a number of radians
    between -8 and 8 (which is more than a full turn either way). *)
Record frings_wf (g : frings) : Prop := {
  fw_rings : 1 <= fr_numRings g < 2 ^ 31 - 1;
  fw_len : Z.of_nat (length (fr_nums g)) = fr_numRings g;
  fw_nums : forall n, In n (fr_nums g) -> 1 <= n <= 2 ^ 31;
  fw_start : finite (fr_raStart g) = true /\ (Rabs (f2R (fr_raStart g)) <= 8)%R;
  fw_version : fr_version g = 0 \/ fr_version g = 1 }.

(** The position two doubles stand for. *)
Definition fval (c : f64 * f64) : sphere := (f2R (fst c), f2R (snd c)).

(** Doubles as [geom.SpherePoint] stores them: longitude in [0, 2*math.pi), latitude in [-math.pi/2, math.pi/2]. *)
Definition f_coord (c : f64 * f64) : Prop :=
  finite (fst c) = true /\ finite (snd c) = true
  /\ (0 <= f2R (fst c) < f2R f_twopi)%R /\ (Rabs (f2R (snd c)) <= f2R f_pi / 2)%R.

(** 2^-46 and 2^-48 radians (3e-9 and 7e-10 arc seconds). *)
Definition ra_tol : R := (/ 70368744177664)%R.
Definition dec_tol : R := (/ 281474976710656)%R.
