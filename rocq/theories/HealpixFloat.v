(** The conversions between coordinates and Healpix angles of python/lsst/skymap/healpixSkyMap.py in IEEE binary64 arithmetic
    (Maps.v has the same over exact reals).

    Simplifications: [hpgeom] itself is not part of this file. *)
From Coq Require Import Reals.
From Flocq Require Import Core BinarySingleNaN.
Require Import Verif.Py Verif.Geom Verif.Float64 Verif.RingsFloat Verif.EquatFloat.
Open Scope Z_scope.

(** healpixSkyMap.py:40-47 [angToCoord]; the pair is (theta, phi). *)
Definition fh_angToCoord (thetaphi : f64 * f64) : res (f64 * f64) :=
  f_makeSpherePoint (snd thetaphi) (fsub (fst thetaphi) (fmul f_half f_pi)).

(** healpixSkyMap.py:53-58 [coordToAng] *)
Definition fh_coordToAng (coord : f64 * f64) : f64 * f64 := (fadd (snd coord) (fmul f_half f_pi), fst coord).
