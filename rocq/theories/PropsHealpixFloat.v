(** Property theorems; generated by tools/mkprops.py from MainHealpixFloat.v. *)
From Coq Require Import Reals Lra Lia.
From Flocq Require Import Core BinarySingleNaN.
Require Import Verif.Py Verif.Geom.
Require Import Verif.Float64 Verif.Float64Proofs Verif.RingsFloat Verif.RingsFloatSpec Verif.FloatOps.
Require Import Verif.RingsFloatProofs Verif.RingsFloatProofs2 Verif.EquatFloat Verif.HealpixFloat.
Require Import Verif.MainHealpixFloat.
Open Scope Z_scope.

(** C103: for every finite theta in [0, math.pi] and finite phi, angToCoord does not raise and gives a valid SpherePoint (latitude never beyond the double of pi/2, longitude in
    [0, 2*math.pi)) at most 2^-51 radians from latitude theta - pi/2, with longitude exactly phi if that is in [0, 2*math.pi). *)
Theorem ang_to_coord_float : forall theta phi,
  finite theta = true -> (0 <= f2R theta <= f2R f_pi)%R -> finite phi = true ->
  exists c, fh_angToCoord (theta, phi) = Ok c /\ f_coord c
    /\ (Rabs (f2R (snd c) - (f2R theta - PI / 2)) <= / 2251799813685248)%R
    /\ ((0 <= f2R phi < f2R f_twopi)%R -> f2R (fst c) = f2R phi).
Proof. exact ang_to_coord_float_proof. Qed.
Print Assumptions ang_to_coord_float.

(** C103: the range is sharp: angToCoord rejects every double theta above math.pi, from the next one on, and every theta at or below -2^-52. *)
Theorem ang_out_of_range_float : forall theta phi,
  finite theta = true -> (f2R f_pi < f2R theta \/ f2R theta <= - / 4503599627370496)%R -> fh_angToCoord (theta, phi) = Raise InvalidParameterError.
Proof. exact ang_out_of_range_float_proof. Qed.
Print Assumptions ang_out_of_range_float.

(** C103: coordToAng maps every valid SpherePoint to Healpix angles in range (0 <= theta <= math.pi, 0 <= phi < 2*math.pi), theta at most 2^-50 radians from latitude + pi/2 and
    phi exactly the longitude. *)
Theorem coord_to_ang_float : forall c, f_coord c ->
  let a := fh_coordToAng c in
  finite (fst a) = true /\ (0 <= f2R (fst a) <= f2R f_pi)%R /\ (Rabs (f2R (fst a) - (f2R (snd c) + PI / 2)) <= / 1125899906842624)%R
  /\ finite (snd a) = true /\ (0 <= f2R (snd a) < f2R f_twopi)%R /\ snd a = fst c.
Proof. exact coord_to_ang_float_proof. Qed.
Print Assumptions coord_to_ang_float.

(** C103: converting any valid SpherePoint to Healpix angles and back does not raise: it gives back exactly the longitude, and the latitude up to 2^-50 radians. *)
Theorem ang_roundtrip_float : forall c, f_coord c ->
  exists c', fh_angToCoord (fh_coordToAng c) = Ok c' /\ f_coord c' /\ f2R (fst c') = f2R (fst c)
    /\ (Rabs (f2R (snd c') - f2R (snd c)) <= / 1125899906842624)%R.
Proof. exact ang_roundtrip_float_proof. Qed.
Print Assumptions ang_roundtrip_float.

(** C103, non-vacuity: both poles are valid, and are converted exactly: theta is math.pi at the north pole and 0 at the south pole. *)
Example ang_float_met : exists north south, f_coord north /\ f_coord south
  /\ f2R (snd north) = (f2R f_pi / 2)%R /\ f2R (snd south) = (- (f2R f_pi / 2))%R
  /\ f2R (fst (fh_coordToAng north)) = f2R f_pi /\ f2R (fst (fh_coordToAng south)) = 0%R.
Proof. exact ang_float_met_proof. Qed.
