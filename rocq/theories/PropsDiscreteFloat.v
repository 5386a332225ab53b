(** Property theorems; generated by tools/mkprops.py from MainDiscreteFloat.v. *)
From Coq Require Import Reals Lra Lia.
From Flocq Require Import Core BinarySingleNaN.
Require Import Verif.Py Verif.Geom Verif.PatchInfo Verif.TractBuilder Verif.TractInfo Verif.SkyMap.
Require Import Verif.Float64 Verif.Float64Proofs Verif.Rings Verif.RingsProofs Verif.RingsSpec Verif.Sphere Verif.Maps Verif.RingsFloat Verif.RingsFloatSpec Verif.FloatOps.
Require Import Verif.RingsFloatProofs Verif.RingsFloatProofs2 Verif.MainRingsFloat Verif.EquatFloat Verif.EquatFloatProofs Verif.MainEquatFloat Verif.DiscreteFloat.
Import ListNotations.
Require Import Verif.MainDiscreteFloat.
Open Scope Z_scope.

(** C102: for configured right ascensions up to 1000 degrees and any configured declinations, generating a tract of a DiscreteSkyMap raises in binary64 exactly when it does in exact
    arithmetic (no such index, or a declination beyond 90 degrees), with the same exception; otherwise its centre, which is also the reference coordinate of its WCS, is a valid
    SpherePoint at most 2^-48 radians from the exact one in declination and 2^-46 in right ascension (3e-9 arc seconds), and radius and overlap are the configured ones up to a relative 2^-50. *)
Theorem discrete_float_coords : forall makeWcs raL decL radL ov index,
  (forall x, In x raL -> finite x = true /\ Rabs (f2R x) <= 1000)%R ->
  (forall x, In x decL -> finite x = true) ->
  (forall x, In x radL -> finite x = true /\ Rabs (f2R x) <= 1000000)%R ->
  finite ov = true -> (Rabs (f2R ov) <= 1000000)%R ->
  match discrete_args makeWcs (f2R ov) (mkDiscrete (map f2R raL) (map f2R decL) (map f2R radL)) index, fd_args raL decL radL ov index with
  | Ok (ExplicitArgs ctr r o w _), Ok (c, fr, fo) => stored_near ctr c /\ angle_near r fr /\ angle_near o fo /\ w = makeWcs ctr
  | Raise e, Raise e' => e = e'
  | _, _ => False
  end.
Proof. exact discrete_float_coords_proof. Qed.
Print Assumptions discrete_float_coords.

(** C102: the declination limit is sharp: the poles themselves (declination exactly +90 or -90 degrees) are accepted in binary64, and stored as exactly the double of pi/2 that
    SpherePoint compares with; the next double is not. *)
Theorem discrete_poles : forall ra, finite ra = true -> (Rabs (f2R ra) <= 1000)%R ->
  (forall dec, finite dec = true -> f2R dec = 90%R ->
     exists c, f_makeSpherePoint (f_rad true ra) (f_rad true dec) = Ok c /\ f2R (snd c) = (f2R f_pi / 2)%R)
  /\ (forall dec, finite dec = true -> f2R dec = (-90)%R ->
     exists c, f_makeSpherePoint (f_rad true ra) (f_rad true dec) = Ok c /\ f2R (snd c) = (- (f2R f_pi / 2))%R)
  /\ (forall dec, finite dec = true -> (90 < Rabs (f2R dec))%R ->
     f_makeSpherePoint (f_rad true ra) (f_rad true dec) = Raise InvalidParameterError).
Proof. exact discrete_poles_proof. Qed.
Print Assumptions discrete_poles.

(** C102, non-vacuity: a configuration with two tracts, one of them at the south pole and with a negative right ascension. *)
Example discrete_float_met : exists raL decL radL ov,
  (forall x, In x raL -> finite x = true /\ Rabs (f2R x) <= 1000)%R /\ (forall x, In x decL -> finite x = true)
  /\ (forall x, In x radL -> finite x = true /\ Rabs (f2R x) <= 1000000)%R
  /\ finite ov = true /\ (Rabs (f2R ov) <= 1000000)%R
  /\ (exists c r o, fd_args raL decL radL ov 1 = Ok (c, r, o)) /\ fd_args raL decL radL ov 2 = Raise IndexError.
Proof. exact discrete_float_met_proof. Qed.
