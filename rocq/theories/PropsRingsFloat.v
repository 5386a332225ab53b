(** Property theorems; generated by tools/mkprops.py from MainRingsFloat.v. *)
From Coq Require Import Reals Lra Lia.
From Flocq Require Import Core BinarySingleNaN.
Require Import Verif.Py Verif.Geom Verif.Float64 Verif.Float64Proofs.
Require Import Verif.Rings Verif.RingsSpec Verif.RingsProofs Verif.RingsProofs2 Verif.MainRings.
Require Import Verif.RingsFloat Verif.RingsFloatSpec Verif.FloatOps Verif.RingsFloatProofs Verif.RingsFloatProofs2.
Require Import Verif.MainRingsFloat.
Open Scope Z_scope.

(** C76: findTract in binary64: for every coordinate (two doubles) the index computed is the one that the method gives in
    exact arithmetic for a position at most 2^-48 radians away in declination and 2^-46 in right ascension; in particular
    it is an index of the map and the method never raises. *)
Theorem rings_float_lookup : forall g coord, frings_wf g -> f_coord coord ->
  exists i exact, fr_findIndex g coord = Ok i /\ 0 <= i < fr_numTracts g
    /\ on_sphere exact /\ near_or_at dec_tol ra_tol (fval coord) exact
    /\ rings_findIndex (exact_rings g) exact = Ok i.
Proof. exact rings_float_lookup_proof. Qed.
Print Assumptions rings_float_lookup.

(** C76: so a coordinate is given the tract it gets in exact arithmetic unless an exact boundary passes within these
    distances of it; and with version 1 the tract returned has the coordinate in its RA/Dec range, or within these
    distances of it. *)
Theorem rings_float_inside : forall g coord, frings_wf g -> f_coord coord ->
  (forall i, (forall p, on_sphere p -> near_or_at dec_tol ra_tol (fval coord) p -> rings_findIndex (exact_rings g) p = Ok i) ->
     fr_findIndex g coord = Ok i)
  /\ (fr_version g = 1 -> (forall n, In n (fr_nums g) -> 2 <= n) ->
      exists i range p, fr_findIndex g coord = Ok i /\ getRaDecRange (exact_rings g) i = Ok range
        /\ on_sphere p /\ in_range range p /\ near_or_at dec_tol ra_tol (fval coord) p)
  /\ (fr_version g = 1 -> (forall n, In n (fr_nums g) -> 2 <= n) ->
      forall i range, 0 <= i < fr_numTracts g -> getRaDecRange (exact_rings g) i = Ok range ->
        (forall p, on_sphere p -> near_or_at dec_tol ra_tol (fval coord) p -> inside_range range p) ->
        fr_findIndex g coord = Ok i).
Proof. exact rings_float_inside_proof. Qed.
Print Assumptions rings_float_inside.

(** C76: coordinates in degrees: the conversion to radians is off by at most 2^-47 radians for up to two turns. *)
Theorem rings_float_degrees : forall x, finite x = true -> (Rabs (f2R x) <= 720)%R ->
  finite (f_rad true x) = true /\ (Rabs (f2R (f_rad true x) - deg (f2R x)) <= / 140737488355328)%R.
Proof. exact rings_float_degrees_proof. Qed.
Print Assumptions rings_float_degrees.

(** C77: findTractIdArray gives bit for bit the index that findTract gives for SpherePoint(ra, dec), in radians or degrees,
    element by element, for every right ascension in [0, 2 pi) (after the conversion to radians) and every declination
    that SpherePoint accepts. *)
Theorem rings_float_array : forall g degrees radecs, frings_wf g ->
  (forall ra dec, In (ra, dec) radecs -> f_coord (f_rad degrees ra, f_rad degrees dec)) ->
  exists ids, fr_findTractIdArray g degrees radecs = Ok ids
    /\ Forall2 (fun rd i => fr_findIndex g (f_spherePoint (f_rad degrees (fst rd)) (f_rad degrees (snd rd))) = Ok i) radecs ids.
Proof. exact rings_float_array_proof. Qed.
Print Assumptions rings_float_array.

(** C77: for right ascensions from -10 to 10 radians, wrapped or not, each index is the one that findTract gives in exact
    arithmetic for a position at most 2^-48 radians away in declination and 2^-46 in right ascension. *)
Theorem rings_float_array_near : forall g degrees radecs, frings_wf g ->
  (forall ra dec, In (ra, dec) radecs ->
     finite (f_rad degrees ra) = true /\ (Rabs (f2R (f_rad degrees ra)) <= 10)%R
     /\ finite (f_rad degrees dec) = true /\ (Rabs (f2R (f_rad degrees dec)) <= f2R f_pi / 2)%R) ->
  exists ids, fr_findTractIdArray g degrees radecs = Ok ids
    /\ Forall2 (fun rd i => 0 <= i < fr_numTracts g /\ exists exact, on_sphere exact
         /\ near_or_at dec_tol ra_tol (fval (f_rad degrees (fst rd), f_rad degrees (snd rd))) exact
         /\ rings_findIndex (exact_rings g) exact = Ok i) radecs ids.
Proof. exact rings_float_array_near_proof. Qed.
Print Assumptions rings_float_array_near.

(** C77: not bit for bit outside [0, 2 pi): numpy's remainder is taken of the unwrapped right ascension, so near a tract
    boundary the two methods can round differently. raStart 1 rad, ra -0.9634954084936206: findTract gives tract 15,
    findTractIdArray tract 14. *)
Theorem rings_float_array_negative_ra_refuted :
  exists g ra dec, frings_wf g /\ finite ra = true /\ finite dec = true /\ (- f2R f_twopi < f2R ra < 0)%R
    /\ fr_findTractIdArray g false [(ra, dec)] = Ok [14] /\ fr_findIndex g (f_spherePoint ra dec) = Ok 15.
Proof. exact rings_float_array_negative_ra_refuted_proof. Qed.
Print Assumptions rings_float_array_negative_ra_refuted.

(** C78: the centre of each tract as computed in binary64 is at most 2^-48 radians away in declination and 2^-46 in right
    ascension from the exact centre, and findTract in binary64 of it is the tract (for the duplicate tract of version 0,
    number ringNums[0]+1: tract 1). *)
Theorem rings_float_centre : forall g i, frings_wf g -> 0 <= i < fr_numTracts g ->
  exists c exact, fr_center g i = Ok c /\ f_coord c
    /\ rings_center (exact_rings g) i = Ok exact /\ near_or_at dec_tol ra_tol exact (fval c)
    /\ (fr_version g = 1 -> fr_findIndex g c = Ok i)
    /\ (fr_version g = 0 -> forall n0, ring_has (exact_rings g) 0 n0 ->
        (2 <= fr_numRings g /\ i = n0 + 1 -> fr_findIndex g c = Ok 1)
        /\ (fr_numRings g = 1 \/ i <> n0 + 1 -> fr_findIndex g c = Ok i)).
Proof. exact rings_float_centre_proof. Qed.
Print Assumptions rings_float_centre.
