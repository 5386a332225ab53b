(** Property theorems; generated by tools/mkprops.py from MainRingsFloat2.v. *)
From Coq Require Import Reals Lra Lia List.
From Flocq Require Import Core BinarySingleNaN.
Require Import Verif.Py Verif.Geom Verif.Float64 Verif.Float64Proofs Verif.PatchInfo Verif.TractBuilder Verif.TractInfo Verif.Spec.
Require Import Verif.SkyMap Verif.SkySpec Verif.SkyProofs Verif.SkyProofs2 Verif.Uniform Verif.Sphere Verif.SphereProofs Verif.TractBox Verif.Examples Verif.TractProofs Verif.PatchProofs Verif.RegionProofs.
Require Import Verif.Rings Verif.RingsSpec Verif.RingsProofs Verif.RingsProofs2 Verif.RingsProofs3 Verif.RingsNear Verif.MainRings Verif.MainRings2 Verif.MainRings3.
Require Import Verif.RingsFloat Verif.RingsFloatSpec Verif.FloatOps Verif.RingsFloatProofs Verif.RingsFloatProofs2 Verif.MainRingsFloat.
Import ListNotations.
Require Import Verif.MainRingsFloat2.
Open Scope Z_scope.

(** C92: findAllTracts in binary64, for every coordinate (two doubles): it returns only tracts that contain the coordinate; it returns
    the tract that findTract (in binary64) selects, and each polar cap, whenever these contain the coordinate; with
    version 1 it returns no tract twice, with version 0 none but the north cap. *)
Theorem rings_float_all_tracts : forall offset c mk ov g coord s s' l,
  frings_wf g -> at_least 3 (exact_rings g) -> f_coord coord ->
  let d := rings_def c mk ov (exact_rings g) in
  sm_reachable offset d s -> fr_findAllTracts offset d g coord s = (s', Ok l) ->
  accesses offset d s s'
  /\ (forall t, In t l -> tract_contains t (fval coord) = Ok true /\ exists i, holds offset d i s' t)
  /\ (forall i, fr_findIndex g coord = Ok i \/ i = 0 \/ i = fr_numTracts g - 1 ->
        exists t, holds offset d i s' t /\ (tract_contains t (fval coord) = Ok true -> In t l))
  /\ (fr_version g = 1 -> NoDup (map t_id l))
  /\ NoDup (filter (fun i => negb (i =? fr_numTracts g - 1)) (map t_id l)).
Proof. exact rings_float_all_tracts_proof. Qed.
Print Assumptions rings_float_all_tracts.

(** C92: and it always succeeds, for a map with TAN or STG projection and after any history. *)
Theorem rings_float_all_tracts_succeeds : forall c S mk ov g coord s, cfg_ok c -> frings_wf g -> at_least 3 (exact_rings g) -> f_coord coord ->
  standard_wcs S mk -> let d := rings_def c mk ov (exact_rings g) in
  sm_reachable sphere_offset d s ->
  exists s' l, fr_findAllTracts sphere_offset d g coord s = (s', Ok l).
Proof. exact rings_float_all_tracts_succeeds_proof. Qed.
Print Assumptions rings_float_all_tracts_succeeds.

(** C92: which tracts findAllTracts considers in binary64.  It finds every tract of a ring that contains the coordinate and whose centre is
    less than 1.5 ring heights minus 2^-48 radians away in declination and less than 1.5 tract widths minus 2^-46 radians in RA (with
    version 0, except the duplicate tract of index ringNums[0]+1); it finds no tract of a ring further away than 1.5 heights or widths
    plus these tolerances. *)
Theorem rings_float_all_tracts_near : forall offset c mk ov g coord s s' l,
  frings_wf g -> at_least 3 (exact_rings g) -> f_coord coord ->
  let G := exact_rings g in let d := rings_def c mk ov G in
  sm_reachable offset d s -> fr_findAllTracts offset d g coord s = (s', Ok l) ->
  (forall s2 i t r k n, accesses offset d s' s2 -> holds offset d i s2 t ->
     getRingIndices G i = Ok (r, k) -> ring_has G r n ->
     fr_version g = 1 \/ fr_numRings g = 1 \/ (forall n0, ring_has G 0 n0 -> i <> n0 + 1) ->
     near (3 / 2 * rg_size G - dec_tol) (3 / 2 * (2 * PI / IZR n) - ra_tol) (t_ctr t) (fval coord) ->
     tract_contains t (fval coord) = Ok true -> In t l)
  /\ (forall t r k n, In t l -> 0 < t_id t < fr_numTracts g - 1 ->
     getRingIndices G (t_id t) = Ok (r, k) -> ring_has G r n ->
     near_or_at (3 / 2 * rg_size G + dec_tol) (3 / 2 * (2 * PI / IZR n) + ra_tol) (t_ctr t) (fval coord)).
Proof. exact rings_float_all_tracts_near_proof. Qed.
Print Assumptions rings_float_all_tracts_near.

(** C92, non-vacuity: three rings of 8 tracts, version 1, and a coordinate close to the edge of a ring: what is tried, and findAllTracts on a fresh map. *)
Example rings_float_all_tracts_met :
  let coord := (float_of_int 6, float_of_int (-1)) in
  let mk := stg_wcs (arcsec_scale (333 / 1000)) in
  let d := rings_def legacy_default mk 1 (exact_rings ex_frings) in
  frings_wf ex_frings /\ at_least 3 (exact_rings ex_frings) /\ f_coord coord /\ cfg_ok legacy_default
  /\ standard_wcs (arcsec_scale (333 / 1000)) mk
  /\ fr_candidates ex_frings coord = Ok [7; 8; 1; 15; 16; 9; 0; 25] /\ fr_decToRingNum ex_frings (snd coord) = Ok 0
  /\ exists s, sm_reachable sphere_offset d s.
Proof. exact rings_float_all_tracts_met_proof. Qed.

(** C77, C92: a coordinate without a declination (NaN): findTract and findAllTracts raise ValueError, whatever the map's history, but findTractIdArray
    does not: it silently returns a tract of the first ring, namely the one it returns for the same right ascension (in [0, 2 pi)) and a declination in the
    first ring. *)
Theorem rings_float_nan_refuted : forall g ra, frings_wf g ->
  fr_findIndex g (ra, B754_nan) = Raise ValueError
  /\ (forall offset d s, fr_findAllTracts offset d g (ra, B754_nan) s = (s, Raise ValueError))
  /\ (forall dec n, f_coord (ra, dec) -> fr_decToRingNum g dec = Ok 0 -> ring_has (exact_rings g) 0 n ->
        exists i, 1 <= i <= n /\ fr_findTractIdArray g false [(ra, B754_nan); (ra, dec)] = Ok [i; i]).
Proof. exact rings_float_nan_refuted_proof. Qed.
Print Assumptions rings_float_nan_refuted.
