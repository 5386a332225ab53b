(** Property theorems; generated by tools/mkprops.py from MainRings4.v. *)
From Coq Require Import Reals Lra Lia.
From Flocq Require Import Raux.
Require Import Verif.Py Verif.Geom Verif.PatchInfo Verif.TractBuilder Verif.TractInfo Verif.Spec.
Require Import Verif.PatchProofs Verif.TractProofs Verif.Examples.
Require Import Verif.SkyMap Verif.SkySpec Verif.SkyProofs Verif.SkyProofs2 Verif.MainSky.
Require Import Verif.Rings Verif.RingsSpec Verif.RingsProofs Verif.RingsProofs2 Verif.RingsProofs3 Verif.RingsNear.
Require Import Verif.MainRings Verif.Sphere Verif.SphereProofs Verif.TractBox Verif.Uniform Verif.RingsNum Verif.MainRings2.
Require Import Verif.Region Verif.RegionProofs Verif.MainRings3.
Require Import Verif.MainRings4.
Open Scope R_scope.
Open Scope Z_scope.

(** C33: the centre of the tract that findTract returns is at most three quarters of a ring height away from the coordinate, with
    three rings or more, for every coordinate (but, with version 0, those of the last ring that are given the north cap), whatever the
    projection and the overlap. *)
Theorem rings_found_distance : forall offset c mk ov numRings raStart version g coord s s' t,
  3 <= numRings -> rings_init numRings raStart version = Ok g ->
  let d := rings_def c mk ov g in
  sm_reachable offset d s -> on_sphere coord ->
  rings_findTract offset d g coord s = (s', Ok t) ->
  version = 1 \/ t_id t <> rings_numTracts g - 1 \/ (- firstRingStart g <= snd coord)%R ->
  (separation coord (t_ctr t) <= 3 / 4 * rg_size g)%R.
Proof. exact rings_found_distance_proof. Qed.
Print Assumptions rings_found_distance.

(** C33: full overlap.  With three rings or more and an overlap of at least a quarter of the ring height (as in
    the default configuration, see below), the tract that findTract returns contains the coordinate, for
    every coordinate on the sky (TAN and STG, any pixel scale, patch layout and history of accesses).  For version 0 the
    coordinates in the last ring that are assigned to the north cap are excepted. *)
Theorem rings_full_overlap : forall c S mk ov numRings raStart version g coord s s' t,
  cfg_ok c -> (0 < S)%R -> 3 <= numRings -> rings_init numRings raStart version = Ok g ->
  (rg_size g / 4 <= deg ov)%R ->
  mk = tan_wcs S /\ (rg_size g / 2 + deg ov < PI / 2)%R \/ mk = stg_wcs S /\ (rg_size g / 2 + deg ov < PI)%R ->
  let d := rings_def c mk ov g in
  sm_reachable sphere_offset d s -> on_sphere coord ->
  rings_findTract sphere_offset d g coord s = (s', Ok t) ->
  version = 1 \/ t_id t <> rings_numTracts g - 1 \/ (- firstRingStart g <= snd coord)%R ->
  tract_contains t coord = Ok true.
Proof. exact rings_full_overlap_proof. Qed.
Print Assumptions rings_full_overlap.

(** C33: the default configuration (120 rings, overlap of 1 degree, STG projection) meets the hypotheses. *)
Example rings_full_overlap_default :
  exists g, rings_init 120 0 1 = Ok g /\ (rg_size g / 4 <= deg 1)%R /\ (rg_size g / 2 + deg 1 < PI)%R
    /\ (exists s, sm_reachable sphere_offset (rings_def legacy_default (stg_wcs (arcsec_scale (333 / 1000))) 1 g) s).
Proof. exact rings_full_overlap_default_proof. Qed.

(** C33, the excepted coordinates of version 0: in the last ring, within half a tract width of raStart, findTract
    returns the north cap although the coordinate is in the ring below it. *)
Theorem rings_v0_last_ring : forall offset c mk ov g n coord s,
  rings_wf g -> rg_version g = 0 -> 2 <= rg_numRings g -> ring_has g (rg_numRings g - 1) n ->
  (- firstRingStart g - rg_size g <= snd coord < - firstRingStart g)%R ->
  (wrap (fst coord - rg_raStart g) < PI / IZR n)%R ->
  let d := rings_def c mk ov g in
  rings_findTract offset d g coord s = sm_getitem offset d (rings_numTracts g - 1) s.
Proof. exact rings_v0_last_ring_proof. Qed.
Print Assumptions rings_v0_last_ring.
