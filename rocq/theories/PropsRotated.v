(** Property theorems; generated by tools/mkprops.py from MainRotated.v. *)
From Coq Require Import Reals Lra Lia String.
From Flocq Require Import Core.Raux IEEE754.Binary IEEE754.Bits.
Require Import Verif.Py Verif.Geom Verif.PatchInfo Verif.TractBuilder Verif.TractInfo Verif.Spec.
Require Import Verif.PatchProofs Verif.SkyMap Verif.SkySpec Verif.SkyProofs Verif.SkyProofs2 Verif.Uniform.
Require Import Verif.Rings Verif.RingsSpec Verif.RingsProofs Verif.RingsNum Verif.Sphere Verif.SphereProofs Verif.Maps Verif.Dodeca Verif.DodecaSpec.
Require Import Verif.RegionProofs Verif.RingsProofs2 Verif.RingsProofs3 Verif.MainRings Verif.MainRings2 Verif.MainRings4 Verif.MainMaps.
Require Import Verif.Config Verif.ConfigSpec Verif.ConfigProofs Verif.Wcs Verif.WcsSpec Verif.MainWcs Verif.RotatedProofs.
Require Import Verif.MainRotated.
Open Scope list_scope.
Open Scope Z_scope.

(** C85: a tract given by a radius and an overlap, with a TAN or STG WCS of any pixel scale, rotation and handedness about its centre: let h be the larger of
    |cos rotation| and |sin rotation| (1 exactly for multiples of a quarter turn, never below the square root of a half).  The tract contains all coordinates within h times
    the radius plus the overlap; more precisely, those whose distance in the plane is up to h times that of
    the radius plus the overlap, and, on the axes, no more than half a patch and two pixels beyond. *)
Theorem explicit_rotated : forall name dist limit scale rotation flipX ctr w c b oid id radius overlap corners b' t,
  In (name, dist, limit) zenithal_kinds -> (0 < scale)%R -> zenithal_at dist limit scale rotation flipX ctr 0 0 w ->
  cfg_ok c -> builder_reachable c b -> (0 <= radius + overlap < limit)%R ->
  ExplicitTractInfo_init sphere_offset b oid id ctr radius overlap w corners = Ok (b', t) ->
  let h := axis_part rotation in
  (0 <= h <= 1 /\ 1 <= 2 * (h * h) /\ (cos rotation = 0 \/ sin rotation = 0 -> h = 1))%R
  /\ (forall coord, (separation coord ctr <= h * (radius + overlap))%R -> tract_contains t coord = Ok true)
  /\ exists r, (0 <= r)%R /\ dist (r * scale)%R = (radius + overlap)%R
    /\ (forall coord, (separation coord ctr <= dist (h * r * scale))%R -> tract_contains t coord = Ok true)
    /\ ((r < IZR (2 ^ 51))%R -> forall q, (h * r + IZR (fst (cfg_inner c)) / 2 + 2 <= q)%R ->
          exists coord, separation coord ctr = dist (q * scale)%R /\ tract_contains t coord = Ok false).
Proof. exact explicit_rotated_proof. Qed.
Print Assumptions explicit_rotated.

(** C85: hence for Rings and Discrete sky maps with the TAN or STG projection, made from a configuration with any pixel scale and rotation, at any point of their life:
    every tract contains the coordinates within h times its radius (half the ring height, or the listed radius) plus the overlap of its
    centre, h as above for the configured rotation; with a rotation by a multiple of 90 degrees those within the radius plus the overlap. *)
Theorem rotated_maps : forall named p2a bnd order sha1 c ver m0 m i t radius name dist limit, knows named ->
  construct sphere_offset (factory_wcs named) p2a bnd order c ver = Ok m0 -> used sphere_offset sha1 m0 m ->
  cfg_ok (selected (c_tb c)) -> (forall n ra, c_class c = RingsCfg n ra -> 1 <= n) -> (0 < f2r (c_scale c))%R ->
  c_projection c = of_string name -> In (name, dist, limit) zenithal_kinds ->
  holds sphere_offset (m_def m) i (m_state m) t -> tract_radius (c_class c) i radius ->
  let overlap := (f2r (c_overlap c) * (PI / 180))%R in
  let rotation := (f2r (c_rotation c) * (PI / 180))%R in
  (0 <= radius + overlap < limit)%R ->
  (forall coord, (separation coord (t_ctr t) <= axis_part rotation * (radius + overlap))%R -> tract_contains t coord = Ok true)
  /\ (cos rotation = 0%R \/ sin rotation = 0%R -> forall coord, (separation coord (t_ctr t) <= radius + overlap)%R -> tract_contains t coord = Ok true).
Proof. exact rotated_maps_proof. Qed.
Print Assumptions rotated_maps.

(** C85: with three rings or more and an overlap of 0.57 ring heights, findTract's tract contains the coordinate whatever the rotation (without
    rotation, a quarter is enough: C33). *)
Theorem rings_full_overlap_rotated : forall name dist limit scale rotation flipX c mk ov numRings raStart version g coord s s' t,
  In (name, dist, limit) zenithal_kinds -> (0 < scale)%R -> (forall ctr, zenithal_at dist limit scale rotation flipX ctr 0 0 (mk ctr)) ->
  cfg_ok c -> 3 <= numRings -> rings_init numRings raStart version = Ok g ->
  (57 / 100 * rg_size g <= deg ov)%R -> (rg_size g / 2 + deg ov < limit)%R ->
  let d := rings_def c mk ov g in
  sm_reachable sphere_offset d s -> on_sphere coord ->
  rings_findTract sphere_offset d g coord s = (s', Ok t) ->
  version = 1 \/ t_id t <> rings_numTracts g - 1 \/ (- firstRingStart g <= snd coord)%R ->
  tract_contains t coord = Ok true.
Proof. exact rings_full_overlap_rotated_proof. Qed.
Print Assumptions rings_full_overlap_rotated.

(** C85, refuted: that a tract contains the disc of its radius about its centre, let alone with the overlap (the overlap is documented as a minimum in all
    directions, and without rotation it is one: C21, C59).  In a Discrete map with the default settings but the rotation of 45 degrees and one tract of radius 4
    degrees (overlap of 1 degree), there is a coordinate 4 degrees from its centre that the tract does not contain.  The map also meets
    the assumptions of the above. *)
Theorem rotated_tract_refuted : forall p2a bnd order sha1,
  let c := mkConfig tb_default f64_one f64_0_333 (of_string "STG") f64_45 (DiscreteCfg [f64_3_5] [f64_45] [f64_4]) in
  exists m0 m t coord, construct sphere_offset (factory_wcs fits_projections) p2a bnd order c None = Ok m0 /\ used sphere_offset sha1 m0 m
    /\ cfg_ok (selected (c_tb c)) /\ (0 < f2r (c_scale c))%R /\ holds sphere_offset (m_def m) 0 (m_state m) t
    /\ tract_radius (c_class c) 0 (deg 4) /\ (f2r (c_overlap c) * (PI / 180) = deg 1)%R /\ (0 <= deg 4 + deg 1 < PI)%R
    /\ separation coord (t_ctr t) = deg 4 /\ tract_contains t coord = Ok false.
Proof. exact rotated_tract_refuted_proof. Qed.
Print Assumptions rotated_tract_refuted.

(** C85, non-vacuity: the default Rings settings with 120 rings, with any rotation, have the overlap that is enough: findTract of any coordinate succeeds, and
    its tract contains the coordinate. *)
Example rings_rotated_default : forall name dist limit rot coord, In (name, dist, limit) zenithal_kinds -> on_sphere coord ->
  exists g, rings_init 120 0 1 = Ok g /\ (57 / 100 * rg_size g <= deg 1)%R /\ (rg_size g / 2 + deg 1 < limit)%R
    /\ let mk := factory_wcs fits_projections (of_string name) (333 / 1000) rot in
       let d := rings_def legacy_default mk 1 g in
       (forall ctr, zenithal_at dist limit (333 / 1000 * (PI / 648000)) (rot * (PI / 180)) false ctr 0 0 (mk ctr))
       /\ exists s s' t, sm_reachable sphere_offset d s /\ rings_findTract sphere_offset d g coord s = (s', Ok t)
            /\ tract_contains t coord = Ok true.
Proof. exact rings_rotated_default_proof. Qed.
