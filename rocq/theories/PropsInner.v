(** Property theorems; generated by tools/mkprops.py from MainInner.v. *)
From Coq Require Import Reals Lra Lia String.
From Flocq Require Import Core.Raux IEEE754.Binary IEEE754.Bits.
Require Import Verif.Py Verif.Geom Verif.PatchInfo Verif.TractBuilder Verif.TractInfo Verif.Spec.
Require Import Verif.PatchProofs Verif.TractProofs Verif.SkyMap Verif.SkySpec Verif.SkyProofs Verif.SkyProofs2 Verif.Uniform.
Require Import Verif.Rings Verif.RingsSpec Verif.RingsNum Verif.Sphere Verif.SphereProofs Verif.Maps Verif.TractBox Verif.MainMaps.
Require Import Verif.MapsProofs Verif.Region Verif.RegionProofs Verif.ProjSpec Verif.MainPolygons Verif.MiscSpec.
Require Import Verif.Config Verif.ConfigSpec Verif.ConfigProofs Verif.Wcs Verif.WcsSpec Verif.MainWcs Verif.RotatedProofs Verif.MainRotated Verif.InnerProofs.
Require Import Verif.MainInner.
Open Scope list_scope.
Open Scope R_scope.

(** C87: the inner sky polygon of a tract made from a centre, a radius and an overlap (all tracts of Rings and Discrete sky maps), with a gnomonic (TAN) WCS,
    consists of the coordinates whose position is in the box of the tract and at least a thousandth of a pixel away from its edges; the tract contains them. *)
Theorem explicit_inner_polygon : forall c b oid id (ctr : sphere) radius overlap w corners b' t s, cfg_ok c -> builder_reachable c b ->
  ExplicitTractInfo_init sphere_offset b oid id ctr radius overlap w corners = Ok (b', t) -> gnomonic w ->
  (region_contains (getInnerSkyPolygon t) s
   <-> exists x y, skyToPixel (t_wcs t) s = Pix x y
        /\ - / 2 + 1 / 1000 <= x <= IZR (dimx (t_bbox t)) - / 2 - 1 / 1000
        /\ - / 2 + 1 / 1000 <= y <= IZR (dimy (t_bbox t)) - / 2 - 1 / 1000)
  /\ (region_contains (getInnerSkyPolygon t) s -> tract_contains t s = Ok true).
Proof. exact explicit_inner_polygon_proof. Qed.
Print Assumptions explicit_inner_polygon.

(** C87: with a TAN or STG WCS of any scale, rotation and handedness, the inner sky polygon of such a tract contains the disc about its centre of h times the radius plus the overlap
    (h as in C85; less a thousandth of a pixel), with STG provided that its vertices are less than 90 degrees from the centre: it includes the overlap. *)
Theorem explicit_inner_disc : forall name dist limit scale rotation flipX ctr w c b oid id radius overlap corners b' t s,
  In (name, dist, limit) zenithal_kinds -> 0 < scale -> zenithal_at dist limit scale rotation flipX ctr 0 0 w ->
  cfg_ok c -> builder_reachable c b -> 0 <= radius + overlap < limit ->
  ExplicitTractInfo_init sphere_offset b oid id ctr radius overlap w corners = Ok (b', t) ->
  (name = "STG"%string -> forall v, In v (t_verts t) -> separation v ctr < PI / 2) ->
  separation s ctr <= axis_part rotation * (radius + overlap) - scale / 1000 ->
  region_contains (getInnerSkyPolygon t) s.
Proof. exact explicit_inner_disc_proof. Qed.
Print Assumptions explicit_inner_disc.

(** C87, refuted: that the inner region of such a tract is part of the tract.  With the STG projection (the default), if the width squared times the height of the tract
    is a quarter or more in units of the (inverse squared) pixel scale, there is a coordinate in its inner sky polygon that the tract does not contain: the great circles
    between the vertices bend out of the tract. *)
Theorem explicit_inner_outside_refuted : forall scale rotation flipX ctr w c b oid id radius overlap corners b' t,
  0 < scale -> zenithal_at (fun t => 2 * atan (t / 2)) PI scale rotation flipX ctr 0 0 w -> cfg_ok c -> builder_reachable c b ->
  ExplicitTractInfo_init sphere_offset b oid id ctr radius overlap w corners = Ok (b', t) ->
  (forall v, In v (t_verts t) -> separation v ctr < PI / 2) ->
  / 4 <= IZR (dimx (t_bbox t)) * IZR (dimx (t_bbox t)) * IZR (dimy (t_bbox t)) * (scale * scale) ->
  exists s, region_contains (getInnerSkyPolygon t) s /\ tract_contains t s = Ok false.
Proof. exact explicit_inner_outside_refuted_proof. Qed.
Print Assumptions explicit_inner_outside_refuted.

(** C87, refuted: that the tract extends beyond its inner region by at least the overlap (as documented).  With TAN or STG, a pixel scale of at most a radian and any radius and overlap,
    there is a coordinate in the inner sky polygon and one less than a hundredth of a pixel scale from it that the tract does not contain. *)
Theorem explicit_no_overlap_refuted : forall name dist limit scale rotation flipX ctr w c b oid id radius overlap corners b' t,
  In (name, dist, limit) zenithal_kinds -> 0 < scale <= 1 -> zenithal_at dist limit scale rotation flipX ctr 0 0 w ->
  cfg_ok c -> builder_reachable c b -> 0 <= radius + overlap < limit ->
  ExplicitTractInfo_init sphere_offset b oid id ctr radius overlap w corners = Ok (b', t) ->
  exists p q, region_contains (getInnerSkyPolygon t) p /\ separation p q <= scale / 100 /\ tract_contains t q = Ok false.
Proof. exact explicit_no_overlap_refuted_proof. Qed.
Print Assumptions explicit_no_overlap_refuted.

(** C87: with TAN or STG such a tract is not much larger than asked for: with r the distance in the plane that corresponds to the radius plus the overlap, every coordinate
    that the tract contains, and so each of its vertices, is closer to its centre than what corresponds to 2 h r and the half width and height of a patch and 4 pixels. *)
Theorem explicit_extent : forall name dist limit scale rotation flipX ctr w c b oid id radius overlap corners b' t r s,
  In (name, dist, limit) zenithal_kinds -> 0 < scale -> zenithal_at dist limit scale rotation flipX ctr 0 0 w ->
  cfg_ok c -> builder_reachable c b -> 0 <= r < IZR (2 ^ 51) -> dist (r * scale) = radius + overlap ->
  ExplicitTractInfo_init sphere_offset b oid id ctr radius overlap w corners = Ok (b', t) ->
  tract_contains t s = Ok true \/ In s (t_verts t) ->
  separation s ctr < dist ((2 * (axis_part rotation * r) + IZR (fst (cfg_inner c)) / 2 + IZR (snd (cfg_inner c)) / 2 + 4) * scale).
Proof. exact explicit_extent_proof. Qed.
Print Assumptions explicit_extent.

(** C87: hence for the Rings and Discrete sky maps made from a configuration, at any point of their life, with the TAN or STG projection: the inner sky polygon of each tract (for Discrete
    maps, its inner sky region) contains the disc of h times the radius plus the overlap about the tract's centre (less a thousandth of a pixel; with STG, if the vertices are less
    than 90 degrees away); with TAN it is the set of coordinates in the tract's box but for a thousandth of a pixel at its edges, and the tract contains it. *)
Theorem inner_maps : forall named p2a bnd order sha1 c ver m0 m i t radius name dist limit s, knows named ->
  construct sphere_offset (factory_wcs named) p2a bnd order c ver = Ok m0 -> used sphere_offset sha1 m0 m ->
  cfg_ok (selected (c_tb c)) -> (forall n ra, c_class c = RingsCfg n ra -> (1 <= n)%Z) -> 0 < f2r (c_scale c) ->
  c_projection c = of_string name -> In (name, dist, limit) zenithal_kinds ->
  holds sphere_offset (m_def m) i (m_state m) t -> tract_radius (c_class c) i radius ->
  let overlap := f2r (c_overlap c) * (PI / 180) in
  let rotation := f2r (c_rotation c) * (PI / 180) in
  let scale := f2r (c_scale c) * (PI / 648000) in
  (0 <= radius + overlap < limit ->
   (name = "STG"%string -> forall v, In v (t_verts t) -> separation v (t_ctr t) < PI / 2) ->
   separation s (t_ctr t) <= axis_part rotation * (radius + overlap) - scale / 1000 -> region_contains (getInnerSkyPolygon t) s)
  /\ (name = "TAN"%string ->
      (region_contains (getInnerSkyPolygon t) s
       <-> exists x y, skyToPixel (t_wcs t) s = Pix x y
            /\ - / 2 + 1 / 1000 <= x <= IZR (dimx (t_bbox t)) - / 2 - 1 / 1000
            /\ - / 2 + 1 / 1000 <= y <= IZR (dimy (t_bbox t)) - / 2 - 1 / 1000)
      /\ (region_contains (getInnerSkyPolygon t) s -> tract_contains t s = Ok true))
  /\ (forall ras decs radii, c_class c = DiscreteCfg ras decs radii -> getInnerSkyRegion t = getInnerSkyPolygon t).
Proof. exact inner_maps_proof. Qed.
Print Assumptions inner_maps.

(** C87, non-vacuity and refutation for a constructed map: the Discrete map with the default settings and one tract of radius 4 degrees, with TAN or STG, meets the assumptions: its tract 0
    in use has its vertices less than 90 degrees from its centre.  With STG (the default), its inner sky region contains a coordinate that the tract does not; with either projection it contains
    one that is less than a hundredth of a pixel from a coordinate outside the tract, although the overlap is 1 degree. *)
Theorem inner_region_refuted : forall p2a bnd order sha1 name dist limit, In (name, dist, limit) zenithal_kinds ->
  let c := discrete4 name in
  exists m0 m t, construct sphere_offset (factory_wcs fits_projections) p2a bnd order c None = Ok m0 /\ used sphere_offset sha1 m0 m
    /\ knows fits_projections /\ cfg_ok (selected (c_tb c)) /\ 0 < f2r (c_scale c) /\ holds sphere_offset (m_def m) 0 (m_state m) t
    /\ tract_radius (c_class c) 0 (deg 4) /\ f2r (c_overlap c) * (PI / 180) = deg 1 /\ 0 <= deg 4 + deg 1 < limit
    /\ axis_part (f2r (c_rotation c) * (PI / 180)) = 1
    /\ (forall v, In v (t_verts t) -> separation v (t_ctr t) < PI / 2)
    /\ (name = "STG"%string -> exists s, region_contains (getInnerSkyRegion t) s /\ tract_contains t s = Ok false)
    /\ (exists p q, region_contains (getInnerSkyRegion t) p /\ separation p q <= deg (333 / 1000 / 3600) / 99 /\ tract_contains t q = Ok false).
Proof. exact inner_region_refuted_proof. Qed.
Print Assumptions inner_region_refuted.
