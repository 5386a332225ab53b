(** Property theorems; generated by tools/mkprops.py from MainWcs.v. *)
From Coq Require Import Reals Lra Lia String.
From Flocq Require Import Core.Raux IEEE754.Binary IEEE754.Bits.
Require Import Verif.Py Verif.Geom Verif.PatchInfo Verif.TractBuilder Verif.TractInfo Verif.Spec.
Require Import Verif.SkyMap Verif.SkySpec Verif.SkyProofs Verif.SkyProofs2.
Require Import Verif.Rings Verif.RingsSpec Verif.RingsProofs Verif.Sphere Verif.SphereProofs Verif.Maps Verif.Dodeca Verif.DodecaSpec.
Require Import Verif.HullProofs Verif.ProjSpec Verif.TractBox Verif.MainHull Verif.MainPolygons Verif.MiscSpec Verif.MapsProofs.
Require Import Verif.Config Verif.ConfigSpec Verif.ConfigProofs Verif.MainConfig2 Verif.MainMaps Verif.MainSky Verif.Wcs Verif.WcsSpec Verif.MainEquat.
Require Import Verif.MainWcs.
Open Scope list_scope.
Open Scope R_scope.

(** C81: a WcsFactory is made unless the projection name does not have three characters (RuntimeError); the
    sky maps make theirs from the configured pixel scale (arcseconds), projection and rotation (degrees), without flip. *)
Theorem wcs_factory :
  (forall scale name rotation flipX,
     (length name = 3%nat -> exists f, WcsFactory_init scale name rotation flipX = Ok f /\ f_projection f = name)
     /\ (length name <> 3%nat -> WcsFactory_init scale name rotation flipX = Raise RuntimeError))
  /\ (forall c, config_factory c = WcsFactory_init (f2r (c_scale c) * (PI / 648000)) (c_projection c) (f2r (c_rotation c) * (PI / 180)) false)
  /\ (forall named c, wcsFactory (factory_wcs named) c = (f <- config_factory c ;; Ok (makeWcs named f (0, 0)))).
Proof. exact wcs_factory_proof. Qed.
Print Assumptions wcs_factory.

(** C81: the WCS made by a factory with the TAN or STG projection, of any positive pixel scale, any rotation, flipped or not, for any
    reference pixel and coordinate: the pixel at distance r from the reference pixel in direction phi (from +x towards +y) is
    at distance atan (r scale) (STG: 2 atan (r scale / 2)) from the reference coordinate, in the direction
    (from east towards north) phi - rotation if flipped, else pi - phi - rotation, so that +y points to the position angle
    "rotation" (from north through east); the two directions of the WCS are inverse to each other; exactly the
    coordinates 90 degrees away or more (STG: only the antipode) have no position. *)
Theorem zenithal_wcs : forall named name dist limit scale rotation flipX f cx cy crval,
  knows named -> In (name, dist, limit) zenithal_kinds -> 0 < scale ->
  WcsFactory_init scale (of_string name) rotation flipX = Ok f ->
  let w := makeWcs named f (cx, cy) crval in
  zenithal_at dist limit scale rotation flipX crval cx cy w.
Proof. exact zenithal_wcs_proof. Qed.
Print Assumptions zenithal_wcs.

(** C81: the WCS made by a factory with the CEA projection for a reference coordinate on the equator, of any positive pixel scale, any rotation,
    flipped or not, and any reference pixel: the pixel (x, y) from the reference pixel is at the longitude and sine of latitude that
    (x, y), rotated and scaled, gives, and coordinates (other than the poles) lead to their pixel and back. *)
Theorem cea_factory_wcs : forall named scale rotation flipX f cx cy mid,
  knows named -> 0 < scale -> WcsFactory_init scale (of_string "CEA") rotation flipX = Ok f ->
  cea_at scale rotation flipX mid cx cy (makeWcs named f (cx, cy) (spherePoint mid 0)).
Proof. exact cea_factory_wcs_proof. Qed.
Print Assumptions cea_factory_wcs.

(** C81: hence for a sky map of any class, at any point of its life: the WCS of every tract has the configured projection (TAN, STG; for Equat
    also CEA), pixel scale and rotation, is not flipped, and has a whole pixel as its reference, at the tract's
    centre (Equat: the point of the equator at the tract's middle); with TAN it is gnomonic (C71, C80), with CEA cylindrical (C79). *)
Theorem map_wcs : forall named offset p2a bnd order sha1 c ver m0 m i t, knows named -> any_order order ->
  construct offset (factory_wcs named) p2a bnd order c ver = Ok m0 -> used offset sha1 m0 m ->
  cfg_ok (selected (c_tb c)) -> (forall n ra, c_class c = RingsCfg n ra -> (1 <= n)%Z) -> 0 < f2r (c_scale c) ->
  holds offset (m_def m) i (m_state m) t ->
  let scale := f2r (c_scale c) * (PI / 648000) in
  let rotation := f2r (c_rotation c) * (PI / 180) in
  (forall name dist limit, c_projection c = of_string name -> In (name, dist, limit) zenithal_kinds ->
     exists X Y : Z, zenithal_at dist limit scale rotation false (reference (c_class c) i (t_ctr t)) (IZR X) (IZR Y) (t_wcs t))
  /\ (c_projection c = of_string "TAN" -> gnomonic (t_wcs t))
  /\ (forall n decs, c_class c = EquatCfg n decs -> c_projection c = of_string "CEA" ->
        exists X Y : Z, cea_at scale rotation false (deg (360 * (IZR i + 1 / 2) / IZR n)) (IZR X) (IZR Y) (t_wcs t)).
Proof. exact map_wcs_proof. Qed.
Print Assumptions map_wcs.

(** C81: the assumptions on projections of the coverage properties hold for the WCSs the factories of the maps make: TAN and STG are the zenithal
    projections of C71, TAN is gnomonic as in C80, CEA on the equator is cylindrical as in C79, and the (0, 0) pixel is the reference coordinate. *)
Theorem factory_projections : forall named scale rotation, knows named -> 0 < scale ->
  (forall ctr, projects tan_factor ctr (factory_wcs named (of_string "TAN") scale rotation ctr)
     /\ gnomonic (factory_wcs named (of_string "TAN") scale rotation ctr))
  /\ (forall ctr, projects stg_factor ctr (factory_wcs named (of_string "STG") scale rotation ctr))
  /\ (forall ra, cylindrical (spherePoint ra 0) (factory_wcs named (of_string "CEA") scale rotation (spherePoint ra 0))).
Proof. exact factory_projections_proof. Qed.
Print Assumptions factory_projections.

(** C81: without rotation these are, in both directions, the gnomonic, stereographic and cylindrical equal area WCSs (1/scale pixels per radian, x to the
    west, y to the north) for which other properties (C31, C59, C79, ...) are stated. *)
Theorem unrotated_wcs : forall named scale, knows named -> 0 < scale ->
  let same (w w' : wcs sphere) := (forall c, skyToPixel w c = skyToPixel w' c) /\ (forall p, pixelToSky w p = pixelToSky w' p) in
  (forall ctr, same (factory_wcs named (of_string "TAN") scale 0 ctr) (tan_wcs (/ arcsec scale) ctr))
  /\ (forall ctr, same (factory_wcs named (of_string "STG") scale 0 ctr) (stg_wcs (/ arcsec scale) ctr))
  /\ (forall ctr, same (factory_wcs named (of_string "CEA") scale 0 ctr) (cea_wcs (/ arcsec scale) ctr)).
Proof. exact unrotated_wcs_proof. Qed.
Print Assumptions unrotated_wcs.

(** C81, non-vacuity: there is such a naming of projections; a Discrete map with the TAN or STG projection, the default pixel scale and rotated by 45 degrees is
    made, its tract 0 is used and meets the assumptions; one pixel up from the reference pixel is north-east of the tract's
    centre, one pixel to the right is north-west. *)
Example map_wcs_example : forall p2a bnd order sha1 name dist limit, any_order order -> In (name, dist, limit) zenithal_kinds ->
  let c := mkConfig tb_default f64_one f64_0_333 (of_string name) f64_45 (DiscreteCfg [f64_3_5] [f64_45] [f64_one]) in
  knows fits_projections
  /\ exists m0 m t, construct sphere_offset (factory_wcs fits_projections) p2a bnd order c None = Ok m0 /\ used sphere_offset sha1 m0 m
    /\ cfg_ok (selected (c_tb c)) /\ 0 < f2r (c_scale c) /\ holds sphere_offset (m_def m) 0 (m_state m) t
    /\ (name = "TAN"%string -> gnomonic (t_wcs t))
    /\ exists X Y : Z,
         pixelToSky (t_wcs t) (IZR X, IZR Y + 1) = sphere_offset (t_ctr t) (PI / 4) (dist (f2r f64_0_333 * (PI / 648000)))
         /\ pixelToSky (t_wcs t) (IZR X + 1, IZR Y) = sphere_offset (t_ctr t) (3 * (PI / 4)) (dist (f2r f64_0_333 * (PI / 648000))).
Proof. exact map_wcs_example_proof. Qed.

(** C81, non-vacuity: the default Equat map (4 tracts, CEA) is made, and findTract of RA 100, Dec 1 gives tract 1, which contains it; it meets the
    assumptions: the pixel 1000 to the left of its reference pixel is at RA 135 + 0.0925 degrees on the equator. *)
Example equat_wcs_example : forall p2a bnd order sha1, any_order order ->
  exists m0 s t, let m := mkMap equat_default (m_version m0) (m_def m0) s None in
    construct sphere_offset (factory_wcs fits_projections) p2a bnd order equat_default None = Ok m0
    /\ equat_findTract sphere_offset (m_def m0) (spherePoint (deg 100) (deg 1)) (m_state m0) = (s, Ok t)
    /\ used sphere_offset sha1 m0 m /\ holds sphere_offset (m_def m) 1 (m_state m) t
    /\ tract_contains t (spherePoint (deg 100) (deg 1)) = Ok true
    /\ exists X Y : Z, pixelToSky (t_wcs t) (IZR X + -1000, IZR Y + 0) = spherePoint (deg (135 + f2r f64_0_333 * 1000 / 3600)) 0.
Proof. exact equat_wcs_example_proof. Qed.
