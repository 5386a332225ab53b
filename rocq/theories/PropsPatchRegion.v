(** Property theorems; generated by tools/mkprops.py from MainPatchRegion.v. *)
From Coq Require Import Reals Lra Lia.
From Flocq Require Import Core.Raux.
Require Import Verif.Py Verif.Geom Verif.PatchInfo Verif.TractBuilder Verif.TractInfo Verif.Spec.
Require Import Verif.PatchProofs Verif.TractProofs Verif.MainPatch Verif.MainTract.
Require Import Verif.SkyMap Verif.SkySpec Verif.SkyProofs Verif.SkyProofs2 Verif.MainSky.
Require Import Verif.Rings Verif.RingsSpec Verif.Sphere Verif.SphereProofs Verif.Region Verif.MapsProofs Verif.DodecaSpec Verif.HullProofs Verif.ProjSpec.
Require Import Verif.MainPolygons Verif.MiscSpec Verif.Examples.
Require Import Verif.MainPatchRegion.
Open Scope list_scope.
Open Scope R_scope.

(** C82: let a tract in use have a gnomonic WCS, and all the given coordinates a pixel position. For every coordinate in the
    spherical convex polygon they span, findPatchList contains the patch that findPatch gives, and more generally
    every patch whose outer box contains its pixel. *)
Theorem findPatchList_region : forall offset c b t coords s,
  cfg_ok c -> in_use offset c b t -> (dimx (t_bbox t) < 2 ^ 31)%Z -> (dimy (t_bbox t) < 2 ^ 31)%Z -> gnomonic (t_wcs t) ->
  (forall k, In k coords -> exists x y, skyToPixel (t_wcs t) k = Pix x y) ->
  region_contains (sky_polygon coords) s ->
  exists ps, findPatchList b t coords = Ok ps
    /\ (forall p, findPatch b t s = Ok p -> In p ps)
    /\ (forall i j p px py, tract_getPatchInfo b t (IxIndex2D i j) = Ok p -> pixel_of t s px py -> in_box px py (p_outer p) -> In p ps).
Proof. exact findPatchList_region_proof. Qed.
Print Assumptions findPatchList_region.

(** C82: likewise for a whole map whose tracts have equal patch counts: findTractPatchList lists every tract that has a patch for a coordinate of the region, with that patch
    (if the tract's WCS is gnomonic and all the given coordinates have a position in it). *)
Theorem findTractPatchList_region : forall offset d n coords st st' l i t s p,
  cfg_ok (sd_cfg d) -> uniform_counts offset d n -> sm_reachable offset d st ->
  base_findTractPatchList offset d coords st = (st', Ok l) -> holds offset d i st' t ->
  (dimx (t_bbox t) < 2 ^ 31)%Z -> (dimy (t_bbox t) < 2 ^ 31)%Z -> gnomonic (t_wcs t) ->
  (forall k, In k coords -> exists x y, skyToPixel (t_wcs t) k = Pix x y) ->
  region_contains (sky_polygon coords) s -> findPatch (sm_builder st') t s = Ok p ->
  exists pl, In (t, pl) l /\ In p pl.
Proof. exact findTractPatchList_region_proof. Qed.
Print Assumptions findTractPatchList_region.

(** C82, refuted for the stereographic projection (the default): whatever the centre, there is a tract of 3 x 3 default patches (pixels of about 20
    arcseconds), three coordinates in it and a coordinate of the triangle they span whose patch findPatchList does not list. *)
Theorem findPatchList_region_refuted : forall ctr : sphere, exists b t coords s p ps,
  in_use sphere_offset legacy_default b t /\ (dimx (t_bbox t) < 2 ^ 31)%Z /\ (dimy (t_bbox t) < 2 ^ 31)%Z
  /\ same_projection (stg_wcs 10000 ctr) (t_wcs t)
  /\ (forall k, In k coords -> tract_contains t k = Ok true) /\ region_contains (sky_polygon coords) s
  /\ findPatchList b t coords = Ok ps /\ findPatch b t s = Ok p /\ ~ In p ps.
Proof. exact findPatchList_region_refuted_proof. Qed.
Print Assumptions findPatchList_region_refuted.

(** C82, non-vacuity: in a tract of 3 x 3 patches with the gnomonic projection (legacy or cells builder, any scale and centre) the corners of patches (0, 0) and (2, 2)
    span a diagonal through the middle of patch (1, 1), which contains none of them, and which findPatchList lists. *)
Example findPatchList_region_met : forall c scale (ctr : sphere), c = legacy_default \/ c = CellCfg (200, 200)%Z 50 20 1 -> 0 < scale ->
  exists b t coords s p ps, in_use sphere_offset c b t /\ cfg_ok c /\ gnomonic (t_wcs t)
    /\ (dimx (t_bbox t) < 2 ^ 31)%Z /\ (dimy (t_bbox t) < 2 ^ 31)%Z
    /\ (forall k, In k coords -> exists x y, skyToPixel (t_wcs t) k = Pix x y)
    /\ region_contains (sky_polygon coords) s
    /\ findPatch b t s = Ok p /\ p_index p = (1, 1)%Z /\ findPatchList b t coords = Ok ps /\ In p ps
    /\ (forall k, In k coords -> findPatch b t k <> Ok p).
Proof. exact findPatchList_region_met_proof. Qed.
