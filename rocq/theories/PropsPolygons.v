(** Property theorems; generated by tools/mkprops.py from MainPolygons.v. *)
From Coq Require Import Reals Lra Lia.
From Flocq Require Import Core.Raux.
Require Import Verif.Py Verif.Geom Verif.PatchInfo Verif.TractBuilder Verif.TractInfo Verif.Spec.
Require Import Verif.PatchProofs Verif.CellProofs Verif.TractProofs Verif.MainPatch Verif.MainCells Verif.MainTract.
Require Import Verif.Rings Verif.RingsSpec Verif.Sphere Verif.SphereProofs Verif.Region Verif.MapsProofs Verif.DodecaSpec Verif.HullProofs Verif.ProjSpec.
Require Import Verif.TractBox Verif.MainHull Verif.Examples.
Require Import Verif.MainPolygons.
Open Scope R_scope.

(** C80: with a gnomonic WCS (any centre, reference pixel, pixel scale, rotation, handedness) the sky polygon of a
    non-empty pixel box contains exactly the coordinates whose pixel position is in the (closed) area of the box. *)
Theorem gnomonic_polygon : forall w B c,
  gnomonic w -> (0 < dimx B)%Z -> (0 < dimy B)%Z ->
  (region_contains (sky_polygon (makeSkyPolygonFromBBox B w)) c
   <-> exists x y, skyToPixel w c = Pix x y /\ in_area x y B).
Proof. exact gnomonic_polygon_proof. Qed.
Print Assumptions gnomonic_polygon.

(** C80: getInnerSkyPolygon and getOuterSkyPolygon of a patch or a cell, with any gnomonic WCS given as argument or (without argument)
    the patch's or cell's own, contain exactly the coordinates whose position in that WCS is in the area of
    its inner or outer box, respectively. *)
Theorem gnomonic_polygon_wcs :
  (forall (p : patch (wcs sphere)) arg s, let w := match arg with Some w => w | None => p_wcs p end in gnomonic w ->
     ((0 < dimx (p_inner p))%Z -> (0 < dimy (p_inner p))%Z ->
        (region_contains (sky_polygon (patch_getInnerSkyPolygon p arg)) s <-> exists x y, skyToPixel w s = Pix x y /\ in_area x y (p_inner p)))
     /\ ((0 < dimx (p_outer p))%Z -> (0 < dimy (p_outer p))%Z ->
        (region_contains (sky_polygon (patch_getOuterSkyPolygon p arg)) s <-> exists x y, skyToPixel w s = Pix x y /\ in_area x y (p_outer p))))
  /\ (forall (c : cell (wcs sphere)) arg s, let w := match arg with Some w => w | None => c_wcs c end in gnomonic w ->
     ((0 < dimx (c_inner c))%Z -> (0 < dimy (c_inner c))%Z ->
        (region_contains (sky_polygon (cell_getInnerSkyPolygon c arg)) s <-> exists x y, skyToPixel w s = Pix x y /\ in_area x y (c_inner c)))
     /\ ((0 < dimx (c_outer c))%Z -> (0 < dimy (c_outer c))%Z ->
        (region_contains (sky_polygon (cell_getOuterSkyPolygon c arg)) s <-> exists x y, skyToPixel w s = Pix x y /\ in_area x y (c_outer c)))).
Proof. exact gnomonic_polygon_wcs_proof. Qed.
Print Assumptions gnomonic_polygon_wcs.

(** C80: the WCS of a tract of either kind is gnomonic if the one it was made from is; the WCSs meant are those of the
    TAN projection: a gnomonic projection (as in C71) that maps pixels to the sky and back. *)
Theorem gnomonic_tracts :
  (forall offset b oid id ctr verts overlap w corners b' t,
     TractInfo_init offset b oid id ctr verts overlap w corners = Ok (b', t) -> gnomonic w -> gnomonic (t_wcs t))
  /\ (forall offset b oid id ctr radius overlap w corners b' t,
     ExplicitTractInfo_init offset b oid id ctr radius overlap w corners = Ok (b', t) -> gnomonic w -> gnomonic (t_wcs t))
  /\ (forall ctr w, projects tan_factor ctr w -> (forall x y, skyToPixel w (pixelToSky w (x, y)) = Pix x y) -> gnomonic w)
  /\ (forall scale ctr, 0 < scale -> gnomonic (tan_wcs scale ctr)).
Proof. exact gnomonic_tracts_proof. Qed.
Print Assumptions gnomonic_tracts.

(** C80: let a tract in use have a gnomonic WCS. Its outer sky polygon contains all coordinates that contains()
    accepts, and otherwise only coordinates exactly on its upper or right pixel edge. It is the union of the inner
    sky polygons of the patches, which have only edges in common. *)
Theorem gnomonic_patch_polygons : forall offset c b t s,
  cfg_ok c -> in_use offset c b t -> gnomonic (t_wcs t) ->
  let outer := region_contains (sky_polygon (tract_getOuterSkyPolygon t)) s in
  let inner p := region_contains (sky_polygon (patch_getInnerSkyPolygon p None)) s in
  (tract_contains t s = Ok true -> outer)
  /\ (outer -> tract_contains t s = Ok true
        \/ exists x y, skyToPixel (t_wcs t) s = Pix x y /\ (x = IZR (dimx (t_bbox t)) - / 2 \/ y = IZR (dimy (t_bbox t)) - / 2))
  /\ (outer <-> exists i j p, tract_getPatchInfo b t (IxIndex2D i j) = Ok p /\ inner p)
  /\ (forall i j p i' j' p', tract_getPatchInfo b t (IxIndex2D i j) = Ok p -> tract_getPatchInfo b t (IxIndex2D i' j') = Ok p' ->
        inner p -> inner p' -> (i, j) <> (i', j') ->
        exists x y, skyToPixel (t_wcs t) s = Pix x y
          /\ (x = IZR (minx (p_inner p)) - / 2 \/ x = IZR (minx (p_inner p) + dimx (p_inner p)) - / 2
              \/ y = IZR (miny (p_inner p)) - / 2 \/ y = IZR (miny (p_inner p) + dimy (p_inner p)) - / 2)).
Proof. exact gnomonic_patch_polygons_proof. Qed.
Print Assumptions gnomonic_patch_polygons.

(** C80: the patch that findPatch returns has the coordinate in its inner sky polygon. *)
Theorem gnomonic_findPatch_polygon : forall offset c b t s p,
  cfg_ok c -> in_use offset c b t -> (dimx (t_bbox t) < 2 ^ 31)%Z -> (dimy (t_bbox t) < 2 ^ 31)%Z -> gnomonic (t_wcs t) ->
  findPatch b t s = Ok p -> region_contains (sky_polygon (patch_getInnerSkyPolygon p None)) s.
Proof. exact gnomonic_findPatch_polygon_proof. Qed.
Print Assumptions gnomonic_findPatch_polygon.

(** C80: the outer sky polygon of a patch contains its inner one; with the legacy builder it is part of the tract's. *)
Theorem gnomonic_outer_polygon : forall offset c b t i j p s,
  cfg_ok c -> in_use offset c b t -> gnomonic (t_wcs t) -> tract_getPatchInfo b t (IxIndex2D i j) = Ok p ->
  (region_contains (sky_polygon (patch_getInnerSkyPolygon p None)) s -> region_contains (sky_polygon (patch_getOuterSkyPolygon p None)) s)
  /\ (~ is_cells c -> region_contains (sky_polygon (patch_getOuterSkyPolygon p None)) s
      -> region_contains (sky_polygon (tract_getOuterSkyPolygon t)) s).
Proof. exact gnomonic_outer_polygon_proof. Qed.
Print Assumptions gnomonic_outer_polygon.

(** C80, cells: the inner sky polygon of a patch is the union of those of the cells not in its border; a cell's
    outer sky polygon contains its inner one; for square cells the outer sky polygon of a patch is the union of the
    outer sky polygons of its cells. *)
Theorem gnomonic_cell_polygons : forall offset cw ch cb nI nB b t i j p s,
  cfg_ok (CellCfg (cw, ch) cb nI nB) -> in_use offset (CellCfg (cw, ch) cb nI nB) b t -> gnomonic (t_wcs t) ->
  tract_getPatchInfo b t (IxIndex2D i j) = Ok p ->
  let inner k := region_contains (sky_polygon (cell_getInnerSkyPolygon k None)) s in
  let outer k := region_contains (sky_polygon (cell_getOuterSkyPolygon k None)) s in
  (region_contains (sky_polygon (patch_getInnerSkyPolygon p None)) s
     <-> exists x y k, getCellInfo p (IxIndex2D x y) = Ok k /\ (nB <= x < nB + nI)%Z /\ (nB <= y < nB + nI)%Z /\ inner k)
  /\ (forall x y k, getCellInfo p (IxIndex2D x y) = Ok k -> inner k -> outer k)
  /\ (cw = ch -> (region_contains (sky_polygon (patch_getOuterSkyPolygon p None)) s
     <-> exists x y k, getCellInfo p (IxIndex2D x y) = Ok k /\ outer k)).
Proof. exact gnomonic_cell_polygons_proof. Qed.
Print Assumptions gnomonic_cell_polygons.

(** C80: a tract made from vertices with a gnomonic WCS about its centre: its outer sky polygon contains its inner
    sky polygon, and all coordinates within atan (cos 7.5 deg * tan (overlap / 2)) of it (hypotheses as in C71). *)
Theorem gnomonic_tract_polygons : forall c b oid id ctr verts overlap w corners b' t p q,
  cfg_ok c -> builder_reachable c b -> projects tan_factor ctr w -> (forall x y, skyToPixel w (pixelToSky w (x, y)) = Pix x y) ->
  verts <> [] -> 0 <= overlap < PI -> (forall v, In v verts -> separation v ctr + overlap / 2 < PI / 2) ->
  TractInfo_init sphere_offset b oid id ctr verts overlap w corners = Ok (b', t) ->
  region_contains (getInnerSkyPolygon t) p -> separation p q <= inradius24 (overlap / 2) ->
  region_contains (sky_polygon (tract_getOuterSkyPolygon t)) q.
Proof. exact gnomonic_tract_polygons_proof. Qed.
Print Assumptions gnomonic_tract_polygons.

(** C80, refuted for the stereographic projection (the default of most maps): if a patch lies above the centre of the projection,
    less than a radian to its sides, then the coordinate at the middle of its lower edge belongs to the patch
    according to findPatch, but its inner sky polygon does not contain it. *)
Theorem stereographic_polygon_refuted : forall offset c b t scale ctr dx dy i j p,
  cfg_ok c -> in_use offset c b t -> (dimx (t_bbox t) < 2 ^ 31)%Z -> (dimy (t_bbox t) < 2 ^ 31)%Z -> 0 < scale ->
  t_wcs t = copyAtShiftedPixelOrigin (stg_wcs scale ctr) dx dy ->
  tract_getPatchInfo b t (IxIndex2D i j) = Ok p ->
  dy < IZR (miny (p_inner p)) - / 2 ->
  dx - scale <= IZR (minx (p_inner p)) - / 2 -> IZR (minx (p_inner p) + dimx (p_inner p)) - / 2 <= dx + scale ->
  let s := pixelToSky (t_wcs t) (IZR (minx (p_inner p)) - / 2 + IZR (dimx (p_inner p)) / 2, IZR (miny (p_inner p)) - / 2) in
  findPatch b t s = Ok p /\ ~ region_contains (sky_polygon (patch_getInnerSkyPolygon p None)) s.
Proof. exact stereographic_polygon_refuted_proof. Qed.
Print Assumptions stereographic_polygon_refuted.

(** C80, non-vacuity: tracts of 3 x 3 patches with the gnomonic (for the legacy and the cells builder) and the stereographic
    projection; in the latter patch (0, 1) meets the hypotheses of the refutation. *)
Example polygon_hypotheses_met :
  (forall c scale (ctr : sphere), c = legacy_default \/ c = CellCfg (200, 200)%Z 50 20 1 -> 0 < scale ->
     exists b t, in_use sphere_offset c b t /\ cfg_ok c /\ gnomonic (t_wcs t) /\ t_numPatches t = (3, 3)%Z
       /\ t_wcs t = copyAtShiftedPixelOrigin (tan_wcs scale ctr) 1000 1000
       /\ (dimx (t_bbox t) < 2 ^ 31)%Z /\ (dimy (t_bbox t) < 2 ^ 31)%Z
       /\ region_contains (sky_polygon (tract_getOuterSkyPolygon t)) (pixelToSky (t_wcs t) (6000, 6000))
       /\ exists p, findPatch b t (pixelToSky (t_wcs t) (6000, 6000)) = Ok p)
  /\ forall ctr : sphere, exists b t p, in_use sphere_offset legacy_default b t /\ (dimx (t_bbox t) < 2 ^ 31)%Z /\ (dimy (t_bbox t) < 2 ^ 31)%Z
       /\ t_wcs t = copyAtShiftedPixelOrigin (stg_wcs 20000 ctr) 1000 1000
       /\ tract_getPatchInfo b t (IxIndex2D 0 1) = Ok p
       /\ 1000 < IZR (miny (p_inner p)) - / 2 /\ 1000 - 20000 <= IZR (minx (p_inner p)) - / 2
       /\ IZR (minx (p_inner p) + dimx (p_inner p)) - / 2 <= 1000 + 20000.
Proof. exact polygon_hypotheses_met_proof. Qed.
