(** Property theorems; generated by tools/mkprops.py from MainBounds.v. *)
From Coq Require Import Reals Lra Lia String.
From Flocq Require Import Core.Raux IEEE754.Binary IEEE754.Bits.
Require Import Verif.Py Verif.Geom Verif.PatchInfo Verif.TractBuilder Verif.TractInfo Verif.Spec.
Require Import Verif.PatchProofs Verif.TractProofs Verif.CellProofs Verif.SkyMap Verif.SkySpec Verif.SkyProofs Verif.SkyProofs2 Verif.Uniform.
Require Import Verif.Rings Verif.RingsSpec Verif.RingsProofs Verif.RingsNum Verif.Sphere Verif.SphereProofs Verif.Maps Verif.Dodeca Verif.DodecaSpec.
Require Import Verif.RegionProofs Verif.RingsProofs2 Verif.RingsProofs3 Verif.MainRings Verif.MainRings2 Verif.MainRings4 Verif.MainMaps.
Require Import Verif.Config Verif.ConfigSpec Verif.ConfigProofs Verif.Wcs Verif.WcsSpec Verif.MainWcs Verif.TractBox Verif.RotatedProofs Verif.MainRotated.
Require Import Verif.BoundsSpec Verif.BoundsProofs.
From Coq Require Import ZifyBool.
Require Import Verif.MainBounds.
Open Scope list_scope.
Open Scope Z_scope.

(** C100: with either builder, the inner box of every patch handed out is non-empty and within the tract, and its outer box is non-empty and goes
    beyond the tract by at most the patch border (legacy: not at all). *)
Theorem patch_boxes_near : forall (Sky : Type) (offset : Sky -> R -> R -> Sky) c b t ix p,
  cfg_ok c -> in_use offset c b t -> tract_getPatchInfo b t ix = Ok p ->
  near_box 0 0 (t_bbox t) (p_inner p)
  /\ (is_cells c -> near_box (cfg_border c) (cfg_border c) (t_bbox t) (p_outer p))
  /\ (~ is_cells c -> near_box 0 0 (t_bbox t) (p_outer p)).
Proof. exact patch_boxes_near_proof. Qed.
Print Assumptions patch_boxes_near.

(** C100: the inner and outer boxes of the cells are non-empty and go beyond the tract by at most the border cells plus the cell border, for cells of
    any width and height. *)
Theorem cell_boxes_near : forall (Sky : Type) (offset : Sky -> R -> R -> Sky) cw ch cb nI nB b t X Y p x y e,
  cfg_ok (CellCfg (cw, ch) cb nI nB) -> in_use offset (CellCfg (cw, ch) cb nI nB) b t ->
  tract_getPatchInfo b t (IxIndex2D X Y) = Ok p -> getCellInfo p (IxIndex2D x y) = Ok e ->
  near_box (nB * cw) (nB * ch) (t_bbox t) (c_inner e)
  /\ near_box (nB * cw + cb) (nB * ch + cb) (t_bbox t) (c_outer e).
Proof. exact cell_boxes_near_proof. Qed.
Print Assumptions cell_boxes_near.

(** C100: a tract given by vertices is less than a patch and 3 pixels wider and higher than the smallest square about the reference pixel that holds the positions of its vertices,
    moved by half the overlap in all directions; if that is representable so are the boxes made on the way: the one around
    these positions and the one grown from it to whole patches. *)
Theorem vertex_tract_size : forall (Sky : Type) (offset : Sky -> R -> R -> Sky) c b oid id ctr verts overlap w corners b' t M,
  cfg_ok c -> builder_reachable c b -> TractInfo_init offset b oid id ctr verts overlap w corners = Ok (b', t) ->
  (0 <= M < IZR (2 ^ 51))%R ->
  (forall v s x y, In v verts -> s = v \/ (exists beta, s = offset v beta (overlap / 2)%R) -> skyToPixel w s = Pix x y -> - M <= x <= M /\ - M <= y <= M)%R ->
  minx (t_bbox t) = 0 /\ miny (t_bbox t) = 0
  /\ (0 <= IZR (dimx (t_bbox t)) < 2 * M + IZR (fst (cfg_inner c)) + 3)%R
  /\ (0 <= IZR (dimy (t_bbox t)) < 2 * M + IZR (snd (cfg_inner c)) + 3)%R
  /\ ((2 * M + IZR (fst (cfg_inner c)) + 3 <= IZR (2 ^ 31))%R -> (2 * M + IZR (snd (cfg_inner c)) + 3 <= IZR (2 ^ 31))%R ->
      fits32 (t_bbox t)
      /\ exists m bbox n, include_all w (min_bbox_samples offset verts overlap) = Ok m
           /\ setupPatches b (box_of_box2d m) = Ok (b', (bbox, n)) /\ fits32 (box_of_box2d m) /\ fits32 bbox).
Proof. exact vertex_tract_size_proof. Qed.
Print Assumptions vertex_tract_size.

(** C100: so when the tract's width and height plus twice the extent of the border cells (larger side) and cell border (legacy: plus twice the patch border) are below 2^31, all coordinates of the
    tract, of its patches and of their cells, are values of 32 bit integers. *)
Theorem boxes_fit : forall (Sky : Type) (offset : Sky -> R -> R -> Sky) c b t,
  cfg_ok c -> in_use offset c b t ->
  let gy := match c with CellCfg (cw, ch) cb nI nB => Z.max cw ch * nB + cb | LegacyCfg _ border => border end in
  dimx (t_bbox t) + 2 * gy < 2 ^ 31 -> dimy (t_bbox t) + 2 * gy < 2 ^ 31 ->
  fits32 (t_bbox t)
  /\ forall ix p, tract_getPatchInfo b t ix = Ok p -> fits32 (p_inner p) /\ fits32 (p_outer p)
       /\ forall x y e, getCellInfo p (IxIndex2D x y) = Ok e -> fits32 (c_inner e) /\ fits32 (c_outer e).
Proof. exact boxes_fit_proof. Qed.
Print Assumptions boxes_fit.

(** C100: a tract given by a radius and an overlap, with a TAN or STG WCS of any pixel scale, rotation and handedness about its centre: let r be the distance in the plane, in pixels, that corresponds to
    radius plus overlap and h the larger of |cos rotation| and |sin rotation|.  The tract is at least 2 h r wide and high, and less than a patch and 3 pixels more. *)
Theorem explicit_size : forall name dist limit scale rotation flipX ctr w c b oid id radius overlap corners b' t r,
  In (name, dist, limit) zenithal_kinds -> (0 < scale)%R -> zenithal_at dist limit scale rotation flipX ctr 0 0 w ->
  cfg_ok c -> builder_reachable c b -> (0 <= r < IZR (2 ^ 51))%R -> dist (r * scale)%R = (radius + overlap)%R ->
  ExplicitTractInfo_init sphere_offset b oid id ctr radius overlap w corners = Ok (b', t) ->
  let M := (axis_part rotation * r)%R in
  (2 * M <= IZR (dimx (t_bbox t)) < 2 * M + IZR (fst (cfg_inner c)) + 3)%R
  /\ (2 * M <= IZR (dimy (t_bbox t)) < 2 * M + IZR (snd (cfg_inner c)) + 3)%R.
Proof. exact explicit_size_proof. Qed.
Print Assumptions explicit_size.

(** C100: hence for Rings and Discrete sky maps with the TAN or STG projection, made from a configuration with any pixel scale and rotation, at any point of their life: every tract is from
    2 h r up to 2 h r plus a patch and 3 pixels wide and high, where r is the distance in the plane, in pixels, of its radius (half the ring height, or the listed radius) plus the overlap. *)
Theorem map_tract_size : forall named p2a bnd order sha1 c ver m0 m i t radius name dist limit r, knows named ->
  construct sphere_offset (factory_wcs named) p2a bnd order c ver = Ok m0 -> used sphere_offset sha1 m0 m ->
  cfg_ok (selected (c_tb c)) -> (forall n ra, c_class c = RingsCfg n ra -> 1 <= n) -> (0 < f2r (c_scale c))%R ->
  c_projection c = of_string name -> In (name, dist, limit) zenithal_kinds ->
  holds sphere_offset (m_def m) i (m_state m) t -> tract_radius (c_class c) i radius ->
  (0 <= r < IZR (2 ^ 51))%R -> dist (r * (f2r (c_scale c) * (PI / 648000)))%R = (radius + f2r (c_overlap c) * (PI / 180))%R ->
  let M := (axis_part (f2r (c_rotation c) * (PI / 180)) * r)%R in
  (2 * M <= IZR (dimx (t_bbox t)) < 2 * M + IZR (fst (cfg_inner (selected (c_tb c)))) + 3)%R
  /\ (2 * M <= IZR (dimy (t_bbox t)) < 2 * M + IZR (snd (cfg_inner (selected (c_tb c)))) + 3)%R.
Proof. exact map_tract_size_proof. Qed.
Print Assumptions map_tract_size.

(** C100: the tracts of an Equat map with the CEA projection (its default) fit whenever the pixel scale is such that the sphere does: their width and height are below
    (2 pi + 2) / scale plus a patch and 3 pixels, whatever the rotation, the number of tracts, the declinations and the overlap. *)
Theorem equat_tract_size : forall named c scale rotation ov n decs d s i t, knows named -> (0 < scale)%R ->
  cfg_ok c -> 0 < n -> equat_def c (factory_wcs named (of_string "CEA") scale rotation) ov n decs = Ok d ->
  sm_reachable sphere_offset d s -> holds sphere_offset d i s t ->
  let M := ((PI + 1) / (scale * (PI / 648000)))%R in (M < IZR (2 ^ 51))%R ->
  (0 <= IZR (dimx (t_bbox t)) < 2 * M + IZR (fst (cfg_inner c)) + 3)%R
  /\ (0 <= IZR (dimy (t_bbox t)) < 2 * M + IZR (snd (cfg_inner c)) + 3)%R.
Proof. exact equat_tract_size_proof. Qed.
Print Assumptions equat_tract_size.

(** C100, refuted: that every pixel scale accepted by the configuration works.  With the default settings but a pixel scale of 2^-20 arcseconds, a Discrete map with one tract of radius 4 degrees needs
    a tract box of more than 2^31 pixels, which Box2I cannot represent (the model, with unbounded integers, makes it; the program cannot). *)
Theorem tiny_pixels_refuted : forall p2a bnd order sha1,
  let c := mkConfig tb_default f64_one f64_micro (of_string "STG") f64_zero (DiscreteCfg [f64_3_5] [f64_45] [f64_4]) in
  exists m0 m t, construct sphere_offset (factory_wcs fits_projections) p2a bnd order c None = Ok m0 /\ used sphere_offset sha1 m0 m
    /\ cfg_ok (selected (c_tb c)) /\ (0 < f2r (c_scale c))%R /\ holds sphere_offset (m_def m) 0 (m_state m) t /\ ~ fits32 (t_bbox t).
Proof. exact tiny_pixels_refuted_proof. Qed.
Print Assumptions tiny_pixels_refuted.

(** C100, non-vacuity: with the default pixel scale the same map meets the assumptions of the above, and the boxes of its tract, patches and cells fit. *)
Example tract_size_example : forall p2a bnd order sha1,
  let c := mkConfig tb_default f64_one f64_0_333 (of_string "STG") f64_zero (DiscreteCfg [f64_3_5] [f64_45] [f64_4]) in
  exists m0 m t r, construct sphere_offset (factory_wcs fits_projections) p2a bnd order c None = Ok m0 /\ used sphere_offset sha1 m0 m
    /\ cfg_ok (selected (c_tb c)) /\ (0 < f2r (c_scale c))%R /\ holds sphere_offset (m_def m) 0 (m_state m) t
    /\ in_use sphere_offset (selected (c_tb c)) (sm_builder (m_state m)) t
    /\ tract_radius (c_class c) 0 (deg 4) /\ (0 <= r < IZR (2 ^ 51))%R
    /\ (2 * atan (r * (f2r (c_scale c) * (PI / 648000)) / 2) = deg 4 + f2r (c_overlap c) * (PI / 180))%R
    /\ (exists p, tract_getPatchInfo (sm_builder (m_state m)) t (IxIndex2D 0 0) = Ok p)
    /\ fits32 (t_bbox t)
    /\ forall ix p, tract_getPatchInfo (sm_builder (m_state m)) t ix = Ok p -> fits32 (p_inner p) /\ fits32 (p_outer p).
Proof. exact tract_size_example_proof. Qed.
