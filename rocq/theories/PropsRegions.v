(** Property theorems; generated by tools/mkprops.py from MainRegions.v. *)
From Coq Require Import Reals Lra Lia String.
From Flocq Require Import Core.Raux.
Require Import Verif.Py Verif.Geom Verif.PatchInfo Verif.TractBuilder Verif.TractInfo Verif.Spec.
Require Import Verif.PatchProofs Verif.CellProofs Verif.TractProofs.
Require Import Verif.SkyMap Verif.SkySpec Verif.SkyProofs Verif.SkyProofs2.
Require Import Verif.Register Verif.RegSpec Verif.MainRegister.
Require Import Verif.Rings Verif.Sphere Verif.Region Verif.ProjSpec Verif.MainPolygons Verif.MainMisc.
Require Import Verif.SphereProofs Verif.Maps Verif.Dodeca Verif.DodecaSpec Verif.MainMaps Verif.Config Verif.ConfigSpec Verif.ConfigProofs Verif.MainConfig2.
Require Import Verif.Wcs Verif.WcsSpec Verif.MainWcs Verif.RegProofs Verif.RegProofs2 Verif.RegProofs3.
Require Import Verif.MainRegions.
Open Scope list_scope.
Open Scope Z_scope.

(** C84: let the tracts of a registered map have gnomonic WCSs. The region of the tract record of every tract
    contains all coordinates that contains() accepts, and otherwise only coordinates exactly on its upper or
    right pixel edge; every coordinate in the region of a tract record is in the region of one of the patch
    records of that tract. (Whatever the patch counts of the tracts.) *)
Theorem registered_regions : forall offset (d : skydef sphere) name hash s r r',
  cfg_ok (sd_cfg d) -> sm_reachable offset d s -> completely_registered offset d name hash s r r' ->
  (forall i t, holds offset d i s t -> gnomonic (t_wcs t)) ->
  exists tracts patches, g_tracts r' = g_tracts r ++ tracts /\ g_patches r' = g_patches r ++ patches
    /\ (forall i t, holds offset d i s t -> exists tr, In tr tracts /\ tr_skymap tr = name /\ tr_tract tr = i
          /\ forall c, tract_contains t c = Ok true -> region_contains (sky_polygon (tr_region tr)) c)
    /\ (forall tr, In tr tracts -> exists t, holds offset d (tr_tract tr) s t
          /\ forall c, region_contains (sky_polygon (tr_region tr)) c -> tract_contains t c = Ok true
             \/ exists x y, skyToPixel (t_wcs t) c = Pix x y
                 /\ (x = IZR (dimx (t_bbox t)) - / 2 \/ y = IZR (dimy (t_bbox t)) - / 2)%R)
    /\ (forall tr c, In tr tracts -> region_contains (sky_polygon (tr_region tr)) c ->
          exists pr, In pr patches /\ pr_skymap pr = name /\ pr_tract pr = tr_tract tr
            /\ region_contains (sky_polygon (pr_region pr)) c).
Proof. exact registered_regions_proof. Qed.
Print Assumptions registered_regions.

(** C84, when all tracts have the same patch counts: the patch that findPatch returns has a record, whose region
    contains the coordinate; with the legacy builder the region of every patch record is part of the region of the
    record of its tract. *)
Theorem registered_patch_regions : forall offset (d : skydef sphere) n name hash s r r',
  cfg_ok (sd_cfg d) -> sm_reachable offset d s -> uniform_counts offset d n -> completely_registered offset d name hash s r r' ->
  (forall i t, holds offset d i s t -> gnomonic (t_wcs t)) ->
  exists tracts patches, g_tracts r' = g_tracts r ++ tracts /\ g_patches r' = g_patches r ++ patches
    /\ (forall i t c p, holds offset d i s t -> dimx (t_bbox t) < 2 ^ 31 -> dimy (t_bbox t) < 2 ^ 31 ->
          findPatch (sm_builder s) t c = Ok p ->
          exists pr, In pr patches /\ pr_skymap pr = name /\ pr_tract pr = i /\ (pr_x pr, pr_y pr) = p_index p /\ pr_patch pr = p_seq p
            /\ region_contains (sky_polygon (pr_region pr)) c)
    /\ (~ is_cells (sd_cfg d) -> forall pr, In pr patches ->
          exists tr, In tr tracts /\ tr_tract tr = pr_tract pr
            /\ forall c, region_contains (sky_polygon (pr_region pr)) c -> region_contains (sky_polygon (tr_region tr)) c).
Proof. exact registered_patch_regions_proof. Qed.
Print Assumptions registered_patch_regions.

(** C84, refuted otherwise: with the cells builder, or if another tract, generated later, has more columns of patches,
    and with a positive patch border, the region of a patch record of the tract reaches beyond the region of the
    record of that tract. *)
Theorem registered_patch_region_refuted : forall offset (d : skydef sphere) name hash s r r' i t nx ny,
  cfg_ok (sd_cfg d) -> sm_reachable offset d s -> completely_registered offset d name hash s r r' ->
  holds offset d i s t -> gnomonic (t_wcs t) -> t_numPatches t = (nx, ny) -> 0 < nx -> 0 < ny -> 0 < cfg_border (sd_cfg d) ->
  is_cells (sd_cfg d) \/ (exists u, holds offset d (last (sm_log s) 0) s u /\ nx < fst (t_numPatches u)) ->
  exists tr pr c, In tr (g_tracts r') /\ In pr (g_patches r') /\ tr_skymap tr = name /\ pr_skymap pr = name
    /\ tr_tract tr = i /\ pr_tract pr = i
    /\ region_contains (sky_polygon (pr_region pr)) c /\ ~ region_contains (sky_polygon (tr_region tr)) c.
Proof. exact registered_patch_region_refuted_proof. Qed.
Print Assumptions registered_patch_region_refuted.

(** C84, from the configuration: let a map of any class have the TAN projection. Once it has been registered under a
    new name, every coordinate in one of its tracts is in the region of the record of that tract and in that of one of
    the records of the tract's patches. *)
Theorem registered_map_regions : forall named offset p2a bnd order sha1 c ver m0 m faults sha name r s' u' i t co,
  knows named -> any_order order ->
  construct offset (factory_wcs named) p2a bnd order c ver = Ok m0 -> used offset sha1 m0 m ->
  cfg_ok (selected (c_tb c)) -> (forall n ra, c_class c = RingsCfg n ra -> 1 <= n) -> (0 < f2r (c_scale c))%R ->
  c_projection c = of_string "TAN" ->
  ~ In name (map k_name (g_skymaps r)) ->
  register offset faults (m_def m) sha name (m_state m) (butler_on r) = (s', u', Done tt) ->
  holds offset (m_def m) i s' t -> tract_contains t co = Ok true ->
  exists tr pr, In tr (g_tracts (u_durable u')) /\ tr_skymap tr = name /\ tr_tract tr = i
    /\ In pr (g_patches (u_durable u')) /\ pr_skymap pr = name /\ pr_tract pr = i
    /\ region_contains (sky_polygon (tr_region tr)) co /\ region_contains (sky_polygon (pr_region pr)) co.
Proof. exact registered_map_regions_proof. Qed.
Print Assumptions registered_map_regions.

(** C84, non-vacuity: a Discrete map of one tract (1 degree) with the TAN projection, rotated by 45 degrees, with the
    default (legacy) builder or with cells, is constructed, used, and registered in an empty repository; its tract
    contains the coordinate two degrees (radius and overlap) from the centre towards the east; it meets the hypotheses above. *)
Example registered_regions_example : forall p2a bnd order sha1 hash name tb, any_order order ->
  tb = tb_default \/ tb = mkTB Cells (tb_legacy tb_default) (tb_cells tb_default) ->
  let c := mkConfig tb f64_one f64_0_333 (of_string "TAN") f64_45 (DiscreteCfg [f64_3_5] [f64_45] [f64_one]) in
  exists m0 m s' u' t nx ny, let co := sphere_offset (t_ctr t) 0 (deg 2) in
    construct sphere_offset (factory_wcs fits_projections) p2a bnd order c None = Ok m0 /\ used sphere_offset sha1 m0 m
    /\ cfg_ok (selected (c_tb c)) /\ (0 < f2r (c_scale c))%R
    /\ register sphere_offset no_faults (m_def m) (Ok hash) name (m_state m) (butler_on (mkReg [] [] [] [] [] [])) = (s', u', Done tt)
    /\ sm_reachable sphere_offset (m_def m) s'
    /\ uniform_counts sphere_offset (m_def m) (nx, ny)
    /\ completely_registered sphere_offset (m_def m) name hash s' (mkReg [] [] [] [] [] []) (u_durable u')
    /\ (forall i t, holds sphere_offset (m_def m) i s' t -> gnomonic (t_wcs t))
    /\ holds sphere_offset (m_def m) 0 s' t /\ tract_contains t co = Ok true
    /\ t_numPatches t = (nx, ny) /\ 0 < nx /\ 0 < ny /\ 0 < cfg_border (sd_cfg (m_def m)).
Proof. exact registered_regions_example_proof. Qed.
