(** Property theorems; generated by tools/mkprops.py from MainDataId.v. *)
From Coq Require Import Reals Lra Lia String.
From Flocq Require Import Core.Raux.
Require Import Verif.Py Verif.Geom Verif.PatchInfo Verif.TractBuilder Verif.TractInfo Verif.Spec.
Require Import Verif.PatchProofs Verif.TractProofs Verif.SkyMap Verif.SkySpec Verif.SkyProofs Verif.SkyProofs2.
Require Import Verif.Packers Verif.MainPackers.
Require Import Verif.Register Verif.RegSpec Verif.RegProofs Verif.RegProofs2 Verif.RegProofs3 Verif.MainRegister Verif.Concurrent Verif.ConcProofs Verif.MainConcurrent.
Require Import Verif.MainSky Verif.Uniform Verif.Rings Verif.RingsSpec Verif.RingsProofs Verif.RingsProofs2 Verif.MainRings Verif.MainRings2 Verif.Sphere Verif.Region Verif.ProjSpec Verif.MainPolygons Verif.MainMisc.
Require Import Verif.SphereProofs Verif.Maps Verif.Dodeca Verif.DodecaSpec Verif.MainMaps Verif.Config Verif.ConfigSpec Verif.ConfigProofs.
Require Import Verif.Wcs Verif.WcsSpec Verif.MainWcs Verif.MainRotated Verif.MainRegions Verif.Lookup Verif.MainLookup Verif.MainHealpix.
Require Import Verif.MainDataId.
Open Scope list_scope.
Open Scope Z_scope.

(** C89: whatever other processes do afterwards (registrations at the same time, failures, crashes), every record and
    dataset of the repository stays there, and the records that are added come after them. *)
Theorem records_kept :
  forall (Sky : Type) (offset : Sky -> R -> R -> Sky) r0 D cs,
  reg_history offset r0 -> sys_steps offset (r0, []) (D, cs) ->
  exists ks ts ps ds, g_skymaps D = g_skymaps r0 ++ ks /\ g_tracts D = g_tracts r0 ++ ts
    /\ g_patches D = g_patches r0 ++ ps /\ g_datasets D = g_datasets r0 ++ ds.
Proof. exact records_kept_proof. Qed.
Print Assumptions records_kept.

(** C89: let a map with equal patch counts be registered.  Then for any other object of the same map, in any state,
    each of its tracts has a record with its id and its outer sky polygon, and each patch of that tract has a record
    with the number that this object gives to the patch, its index and its outer sky polygon. *)
Theorem other_object_registered :
  forall (Sky : Type) (offset : Sky -> R -> R -> Sky) d n name hash s r r' s2 i t,
  cfg_ok (sd_cfg d) -> sm_reachable offset d s -> uniform_counts offset d n -> completely_registered offset d name hash s r r' ->
  sm_reachable offset d s2 -> holds offset d i s2 t ->
  In (mkTractRec name i (tract_getOuterSkyPolygon t)) (g_tracts r')
  /\ forall ix p, tract_getPatchInfo (sm_builder s2) t ix = Ok p ->
       exists m, getSequentialPatchIndex (sm_builder s2) p = Ok m
         /\ In (mkPatchRec name i m (fst (p_index p)) (snd (p_index p)) (patch_getOuterSkyPolygon p (Some (t_wcs t)))) (g_patches r').
Proof. exact other_object_registered_proof. Qed.
Print Assumptions other_object_registered.

(** C89: take a configuration of the Rings (version 1), Discrete, Equat or Dodeca class whose tracts cover a coordinate
    (C86) and have equal patch counts.  One object of the map is registered under a new name; afterwards any processes
    register any maps in the same repository, in any interleaving and with any failures.  Then another object of the
    map, in any state, finds a tract for the coordinate, and the repository has the skymap record, the record of that
    tract with its id and outer sky polygon, and, tract sizes being less than 2^31 pixels, findPatch succeeds and there
    is exactly one patch record with its number, which has its index and its outer sky polygon; with the TAN projection
    both regions contain the coordinate.  Every packer made from the skymap record packs the data id (with a known
    band, if bands are packed) to an id in its range and unpacks that to the same data id. *)
Theorem found_data_id_registered :
  forall named p2a bnd a2p order sha1 c ver m0 m1 m2 n faults sha name r s1 u1 D cs coord,
  knows named -> any_order order -> construct sphere_offset (factory_wcs named) p2a bnd order c ver = Ok m0 ->
  used sphere_offset sha1 m0 m1 -> used sphere_offset sha1 m0 m2 ->
  cfg_ok (selected (c_tb c)) -> (0 < f2r (c_scale c))%R -> on_sphere coord ->
  (forall n ra, c_class c = RingsCfg n ra -> m_version m0 = VerInt 1) -> covered c coord ->
  uniform_counts sphere_offset (m_def m0) n ->
  reg_history sphere_offset r -> ~ In name (map k_name (g_skymaps r)) ->
  register sphere_offset faults (m_def m1) sha name (m_state m1) (butler_on r) = (s1, u1, Done tt) ->
  sys_steps sphere_offset (u_durable u1, []) (D, cs) ->
  exists s2 t k tr,
    map_findTract a2p sphere_offset order m2 coord (m_state m2) = (s2, Ok t) /\ tract_contains t coord = Ok true
    /\ In k (g_skymaps D) /\ k_name k = name /\ 0 <= t_id t < k_tract_max k
    /\ In tr (g_tracts D) /\ tr_skymap tr = name /\ tr_tract tr = t_id t /\ tr_region tr = tract_getOuterSkyPolygon t
    /\ (c_projection c = of_string "TAN" -> region_contains (sky_polygon (tr_region tr)) coord)
    /\ (dimx (t_bbox t) < 2 ^ 31 -> dimy (t_bbox t) < 2 ^ 31 ->
        exists p pr, findPatch (sm_builder s2) t coord = Ok p
          /\ In pr (g_patches D) /\ pr_skymap pr = name /\ pr_tract pr = t_id t
          /\ getSequentialPatchIndex (sm_builder s2) p = Ok (pr_patch pr)
          /\ (forall pr', In pr' (g_patches D) -> pr_skymap pr' = name -> pr_tract pr' = t_id t -> pr_patch pr' = pr_patch pr -> pr' = pr)
          /\ (pr_x pr, pr_y pr) = p_index p /\ pr_region pr = patch_getOuterSkyPolygon p (Some (t_wcs t))
          /\ (c_projection c = of_string "TAN" -> region_contains (sky_polygon (pr_region pr)) coord)
          /\ (forall dims bands n_bands pk band,
                packer_init (mkFixed name (Some (mkSkymapRec (k_tract_max k) (k_nx_max k) (k_ny_max k)))) dims bands n_bands None None = Ok pk ->
                (forall m, bands = Some m -> dict_ok m /\ numbered_in_order m) ->
                (p_n_bands pk = 0 -> band = None /\ name_in "band" (p_dims pk) = false) ->
                (p_n_bands pk <> 0 -> exists b v, band = Some b /\ dict_get (p_bands pk) (Some b) = Some v /\ 0 <= v < p_n_bands pk) ->
                let id := mkDataId name (t_id t) (pr_patch pr) band in
                exists v, packer_pack pk id = Ok v /\ 0 <= v < 2 ^ packer_maxBits pk /\ packer_unpack pk v = Ok id)).
Proof. exact found_data_id_registered_proof. Qed.
Print Assumptions found_data_id_registered.

(** C89: every tract of a constructed map can be generated (for HEALPix, if hpgeom gives colatitudes from 0 to pi), in any state of the map; so with equal
    patch counts, a new name and a new hash, registering any object of it succeeds unless something fails. *)
Theorem constructed_generable :
  forall named p2a bnd order sha1 c ver m0, 
  construct sphere_offset (factory_wcs named) p2a bnd order c ver = Ok m0 -> cfg_ok (selected (c_tb c)) ->
  match c_class c with
  | RingsCfg n _ => 1 <= n
  | DiscreteCfg ras decs radii => 1 <= Z.of_nat (length radii) /\ length ras = length radii /\ length decs = length radii
      /\ forall d, In d decs -> (-90 <= f2r d <= 90)%R
  | EquatCfg n _ => 1 <= n
  | DodecaCfg _ => True
  | HealpixCfg k nest =>
      forall j, 0 <= j < 12 * 4 ^ k -> Forall (fun a => 0 <= fst a <= PI)%R (p2a (2 ^ k) nest j :: bnd (2 ^ k) nest j)
  end ->
  0 < sd_num (m_def m0) /\ generable sphere_offset (m_def m0)
  /\ (forall n name hash m r, uniform_counts sphere_offset (m_def m0) n -> used sphere_offset sha1 m0 m ->
        reg_history sphere_offset r -> ~ In name (map k_name (g_skymaps r)) -> ~ In hash (map k_hash (g_skymaps r)) ->
        exists s u, register sphere_offset no_faults (m_def m) (Ok hash) name (m_state m) (butler_on r) = (s, u, Done tt)).
Proof. exact constructed_generable_proof. Qed.
Print Assumptions constructed_generable.

(** C89, non-vacuity: the default Rings settings with 120 rings (every coordinate), the default Equat settings
    (declinations from -1.25 to 1.25) and the default settings with one tract of radius 4 at RA 3.5, Dec 45
    (coordinates at most 5 degrees from there) meet the hypotheses: the maps are constructed, have equal patch counts, and any object of
    them is registered in any repository in which its name and hash are new. *)
Example found_data_id_defaults : forall p2a bnd order sha1, any_order order ->
  let ready c cov := exists m n, construct sphere_offset (factory_wcs fits_projections) p2a bnd order c None = Ok m
    /\ cfg_ok (selected (c_tb c)) /\ (0 < f2r (c_scale c))%R /\ (forall n ra, c_class c = RingsCfg n ra -> m_version m = VerInt 1)
    /\ (forall coord, on_sphere coord -> cov coord -> covered c coord)
    /\ uniform_counts sphere_offset (m_def m) n
    /\ (forall name hash m1 r, used sphere_offset sha1 m m1 -> reg_history sphere_offset r ->
          ~ In name (map k_name (g_skymaps r)) -> ~ In hash (map k_hash (g_skymaps r)) ->
          exists s u, register sphere_offset no_faults (m_def m1) (Ok hash) name (m_state m1) (butler_on r) = (s, u, Done tt)) in
  knows fits_projections
  /\ ready (rings_default 120) (fun _ => True)
  /\ ready equat_default (fun coord => - deg (5 / 4) <= snd coord <= deg (5 / 4))%R
  /\ ready (base_default (DiscreteCfg [f64_3_5] [f64_45] [f64_4])) (fun coord => separation coord (spherePoint (deg (7 / 2)) (deg 45)) <= deg 5)%R.
Proof. exact found_data_id_defaults_proof. Qed.
