(** Property theorems; generated by tools/mkprops.py from MainLookup.v. *)
From Coq Require Import Reals Lra Lia String.
From Flocq Require Import Core.Raux IEEE754.Binary IEEE754.Bits.
Require Import Verif.Py Verif.Geom Verif.PatchInfo Verif.TractBuilder Verif.TractInfo Verif.Spec.
Require Import Verif.PatchProofs Verif.TractProofs Verif.SkyMap Verif.SkySpec Verif.SkyProofs Verif.SkyProofs2 Verif.Uniform Verif.MainSky.
Require Import Verif.Rings Verif.RingsSpec Verif.RingsProofs Verif.RingsNum Verif.Sphere Verif.SphereProofs Verif.Maps Verif.Dodeca Verif.DodecaSpec.
Require Import Verif.RegionProofs Verif.RingsProofs2 Verif.RingsProofs3 Verif.MainRings Verif.MainRings2 Verif.MainRings4 Verif.MapsProofs Verif.MainMaps.
Require Import Verif.Config Verif.ConfigSpec Verif.ConfigProofs Verif.Wcs Verif.WcsSpec Verif.MainWcs Verif.RotatedProofs Verif.MainRotated.
Require Import Verif.MainRegions Verif.ProjSpec Verif.MainDodeca Verif.MainDodeca3 Verif.MainHull Verif.MainEquat Verif.Lookup.
Require Import Verif.MainLookup.
Open Scope list_scope.
Open Scope Z_scope.

(** C86, C20, C55: all tracts of a Rings map, of an Equat map, and of a Discrete map whose tracts have one radius have the same patch counts, for the projections
    TAN, STG and CEA at any scale and rotation. *)
Theorem equal_counts : forall named p2a bnd order c ver m name,
  knows named -> construct sphere_offset (factory_wcs named) p2a bnd order c ver = Ok m -> cfg_ok (selected (c_tb c)) ->
  In name ["TAN"; "STG"; "CEA"]%string -> c_projection c = of_string name ->
  match c_class c with
  | RingsCfg _ _ | EquatCfg _ _ => True
  | DiscreteCfg _ _ radii => exists r, forall r', In r' radii -> f2r r' = r
  | DodecaCfg _ | HealpixCfg _ _ => False
  end ->
  exists n, uniform_counts sphere_offset (m_def m) n.
Proof. exact equal_counts_proof. Qed.
Print Assumptions equal_counts.

(** C86: findTract of a constructed and used sky map, of any class but HEALPix, succeeds for every covered coordinate, and its tract contains the coordinate.  If all
    tracts of the map have the same patch counts, findPatch of that tract succeeds as well: the coordinate's pixel position lies in the inner box of its patch,
    which is the one getPatchInfo gives for its index. *)
Theorem coordinate_lookup : forall named p2a bnd a2p order sha1 c ver m0 m coord,
  knows named -> any_order order -> construct sphere_offset (factory_wcs named) p2a bnd order c ver = Ok m0 -> used sphere_offset sha1 m0 m ->
  cfg_ok (selected (c_tb c)) -> (0 < f2r (c_scale c))%R -> on_sphere coord ->
  (forall n ra, c_class c = RingsCfg n ra -> m_version m0 = VerInt 1) -> covered c coord ->
  exists s' t, map_findTract a2p sphere_offset order m coord (m_state m) = (s', Ok t)
    /\ accesses sphere_offset (m_def m) (m_state m) s' /\ holds sphere_offset (m_def m) (t_id t) s' t
    /\ tract_contains t coord = Ok true
    /\ ((exists n, uniform_counts sphere_offset (m_def m) n) -> dimx (t_bbox t) < 2 ^ 31 -> dimy (t_bbox t) < 2 ^ 31 ->
        exists p i j px py, findPatch (sm_builder s') t coord = Ok p /\ tract_getPatchInfo (sm_builder s') t (IxIndex2D i j) = Ok p
          /\ pixel_of t coord px py /\ in_box px py (p_inner p)).
Proof. exact coordinate_lookup_proof. Qed.
Print Assumptions coordinate_lookup.

(** C86, non-vacuity: the default Rings settings with 120 rings and the default Dodeca settings cover every coordinate, the default Equat settings those with
    declinations from -1.25 to 1.25, and the default settings with one tract of radius 4 at RA 3.5, Dec 45 those at most 5 degrees from there; all four
    maps can be constructed, and three of them have equal patch counts. *)
Example coordinate_lookup_defaults : forall p2a bnd order, any_order order ->
  let ready c cov := exists m, construct sphere_offset (factory_wcs fits_projections) p2a bnd order c None = Ok m
    /\ cfg_ok (selected (c_tb c)) /\ (0 < f2r (c_scale c))%R /\ (forall n ra, c_class c = RingsCfg n ra -> m_version m = VerInt 1)
    /\ (forall coord, on_sphere coord -> cov coord -> covered c coord)
    /\ (c <> dodeca_default -> exists n, uniform_counts sphere_offset (m_def m) n) in
  knows fits_projections
  /\ ready (rings_default 120) (fun _ => True)
  /\ ready equat_default (fun coord => - deg (5 / 4) <= snd coord <= deg (5 / 4))%R
  /\ ready dodeca_default (fun _ => True)
  /\ ready (base_default (DiscreteCfg [f64_3_5] [f64_45] [f64_4])) (fun coord => separation coord (spherePoint (deg (7 / 2)) (deg 45)) <= deg 5)%R.
Proof. exact coordinate_lookup_defaults_proof. Qed.
