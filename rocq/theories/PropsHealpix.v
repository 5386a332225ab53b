(** Property theorems; generated by tools/mkprops.py from MainHealpix.v. *)
From Coq Require Import Reals Lra Lia String.
From Flocq Require Import Core.Raux IEEE754.Binary IEEE754.Bits.
Require Import Verif.Py Verif.Geom Verif.PatchInfo Verif.TractBuilder Verif.TractInfo Verif.Spec.
Require Import Verif.SkyMap Verif.SkySpec Verif.SkyProofs Verif.SkyProofs2 Verif.Uniform Verif.MainSky.
Require Import Verif.Rings Verif.Sphere Verif.SphereProofs Verif.TractBox Verif.TractProofs Verif.Maps Verif.Dodeca Verif.Region Verif.RegionProofs Verif.MapsProofs Verif.MainMaps.
Require Import Verif.Config Verif.ConfigSpec Verif.ConfigProofs Verif.Wcs Verif.WcsSpec Verif.MainWcs.
Require Import Verif.MainRegions Verif.ProjSpec Verif.TractHull Verif.MainHull Verif.MainLookup Verif.Lookup.
Import ListNotations.
Require Import Verif.MainHealpix.
Open Scope list_scope.
Open Scope Z_scope.

(** C86, HEALPix: if hpgeom numbers the pixels of nside 2^k from 0 to 12*4^k - 1 and gives colatitudes from 0 to pi, then findTract
    of a constructed and used map succeeds for every coordinate.  Its tract is that of the pixel hpgeom gives for
    the coordinate's (declination + pi/2, RA); its centre and vertices are those of the pixel, mirrored in the equator (C60).  With
    the TAN projection it contains the coordinate if that lies within the margin of C71 of the polygon of those vertices.  If all tracts of the map
    have the same patch counts, findPatch succeeds as well. *)
Theorem healpix_lookup : forall named p2a bnd a2p order sha1 c ver m0 m k nest coord,
  knows named -> construct sphere_offset (factory_wcs named) p2a bnd order c ver = Ok m0 -> used sphere_offset sha1 m0 m ->
  cfg_ok (selected (c_tb c)) -> c_class c = HealpixCfg k nest ->
  (forall x, 0 <= a2p (2 ^ k) nest x < 12 * 4 ^ k) ->
  (forall j, 0 <= j < 12 * 4 ^ k -> Forall (fun a => 0 <= fst a <= PI)%R (p2a (2 ^ k) nest j :: bnd (2 ^ k) nest j)) ->
  let i := a2p (2 ^ k) nest (snd coord + PI / 2, fst coord)%R in
  exists s' t, map_findTract a2p sphere_offset order m coord (m_state m) = (s', Ok t)
    /\ accesses sphere_offset (m_def m) (m_state m) s' /\ t_id t = i /\ holds sphere_offset (m_def m) i s' t
    /\ vec_of (t_ctr t) = mirror (healpix_direction (p2a (2 ^ k) nest i))
    /\ map vec_of (t_verts t) = map (fun a => mirror (healpix_direction a)) (bnd (2 ^ k) nest i)
    /\ (forall p, c_projection c = of_string "TAN" -> (0 < f2r (c_scale c))%R -> (0 <= f2r (c_overlap c) < 180)%R ->
        (forall v, In v (t_verts t) -> separation v (t_ctr t) + deg (f2r (c_overlap c)) / 2 < PI / 2)%R -> t_verts t <> [] ->
        region_contains (getInnerSkyPolygon t) p -> (separation p coord <= inradius24 (deg (f2r (c_overlap c)) / 2))%R ->
        tract_contains t coord = Ok true
        /\ ((exists n, uniform_counts sphere_offset (m_def m) n) -> dimx (t_bbox t) < 2 ^ 31 -> dimy (t_bbox t) < 2 ^ 31 ->
            exists pa i' j' px py, findPatch (sm_builder s') t coord = Ok pa /\ tract_getPatchInfo (sm_builder s') t (IxIndex2D i' j') = Ok pa
              /\ pixel_of t coord px py /\ in_box px py (p_inner pa))).
Proof. exact healpix_lookup_proof. Qed.
Print Assumptions healpix_lookup.

(** C86, non-vacuity: the default HEALPix settings with the TAN projection, and functions that give every pixel the
    centre and corners of pixel 0 of nside 1, meet the conditions; the coordinate looked up is the centre of the tract. *)
Example healpix_lookup_met : forall order,
  let c := mkConfig (c_tb healpix_default) (c_overlap healpix_default) (c_scale healpix_default) (of_string "TAN") (c_rotation healpix_default) (c_class healpix_default) in
  let a2p := fun (_ : Z) (_ : bool) (_ : R * R) => 0 in
  let p2a := fun (_ : Z) (_ : bool) (_ : Z) => (acos (2 / 3), PI / 4)%R in
  let bnd := fun (_ : Z) (_ : bool) (_ : Z) => [(0, 0); (acos (2 / 3), PI / 2); (PI / 2, PI / 4); (acos (2 / 3), 0)]%R in
  exists m, construct sphere_offset (factory_wcs fits_projections) p2a bnd order c None = Ok m
    /\ knows fits_projections /\ cfg_ok (selected (c_tb c)) /\ c_class c = HealpixCfg 0 false
    /\ (forall x, 0 <= a2p (2 ^ 0) false x < 12 * 4 ^ 0)
    /\ (forall j, 0 <= j < 12 * 4 ^ 0 -> Forall (fun a => 0 <= fst a <= PI)%R (p2a (2 ^ 0) false j :: bnd (2 ^ 0) false j))
    /\ c_projection c = of_string "TAN" /\ (0 < f2r (c_scale c))%R /\ (0 <= f2r (c_overlap c) < 180)%R
    /\ exists s' t coord, map_findTract a2p sphere_offset order m coord (m_state m) = (s', Ok t)
         /\ (forall v, In v (t_verts t) -> separation v (t_ctr t) + deg (f2r (c_overlap c)) / 2 < PI / 2)%R /\ t_verts t <> []
         /\ region_contains (getInnerSkyPolygon t) coord /\ (separation coord coord <= inradius24 (deg (f2r (c_overlap c)) / 2))%R.
Proof. exact healpix_lookup_met_proof. Qed.
