(** Property theorems; generated by tools/mkprops.py from MainConfig2.v. *)
From Coq Require Import Reals Lra Lia.
From Flocq Require Import Core.Raux.
Require Import Verif.Py Verif.Geom Verif.PatchInfo Verif.TractBuilder Verif.TractInfo Verif.Spec.
Require Import Verif.PatchProofs Verif.TractProofs Verif.MainPatch.
Require Import Verif.SkyMap Verif.SkySpec Verif.SkyProofs Verif.SkyProofs2 Verif.MainSky.
Require Import Verif.Rings Verif.RingsSpec Verif.RingsProofs Verif.Sphere Verif.SphereProofs Verif.TractBox Verif.Uniform Verif.Maps Verif.MapsProofs.
Require Import Verif.Dodeca Verif.DodecaSpec Verif.DodecaProofs3 Verif.DodecaProofs4 Verif.MainDodeca.
Require Import Verif.Config Verif.ConfigSpec Verif.ConfigProofs Verif.MiscSpec Verif.MainMisc.
Require Import Verif.MainConfig2.
Open Scope Z_scope.

(** C73: every tract of a sky map of any class, at any point of the map's life, has the configured overlap and is
    projected with the configured projection, pixel scale and rotation about its centre (Equat: about the point
    of the equator at its middle); the number of tracts and the centres are those the class-specific values
    give: numTracts slices of decRange for Equat, one tract per (raList, decList, radiusList) entry for
    Discrete, the faces for Dodeca, the pixels of resolution 2**log2NSide for Healpix, numRings rings from
    raStart for Rings (whose version decides the numbering). *)
Theorem config_reaches_tracts : forall offset skyWcs p2a bnd order sha1 c ver m0 m i t, any_order order ->
  construct offset skyWcs p2a bnd order c ver = Ok m0 -> used offset sha1 m0 m ->
  cfg_ok (selected (c_tb c)) -> holds offset (m_def m) i (m_state m) t ->
  let mk := skyWcs (c_projection c) (f2r (c_scale c)) (f2r (c_rotation c)) in
  t_id t = i /\ t_overlap t = deg (f2r (c_overlap c))
  /\ match c_class c with
     | DiscreteCfg ras decs radii =>
         0 <= i < Z.of_nat (length radii)
         /\ exists ra dec radius, nth_error ras (Z.to_nat i) = Some ra /\ nth_error decs (Z.to_nat i) = Some dec
              /\ nth_error radii (Z.to_nat i) = Some radius
              /\ t_ctr t = spherePoint (deg (f2r ra)) (deg (f2r dec)) /\ same_projection (mk (t_ctr t)) (t_wcs t)
              /\ forall k, 0 <= k < 4 ->
                   contains_projected (mk (t_ctr t)) t (offset (t_ctr t) (IZR k * (PI / 2)) (deg (f2r radius) + deg (f2r (c_overlap c))))%R
     | EquatCfg n (d0, d1) =>
         0 <= i < n
         /\ let ra := (360 * (IZR i + 1 / 2) / IZR n)%R in
            t_ctr t = spherePoint (deg ra) (deg ((f2r d0 + f2r d1) / 2)%R)
            /\ same_projection (mk (spherePoint (deg ra) 0%R)) (t_wcs t)
     | DodecaCfg onPoles =>
         0 <= i < 12 /\ same_projection (mk (t_ctr t)) (t_wcs t)
         /\ exists D, Dodecahedron_init order onPoles = Ok D /\ dd_withFacesOnPoles D = onPoles
              /\ getFaceCtr D i = Ok (vec_of (t_ctr t))
     | HealpixCfg n nest =>
         0 <= n /\ 0 <= i < 12 * 2 ^ n * 2 ^ n
         /\ angToCoord (p2a (2 ^ n) nest i) = Ok (t_ctr t) /\ same_projection (mk (t_ctr t)) (t_wcs t)
     | RingsCfg n ra =>
         1 <= n -> same_projection (mk (t_ctr t)) (t_wcs t)
         /\ exists v g, m_version m = VerInt v /\ rings_init n (f2r ra) v = Ok g /\ 0 <= i < rings_numTracts g
              /\ forall r k cnt, getRingIndices g i = Ok (r, k) -> ring_has g r cnt ->
                   t_ctr t = spherePoint (deg (f2r ra + 360 * IZR k / IZR cnt)) (deg (-90 + 180 * (IZR r + 1) / (IZR n + 1)))%R
     end.
Proof. exact config_reaches_tracts_proof. Qed.
Print Assumptions config_reaches_tracts.

(** C73: and its patches have the size, border and cells of the selected tract builder's configuration (asked while
    the last tract made by the map has the same patch counts). *)
Theorem config_reaches_patches : forall offset skyWcs p2a bnd order sha1 c ver m0 m i t x y p,
  construct offset skyWcs p2a bnd order c ver = Ok m0 -> used offset sha1 m0 m ->
  cfg_ok (selected (c_tb c)) -> holds offset (m_def m) i (m_state m) t ->
  b_numPatches (sm_builder (m_state m)) = t_numPatches t ->
  tract_getPatchInfo (sm_builder (m_state m)) t (IxIndex2D x y) = Ok p ->
  match tb_sel (c_tb c) with
  | Legacy =>
      let k := tb_legacy (c_tb c) in
      (dimx (p_inner p), dimy (p_inner p)) = lc_inner k
      /\ (forall px py, in_box px py (p_outer p) <->
            in_box px py (t_bbox t)
            /\ exists qx qy, in_box qx qy (p_inner p) /\ Z.abs (px - qx) <= lc_border k /\ Z.abs (py - qy) <= lc_border k)
      /\ p_numCells p = (0, 0)
  | Cells =>
      let k := tb_cells (c_tb c) in
      (dimx (p_inner p), dimy (p_inner p)) = (cc_numInner k * fst (cc_inner k), cc_numInner k * snd (cc_inner k))
      /\ p_numCells p = (cc_numInner k + 2 * cc_numBorder k, cc_numInner k + 2 * cc_numBorder k)
      /\ p_cellInner p = cc_inner k /\ p_cellBorder p = cc_border k
  end.
Proof. exact config_reaches_patches_proof. Qed.
Print Assumptions config_reaches_patches.

(** C73: a concrete case: a Discrete map of one tract; the tract after its first use, and the first patch of it. *)
Example config_reaches_example : forall p2a bnd order sha1,
  let c := base_default (DiscreteCfg [f64_3_5] [f64_45] [f64_one]) in
  let skyWcs := fun (_ : pystr) (scale _ : R) => cea_wcs (/ scale) in
  exists m0 m t p, construct sphere_offset skyWcs p2a bnd order c None = Ok m0 /\ used sphere_offset sha1 m0 m
    /\ cfg_ok (selected (c_tb c)) /\ holds sphere_offset (m_def m) 0 (m_state m) t
    /\ b_numPatches (sm_builder (m_state m)) = t_numPatches t
    /\ tract_getPatchInfo (sm_builder (m_state m)) t (IxIndex2D 0 0) = Ok p.
Proof. exact config_reaches_example_proof. Qed.
