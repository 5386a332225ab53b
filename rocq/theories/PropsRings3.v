(** Property theorems; generated by tools/mkprops.py from MainRings3.v. *)
From Coq Require Import Reals Lra Lia.
From Flocq Require Import Raux.
Require Import Verif.Py Verif.Geom Verif.PatchInfo Verif.TractBuilder Verif.TractInfo Verif.Spec.
Require Import Verif.PatchProofs Verif.TractProofs Verif.Examples.
Require Import Verif.SkyMap Verif.SkySpec Verif.SkyProofs Verif.SkyProofs2 Verif.MainSky.
Require Import Verif.Rings Verif.RingsSpec Verif.RingsProofs Verif.RingsProofs2 Verif.RingsProofs3 Verif.RingsNear.
Require Import Verif.MainRings Verif.Sphere Verif.SphereProofs Verif.TractBox Verif.Uniform Verif.RingsNum Verif.MainRings2.
Require Import Verif.Region Verif.RegionProofs.
Require Import Verif.MainRings3.
Open Scope Z_scope.

(** C32: exactly, for version 0: findAllTracts never returns a tract other than the north cap twice; it returns
    the north cap twice exactly if the cap contains the coordinate, there are two rings or more, and the
    coordinate is north of the last but one ring's southern edge and within one and a half tract widths (of the last
    ring) in RA of raStart; otherwise at most once. *)
Theorem rings_v0_duplicates_exact : forall offset c mk ov g n coord s s' l,
  rings_wf g -> at_least 3 g -> rg_version g = 0 -> ring_has g (rg_numRings g - 1) n ->
  let d := rings_def c mk ov g in
  sm_reachable offset d s -> rings_findAllTracts offset d g coord s = (s', Ok l) ->
  let north := rings_numTracts g - 1 in
  let beside := 2 <= rg_numRings g
       /\ (- firstRingStart g - 2 * rg_size g <= snd coord)%R
       /\ (let east := wrap (fst coord - rg_raStart g) in let width := 2 * PI / IZR n in
           east < 3 / 2 * width \/ 2 * PI - 3 / 2 * width <= east)%R in
  exists cap, holds offset d north s' cap
    /\ (tract_contains cap coord = Ok true -> beside -> filter (fun t => t_id t =? north) l = [cap; cap])
    /\ (tract_contains cap coord = Ok true -> ~ beside -> filter (fun t => t_id t =? north) l = [cap])
    /\ (tract_contains cap coord <> Ok true -> filter (fun t => t_id t =? north) l = [])
    /\ NoDup (filter (fun i => negb (i =? north)) (map t_id l))
    /\ (NoDup (map t_id l) <-> ~ (tract_contains cap coord = Ok true /\ beside)).
Proof. exact rings_v0_duplicates_exact_proof. Qed.
Print Assumptions rings_v0_duplicates_exact.

(** C24: the number n of tracts of a ring is the least number (at least 1) for which the width in RA
    of a tract, measured along the edge of the ring nearer the equator, is less than the height of the ring. *)
Theorem rings_ring_count : forall numRings raStart version g r n,
  1 <= numRings -> rings_init numRings raStart version = Ok g -> ring_has g r n ->
  let height := (PI / (IZR numRings + 1))%R in
  let south := (- (PI / 2) + (IZR r + 1 / 2) * height)%R in
  let north := (south + height)%R in
  exists edge, (edge = south \/ edge = north)
    /\ (Rabs edge <= Rabs south)%R /\ (Rabs edge <= Rabs north)%R
    /\ (2 * PI * cos edge / IZR n < height)%R
    /\ forall m, 1 <= m < n -> (height <= 2 * PI * cos edge / IZR m)%R.
Proof. exact rings_ring_count_proof. Qed.
Print Assumptions rings_ring_count.

(** C28: findTract of the centre of a tract of the map is this very tract: for every tract with
    version 1; with version 0 for every tract but the duplicate of index ringNums[0]+1 (if there are
    two rings or more), whose centre is found in tract 1. *)
Theorem rings_tract_centre_found : forall offset c mk ov g s i t n0, rings_wf g -> ring_has g 0 n0 ->
  let d := rings_def c mk ov g in
  sm_reachable offset d s -> holds offset d i s t ->
  t_id t = i
  /\ (rg_version g = 1 \/ rg_numRings g = 1 \/ i <> n0 + 1 ->
      rings_findTract offset d g (t_ctr t) s = (s, Ok t))
  /\ (rg_version g = 0 -> 2 <= rg_numRings g -> i = n0 + 1 ->
      rings_findTract offset d g (t_ctr t) s = sm_getitem offset d 1 s).
Proof. exact rings_tract_centre_found_proof. Qed.
Print Assumptions rings_tract_centre_found.

(** C31, C64: which tracts findAllTracts considers.  It finds every tract of a ring that contains the
    coordinate, and whose centre is less than 1.5 ring heights away in declination and less than 1.5
    tract widths (of the tract's ring) away in RA; with version 0, except the duplicate tract of index
    ringNums[0]+1.  It finds no tract of a ring further away than that, whether or not it contains the
    coordinate. *)
Theorem rings_findAllTracts_near : forall offset c mk ov g coord s s' l,
  rings_wf g -> at_least 3 g -> on_sphere coord ->
  let d := rings_def c mk ov g in
  sm_reachable offset d s -> rings_findAllTracts offset d g coord s = (s', Ok l) ->
  (forall s2 i t r k n, accesses offset d s' s2 -> holds offset d i s2 t ->
     getRingIndices g i = Ok (r, k) -> ring_has g r n ->
     rg_version g = 1 \/ rg_numRings g = 1 \/ (forall n0, ring_has g 0 n0 -> i <> n0 + 1) ->
     near (3 / 2 * rg_size g) (3 / 2 * (2 * PI / IZR n)) (t_ctr t) coord ->
     tract_contains t coord = Ok true -> In t l)
  /\ (forall t r k n, In t l -> 0 < t_id t < rings_numTracts g - 1 ->
     getRingIndices g (t_id t) = Ok (r, k) -> ring_has g r n ->
     near_or_at (3 / 2 * rg_size g) (3 / 2 * (2 * PI / IZR n)) (t_ctr t) coord).
Proof. exact rings_findAllTracts_near_proof. Qed.
Print Assumptions rings_findAllTracts_near.

(** C63: the inner sky region of a rings tract.  A coordinate lies in the inner region of the tract
    that findTract returns for it: always with version 1; with version 0 if that tract is not a polar cap. *)
Theorem rings_inner_region_found : forall offset c mk ov g coord s s' t,
  rings_wf g -> at_least 2 g -> on_sphere coord ->
  let d := rings_def c mk ov g in
  sm_reachable offset d s -> rings_findTract offset d g coord s = (s', Ok t) ->
  rg_version g = 1 \/ 0 < t_id t < rings_numTracts g - 1 ->
  region_contains (getInnerSkyRegion t) coord.
Proof. exact rings_inner_region_found_proof. Qed.
Print Assumptions rings_inner_region_found.

(** C63: conversely (version 1) a coordinate in the inner region of a tract and not on the region's
    border is assigned this tract by findTract; hence inner regions overlap only along borders. *)
Theorem rings_inner_region_unique : forall offset c mk ov g coord s i t lon1 lat1 lon2 lat2,
  rings_wf g -> at_least 2 g -> rg_version g = 1 -> on_sphere coord ->
  let d := rings_def c mk ov g in
  sm_reachable offset d s -> holds offset d i s t ->
  getInnerSkyRegion t = RegBox (lon1, lat1) (lon2, lat2) ->
  region_contains (getInnerSkyRegion t) coord ->
  (lat1 < snd coord < lat2)%R ->
  (lon1 = 0 /\ lon2 = 2 * PI \/ fst coord <> lon1 /\ fst coord <> lon2)%R ->
  rings_findTract offset d g coord s = (s, Ok t).
Proof. exact rings_inner_region_unique_proof. Qed.
Print Assumptions rings_inner_region_unique.

(** C63, version 0: a coordinate of the last ring (of two or more) in the first tract's range is
    assigned the north cap, whose inner region does not contain it. *)
Theorem rings_v0_inner_region_refuted : forall offset c mk ov g n coord s s' t,
  rings_wf g -> rg_version g = 0 -> 2 <= rg_numRings g -> ring_has g (rg_numRings g - 1) n ->
  on_sphere coord ->
  (- firstRingStart g - rg_size g <= snd coord < - firstRingStart g)%R ->
  (wrap (fst coord - rg_raStart g) < 1 / 2 * (2 * PI / IZR n))%R ->
  let d := rings_def c mk ov g in
  sm_reachable offset d s -> rings_findTract offset d g coord s = (s', Ok t) ->
  t_id t = rings_numTracts g - 1 /\ ~ region_contains (getInnerSkyRegion t) coord.
Proof. exact rings_v0_inner_region_refuted_proof. Qed.
Print Assumptions rings_v0_inner_region_refuted.

(** C64 REFUTED: findAllTracts does not return all tracts that contain the coordinate: with three rings
    or more and an overlap of 1.5 ring heights or more (and a radius below 90 degrees for TAN, 180 for
    STG), the centre of the first tract of ring r lies in the first tract of ring r+2, which
    findAllTracts does not return. *)
Theorem rings_findAllTracts_misses_refuted : forall c S mk ov g r n n2 s s' l t t2,
  cfg_ok c -> (0 < S)%R -> rings_wf g -> at_least 3 g -> rg_version g = 1 ->
  (3 / 2 * rg_size g <= deg ov)%R ->
  mk = tan_wcs S /\ (rg_size g / 2 + deg ov < PI / 2)%R \/ mk = stg_wcs S /\ (rg_size g / 2 + deg ov < PI)%R ->
  ring_has g r n -> ring_has g (r + 2) n2 ->
  let d := rings_def c mk ov g in
  sm_reachable sphere_offset d s ->
  holds sphere_offset d (1 + before g r) s t -> holds sphere_offset d (1 + before g (r + 2)) s t2 ->
  rings_findAllTracts sphere_offset d g (t_ctr t) s = (s', Ok l) ->
  tract_contains t2 (t_ctr t) = Ok true /\ ~ In t2 l.
Proof. exact rings_findAllTracts_misses_refuted_proof. Qed.
Print Assumptions rings_findAllTracts_misses_refuted.

(** C64 REFUTED with the default overlap of 1 degree: every version 1 map with 269 rings or more, TAN or
    STG, has after any history a coordinate and a tract that contains it and that findAllTracts does
    not return for it. *)
Theorem rings_findAllTracts_default_overlap_refuted : forall c S mk numRings raStart g s,
  cfg_ok c -> (0 < S)%R -> standard_wcs S mk -> 269 <= numRings ->
  rings_init numRings raStart 1 = Ok g ->
  let d := rings_def c mk 1 g in
  sm_reachable sphere_offset d s ->
  exists coord s1 s2 l t, accesses sphere_offset d s s1
    /\ rings_findAllTracts sphere_offset d g coord s1 = (s2, Ok l)
    /\ (exists i, holds sphere_offset d i s2 t)
    /\ tract_contains t coord = Ok true /\ ~ In t l.
Proof. exact rings_findAllTracts_default_overlap_refuted_proof. Qed.
Print Assumptions rings_findAllTracts_default_overlap_refuted.

(** C24, C28, C31, C63, C64: the hypotheses can be met: the default configuration with three rings. *)
Example rings3_default :
  exists g, rings_init 3 0 1 = Ok g /\ rings_wf g /\ at_least 3 g /\ ring_has g 0 8 /\ ring_has g 2 8
    /\ let d := rings_def legacy_default (stg_wcs (arcsec_scale (333 / 1000))) 1 g in
       exists s s' t s'' l, sm_reachable sphere_offset d s /\ rings_findTract sphere_offset d g (0, 0)%R s = (s', Ok t)
         /\ holds sphere_offset d (t_id t) s' t
         /\ rings_findAllTracts sphere_offset d g (0, 0)%R s' = (s'', Ok l).
Proof. exact rings3_default_proof. Qed.
