(** Property theorems; generated by tools/mkprops.py from MainEquat.v. *)
From Coq Require Import Reals Lra Lia.
From Flocq Require Import Core.Raux.
Require Import Verif.Py Verif.Geom Verif.PatchInfo Verif.TractBuilder Verif.TractInfo Verif.Spec.
Require Import Verif.PatchProofs Verif.TractProofs.
Require Import Verif.SkyMap Verif.SkySpec Verif.SkyProofs Verif.SkyProofs2 Verif.MainSky.
Require Import Verif.Rings Verif.RingsSpec Verif.RingsProofs Verif.Sphere Verif.SphereProofs Verif.TractBox Verif.Uniform.
Require Import Verif.Maps Verif.MapsProofs Verif.MainMaps Verif.ProjSpec Verif.TractHull.
Require Import Verif.MainEquat.
Open Scope R_scope.

(** C79: let an EquatSkyMap of at least two tracts use the cylindrical equal area projection (its default) with any
    pixel scale, rotation and handedness, a non-negative overlap, and a declination range that stays half
    the overlap away from the poles. In any state of the map tract i contains every coordinate whose RA is
    between 360*i/n and 360*(i+1)/n degrees and whose declination is in the configured range, edges included. *)
Theorem equat_cea_slices : forall c mk ov n dec0 dec1 d s i t lon lat,
  cfg_ok c -> (2 <= n)%Z -> (forall ra, cylindrical (spherePoint ra 0) (mk (spherePoint ra 0))) ->
  0 <= ov -> Rabs dec0 + ov / 2 < 90 -> Rabs dec1 + ov / 2 < 90 ->
  equat_def c mk ov n (dec0, dec1) = Ok d -> sm_reachable sphere_offset d s -> holds sphere_offset d i s t ->
  360 * IZR i / IZR n <= lon <= 360 * (IZR i + 1) / IZR n -> dec0 <= lat <= dec1 \/ dec1 <= lat <= dec0 ->
  tract_contains t (spherePoint (deg lon) (deg lat)) = Ok true.
Proof. exact equat_cea_slices_proof. Qed.
Print Assumptions equat_cea_slices.

(** C79: so findTract's tract contains the coordinate: for every coordinate whose declination is in the configured
    range, in any state of the map. *)
Theorem equat_cea_findTract : forall c mk ov n dec0 dec1 d s coord,
  cfg_ok c -> (2 <= n)%Z -> (forall ra, cylindrical (spherePoint ra 0) (mk (spherePoint ra 0))) ->
  0 <= ov -> Rabs dec0 + ov / 2 < 90 -> Rabs dec1 + ov / 2 < 90 ->
  equat_def c mk ov n (dec0, dec1) = Ok d -> sm_reachable sphere_offset d s ->
  on_sphere coord -> deg dec0 <= snd coord <= deg dec1 \/ deg dec1 <= snd coord <= deg dec0 ->
  exists s' t, equat_findTract sphere_offset d coord s = (s', Ok t) /\ tract_contains t coord = Ok true.
Proof. exact equat_cea_findTract_proof. Qed.
Print Assumptions equat_cea_findTract.

(** C79: with the default orientation tract i contains moreover every coordinate up to half the overlap (in
    degrees of RA and of declination) outside its slice, so that neighbouring tracts overlap by at least the
    configured overlap. *)
Theorem equat_cea_overlap : forall c scale ov n dec0 dec1 d s i t lon lat,
  cfg_ok c -> (2 <= n)%Z -> 0 <= ov -> Rabs dec0 + ov / 2 < 90 -> Rabs dec1 + ov / 2 < 90 ->
  equat_def c (cea_wcs scale) ov n (dec0, dec1) = Ok d -> sm_reachable sphere_offset d s -> holds sphere_offset d i s t ->
  360 * IZR i / IZR n - ov / 2 <= lon <= 360 * (IZR i + 1) / IZR n + ov / 2 -> dec0 - ov / 2 <= lat <= dec1 + ov / 2 ->
  tract_contains t (spherePoint (deg lon) (deg lat)) = Ok true.
Proof. exact equat_cea_overlap_proof. Qed.
Print Assumptions equat_cea_overlap.

(** C79, refuted for one tract without overlap: both sides of the only slice are at RA 0, so the tract is one column of
    patches there: findTract returns it for every coordinate, and it does not contain RA 180 (as soon as half a
    turn is longer than half a patch). *)
Theorem equat_cea_one_tract_refuted : forall c scale dec0 dec1 d s lat,
  cfg_ok c -> Rabs dec0 < 90 -> Rabs dec1 < 90 -> Rabs lat < 90 ->
  IZR (fst (cfg_inner c)) / 2 + 4 <= scale * PI < IZR (2 ^ 51) ->
  equat_def c (cea_wcs scale) 0 1 (dec0, dec1) = Ok d -> sm_reachable sphere_offset d s ->
  exists s' t, equat_findTract sphere_offset d (spherePoint (deg 180) (deg lat)) s = (s', Ok t)
    /\ tract_contains t (spherePoint (deg 180) (deg lat)) = Ok false.
Proof. exact equat_cea_one_tract_refuted_proof. Qed.
Print Assumptions equat_cea_one_tract_refuted.

(** C79, non-vacuity: the default EquatSkyMap (4 tracts, declinations -1.25 to 1.25, overlap 1 degree, CEA) meets the
    hypotheses of the three theorems for every configuration of the tract builder; its findTract for RA 100,
    Dec 1 is tract 1, which contains it and, thanks to the overlap, RA 180.5, Dec 1.75; a single tract without
    overlap (0.2 arcsec pixels, default legacy builder) meets those of the refutation. *)
Example equat_cea_default :
  (forall c scale, cfg_ok c ->
    exists d s0 s t, equat_def c (cea_wcs scale) 1 4 (- (5 / 4), 5 / 4) = Ok d /\ sm_new sphere_offset d = Ok s0
      /\ equat_findTract sphere_offset d (spherePoint (deg 100) (deg 1)) s0 = (s, Ok t) /\ t_id t = 1%Z
      /\ tract_contains t (spherePoint (deg 100) (deg 1)) = Ok true
      /\ tract_contains t (spherePoint (deg (361 / 2)) (deg (7 / 4))) = Ok true)
  /\ exists d s0, equat_def legacy_default (cea_wcs (arcsec_scale (1 / 5))) 0 1 (- (5 / 4), 5 / 4) = Ok d
      /\ sm_new sphere_offset d = Ok s0 /\ cfg_ok legacy_default
      /\ IZR (fst (cfg_inner legacy_default)) / 2 + 4 <= arcsec_scale (1 / 5) * PI < IZR (2 ^ 51).
Proof. exact equat_cea_default_proof. Qed.
