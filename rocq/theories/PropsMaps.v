(** Property theorems; generated by tools/mkprops.py from MainMaps.v. *)
From Coq Require Import Reals Lra Lia.
From Flocq Require Import Raux.
Require Import Verif.Py Verif.Geom Verif.PatchInfo Verif.TractBuilder Verif.TractInfo Verif.Spec.
Require Import Verif.PatchProofs Verif.TractProofs.
Require Import Verif.SkyMap Verif.SkySpec Verif.SkyProofs Verif.SkyProofs2 Verif.MainSky.
Require Import Verif.Rings Verif.RingsSpec Verif.RingsProofs Verif.Sphere Verif.SphereProofs Verif.TractBox Verif.Uniform.
Require Import Verif.Maps Verif.MapsProofs.
Require Import Verif.MainMaps.
Open Scope Z_scope.

(** C37: for an EquatSkyMap of n tracts whose declination range is not centred on a pole, and a coordinate not
    at a pole, in any state of the map: if its RA lies strictly inside the slice from 360*i/n to 360*(i+1)/n
    degrees, findTract returns tract i; if the RA is exactly 360*i/n it returns one of the two adjacent tracts
    (in exact arithmetic, the one of lower index). *)
Theorem equat_findTract_slices :
  forall offset c mk ov n decs d s coord i,
  0 < n -> equat_def c mk ov n decs = Ok d -> sm_reachable offset d s ->
  (-180 < fst decs + snd decs < 180)%R -> (- (PI / 2) < snd coord < PI / 2)%R -> 0 <= i < n ->
  exists s' t, equat_findTract offset d coord s = (s', Ok t) /\ holds offset d (t_id t) s' t
  /\ ((deg (360 * IZR i / IZR n) < fst coord < deg (360 * (IZR i + 1) / IZR n))%R -> t_id t = i)
  /\ (fst coord = deg (360 * IZR i / IZR n) -> t_id t = (if i =? 0 then 0 else i - 1)).
Proof. exact equat_findTract_slices_proof. Qed.
Print Assumptions equat_findTract_slices.

(** C37, the excluded cases: for a coordinate at a pole, or a declination range centred on a pole, findTract
    returns tract 0 whatever the RA (in exact arithmetic). *)
Theorem equat_findTract_poles :
  forall offset c mk ov n decs d s coord,
  0 < n -> equat_def c mk ov n decs = Ok d -> sm_reachable offset d s ->
  (cos (snd coord) = 0 \/ cos ((deg (fst decs) + deg (snd decs)) / 2) = 0)%R ->
  exists s' t, equat_findTract offset d coord s = (s', Ok t) /\ t_id t = 0.
Proof. exact equat_findTract_poles_proof. Qed.
Print Assumptions equat_findTract_poles.

(** C20, C55 for EquatSkyMap: when the projection treats all longitudes alike (as TAN, STG and the default CEA
    do), all tracts have the same patch counts, so all the theorems on uniform maps apply. *)
Theorem equat_uniform : forall c mk ov n decs d s,
  cfg_ok c -> longitude_invariant mk -> equat_def c mk ov n decs = Ok d -> sm_reachable sphere_offset d s ->
  exists counts, uniform_counts sphere_offset d counts.
Proof. exact equat_uniform_proof. Qed.
Print Assumptions equat_uniform.

(** C20, C55: the projections named in the previous theorem. *)
Theorem longitude_invariant_projections : forall scale,
  longitude_invariant (tan_wcs scale) /\ longitude_invariant (stg_wcs scale) /\ longitude_invariant (cea_wcs scale).
Proof. exact longitude_invariant_projections_proof. Qed.
Print Assumptions longitude_invariant_projections.

(** C37, C20, non-vacuity: the default EquatSkyMap (4 tracts, declinations -1.25 to 1.25, overlap 1 degree, CEA) can
    be constructed with any configuration of the tract builder and its findTract gives tract 1 for RA 100, Dec 20. *)
Example equat_default : forall c scale, cfg_ok c ->
  exists d s0 s t, equat_def c (cea_wcs scale) 1 4 (- (5 / 4), 5 / 4)%R = Ok d /\ sm_new sphere_offset d = Ok s0
    /\ equat_findTract sphere_offset d (deg 100, deg 20) s0 = (s, Ok t) /\ t_id t = 1.
Proof. exact equat_default_proof. Qed.

(** C42: validation accepts exactly the configurations whose three lists have equal length, and
    raises ValueError for all others. *)
Theorem discrete_validate_exact : forall dc,
  let equal := length (dc_ra dc) = length (dc_radius dc) /\ length (dc_dec dc) = length (dc_radius dc) in
  (discrete_validate dc = Ok tt <-> equal) /\ (discrete_validate dc = Raise ValueError <-> ~ equal).
Proof. exact discrete_validate_exact_proof. Qed.
Print Assumptions discrete_validate_exact.

(** C42: the map has len(radiusList) tracts; every tract i obtained from it has id i, is centred on
    (raList[i], decList[i]), and contains the points at distance radiusList[i] + overlap from the
    centre in the four cardinal directions (where they can be projected). *)
Theorem discrete_tracts : forall offset c mk ov dc s,
  let d := discrete_def c mk ov dc in
  cfg_ok c -> sm_reachable offset d s ->
  sm_len d s = Z.of_nat (length (dc_radius dc))
  /\ forall i t, holds offset d i s t -> exists ra dec radius,
       py_nth (dc_ra dc) i = Ok ra /\ py_nth (dc_dec dc) i = Ok dec /\ py_nth (dc_radius dc) i = Ok radius
       /\ t_id t = i /\ t_ctr t = spherePoint (deg ra) (deg dec) /\ t_overlap t = deg ov
       /\ forall k x y, 0 <= k < 4 ->
            let p := offset (t_ctr t) (IZR k * (PI / 2))%R (deg radius + deg ov)%R in
            skyToPixel (mk (t_ctr t)) p = Pix x y -> tract_contains t p = Ok true.
Proof. exact discrete_tracts_proof. Qed.
Print Assumptions discrete_tracts.

(** C42: with a valid configuration, declinations in range and a projection that does not raise, every tract
    can be obtained; without validation, an index beyond raList (or decList) raises IndexError. *)
Theorem discrete_access : forall offset c mk ov dc s i,
  let d := discrete_def c mk ov dc in
  cfg_ok c -> sm_reachable offset d s -> (forall k co e, skyToPixel (mk k) co <> PixRaise e) ->
  0 <= i < Z.of_nat (length (dc_radius dc)) ->
  (discrete_validate dc = Ok tt -> (forall dec, In dec (dc_dec dc) -> (-90 <= dec <= 90)%R) ->
     exists s' t, sm_getitem offset d i s = (s', Ok t))
  /\ (Z.of_nat (length (dc_ra dc)) <= i -> sm_getitem offset d i s = (s, Raise IndexError)).
Proof. exact discrete_access_proof. Qed.
Print Assumptions discrete_access.

(** C42, non-vacuity: two tracts at (10, 20) and (350, -85) degrees. *)
Example discrete_example : forall c scale, cfg_ok c ->
  let dc := mkDiscrete [10; 350]%R [20; -85]%R [1; 2]%R in
  let d := discrete_def c (stg_wcs scale) (1 / 10) dc in
  exists s0 s t, discrete_validate dc = Ok tt /\ sm_new sphere_offset d = Ok s0
    /\ sm_getitem sphere_offset d 1 s0 = (s, Ok t) /\ t_ctr t = spherePoint (deg 350) (deg (-85)).
Proof. exact discrete_example_proof. Qed.

(** C41: coordToAng followed by angToCoord gives back every coordinate. *)
Theorem ang_coord_roundtrip : forall coord, on_sphere coord -> angToCoord (coordToAng coord) = Ok coord.
Proof. exact ang_coord_roundtrip_proof. Qed.
Print Assumptions ang_coord_roundtrip.

(** C41: angToCoord followed by coordToAng gives back every pair with 0 <= theta <= pi, 0 <= phi < 2 pi. *)
Theorem coord_ang_roundtrip : forall theta phi, (0 <= theta <= PI)%R -> (0 <= phi < 2 * PI)%R ->
  exists coord, angToCoord (theta, phi) = Ok coord /\ on_sphere coord /\ coordToAng coord = (theta, phi).
Proof. exact coord_ang_roundtrip_proof. Qed.
Print Assumptions coord_ang_roundtrip.

(** C41: a Healpix map has 12 * 4^log2NSide tracts; a negative log2NSide raises ValueError. *)
Theorem healpix_length : forall p2a bnd offset c mk ov k nest,
  (0 <= k -> exists d, healpix_def p2a bnd c mk ov k nest = Ok d
     /\ forall s, sm_reachable offset d s -> sm_len d s = 12 * 4 ^ k)
  /\ (k < 0 -> healpix_def p2a bnd c mk ov k nest = Raise ValueError).
Proof. exact healpix_length_proof. Qed.
Print Assumptions healpix_length.

(** C41: if hpgeom maps the centre of each pixel back to the pixel (with theta in [0, pi], phi in [0, 2 pi)),
    findTract of the centre of any tract of the map gives that tract (the same object), in any state. *)
Theorem healpix_findTract_centre : forall a2p p2a bnd offset c mk ov k nest d s i t,
  healpix_def p2a bnd c mk ov k nest = Ok d -> sm_reachable offset d s ->
  (forall j, 0 <= j < 12 * 4 ^ k ->
     a2p (2 ^ k) nest (p2a (2 ^ k) nest j) = j
     /\ (0 <= fst (p2a (2 ^ k)%Z nest j) <= PI)%R /\ (0 <= snd (p2a (2 ^ k)%Z nest j) < 2 * PI)%R) ->
  holds offset d i s t ->
  healpix_findTract a2p offset d (2 ^ k) nest (t_ctr t) s = (s, Ok t).
Proof. exact healpix_findTract_centre_proof. Qed.
Print Assumptions healpix_findTract_centre.

(** C36, C41: the Healpix findTract is a search in the sense used by findClosestTractPatchList, when hpgeom
    returns non-negative pixel numbers. *)
Theorem healpix_findTract_search : forall a2p p2a bnd offset c mk ov k nest d,
  healpix_def p2a bnd c mk ov k nest = Ok d -> (forall x, 0 <= a2p (2 ^ k) nest x) ->
  search offset d (healpix_findTract a2p offset d (2 ^ k) nest).
Proof. exact healpix_findTract_search_proof. Qed.
Print Assumptions healpix_findTract_search.

(** C60, refuted: the tract of a HEALPixel is not at the position of the HEALPixel, but at its mirror image in
    the equator (theta is a colatitude, the code takes it as latitude + pi/2); the two agree only
    for pixels on the equator. *)
Theorem healpix_position_refuted : forall p2a bnd offset c mk ov k nest d s i t,
  healpix_def p2a bnd c mk ov k nest = Ok d -> sm_reachable offset d s -> holds offset d i s t ->
  let pix := p2a (2 ^ k) nest i in
  vec_of (t_ctr t) = mirror (healpix_direction pix)
  /\ (vec_of (t_ctr t) = healpix_direction pix <-> cos (fst pix) = 0%R).
Proof. exact healpix_position_refuted_proof. Qed.
Print Assumptions healpix_position_refuted.

(** C41, C60, non-vacuity: with the pixels of nside 1 in the polar caps at theta = arccos(2/3), the tract of pixel 0
    exists and has declination arcsin(-2/3), not arcsin(2/3). *)
Example healpix_example : forall c scale, cfg_ok c ->
  let p2a := fun (_ : Z) (_ : bool) (_ : Z) => (acos (2 / 3), PI / 4)%R in
  let bnd := fun (_ : Z) (_ : bool) (_ : Z) => [(0, 0); (acos (2 / 3), PI / 2); (PI / 2, PI / 4); (acos (2 / 3), 0)]%R in
  exists d s0 s t, healpix_def p2a bnd c (stg_wcs scale) 0 0 false = Ok d /\ sm_new sphere_offset d = Ok s0
    /\ sm_getitem sphere_offset d 0 s0 = (s, Ok t) /\ vz (vec_of (t_ctr t)) = (- (2 / 3))%R
    /\ vz (healpix_direction (p2a 1 false 0)) = (2 / 3)%R.
Proof. exact healpix_example_proof. Qed.

(** C57: for a vector whose x and y are both smaller in absolute value than the smallest normal double:
    RuntimeError without a default RA; otherwise the default RA, declination +90 if z > 0, -90 if z <= 0. *)
Theorem coordFromVec_pole : forall x y z defRA,
  (Rabs x < / 2 ^ 1022 -> Rabs y < / 2 ^ 1022 ->
  coordFromVec (x, y, z) None = Raise RuntimeError
  /\ coordFromVec (x, y, z) (Some defRA)
     = Ok (wrap defRA, if Rlt_dec 0 z then PI / 2 else - (PI / 2)))%R.
Proof. exact coordFromVec_pole_proof. Qed.
Print Assumptions coordFromVec_pole.

(** C57: for every other vector it returns (whatever the default RA) the coordinate whose direction is
    that of the vector. *)
Theorem coordFromVec_direction : forall x y z defRA,
  (/ 2 ^ 1022 <= Rabs x \/ / 2 ^ 1022 <= Rabs y)%R ->
  exists c, coordFromVec (x, y, z) defRA = Ok c /\ on_sphere c
    /\ (exists r, 0 < r /\ x = r * (cos (snd c) * cos (fst c)) /\ y = r * (cos (snd c) * sin (fst c)) /\ z = r * sin (snd c))%R.
Proof. exact coordFromVec_direction_proof. Qed.
Print Assumptions coordFromVec_direction.

(** C57, non-vacuity: (1, 1, 0) gives RA 45, Dec 0 degrees, whatever the default RA. *)
Example coordFromVec_example : forall defRA, exists c, coordFromVec (1, 1, 0)%R defRA = Ok c
  /\ on_sphere c /\ snd c = 0%R /\ cos (fst c) = sin (fst c).
Proof. exact coordFromVec_example_proof. Qed.
