(** Models of python/lsst/skymap/equatSkyMap.py, discreteSkyMap.py and
    healpixSkyMap.py.  Angles are exact reals (the code uses doubles). *)
From Coq Require Import Reals.
From Flocq Require Import Raux.
Require Import Verif.Py Verif.Geom Verif.PatchInfo Verif.TractBuilder Verif.TractInfo Verif.SkyMap.
Require Import Verif.Rings Verif.Sphere.
Open Scope Z_scope.

(** [geom.SpherePoint(lon, lat)] (external) with its check of the latitude. *)
Definition makeSpherePoint (lon lat : R) : res sphere :=
  if Rle_bool (Rabs lat) (PI / 2) then Ok (spherePoint lon lat) else Raise InvalidParameterError.

(** ** EquatSkyMap *)

(** equatSkyMap.py:67-99, the loop body: the arguments of tract [id].
    [numTracts], [decRange] and [tractOverlap] are the config values (degrees). *)
Definition equat_args (makeWcs : sphere -> wcs sphere) (tractOverlap : R) (numTracts : Z)
    (decRange : R * R) (id : Z) : res (tract_args sphere) :=
  let dec0 := deg (fst decRange) in
  let dec1 := deg (snd decRange) in
  let midDec := ((dec0 + dec1) / 2)%R in
  let tractWidthRA := deg (360 / IZR numTracts) in
  let begRA := (tractWidthRA * IZR id)%R in
  let endRA := (begRA + tractWidthRA)%R in
  v0 <- makeSpherePoint begRA dec0 ;;
  v1 <- makeSpherePoint endRA dec0 ;;
  v2 <- makeSpherePoint endRA dec1 ;;
  v3 <- makeSpherePoint begRA dec1 ;;
  let midRA := (begRA + tractWidthRA / 2)%R in
  ctrCoord <- makeSpherePoint midRA midDec ;;
  crValCoord <- makeSpherePoint midRA 0 ;;
  Ok (PlainArgs ctrCoord [v0; v1; v2; v3] (deg tractOverlap) (makeWcs crValCoord) None).

(** equatSkyMap.py:64-99 [EquatSkyMap.__init__] up to the loop: [360.0 / numTracts]
    raises for 0; [range(numTracts)] is empty for negative numbers. *)
Definition equat_def (c : tb_config) (makeWcs : sphere -> wcs sphere) (tractOverlap : R)
    (numTracts : Z) (decRange : R * R) : res (skydef sphere) :=
  if numTracts =? 0 then Raise ZeroDivisionError
  else Ok (mkDef EagerMap c numTracts (equat_args makeWcs tractOverlap numTracts decRange)).

(** [EquatSkyMap] inherits [findTract] from baseSkyMap.py:172-204. *)
Definition equat_findTract (offset : sphere -> R -> R -> sphere) (d : skydef sphere) (coord : sphere)
  : SM sphere (tract sphere) :=
  base_findTract offset separation d coord.

(** ** DiscreteSkyMap *)
Record discrete_config := mkDiscrete { dc_ra : list R; dc_dec : list R; dc_radius : list R }.

(** discreteSkyMap.py:40-47 [validate] (the inherited checks are not modelled). *)
Definition discrete_validate (dc : discrete_config) : res unit :=
  if negb (Nat.eqb (length (dc_radius dc)) (length (dc_ra dc))) then Raise ValueError
  else if negb (Nat.eqb (length (dc_radius dc)) (length (dc_dec dc))) then Raise ValueError
  else Ok tt.

(** discreteSkyMap.py:70-76 [generateTract]: the arguments of the tract. *)
Definition discrete_args (makeWcs : sphere -> wcs sphere) (tractOverlap : R) (dc : discrete_config)
    (index : Z) : res (tract_args sphere) :=
  ra <- py_nth (dc_ra dc) index ;;
  dec <- py_nth (dc_dec dc) index ;;
  center <- makeSpherePoint (deg ra) (deg dec) ;;
  radius <- py_nth (dc_radius dc) index ;;
  Ok (ExplicitArgs center (deg radius) (deg tractOverlap) (makeWcs center) None).

(** discreteSkyMap.py:66-68 [__init__] *)
Definition discrete_def (c : tb_config) (makeWcs : sphere -> wcs sphere) (tractOverlap : R)
    (dc : discrete_config) : skydef sphere :=
  mkDef CachingMap c (Z.of_nat (length (dc_radius dc))) (discrete_args makeWcs tractOverlap dc).

(** ** HealpixSkyMap *)

(** healpixSkyMap.py:40-47 [angToCoord]; the pair is (theta, phi). *)
Definition angToCoord (thetaphi : R * R) : res sphere :=
  makeSpherePoint (snd thetaphi) (fst thetaphi - 1 / 2 * PI)%R.

(** healpixSkyMap.py:53-58 [coordToAng] *)
Definition coordToAng (coord : sphere) : R * R := (snd coord + 1 / 2 * PI, fst coord)%R.

Section Healpix.
(** The functions of [hpgeom] used, for a given nside and ordering (external):
    [angle_to_pixel], [pixel_to_angle], [boundaries]. *)
Variable angle_to_pixel : Z -> bool -> R * R -> Z.
Variable pixel_to_angle : Z -> bool -> Z -> R * R.
Variable boundaries : Z -> bool -> Z -> list (R * R).

(** healpixSkyMap.py:130-136 [generateTract] with 64-72 [HealpixTractInfo.__init__]. *)
Definition healpix_args (makeWcs : sphere -> wcs sphere) (tractOverlap : R) (nside : Z) (nest : bool)
    (index : Z) : res (tract_args sphere) :=
  center <- angToCoord (pixel_to_angle nside nest index) ;;
  vertexList <- mapM angToCoord (boundaries nside nest index) ;;
  Ok (PlainArgs center vertexList (deg tractOverlap) (makeWcs center) None).

(** healpixSkyMap.py:108-111 [__init__]: [1 << log2NSide] raises ValueError for a
    negative count; [hpgeom.nside_to_npixel] is 12*nside^2 (external). *)
Definition healpix_nside (log2NSide : Z) : res Z :=
  if log2NSide <? 0 then Raise ValueError else Ok (Z.shiftl 1 log2NSide).
Definition healpix_def (c : tb_config) (makeWcs : sphere -> wcs sphere) (tractOverlap : R)
    (log2NSide : Z) (nest : bool) : res (skydef sphere) :=
  nside <- healpix_nside log2NSide ;;
  Ok (mkDef CachingMap c (12 * nside * nside) (healpix_args makeWcs tractOverlap nside nest)).

(** healpixSkyMap.py:113-128 [findTract] *)
Definition healpix_findTract (offset : sphere -> R -> R -> sphere) (d : skydef sphere) (nside : Z) (nest : bool)
    (coord : sphere) : SM sphere (tract sphere) :=
  sm_getitem offset d (angle_to_pixel nside nest (coordToAng coord)).
End Healpix.
