(** Model of python/lsst/skymap/detail/wcsFactory.py, with the parts of
    [lsst.afw.geom] it uses (external, from its documentation and the FITS WCS
    papers, over exact reals). *)
From Coq Require Import Reals String.
From Flocq Require Import Core.Raux.
Require Import Verif.Py Verif.TractInfo Verif.Rings Verif.Sphere Verif.Config.
Open Scope list_scope.
Open Scope R_scope.

(** 2x2 matrices by rows, applied to columns. *)
Definition mat2 : Type := ((R * R) * (R * R))%type.
Definition mat_apply (m : mat2) (p : R * R) : R * R :=
  (fst (fst m) * fst p + snd (fst m) * snd p, fst (snd m) * fst p + snd (snd m) * snd p).
Definition mat_inverse (m : mat2) : mat2 :=
  let d := fst (fst m) * snd (snd m) - snd (fst m) * fst (snd m) in
  ((snd (snd m) / d, - snd (fst m) / d), (- fst (snd m) / d, fst (fst m) / d)).

(** [Angle.asDegrees()] *)
Definition asDegrees (a : R) : R := a * (180 / PI).

(** [afwGeom.makeCdMatrix(scale, orientation, flipX)] (external): degrees on the
    sky (to the east, to the north) per pixel. *)
Definition makeCdMatrix (scale orientation : R) (flipX : bool) : mat2 :=
  let s := asDegrees scale in
  let xmult := if flipX then 1 else -1 in
  ((cos orientation * s * xmult, sin orientation * s),
   (- sin orientation * s * xmult, cos orientation * s)).

(** A FITS projection: the intermediate world coordinates, in degrees, of a
    coordinate relative to the reference coordinate, if it has any, and back. *)
Record projection := mkProjection {
  plane_of : sphere -> sphere -> option (R * R);
  sky_of : sphere -> R * R -> sphere }.

(** The zenithal projections (at the north pole FITS turns the axes by a half
    turn; this is ignored, as in Sphere.v). *)
Definition zenithal_plane (factor : R -> option R) (ctr c : sphere) : option (R * R) :=
  let v := vec_of c in
  match factor (dot v (vec_of ctr)) with
  | Some f => Some (asDegrees (f * dot v (east ctr)), asDegrees (f * dot v (north ctr)))
  | None => None
  end.
Definition proj_TAN : projection := mkProjection (zenithal_plane tan_factor)
  (fun ctr p => coord_of_unit (tan_inverse ctr (deg (fst p)) (deg (snd p)))).
Definition proj_STG : projection := mkProjection (zenithal_plane stg_factor)
  (fun ctr p => coord_of_unit (stg_inverse ctr (deg (fst p)) (deg (snd p)))).
(** Cylindrical equal area, for a reference coordinate on the equator. *)
Definition proj_CEA : projection := mkProjection
  (fun ctr c => let v := vec_of c in
     Some (asDegrees (atan2 (dot v (east ctr)) (dot v (vec_of ctr))), asDegrees (dot v (north ctr))))
  (fun ctr p => spherePoint (fst ctr + deg (fst p)) (asin (deg (snd p)))).

(** [afwGeom.makeSkyWcs(crpix, crval, cdMatrix, projection)] (external) *)
Definition makeSkyWcs (crpix : R * R) (crval : sphere) (cd : mat2) (P : projection) : wcs sphere :=
  mkWcs (fun c => match plane_of P crval c with
                  | Some p => let q := mat_apply (mat_inverse cd) p in Pix (fst crpix + fst q) (snd crpix + snd q)
                  | None => PixNaN
                  end)
        (fun p => sky_of P crval (mat_apply cd (fst p - fst crpix, snd p - snd crpix))).

(** The attributes of [WcsFactory]; wcsFactory.py:47-51 [__init__] (angles in radians). *)
Record factory := mkFactory { f_projection : pystr; f_cdMatrix : mat2 }.
Definition WcsFactory_init (pixelScale : R) (name : pystr) (rotation : R) (flipX : bool) : res factory :=
  if negb (Nat.eqb (length name) 3) then Raise RuntimeError
  else Ok (mkFactory name (makeCdMatrix pixelScale rotation flipX)).

(** wcsFactory.py:53-69 [makeWcs]; [named] gives the projection of a name. *)
Definition makeWcs (named : pystr -> projection) (f : factory) (crPixPos : R * R) (crValCoord : sphere) : wcs sphere :=
  makeSkyWcs crPixPos crValCoord (f_cdMatrix f) (named (f_projection f)).

(** baseSkyMap.py:163-167: pixel scale in arcseconds and rotation in degrees from
    the configuration, no flip; every class uses the reference pixel (0, 0)
    (ringsSkyMap.py, discreteSkyMap.py, healpixSkyMap.py, equatSkyMap.py,
    dodecaSkyMap.py: [crPixPos=geom.Point2D(0, 0)]). *)
Definition arcsec (x : R) : R := deg (x / 3600).
Definition config_factory (c : config) : res factory :=
  WcsFactory_init (arcsec (f2r (c_scale c))) (c_projection c) (deg (f2r (c_rotation c))) false.

(** The same as a parameter of the constructors of Config.v. *)
Definition factory_wcs (named : pystr -> projection) (name : pystr) (scale rotation : R) (crval : sphere) : wcs sphere :=
  makeWcs named (mkFactory name (makeCdMatrix (arcsec scale) (deg rotation) false)) (0, 0) crval.
(** A naming of projections that knows these three. *)
Definition knows (named : pystr -> projection) : Prop :=
  named (of_string "TAN") = proj_TAN /\ named (of_string "STG") = proj_STG /\ named (of_string "CEA") = proj_CEA.

(** A naming of projections. *)
Definition fits_projections (n : pystr) : projection :=
  if list_eq_dec Z.eq_dec n (of_string "STG") then proj_STG
  else if list_eq_dec Z.eq_dec n (of_string "CEA") then proj_CEA
  else proj_TAN.
