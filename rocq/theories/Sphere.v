(** Geometry on the sphere: the parts of [lsst.geom.SpherePoint] (external,
    modelled from its documentation and source, over exact reals), and
    [coordFromVec] of detail/utils.py. *)
From Coq Require Import Reals.
From Flocq Require Import Raux.
Require Import Verif.Py Verif.TractInfo Verif.Rings.
Open Scope R_scope.

(** Cartesian vectors. *)
Notation vec := (R * R * R)%type.
Definition vx (v : vec) : R := fst (fst v).
Definition vy (v : vec) : R := snd (fst v).
Definition vz (v : vec) : R := snd v.
Definition dot (a b : vec) : R := vx a * vx b + vy a * vy b + vz a * vz b.
Definition cross (a b : vec) : vec :=
  (vy a * vz b - vz a * vy b, vz a * vx b - vx a * vz b, vx a * vy b - vy a * vx b).
Definition vadd (a b : vec) : vec := (vx a + vx b, vy a + vy b, vz a + vz b).
Definition vscale (k : R) (a : vec) : vec := (k * vx a, k * vy a, k * vz a).
Definition norm (a : vec) : R := sqrt (dot a a).
Definition unit_vec (a : vec) : Prop := dot a a = 1.

(** [math.atan2(y, x)]; zeros are unsigned. *)
Definition atan2 (y x : R) : R :=
  if Rlt_bool 0 x then atan (y / x)
  else if Rlt_bool x 0 then (if Rle_bool 0 y then atan (y / x) + PI else atan (y / x) - PI)
  else if Rlt_bool 0 y then PI / 2
  else if Rlt_bool y 0 then - (PI / 2)
  else 0.

(** [SpherePoint.getVector()] *)
Definition vec_of (c : sphere) : vec :=
  (cos (fst c) * cos (snd c), sin (fst c) * cos (snd c), sin (snd c)).

(** [SpherePoint(UnitVector3d)]: latitude asin(z); longitude atan2(y, x) wrapped
    into [0, 2 pi), or 0 at a pole. *)
Definition coord_of_unit (v : vec) : sphere :=
  (if Req_bool (vx v) 0 && Req_bool (vy v) 0 then 0 else wrap (atan2 (vy v) (vx v)), asin (vz v)).

(** [SpherePoint(Vector3d)]: the vector is normalised; InvalidParameterError for
    the zero vector. *)
Definition coord_of_vec (v : vec) : res sphere :=
  if Rle_bool (norm v) 0 then Raise InvalidParameterError else Ok (coord_of_unit (vscale (/ norm v) v)).

(** [SpherePoint.separation]: the angle between two directions. *)
Definition separation (a b : sphere) : R := acos (dot (vec_of a) (vec_of b)).

(** The unit vectors toward east and north at a point. *)
Definition east (c : sphere) : vec := (- sin (fst c), cos (fst c), 0).
Definition north (c : sphere) : vec := cross (vec_of c) (east c).

(** [SpherePoint.offset(bearing, amount)]: the point at distance [amount] along
    the great circle that leaves with the given bearing (0 = east, pi/2 = north). *)
Definition offset_vec (c : sphere) (bearing amount : R) : vec :=
  vadd (vscale (cos amount) (vec_of c))
       (vscale (sin amount) (vadd (vscale (cos bearing) (east c)) (vscale (sin bearing) (north c)))).
Definition sphere_offset (c : sphere) (bearing amount : R) : sphere :=
  coord_of_unit (offset_vec c bearing amount).

(** Two of the WCSs that [WcsFactory.makeWcs] (detail/wcsFactory.py:53-69) makes
    with reference pixel (0, 0): gnomonic ("TAN") and stereographic ("STG", the
    default of baseSkyMap.py:57-64), for rotation 0 and flipX false.  External
    code (SkyWcs/AST), modelled from the FITS definitions over exact reals.
    [scale] is in pixels per radian; x grows to the west, y to the north (at the
    poles FITS turns the axes by a half turn; this is ignored).  A position is the
    projection of the direction on the local frame times a factor that depends on
    the cosine of the distance from the centre; directions that cannot be
    projected have no position. *)
Definition zenithal (factor : R -> option R) (scale : R) (ctr c : sphere) : pixres :=
  let v := vec_of c in
  match factor (dot v (vec_of ctr)) with
  | Some f => Pix (- scale * (f * dot v (east ctr))) (scale * (f * dot v (north ctr)))
  | None => PixNaN
  end.
Definition tan_factor (d : R) : option R := if Rlt_bool 0 d then Some (/ d) else None.
Definition stg_factor (d : R) : option R := if Rlt_bool (-1) d then Some (2 / (1 + d)) else None.

(** The direction at plane coordinates (x, y) in units of one radian at the centre. *)
Definition tan_inverse (ctr : sphere) (x y : R) : vec :=
  let k := / sqrt (1 + x * x + y * y) in
  vscale k (vadd (vec_of ctr) (vadd (vscale x (east ctr)) (vscale y (north ctr)))).
Definition stg_inverse (ctr : sphere) (x y : R) : vec :=
  let r2 := x * x + y * y in
  vscale (/ (4 + r2))
    (vadd (vscale (4 - r2) (vec_of ctr))
          (vadd (vscale (4 * x) (east ctr)) (vscale (4 * y) (north ctr)))).

Definition tan_wcs (scale : R) (ctr : sphere) : wcs sphere :=
  mkWcs (zenithal tan_factor scale ctr)
        (fun p => coord_of_unit (tan_inverse ctr (- (fst p / scale)) (snd p / scale))).
Definition stg_wcs (scale : R) (ctr : sphere) : wcs sphere :=
  mkWcs (zenithal stg_factor scale ctr)
        (fun p => coord_of_unit (stg_inverse ctr (- (fst p / scale)) (snd p / scale))).

(** The default projection of [EquatSkyMap] (equatSkyMap.py:46), cylindrical equal
    area, for a reference point on the equator (external, from the FITS definition). *)
Definition cea_wcs (scale : R) (ctr : sphere) : wcs sphere :=
  mkWcs (fun c => let v := vec_of c in
           Pix (- scale * atan2 (dot v (east ctr)) (dot v (vec_of ctr))) (scale * dot v (north ctr)))
        (fun p => spherePoint (fst ctr - fst p / scale) (asin (snd p / scale))).

(** The scale of a configured pixel size in arcseconds (baseSkyMap.py:165
    [pixelScale*geom.arcseconds]). *)
Definition arcsec_scale (pixelScale : R) : R := (180 * 3600 / (PI * pixelScale))%R.

(** detail/utils.py:31 [_TinyFloat]: the smallest normal double. *)
Definition tinyFloat : R := / IZR (2 ^ 1022).

(** detail/utils.py:34-58 [coordFromVec]; [geom.SpherePoint(defRA, dec)] wraps
    the longitude. *)
Definition coordFromVec (v : vec) (defRA : option R) : res sphere :=
  if Rlt_bool (Rabs (vx v)) tinyFloat && Rlt_bool (Rabs (vy v)) tinyFloat then
    match defRA with
    | None => Raise RuntimeError
    | Some ra => Ok (spherePoint ra (deg (if Rlt_bool 0 (vz v) then 90 else -90)))
    end
  else coord_of_vec v.
