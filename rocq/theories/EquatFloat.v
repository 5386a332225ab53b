(** The coordinates that python/lsst/skymap/equatSkyMap.py computes for the tracts of an EquatSkyMap, in IEEE binary64
    arithmetic, operation by operation as the code computes them (Maps.v has the same over exact reals).

    Simplifications: the WCS, the overlap and the patches are not part of this file. *)
From Coq Require Import Reals.
From Flocq Require Import Core BinarySingleNaN.
Require Import Verif.Py Verif.Geom Verif.Float64 Verif.RingsFloat.
Import ListNotations.
Open Scope Z_scope.

(** [geom.SpherePoint(lon, lat)] (external): raises if [fabs(lat) > HALFPI]; the longitude is wrapped. *)
Definition f_makeSpherePoint (lon lat : f64) : res (f64 * f64) :=
  if fltb (fmul f_half f_pi) (Babs lat) then Raise InvalidParameterError else Ok (f_spherePoint lon lat).

(** equatSkyMap.py:69 [tractWidthRA] *)
Definition fe_width (numTracts : Z) : f64 := f_rad true (fdiv (float_of_int 360) (float_of_int numTracts)).
(** equatSkyMap.py:73-74 [begRA], [endRA] *)
Definition fe_beg (numTracts id : Z) : f64 := fmul (fe_width numTracts) (float_of_int id).
Definition fe_end (numTracts id : Z) : f64 := fadd (fe_beg numTracts id) (fe_width numTracts).
(** equatSkyMap.py:82 [midRA] *)
Definition fe_mid (numTracts id : Z) : f64 := fadd (fe_beg numTracts id) (fdiv (fe_width numTracts) (float_of_int 2)).

(** equatSkyMap.py:67-86: [ctrCoord], [vertexCoordList] and [crValCoord] of tract [id]; [decRange] is the config value (degrees). *)
Definition fe_coords (numTracts : Z) (decRange : f64 * f64) (id : Z)
  : res ((f64 * f64) * list (f64 * f64) * (f64 * f64)) :=
  let dec0 := f_rad true (fst decRange) in
  let dec1 := f_rad true (snd decRange) in
  let midDec := fdiv (fadd dec0 dec1) (float_of_int 2) in
  let begRA := fe_beg numTracts id in
  let endRA := fe_end numTracts id in
  v0 <- f_makeSpherePoint begRA dec0 ;;
  v1 <- f_makeSpherePoint endRA dec0 ;;
  v2 <- f_makeSpherePoint endRA dec1 ;;
  v3 <- f_makeSpherePoint begRA dec1 ;;
  let midRA := fe_mid numTracts id in
  ctrCoord <- f_makeSpherePoint midRA midDec ;;
  crValCoord <- f_makeSpherePoint midRA (float_of_int 0) ;;
  Ok (ctrCoord, [v0; v1; v2; v3], crValCoord).
