(** Model of the remaining methods of python/lsst/skymap/baseSkyMap.py:
    [findTractIdArray] with its arguments, and [logSkyMapInfo]. *)
From Coq Require Import Reals.
From Flocq Require Import Raux.
Require Import Verif.Py Verif.Geom Verif.PatchInfo Verif.TractBuilder Verif.TractInfo Verif.SkyMap.
Require Import Verif.Rings Verif.Sphere Verif.Maps.
Open Scope Z_scope.

(** baseSkyMap.py:239-245 [BaseSkyMap.findTractIdArray].  The arguments are the
    elements of [np.atleast_1d(ra)] and [np.atleast_1d(dec)] (one-dimensional
    arrays or scalars; NaN is not modelled).  All coordinates are made before the
    first search. *)
Definition base_idArray (findTract : sphere -> SM sphere (tract sphere)) (ra dec : list R) (degrees : bool)
  : SM sphere (list Z) :=
  let unit := fun x => if degrees then deg x else x in
  coords <-- smlift (mapM (fun rd => makeSpherePoint (unit (fst rd)) (unit (snd rd))) (combine ra dec)) ;;
  base_findTractIdArray findTract coords.

(** The messages of [logSkyMapInfo].  The formatting of numbers is not modelled:
    a message is given by the values it shows (angles in radians). *)
Inductive message :=
| MsgCount (numTracts : Z)
| MsgTract (id : Z) (corners : list sphere) (nx ny : Z).

(** baseSkyMap.py:329-341, the loop body: what is logged for a tract.  The
    corners of an empty tract (NaN in Python) appear as no corners. *)
Definition tract_message (t : tract sphere) : message :=
  let posBox := box2d_of_box (t_bbox t) in
  let pixelPosList :=
    match posBox with
    | Box2DEmpty => []
    | Box2D x0 y0 x1 y1 => [(x0, y0); (x1, y0); (x1, y1); (x0, y1)]
    end in
  MsgTract (t_id t) (map (pixelToSky (t_wcs t)) pixelPosList)
           (fst (t_numPatches t)) (snd (t_numPatches t)).

(** baseSkyMap.py:320-341 [BaseSkyMap.logSkyMapInfo].  A log is a list of
    messages; messages written before an exception remain in it. *)
Definition logging (A : Type) : Type := smstate sphere * list message -> (smstate sphere * list message) * res A.
Fixpoint log_tracts (offset : sphere -> R -> R -> sphere) (d : skydef sphere) (ids : list Z) : logging unit :=
  fun sl =>
  match ids with
  | [] => (sl, Ok tt)
  | i :: ids =>
      match sm_getitem offset d i (fst sl) with
      | (s, Ok t) => log_tracts offset d ids (s, snd sl ++ [tract_message t])
      | (s, Raise e) => ((s, snd sl), Raise e)
      end
  end.
Definition logSkyMapInfo (offset : sphere -> R -> R -> sphere) (d : skydef sphere) : logging unit :=
  fun sl => log_tracts offset d (zrange 0 (sd_num d)) (fst sl, snd sl ++ [MsgCount (sm_len d (fst sl))]).
