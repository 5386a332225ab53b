(** Sky regions of tracts: [TractInfo.getInnerSkyRegion], and the parts of
    lsst.sphgeom it uses (external, modelled from their documentation and
    source, over exact reals). *)
From Coq Require Import Reals.
From Flocq Require Import Raux.
Require Import Verif.Py Verif.Geom Verif.PatchInfo Verif.TractBuilder Verif.TractInfo.
Require Import Verif.Rings Verif.Sphere.
Open Scope R_scope.

(** [sphgeom.Box(point1, point2)] with corners (lon, lat) and
    [sphgeom.ConvexPolygon.convexHull(vectors)], the smallest convex region with
    these points; exceptions for degenerate sets of points are not modelled. *)
Inductive region := RegBox (point1 point2 : R * R) | RegHull (points : list vec).

(** [NormalizedAngleInterval(a, b).contains(x)]: the closed arc from [a]
    eastward to [b], which wraps if [b < a]; [a = b] is a single longitude. *)
Definition lon_contains (a b x : R) : bool :=
  if Rle_bool a b then Rle_bool a x && Rle_bool x b else Rle_bool a x || Rle_bool x b.

(** Non-negative combinations of vectors. *)
Fixpoint combination (ws : list R) (vs : list vec) : vec :=
  match ws, vs with
  | w :: ws, v :: vs => vadd (vscale w v) (combination ws vs)
  | _, _ => (0, 0, 0)
  end.

(** [Region.contains(UnitVector3d)] *)
Definition region_contains (r : region) (c : sphere) : Prop :=
  match r with
  | RegBox p1 p2 => lon_contains (fst p1) (fst p2) (fst c) = true /\ snd p1 <= snd c <= snd p2
  | RegHull vs => exists ws, length ws = length vs /\ Forall (fun w => 0 <= w) ws
                             /\ vec_of c = combination ws vs
  end.

(** tractInfo.py:369-376 [TractInfo.getInnerSkyRegion] ([inner_sky_region]) *)
Definition getInnerSkyRegion (t : tract sphere) : region :=
  match t_innerBoxCorners t with
  | Some (p1, p2) => RegBox p1 p2
  | None => RegHull (map vec_of (t_verts t))
  end.
(** tractInfo.py:361-365 [TractInfo.getInnerSkyPolygon] *)
Definition getInnerSkyPolygon (t : tract sphere) : region := RegHull (map vec_of (t_verts t)).

(** detail/utils.py:78 [ConvexPolygon(vectors)]: also the convex hull of its points. *)
Definition sky_polygon (points : list sphere) : region := RegHull (map vec_of points).

(** cellInfo.py:115-129 and 135-149 sky polygons of a cell (also the properties
    132-133, 152-153); [tractWcs] defaults to the cell's own WCS. *)
Definition cell_getInnerSkyPolygon {Sky} (c : cell (wcs Sky)) (tractWcs : option (wcs Sky)) : list Sky :=
  makeSkyPolygonFromBBox (c_inner c) (match tractWcs with Some w => w | None => c_wcs c end).
Definition cell_getOuterSkyPolygon {Sky} (c : cell (wcs Sky)) (tractWcs : option (wcs Sky)) : list Sky :=
  makeSkyPolygonFromBBox (c_outer c) (match tractWcs with Some w => w | None => c_wcs c end).
