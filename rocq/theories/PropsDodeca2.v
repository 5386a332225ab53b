(** Property theorems; generated by tools/mkprops.py from MainDodeca2.v. *)
From Coq Require Import Reals Lra Lia Permutation Sorted.
From Flocq Require Import Core.Raux.
Require Import Verif.Py Verif.Geom Verif.PatchInfo Verif.TractBuilder Verif.TractInfo Verif.Spec.
Require Import Verif.PatchProofs Verif.TractProofs.
Require Import Verif.SkyMap Verif.SkySpec Verif.SkyProofs Verif.SkyProofs2 Verif.MainSky.
Require Import Verif.Rings Verif.RingsSpec Verif.RingsProofs Verif.Sphere Verif.SphereProofs Verif.TractBox Verif.Uniform Verif.MapsProofs.
Require Import Verif.Dodeca Verif.DodecaSpec Verif.DodecaZ Verif.DodecaProofs Verif.DodecaProofs2 Verif.DodecaProofs3 Verif.DodecaProofs4.
Require Import Verif.Region Verif.RegionProofs Verif.HullProofs Verif.MainDodeca.
Require Import Verif.MainDodeca2.
Open Scope R_scope.

(** C70: the inner sky polygons of the Dodeca map cover the sky: the polygon (the convex hull of the tract's
    vertices) consists exactly of the coordinates on the inner side of its five edges, it is also the inner sky
    region, the polygon of the tract that findTract returns contains the coordinate, and a coordinate that is
    strictly inside the polygon of a tract is in the polygon of no other tract. *)
Theorem dodeca_inner_polygons : forall order offset c mk ov b D s0 s, any_order order ->
  dodeca_new order offset c mk ov b = Ok (D, s0) -> accesses offset (dodeca_def c mk ov D) s0 s ->
  (forall i t coord, holds offset (dodeca_def c mk ov D) i s t ->
     getInnerSkyRegion t = getInnerSkyPolygon t
     /\ (region_contains (getInnerSkyPolygon t) coord <-> in_pentagon t coord))
  /\ (forall coord, exists t, dodeca_findTract offset (dodeca_def c mk ov D) D coord s = (s, Ok t)
        /\ region_contains (getInnerSkyPolygon t) coord)
  /\ (forall i j t u coord, holds offset (dodeca_def c mk ov D) i s t -> holds offset (dodeca_def c mk ov D) j s u ->
        strictly_in_pentagon t coord -> region_contains (getInnerSkyPolygon u) coord -> t = u).
Proof. exact dodeca_inner_polygons_proof. Qed.
Print Assumptions dodeca_inner_polygons.
