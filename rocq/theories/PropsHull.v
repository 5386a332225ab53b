(** Property theorems; generated by tools/mkprops.py from MainHull.v. *)
From Coq Require Import Reals Lra Lia.
From Flocq Require Import Core.Raux.
Require Import Verif.Py Verif.Geom Verif.PatchInfo Verif.TractBuilder Verif.TractInfo Verif.Spec.
Require Import Verif.SkyMap Verif.SkySpec Verif.PatchProofs Verif.TractProofs.
Require Import Verif.Rings Verif.RingsSpec Verif.RingsProofs Verif.RingsNum Verif.Sphere Verif.SphereProofs Verif.TractBox Verif.MapsProofs.
Require Import Verif.SkyProofs Verif.SkyProofs2 Verif.MainSky Verif.Uniform Verif.Dodeca Verif.DodecaSpec Verif.DodecaZ Verif.DodecaProofs Verif.DodecaProofs2 Verif.DodecaProofs3 Verif.DodecaProofs4.
Require Import Verif.Region Verif.RegionProofs Verif.ProjSpec Verif.HullProofs Verif.TractHull Verif.MainDodeca Verif.MainDodeca2.
Require Import Verif.MainHull.
Open Scope R_scope.

(** C71: a tract that is made from vertices and whose WCS is a gnomonic (TAN) projection about its centre (any
    scale, rotation and handedness) contains every coordinate of its inner sky polygon, and every coordinate
    within atan (cos 7.5 deg * tan (overlap / 2)) of it, provided the vertices are more than half the overlap
    away from the horizon. *)
Theorem tract_gnomonic_cover : forall c b oid id ctr verts overlap w corners b' t p q,
  cfg_ok c -> builder_reachable c b -> projects tan_factor ctr w -> verts <> [] ->
  0 <= overlap < PI -> (forall v, In v verts -> separation v ctr + overlap / 2 < PI / 2) ->
  TractInfo_init sphere_offset b oid id ctr verts overlap w corners = Ok (b', t) ->
  region_contains (getInnerSkyPolygon t) p -> separation p q <= inradius24 (overlap / 2) ->
  tract_contains t q = Ok true.
Proof. exact tract_gnomonic_cover_proof. Qed.
Print Assumptions tract_gnomonic_cover.

(** C71: so with gnomonic projections and an overlap from 0 to 90 degrees the tract that findTract of a Dodeca map
    returns contains the coordinate, and every coordinate within the overlap margin of it. *)
Theorem dodeca_gnomonic_cover : forall order c mk ov b D s0 s p, any_order order -> cfg_ok c ->
  (forall ctr, projects tan_factor ctr (mk ctr)) -> 0 <= ov <= 90 ->
  dodeca_new order sphere_offset c mk ov b = Ok (D, s0) -> accesses sphere_offset (dodeca_def c mk ov D) s0 s ->
  exists t, dodeca_findTract sphere_offset (dodeca_def c mk ov D) D p s = (s, Ok t)
    /\ tract_contains t p = Ok true
    /\ forall q, separation p q <= inradius24 (deg ov / 2) -> tract_contains t q = Ok true.
Proof. exact dodeca_gnomonic_cover_proof. Qed.
Print Assumptions dodeca_gnomonic_cover.

(** C71, C72: the standard gnomonic and stereographic projections, turned by any angle and mirrored or not, satisfy the
    hypothesis on the projections, so there are such maps: *)
Example standard_projections : forall factor S angle sigma ctr, 0 < S -> sigma = 1 \/ sigma = -1 ->
  projects factor ctr (mkWcs (fun c => match factor (dot (vec_of c) (vec_of ctr)) with
     | Some f => let x := S * sigma * (f * dot (vec_of c) (east ctr)) in let y := S * (f * dot (vec_of c) (north ctr)) in
                 Pix (cos angle * x - sin angle * y) (sin angle * x + cos angle * y)
     | None => PixNaN end) (fun _ => ctr))
  /\ projects tan_factor ctr (tan_wcs S ctr) /\ projects stg_factor ctr (stg_wcs S ctr).
Proof. exact standard_projections_proof. Qed.
