(** Property theorems; generated by tools/mkprops.py from MainDodeca3.v. *)
From Coq Require Import Reals Lra Lia Permutation.
From Flocq Require Import Core.Raux.
Require Import Verif.Py Verif.Geom Verif.PatchInfo Verif.TractBuilder Verif.TractInfo Verif.Spec.
Require Import Verif.SkyMap Verif.SkySpec Verif.PatchProofs Verif.TractProofs.
Require Import Verif.Rings Verif.RingsSpec Verif.RingsProofs Verif.RingsNum Verif.Sphere Verif.SphereProofs Verif.TractBox Verif.MapsProofs.
Require Import Verif.SkyProofs Verif.SkyProofs2 Verif.MainSky Verif.Uniform Verif.Dodeca Verif.DodecaSpec Verif.DodecaZ Verif.DodecaProofs Verif.DodecaProofs2 Verif.DodecaProofs3 Verif.DodecaProofs4.
Require Import Verif.Region Verif.RegionProofs Verif.ProjSpec Verif.HullProofs Verif.TractHull Verif.MainDodeca Verif.MainDodeca2 Verif.MainHull Verif.MainRings4.
Require Import Verif.MainDodeca3.
Open Scope R_scope.

(** C72: with stereographic projections (the default; any scale, rotation and handedness) and a tract overlap
    between 2.9 and 177 degrees (the default is 3.5), the tract that findTract of a Dodeca map returns contains
    the coordinate. *)
Theorem dodeca_stereographic_cover : forall order c mk ov b D s0 s coord, any_order order -> cfg_ok c ->
  (forall ctr, projects stg_factor ctr (mk ctr)) -> 2.9 <= ov <= 177 ->
  dodeca_new order sphere_offset c mk ov b = Ok (D, s0) -> accesses sphere_offset (dodeca_def c mk ov D) s0 s ->
  exists t, dodeca_findTract sphere_offset (dodeca_def c mk ov D) D coord s = (s, Ok t)
    /\ tract_contains t coord = Ok true.
Proof. exact dodeca_stereographic_cover_proof. Qed.
Print Assumptions dodeca_stereographic_cover.
