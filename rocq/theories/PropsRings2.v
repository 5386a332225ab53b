(** Property theorems; generated by tools/mkprops.py from MainRings2.v. *)
From Coq Require Import Reals Lra Lia.
From Flocq Require Import Raux.
Require Import Verif.Py Verif.Geom Verif.PatchInfo Verif.TractBuilder Verif.TractInfo Verif.Spec.
Require Import Verif.PatchProofs Verif.TractProofs Verif.Examples.
Require Import Verif.SkyMap Verif.SkySpec Verif.SkyProofs Verif.SkyProofs2 Verif.MainSky.
Require Import Verif.Rings Verif.RingsSpec Verif.RingsProofs Verif.RingsProofs2 Verif.RingsProofs3 Verif.MainRings.
Require Import Verif.Sphere Verif.SphereProofs Verif.TractBox Verif.Uniform Verif.RingsNum.
Require Import Verif.MainRings2.
Open Scope Z_scope.

(** C20, C27: on the sphere, with the TAN or STG projection, all tracts of a rings map have the same
    patch counts; hence the map is always settled, and every access and every findTract succeeds. *)
Theorem rings_uniform : forall c S mk ov g, cfg_ok c -> rings_wf g -> standard_wcs S mk ->
  let d := rings_def c mk ov g in
  (exists n, uniform_counts sphere_offset d n)
  /\ forall s, sm_reachable sphere_offset d s ->
     settled sphere_offset d s
     /\ (forall i, 0 <= i < rings_numTracts g -> exists s' t, sm_getitem sphere_offset d i s = (s', Ok t))
     /\ (forall coord, exists s' t, rings_findTract sphere_offset d g coord s = (s', Ok t)).
Proof. exact rings_uniform_proof. Qed.
Print Assumptions rings_uniform.

(** C20: hence every tract of such a rings map answers in the same way after any further accesses. *)
Theorem rings_answers_stable : forall c S mk ov g s i t s', cfg_ok c -> rings_wf g -> standard_wcs S mk ->
  let d := rings_def c mk ov g in
  sm_reachable sphere_offset d s -> holds sphere_offset d i s t -> accesses sphere_offset d s s' ->
  same_answers t (sm_builder s) (sm_builder s') /\ in_use sphere_offset c (sm_builder s') t.
Proof. exact rings_answers_stable_proof. Qed.
Print Assumptions rings_answers_stable.

(** C31: and findAllTracts always succeeds. *)
Theorem rings_findAllTracts_succeeds : forall c S mk ov g coord s, cfg_ok c -> rings_wf g -> at_least 3 g ->
  standard_wcs S mk -> let d := rings_def c mk ov g in
  sm_reachable sphere_offset d s ->
  exists s' l, rings_findAllTracts sphere_offset d g coord s = (s', Ok l).
Proof. exact rings_findAllTracts_succeeds_proof. Qed.
Print Assumptions rings_findAllTracts_succeeds.

(** C59: a tract of a rings or discrete map (made from a centre, a radius and an overlap) contains
    every coordinate at most radius + overlap away from its centre, provided this is below 90
    degrees (TAN) or 180 degrees (STG). *)
Theorem explicit_disc : forall c S b oid id ctr radius overlap mk corners b' t coord,
  cfg_ok c -> builder_reachable c b -> (0 < S)%R ->
  mk = tan_wcs S /\ (0 <= radius + overlap < PI / 2)%R \/ mk = stg_wcs S /\ (0 <= radius + overlap < PI)%R ->
  ExplicitTractInfo_init sphere_offset b oid id ctr radius overlap (mk ctr) corners = Ok (b', t) ->
  (separation coord ctr <= radius + overlap)%R ->
  tract_contains t coord = Ok true.
Proof. exact explicit_disc_proof. Qed.
Print Assumptions explicit_disc.

(** C33, what does hold: findTract's tract contains every coordinate within half a ring height plus
    the overlap of the tract's centre. *)
Theorem rings_overlap_disc : forall c S mk ov g coord s s' t,
  cfg_ok c -> rings_wf g -> (0 < S)%R ->
  mk = tan_wcs S /\ (0 <= rg_size g / 2 + deg ov < PI / 2)%R \/ mk = stg_wcs S /\ (0 <= rg_size g / 2 + deg ov < PI)%R ->
  let d := rings_def c mk ov g in
  sm_reachable sphere_offset d s -> rings_findTract sphere_offset d g coord s = (s', Ok t) ->
  (separation coord (t_ctr t) <= rg_size g / 2 + deg ov)%R ->
  tract_contains t coord = Ok true.
Proof. exact rings_overlap_disc_proof. Qed.
Print Assumptions rings_overlap_disc.

(** C33 REFUTED: with the default configuration of RingsSkyMap's parents (STG, 0.333 arcsec pixels,
    1 degree overlap, 4000 pixel patches) and three rings there is a coordinate whose findTract tract
    does not contain it, whatever was accessed before. *)
Theorem rings_full_overlap_refuted :
  exists g coord, rings_init 3 0 1 = Ok g /\ rings_wf g /\ on_sphere coord
    /\ let d := rings_def legacy_default (stg_wcs (arcsec_scale (333 / 1000))) 1 g in
       (exists s, sm_reachable sphere_offset d s)
       /\ forall s, sm_reachable sphere_offset d s ->
          exists s' t, rings_findTract sphere_offset d g coord s = (s', Ok t)
            /\ tract_contains t coord = Ok false.
Proof. exact rings_full_overlap_refuted_proof. Qed.
Print Assumptions rings_full_overlap_refuted.

(** C32 REFUTED, a concrete map: three rings, version 0, default configuration: findAllTracts of the
    north pole lists the north cap twice, whatever was accessed before.  (Also shows that the
    hypotheses of the theorems about rings maps can be met.) *)
Theorem rings_v0_cap_twice_example_refuted :
  exists g, rings_init 3 0 0 = Ok g /\ rings_wf g /\ at_least 3 g
    /\ let d := rings_def legacy_default (stg_wcs (arcsec_scale (333 / 1000))) 1 g in
       (exists s, sm_reachable sphere_offset d s)
       /\ forall s, sm_reachable sphere_offset d s ->
          exists s' t l1 l2, rings_findAllTracts sphere_offset d g (0, PI / 2)%R s = (s', Ok (l1 ++ t :: l2 ++ [t]))
            /\ holds sphere_offset d (rings_numTracts g - 1) s' t.
Proof. exact rings_v0_cap_twice_example_refuted_proof. Qed.
Print Assumptions rings_v0_cap_twice_example_refuted.
