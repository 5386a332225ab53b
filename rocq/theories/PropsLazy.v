(** Property theorems; generated by tools/mkprops.py from MainLazy.v. *)
From Coq Require Import Reals Lia.
Require Import Verif.Py Verif.Geom Verif.PatchInfo Verif.TractBuilder Verif.TractInfo Verif.Spec.
Require Import Verif.SkyMap Verif.SkySpec Verif.SkyProofs Verif.SkyProofs2 Verif.MainSky.
Require Import Verif.Sphere Verif.Maps Verif.Rings Verif.RingsSpec Verif.Examples Verif.RingsProofs Verif.RingsProofs2 Verif.RingsProofs3 Verif.RingsNear Verif.RingsNum Verif.SphereProofs Verif.Uniform Verif.TractBox Verif.MainMaps Verif.MainRings Verif.MainRings2 Verif.MainRings3.
Require Import Verif.MainLazy.
Open Scope list_scope.
Open Scope Z_scope.

(** C98: a new Rings, HEALPix or Discrete map has no tracts; a new Equat or Dodeca map has all, and no operation on it makes another. *)
Theorem lazy_new : forall (Sky : Type) (offset : Sky -> R -> R -> Sky) d s, sm_new offset d = Ok s ->
  match sd_kind d with
  | CachingMap => forall i t, ~ holds offset d i s t
  | EagerMap => (forall i, 0 <= i < sd_num d -> exists t, holds offset d i s t)
                /\ forall s', accesses offset d s s' -> s' = s
  end.
Proof. exact lazy_new_proof. Qed.
Print Assumptions lazy_new.

(** C98: an access to a tract generates at most that tract, and none if it raises. *)
Theorem lazy_getitem : forall (Sky : Type) (offset : Sky -> R -> R -> Sky) d s i s' r, sm_reachable offset d s ->
  sm_getitem offset d i s = (s', r) -> generates_only offset d s s' (match r with Ok _ => [i] | Raise _ => [] end).
Proof. exact lazy_getitem_proof. Qed.
Print Assumptions lazy_getitem.

(** C98: findTract of a Rings or HEALPix map generates at most the tract it returns, and none if it raises. *)
Theorem lazy_findTract : forall d g coord s s' r, sm_reachable sphere_offset d s ->
  rings_findTract sphere_offset d g coord s = (s', r) ->
  match r with
  | Ok t => exists i, generates_only sphere_offset d s s' [i] /\ (0 <= i -> holds sphere_offset d i s' t)
  | Raise _ => generates_only sphere_offset d s s' []
  end.
Proof. exact lazy_findTract_proof. Qed.
Print Assumptions lazy_findTract.

(** C98: the same on a HEALPix map. *)
Theorem lazy_findTract_healpix : forall angle_to_pixel d nside nest coord s s' r, sm_reachable sphere_offset d s ->
  healpix_findTract angle_to_pixel sphere_offset d nside nest coord s = (s', r) ->
  match r with
  | Ok t => exists i, generates_only sphere_offset d s s' [i] /\ (0 <= i -> holds sphere_offset d i s' t)
  | Raise _ => generates_only sphere_offset d s s' []
  end.
Proof. exact lazy_findTract_healpix_proof. Qed.
Print Assumptions lazy_findTract_healpix.

(** C98: however many tracts the map has, findAllTracts of a Rings map generates at most eleven (three in each of three rings, and the caps), and
    findTractPatchList of n coordinates at most 11 n, also if they raise. *)
Theorem lazy_findAllTracts : forall d g coord s s' r, sm_reachable sphere_offset d s ->
  rings_findAllTracts sphere_offset d g coord s = (s', r) ->
  exists l, (Datatypes.length l <= 11)%nat /\ generates_only sphere_offset d s s' l.
Proof. exact lazy_findAllTracts_proof. Qed.
Print Assumptions lazy_findAllTracts.

(** C98: findTractPatchList of a Rings map. *)
Theorem lazy_findTractPatchList : forall d g coords s s' r, sm_reachable sphere_offset d s ->
  rings_findTractPatchList sphere_offset d g coords s = (s', r) ->
  exists l, (Datatypes.length l <= 11 * Datatypes.length coords)%nat /\ generates_only sphere_offset d s s' l.
Proof. exact lazy_findTractPatchList_proof. Qed.
Print Assumptions lazy_findTractPatchList.

(** C98: findClosestTractPatchList of n coordinates generates at most n tracts on a Rings or HEALPix map. *)
Theorem lazy_closest : forall d g coords s s' r, sm_reachable sphere_offset d s ->
  findClosestTractPatchList (rings_findTract sphere_offset d g) coords s = (s', r) ->
  exists l, (Datatypes.length l <= Datatypes.length coords)%nat /\ generates_only sphere_offset d s s' l.
Proof. exact lazy_closest_proof. Qed.
Print Assumptions lazy_closest.

(** C98: the same on a HEALPix map. *)
Theorem lazy_closest_healpix : forall angle_to_pixel d nside nest coords s s' r, sm_reachable sphere_offset d s ->
  findClosestTractPatchList (healpix_findTract angle_to_pixel sphere_offset d nside nest) coords s = (s', r) ->
  exists l, (Datatypes.length l <= Datatypes.length coords)%nat /\ generates_only sphere_offset d s s' l.
Proof. exact lazy_closest_healpix_proof. Qed.
Print Assumptions lazy_closest_healpix.

(** C98: a Discrete map, whose findTract and findTractPatchList are those of the base class, generates all its tracts in the first of them that succeeds. *)
Theorem lazy_base : forall (Sky : Type) (offset : Sky -> R -> R -> Sky) d s, sm_reachable offset d s ->
  (forall sep coord s' t, base_findTract offset sep d coord s = (s', Ok t) -> forall i, 0 <= i < sd_num d -> exists u, holds offset d i s' u)
  /\ (forall coords s' l, base_findTractPatchList offset d coords s = (s', Ok l) -> forall i, 0 <= i < sd_num d -> exists u, holds offset d i s' u).
Proof. exact lazy_base_proof. Qed.
Print Assumptions lazy_base.

(** C98: the hypotheses can be met: in a new Rings map of the default configuration with three rings, findTract makes one tract, and
    findAllTracts thereafter succeeds. *)
Example lazy_example :
  exists g, rings_init 3 0 1 = Ok g /\
    let d := rings_def legacy_default (stg_wcs (arcsec_scale (333 / 1000))) 1 g in
    sd_num d = 26 /\
    exists s s' t s'' l, sm_new sphere_offset d = Ok s /\ rings_findTract sphere_offset d g (0, 0)%R s = (s', Ok t)
      /\ (forall i u, holds sphere_offset d i s' u <-> i = t_id t /\ u = t)
      /\ rings_findAllTracts sphere_offset d g (0, 0)%R s' = (s'', Ok l).
Proof. exact lazy_example_proof. Qed.
