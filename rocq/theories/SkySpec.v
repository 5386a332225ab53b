(** The vocabulary for properties of whole sky maps. *)
From Coq Require Import Reals.
Require Import Verif.Py Verif.Geom Verif.PatchInfo Verif.TractBuilder Verif.TractInfo Verif.Spec.
Require Import Verif.SkyMap.
Open Scope Z_scope.

Section SkyMap.
Context {Sky : Type}.
Variable offset : Sky -> R -> R -> Sky.

(** [s] is reached from [s0] by some sequence of accesses [skymap[i]],
    successful or not (all searches and iterations are such sequences). *)
Inductive accesses (d : skydef Sky) (s0 : smstate Sky) : smstate Sky -> Prop :=
| acc_none : accesses d s0 s0
| acc_get s i s' r :
    accesses d s0 s -> sm_getitem offset d i s = (s', r) -> accesses d s0 s'.

(** The state of a sky map object after its construction and any history of accesses. *)
Definition sm_reachable (d : skydef Sky) (s : smstate Sky) : Prop :=
  exists s0, sm_new offset d = Ok s0 /\ accesses d s0 s.

(** The tract object [t] of the map exists (was returned by an access). *)
Definition holds (d : skydef Sky) (i : Z) (s : smstate Sky) (t : tract Sky) : Prop :=
  0 <= i /\ sm_getitem offset d i s = (s, Ok t).

(** All tracts of the map have the same patch counts: whatever tract is made
    from the arguments of index [i], in whatever builder state, has counts [n]. *)
Definition uniform_counts (d : skydef Sky) (n : pair2) : Prop :=
  forall i a b oid b' t, 0 <= i < sd_num d -> sd_args d i = Ok a ->
    builder_reachable (sd_cfg d) b ->
    make_tract offset b oid i a = Ok (b', t) -> t_numPatches t = n.

(** From [s] on, no access changes the shared builder once a tract exists: the
    case when all tracts have equal patch counts or all exist already. *)
Definition settled (d : skydef Sky) (s : smstate Sky) : Prop :=
  forall s1 s2 i t, accesses d s s1 -> holds d i s1 t -> accesses d s1 s2 ->
    sm_builder s2 = sm_builder s1.

(** Tracts with the same contents (they may be different objects). *)
Definition same_tract (t t' : tract Sky) : Prop :=
  t_id t = t_id t' /\ t_ctr t = t_ctr t' /\ t_verts t = t_verts t' /\ t_overlap t = t_overlap t'
  /\ t_numPatches t = t_numPatches t' /\ t_bbox t = t_bbox t' /\ t_wcs t = t_wcs t'
  /\ t_innerBoxCorners t = t_innerBoxCorners t'.

(** The tract answers every question about its patches in the same way in the
    builder states [b] and [b']. *)
Definition same_answers (t : tract Sky) (b b' : builder) : Prop :=
  (forall ix, tract_getPatchInfo b t ix = tract_getPatchInfo b' t ix)
  /\ (forall ix, getSequentialPatchIndexFromPair b ix = getSequentialPatchIndexFromPair b' ix)
  /\ (forall n, getPatchIndexPair b n = getPatchIndexPair b' n)
  /\ (forall coord, findPatch b t coord = findPatch b' t coord)
  /\ (forall coords, findPatchList b t coords = findPatchList b' t coords)
  /\ tract_iter b t = tract_iter b' t.
End SkyMap.

(** The list without later repetitions (by key), in order of first occurrence. *)
Definition first_occurrences {A} (same : A -> A -> bool) (l : list A) : list A :=
  fold_left (fun acc x => if existsb (same x) acc then acc else acc ++ [x]) l [].

(** A method [findTract] that works through accesses to the map: it returns a
    tract of the map, changes the state only by accesses, and its result does
    not depend on the history. *)
Record search {Sky} (offset : Sky -> R -> R -> Sky) (d : skydef Sky)
    (ft : Sky -> SM Sky (tract Sky)) : Prop := {
  se_acc : forall c s s' r, sm_reachable offset d s -> ft c s = (s', r) -> accesses offset d s s';
  se_holds : forall c s s' t, sm_reachable offset d s -> ft c s = (s', Ok t) ->
     exists i, holds offset d i s' t;
  se_stable : forall c s s' t s1, sm_reachable offset d s -> ft c s = (s', Ok t) ->
     accesses offset d s' s1 -> ft c s1 = (s1, Ok t) }.
