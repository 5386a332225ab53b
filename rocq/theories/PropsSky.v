(** Property theorems; generated by tools/mkprops.py from MainSky.v. *)
From Coq Require Import Reals Lra Sorted.
From Flocq Require Import Raux.
Require Import Verif.Py Verif.Geom Verif.PatchInfo Verif.TractBuilder Verif.TractInfo Verif.Spec.
Require Import Verif.SkyMap Verif.SkySpec Verif.PatchProofs Verif.TractProofs Verif.SkyProofs Verif.SkyProofs2 Verif.Examples.
Require Import Verif.MainSky.
Open Scope Z_scope.

(** C20: if all tracts of a map have the same patch counts, a tract answers every question about
    its patches in the same way after any further accesses to the map, and the answers are those
    proved in PropsPatch and PropsTract ([in_use] holds). *)
Theorem tract_answers_stable : forall (Sky : Type) (offset : Sky -> R -> R -> Sky) d n s i t s',
  cfg_ok (sd_cfg d) -> uniform_counts offset d n -> sm_reachable offset d s ->
  holds offset d i s t -> accesses offset d s s' ->
  same_answers t (sm_builder s) (sm_builder s')
  /\ in_use offset (sd_cfg d) (sm_builder s') t.
Proof. exact tract_answers_stable_proof. Qed.
Print Assumptions tract_answers_stable.

(** C20: for every map, the answers are governed by the patch counts of the tract that was
    generated last: they are right for a tract (in the sense of [in_use]) exactly when its counts
    are those of the last generated tract. *)
Theorem tract_answers_last_generated : forall (Sky : Type) (offset : Sky -> R -> R -> Sky) d s i t,
  cfg_ok (sd_cfg d) -> sm_reachable offset d s -> holds offset d i s t ->
  exists j u, holds offset d j s u /\ last (sm_log s) 0 = j
    /\ in_use offset (sd_cfg d) (sm_builder s) u
    /\ (in_use offset (sd_cfg d) (sm_builder s) t <-> t_numPatches t = t_numPatches u).
Proof. exact tract_answers_last_generated_proof. Qed.
Print Assumptions tract_answers_last_generated.

(** C20: exactly when the answers of a tract change: between two moments s and s' (s' later) a tract answers all
    questions about its patches in the same way exactly if the tracts generated last before s and before s'
    have the same patch counts (provided that the former has a patch at all). *)
Theorem tract_answers_exact : forall (Sky : Type) (offset : Sky -> R -> R -> Sky) d s i t s' u u' nx ny,
  cfg_ok (sd_cfg d) -> sm_reachable offset d s -> holds offset d i s t -> accesses offset d s s' ->
  holds offset d (last (sm_log s) 0) s u -> holds offset d (last (sm_log s') 0) s' u' ->
  t_numPatches u = (nx, ny) -> 0 < nx -> 0 < ny ->
  (same_answers t (sm_builder s) (sm_builder s') <-> t_numPatches u' = t_numPatches u).
Proof. exact tract_answers_exact_proof. Qed.
Print Assumptions tract_answers_exact.

(** C20 REFUTED, in general: whenever a tract with fewer patches in x is generated after a tract in
    use, the latter loses its last column of patches (IndexError) and renumbers its second row. *)
Theorem tract_answers_change_refuted : forall (Sky : Type) (offset : Sky -> R -> R -> Sky) d s i t j s' u nx ny nx' ny',
  cfg_ok (sd_cfg d) -> sm_reachable offset d s -> holds offset d i s t ->
  in_use offset (sd_cfg d) (sm_builder s) t ->
  0 <= j -> ~ In j (sm_log s) -> sm_getitem offset d j s = (s', Ok u) ->
  t_numPatches t = (nx, ny) -> t_numPatches u = (nx', ny') -> 0 < nx' < nx ->
  (exists p, tract_getPatchInfo (sm_builder s) t (IxIndex2D (nx - 1) 0) = Ok p)
  /\ tract_getPatchInfo (sm_builder s') t (IxIndex2D (nx - 1) 0) = Raise IndexError
  /\ getSequentialPatchIndexFromPair (sm_builder s) (IxIndex2D 0 1) = Ok nx
  /\ getSequentialPatchIndexFromPair (sm_builder s') (IxIndex2D 0 1) = Ok nx'.
Proof. exact tract_answers_change_refuted_proof. Qed.
Print Assumptions tract_answers_change_refuted.

(** C20 REFUTED, a concrete map: two tracts of 3 x 2 and 1 x 1 patches; after skymap[0], skymap[1]
    the patch (2, 0) of tract 0 is gone. *)
Theorem tract_answers_example_refuted :
  exists d s t s', cfg_ok (sd_cfg d) /\ sd_num d = 2 /\ sm_reachable flat_offset d s
    /\ holds flat_offset d 0 s t /\ accesses flat_offset d s s' /\ t_numPatches t = (3, 2)
    /\ (exists p, tract_getPatchInfo (sm_builder s) t (IxIndex2D 2 0) = Ok p)
    /\ tract_getPatchInfo (sm_builder s') t (IxIndex2D 2 0) = Raise IndexError
    /\ ~ same_answers t (sm_builder s) (sm_builder s').
Proof. exact tract_answers_example_refuted_proof. Qed.
Print Assumptions tract_answers_example_refuted.

(** C21: once an access to a valid index has returned a tract, every later access to that index
    returns the identical object without changing anything, and its id is the index. *)
Theorem tract_identity : forall (Sky : Type) (offset : Sky -> R -> R -> Sky) d s i s1 t s2,
  sm_reachable offset d s -> 0 <= i -> sm_getitem offset d i s = (s1, Ok t) ->
  accesses offset d s1 s2 ->
  sm_getitem offset d i s2 = (s2, Ok t) /\ t_id t = i.
Proof. exact tract_identity_proof. Qed.
Print Assumptions tract_identity.

(** C21: in any history each index is generated at most once, and it is generated exactly when
    an access to it has returned a tract; the tracts of different indices are different objects. *)
Theorem tract_generated_once : forall (Sky : Type) (offset : Sky -> R -> R -> Sky) d s,
  sm_reachable offset d s ->
  NoDup (sm_log s)
  /\ (forall i, In i (sm_log s) <-> exists t, holds offset d i s t)
  /\ (forall i j t u, holds offset d i s t -> holds offset d j s u -> t_oid t = t_oid u -> i = j).
Proof. exact tract_generated_once_proof. Qed.
Print Assumptions tract_generated_once.

(** C21: iterating over a sky map gives, in order, the very tracts that indexing gives. *)
Theorem sky_map_iteration : forall (Sky : Type) (offset : Sky -> R -> R -> Sky) d s s' ts,
  sm_reachable offset d s -> sm_iter offset d s = (s', Ok ts) ->
  accesses offset d s s' /\ Z.of_nat (length ts) = Z.max 0 (sd_num d)
  /\ forall i, 0 <= i < sd_num d ->
       exists t, nth_error ts (Z.to_nat i) = Some t /\ holds offset d i s' t.
Proof. exact sky_map_iteration_proof. Qed.
Print Assumptions sky_map_iteration.

(** C22: a caching sky map raises IndexError, changing nothing, for every index outside
    [0, len); any other index gives a tract of that id unless its generation itself fails. *)
Theorem caching_index_range : forall (Sky : Type) (offset : Sky -> R -> R -> Sky) d s i,
  sd_kind d = CachingMap -> sm_reachable offset d s ->
  (i < 0 \/ sm_len d s <= i -> sm_getitem offset d i s = (s, Raise IndexError))
  /\ (0 <= i < sm_len d s ->
      match sm_getitem offset d i s with
      | (s', Ok t) => t_id t = i /\ holds offset d i s' t
      | (s', Raise e) => s' = s /\
          (a <- sd_args d i ;; make_tract offset (sm_builder s) (sm_next s) i a) = Raise e
      end).
Proof. exact caching_index_range_proof. Qed.
Print Assumptions caching_index_range.

(** C22: the maps that build all tracts in the constructor accept Python list indices: every index
    in [-len, len) gives the tract of that position, all others raise IndexError. *)
Theorem eager_index_range : forall (Sky : Type) (offset : Sky -> R -> R -> Sky) d s i,
  sd_kind d = EagerMap -> sm_reachable offset d s -> 0 <= sd_num d ->
  sm_len d s = sd_num d
  /\ (i < - sm_len d s \/ sm_len d s <= i -> sm_getitem offset d i s = (s, Raise IndexError))
  /\ (0 <= i < sm_len d s -> exists t, sm_getitem offset d i s = (s, Ok t) /\ t_id t = i)
  /\ (- sm_len d s <= i < 0 -> sm_getitem offset d i s = sm_getitem offset d (sm_len d s + i) s).
Proof. exact eager_index_range_proof. Qed.
Print Assumptions eager_index_range.

(** C35: the default findTract returns the tract of the map whose centre is nearest the coordinate,
    the lowest index among equally near ones; on an empty map it raises IndexError; otherwise it
    fails only if some tract cannot be generated. *)
Theorem base_findTract_nearest : forall (Sky : Type) (offset : Sky -> R -> R -> Sky) sep d coord s s' r,
  sm_reachable offset d s -> base_findTract offset sep d coord s = (s', r) ->
  accesses offset d s s'
  /\ (sd_num d <= 0 -> r = Raise IndexError)
  /\ (forall t, r = Ok t ->
       exists i, 0 <= i < sd_num d /\ holds offset d i s' t
         /\ forall j, 0 <= j < sd_num d -> exists u, holds offset d j s' u
              /\ (sep coord (t_ctr t) <= sep coord (t_ctr u))%R
              /\ (sep coord (t_ctr u) = sep coord (t_ctr t) -> i <= j))
  /\ (forall e, r = Raise e -> 0 < sd_num d ->
       exists i s1, 0 <= i < sd_num d /\ accesses offset d s s1
         /\ sm_getitem offset d i s1 = (s', Raise e)).
Proof. exact base_findTract_nearest_proof. Qed.
Print Assumptions base_findTract_nearest.

(** C36: findTractPatchList handles the tracts of the map in order and returns those with a
    non-empty patch list, each with the list its findPatchList gave at that moment. *)
Theorem findTractPatchList_correct : forall (Sky : Type) (offset : Sky -> R -> R -> Sky) d coords s s' l,
  sm_reachable offset d s -> base_findTractPatchList offset d coords s = (s', Ok l) ->
  accesses offset d s s'
  /\ exists all, Forall2 (fun i tp => exists s1, accesses offset d s s1 /\ accesses offset d s1 s'
                            /\ holds offset d i s1 (fst tp)
                            /\ findPatchList (sm_builder s1) (fst tp) coords = Ok (snd tp))
                         (zrange 0 (sd_num d)) all
     /\ l = filter (fun tp => match snd tp with [] => false | _ => true end) all.
Proof. exact findTractPatchList_correct_proof. Qed.
Print Assumptions findTractPatchList_correct.

(** C36: hence, on a map whose builder is settled, it returns exactly the tracts with a non-empty
    patch list, each with the list that tract.findPatchList gives, in order of tract id. *)
Theorem findTractPatchList_settled : forall (Sky : Type) (offset : Sky -> R -> R -> Sky) d coords s s' l,
  settled offset d s -> sm_reachable offset d s ->
  base_findTractPatchList offset d coords s = (s', Ok l) ->
  (forall i, 0 <= i < sd_num d -> exists t pl, holds offset d i s' t
        /\ findPatchList (sm_builder s') t coords = Ok pl)
  /\ (forall t pl, In (t, pl) l <->
        (exists i, holds offset d i s' t) /\ findPatchList (sm_builder s') t coords = Ok pl /\ pl <> [])
  /\ StronglySorted (fun p q => t_id (fst p) < t_id (fst q)) l.
Proof. exact findTractPatchList_settled_proof. Qed.
Print Assumptions findTractPatchList_settled.

(** C20, C36: a map is settled when all its tracts have equal patch counts, and when all its tracts
    exist already (always, for the maps that build their tracts in the constructor). *)
Theorem settled_maps : forall (Sky : Type) (offset : Sky -> R -> R -> Sky) d s,
  sm_reachable offset d s ->
  (forall n, cfg_ok (sd_cfg d) -> uniform_counts offset d n -> settled offset d s)
  /\ ((forall i, 0 <= i < sd_num d -> exists t, holds offset d i s t) -> settled offset d s)
  /\ (sd_kind d = EagerMap -> settled offset d s).
Proof. exact settled_maps_proof. Qed.
Print Assumptions settled_maps.

(** C36: on every map and with every findTract method: findClosestTractPatchList looks up the tract of each
    coordinate in turn, takes the patch list it gives at that moment, and returns the non-empty
    (tract, list) pairs in order of first occurrence, without repeating an equal pair (the same tract and lists of pairwise equal patches). *)
Theorem findClosestTractPatchList_correct : forall (Sky : Type) (offset : Sky -> R -> R -> Sky) d ft coords s s' l,
  sm_reachable offset d s -> search offset d ft ->
  findClosestTractPatchList ft coords s = (s', Ok l) ->
  accesses offset d s s'
  /\ exists all same, Forall2 (fun c tp => exists s1, accesses offset d s s1 /\ accesses offset d s1 s'
                            /\ ft c s1 = (s1, Ok (fst tp))
                            /\ findPatchList (sm_builder s1) (fst tp) coords = Ok (snd tp))
                         coords all
     /\ (forall ps qs, same ps qs = true <-> Forall2 (fun p q => patch_eqb p q = true) ps qs)
     /\ l = first_occurrences (fun x y => Nat.eqb (t_oid (fst y)) (t_oid (fst x)) && same (snd y) (snd x))
               (filter (fun tp => match snd tp with [] => false | _ => true end) all).
Proof. exact findClosestTractPatchList_correct_proof. Qed.
Print Assumptions findClosestTractPatchList_correct.

(** C36: looking up an index computed from the coordinate is a search; so is the default findTract. *)
Theorem index_search : forall (Sky : Type) (offset : Sky -> R -> R -> Sky) d (f : Sky -> Z),
  (forall c, 0 <= f c) -> search offset d (fun c => sm_getitem offset d (f c)).
Proof. exact index_search_proof. Qed.
Print Assumptions index_search.

(** C36: findClosestTractPatchList returns exactly the tracts that findTract finds for some of the
    coordinates and that have a non-empty patch list, in order of first occurrence, each once, each
    with the list that tract.findPatchList gives (settled maps, any findTract method). *)
Theorem findClosestTractPatchList_settled : forall (Sky : Type) (offset : Sky -> R -> R -> Sky) d ft coords s s' l,
  settled offset d s -> sm_reachable offset d s -> search offset d ft ->
  findClosestTractPatchList ft coords s = (s', Ok l) ->
  exists ts, Forall2 (fun c t => ft c s' = (s', Ok t)) coords ts
    /\ (forall t pl, In (t, pl) l <->
         In t ts /\ findPatchList (sm_builder s') t coords = Ok pl /\ pl <> [])
    /\ map fst l = filter (fun t => match findPatchList (sm_builder s') t coords with
                                    | Ok (_ :: _) => true | _ => false end)
                     (first_occurrences (fun t u => Nat.eqb (t_oid t) (t_oid u)) ts)
    /\ NoDup (map (fun tp => t_id (fst tp)) l).
Proof. exact findClosestTractPatchList_settled_proof. Qed.
Print Assumptions findClosestTractPatchList_settled.

(** C36 REFUTED, the claim that each tract is listed once: on a map with tracts of different patch counts
    one call can list a tract twice, when a tract with other counts is generated in between. *)
Theorem closest_lists_tract_twice_refuted :
  exists d s ft coords s' t u p q r, cfg_ok (sd_cfg d) /\ sd_num d = 2 /\ sm_reachable flat_offset d s
    /\ search flat_offset d ft
    /\ findClosestTractPatchList ft coords s = (s', Ok [(t, [p]); (u, [q]); (t, [r])])
    /\ t_id t = 0 /\ t_id u = 1 /\ p_index p = p_index r
    /\ box_contains_box (t_bbox t) (p_outer p) = true /\ box_contains_box (t_bbox t) (p_outer r) = false.
Proof. exact closest_lists_tract_twice_refuted_proof. Qed.
Print Assumptions closest_lists_tract_twice_refuted.

(** C36: the default findTract is such a method. *)
Theorem base_findTract_search : forall (Sky : Type) (offset : Sky -> R -> R -> Sky) sep d,
  search offset d (base_findTract offset sep d).
Proof. exact base_findTract_search_proof. Qed.
Print Assumptions base_findTract_search.

(** C20-C22, C35, C36, non-vacuity: a map of two tracts of 3 x 2 patches each, reached by accesses,
    on which findTract and both patch list searches succeed with non-empty results. *)
Example sky_map_hypotheses_met :
  exists d s t, cfg_ok (sd_cfg d) /\ sd_kind d = CachingMap /\ sd_num d = 2
    /\ uniform_counts flat_offset d (3, 2)
    /\ sm_reachable flat_offset d s /\ holds flat_offset d 0 s t
    /\ tract_contains t (9999, 4999)%R = Ok true
    /\ (exists s1 u, sm_getitem flat_offset d 1 s = (s1, Ok u) /\ s1 <> s).
Proof. exact sky_map_hypotheses_met_proof. Qed.
