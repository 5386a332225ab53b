(** Property theorems; generated by tools/mkprops.py from MainRings.v. *)
From Coq Require Import Reals Lra Sorted.
From Flocq Require Import Raux.
Require Import Verif.Py Verif.Geom Verif.PatchInfo Verif.TractBuilder Verif.TractInfo Verif.Spec.
Require Import Verif.SkyMap Verif.SkySpec Verif.SkyProofs Verif.SkyProofs2.
Require Import Verif.Rings Verif.RingsSpec Verif.RingsProofs Verif.RingsProofs2 Verif.RingsProofs3.
Require Import Verif.MainRings.
Open Scope Z_scope.

(** C24: the constructor accepts versions 0 and 1 only, and makes a layout of numRings rings of at
    least 3 tracts each; len(skymap) is the sum of the ring sizes plus 2. *)
Theorem rings_layout : forall numRings raStart version,
  1 <= numRings ->
  (version <> 0 -> version <> 1 -> rings_init numRings raStart version = Raise AssertionError)
  /\ (version = 0 \/ version = 1 ->
      exists g, rings_init numRings raStart version = Ok g
        /\ rings_wf g /\ at_least 3 g
        /\ rg_numRings g = numRings /\ rg_version g = version
        /\ forall (c : tb_config) mk ov, sd_num (rings_def c mk ov g) = zsum (rg_nums g) + 2).
Proof. exact rings_layout_proof. Qed.
Print Assumptions rings_layout.

(** C25: version 1 numbering: index 0 is the south cap, index len-1 the north cap, and tract t of
    ring r has index 1 + (tracts in the rings before r) + t; every other index has exactly one such
    pair, larger indices have lexicographically larger pairs, and out-of-range indices raise. *)
Theorem rings_numbering : forall g, rings_wf g -> rg_version g = 1 ->
  getRingIndices g 0 = Ok (-1, 0)
  /\ getRingIndices g (rings_numTracts g - 1) = Ok (rg_numRings g, 0)
  /\ (forall r n t, ring_has g r n -> 0 <= t < n ->
        0 < 1 + before g r + t < rings_numTracts g - 1
        /\ getRingIndices g (1 + before g r + t) = Ok (r, t))
  /\ (forall i, 0 < i < rings_numTracts g - 1 ->
        exists r n t, ring_has g r n /\ 0 <= t < n /\ i = 1 + before g r + t)
  /\ (forall i j r t r' t', 0 <= i < rings_numTracts g -> 0 <= j < rings_numTracts g ->
        getRingIndices g i = Ok (r, t) -> getRingIndices g j = Ok (r', t') ->
        (i < j <-> r < r' \/ r = r' /\ t < t'))
  /\ (forall i, i < 0 \/ rings_numTracts g <= i -> getRingIndices g i = Raise IndexError).
Proof. exact rings_numbering_proof. Qed.
Print Assumptions rings_numbering.

(** C25: the tracts of a version 1 map have pairwise different centres; the centre of tract t of
    ring r is at RA raStart + 360 t / n and at the middle declination of the ring. *)
Theorem rings_centres_distinct : forall g, rings_wf g -> rg_version g = 1 ->
  (forall r n t, ring_has g r n -> 0 <= t < n ->
     rings_center g (1 + before g r + t)
     = Ok (wrap (2 * PI * IZR t / IZR n + rg_raStart g),
           (firstRingStart g + (IZR r + 1 / 2) * rg_size g))%R)
  /\ forall i j c, 0 <= i < rings_numTracts g -> 0 <= j < rings_numTracts g ->
       rings_center g i = Ok c -> rings_center g j = Ok c -> i = j.
Proof. exact rings_centres_distinct_proof. Qed.
Print Assumptions rings_centres_distinct.

(** C26: version 0 numbering against version 1 of the same layout: all tracts have the version 1
    position except the first tract of each ring after the first, which has the position of the
    first tract of the ring before. *)
Theorem rings_v0_numbering : forall g, rings_wf g -> rg_version g = 0 ->
  rings_numTracts (with_version g 1) = rings_numTracts g
  /\ (forall i, 0 <= i < rings_numTracts g ->
       (forall r, 1 <= r < rg_numRings g -> i <> 1 + before g r) ->
       rings_center g i = rings_center (with_version g 1) i)
  /\ (forall r, 1 <= r < rg_numRings g ->
       rings_center g (1 + before g r) = rings_center (with_version g 1) (1 + before g (r - 1))).
Proof. exact rings_v0_numbering_proof. Qed.
Print Assumptions rings_v0_numbering.

(** C26: hence with at least two rings exactly one pair of tracts coincides, indices 1 and
    ringNums[0]+1, no tract is at the position of the first tract of the last ring, and every other
    version 1 position occurs; with one ring the versions agree. *)
Theorem rings_v0_defects : forall g n0, rings_wf g -> rg_version g = 0 -> ring_has g 0 n0 ->
  (rg_numRings g = 1 -> forall i, 0 <= i < rings_numTracts g ->
     rings_center g i = rings_center (with_version g 1) i)
  /\ (2 <= rg_numRings g ->
      rings_center g 1 = rings_center g (n0 + 1)
      /\ (forall i j c, 0 <= i < j -> j < rings_numTracts g ->
            rings_center g i = Ok c -> rings_center g j = Ok c -> i = 1 /\ j = n0 + 1)
      /\ (forall i, 0 <= i < rings_numTracts g -> rings_center g i
            <> rings_center (with_version g 1) (1 + before g (rg_numRings g - 1)))
      /\ (forall i, 0 <= i < rings_numTracts g -> i <> 1 + before g (rg_numRings g - 1) ->
            exists j, 0 <= j < rings_numTracts g /\ rings_center g j = rings_center (with_version g 1) i)).
Proof. exact rings_v0_defects_proof. Qed.
Print Assumptions rings_v0_defects.

(** C27: findTract selects an index of the map for every coordinate, in both versions, and then
    returns exactly what skymap[index] returns; the arguments of that tract can be computed. *)
Theorem rings_findTract_total : forall offset c mk ov g coord s, rings_wf g ->
  exists i, rings_findIndex g coord = Ok i /\ 0 <= i < rings_numTracts g
    /\ rings_findTract offset (rings_def c mk ov g) g coord s
       = sm_getitem offset (rings_def c mk ov g) i s
    /\ exists a, sd_args (rings_def c mk ov g) i = Ok a.
Proof. exact rings_findTract_total_proof. Qed.
Print Assumptions rings_findTract_total.

(** C28: findTract of a tract's centre is that tract: for every index with version 1; with version 0
    for every index except the duplicate ringNums[0]+1 (if there are two rings or more), whose
    centre is found in tract 1. *)
Theorem rings_centre_found : forall g i c, rings_wf g -> 0 <= i < rings_numTracts g ->
  rings_center g i = Ok c ->
  (rg_version g = 1 -> rings_findIndex g c = Ok i)
  /\ (rg_version g = 0 -> forall n0, ring_has g 0 n0 ->
      (2 <= rg_numRings g /\ i = n0 + 1 -> rings_findIndex g c = Ok 1)
      /\ (rg_numRings g = 1 \/ i <> n0 + 1 -> rings_findIndex g c = Ok i)).
Proof. exact rings_centre_found_proof. Qed.
Print Assumptions rings_centre_found.

(** C29: version 1: every coordinate lies in the RA/Dec range of the tract that findTract selects,
    and a coordinate strictly inside the range of a tract is assigned that tract (so the open
    ranges are pairwise disjoint and the closed ranges cover the sky). *)
Theorem rings_ranges : forall g coord, rings_wf g -> at_least 2 g -> rg_version g = 1 ->
  on_sphere coord ->
  (exists i range, rings_findIndex g coord = Ok i /\ getRaDecRange g i = Ok range /\ in_range range coord)
  /\ (forall i range, 0 <= i < rings_numTracts g -> getRaDecRange g i = Ok range ->
       inside_range range coord -> rings_findIndex g coord = Ok i).
Proof. exact rings_ranges_proof. Qed.
Print Assumptions rings_ranges.

(** C30: findTractIdArray gives, element by element, the id of the tract that findTract returns for
    the coordinate SpherePoint(ra, dec), in radians and in degrees, for any ra and dec and both
    versions; it never fails. *)
Theorem rings_findTractIdArray_agrees : forall g degrees radecs, rings_wf g ->
  let coord rd := if (degrees : bool) then spherePoint (deg (fst rd)) (deg (snd rd))
                  else spherePoint (fst rd) (snd rd) in
  exists ids, rings_findTractIdArray g degrees radecs = Ok ids
    /\ Forall2 (fun rd i => rings_findIndex g (coord rd) = Ok i) radecs ids
    /\ forall offset c mk ov s, sm_reachable offset (rings_def c mk ov g) s ->
         Forall2 (fun rd i => forall s' t,
             rings_findTract offset (rings_def c mk ov g) g (coord rd) s = (s', Ok t) -> t_id t = i) radecs ids.
Proof. exact rings_findTractIdArray_agrees_proof. Qed.
Print Assumptions rings_findTractIdArray_agrees.

(** C31: findAllTracts returns only tracts of the map that contain the coordinate; it returns the
    tract that findTract selects, and each polar cap, whenever these contain the coordinate; with
    version 1 it returns no tract twice, with version 0 none but the north cap. *)
Theorem rings_findAllTracts_correct : forall offset c mk ov g coord s s' l,
  rings_wf g -> at_least 3 g ->
  let d := rings_def c mk ov g in
  sm_reachable offset d s -> rings_findAllTracts offset d g coord s = (s', Ok l) ->
  accesses offset d s s'
  /\ (forall t, In t l -> tract_contains t coord = Ok true /\ exists i, holds offset d i s' t)
  /\ (forall i, rings_findIndex g coord = Ok i \/ i = 0 \/ i = rings_numTracts g - 1 ->
        exists t, holds offset d i s' t /\ (tract_contains t coord = Ok true -> In t l))
  /\ (rg_version g = 1 -> NoDup (map t_id l))
  /\ NoDup (filter (fun i => negb (i =? rings_numTracts g - 1)) (map t_id l)).
Proof. exact rings_findAllTracts_correct_proof. Qed.
Print Assumptions rings_findAllTracts_correct.

(** C31: findAllTracts fails only if one of the tracts it tries cannot be generated or the WCS of
    one raises an exception other than the two that contains() catches. *)
Theorem rings_findAllTracts_total : forall offset c mk ov g coord s s' e,
  rings_wf g -> at_least 3 g ->
  let d := rings_def c mk ov g in
  sm_reachable offset d s -> rings_findAllTracts offset d g coord s = (s', Raise e) ->
  exists i s1, 0 <= i < rings_numTracts g /\ accesses offset d s s1 /\
    (sm_getitem offset d i s1 = (s', Raise e)
     \/ exists t, sm_getitem offset d i s1 = (s', Ok t) /\ tract_contains t coord = Raise e).
Proof. exact rings_findAllTracts_total_proof. Qed.
Print Assumptions rings_findAllTracts_total.

(** C32 REFUTED for version 0: with two rings or more, for a coordinate in the north polar range
    whose RA is less than one tract width (of the last ring) east of raStart, findAllTracts returns
    the north cap twice (if the cap contains the coordinate). *)
Theorem rings_v0_cap_twice_refuted : forall offset c mk ov g n coord s s' l,
  rings_wf g -> at_least 3 g -> rg_version g = 0 -> 2 <= rg_numRings g ->
  ring_has g (rg_numRings g - 1) n ->
  let d := rings_def c mk ov g in
  sm_reachable offset d s ->
  (- firstRingStart g <= snd coord)%R -> (wrap (fst coord - rg_raStart g) < 2 * PI / IZR n)%R ->
  rings_findAllTracts offset d g coord s = (s', Ok l) ->
  exists t, holds offset d (rings_numTracts g - 1) s' t
    /\ (tract_contains t coord = Ok true -> exists l1 l2, l = l1 ++ t :: l2 ++ [t]).
Proof. exact rings_v0_cap_twice_refuted_proof. Qed.
Print Assumptions rings_v0_cap_twice_refuted.

(** C36: the rings findTract is a search in the sense used by findClosestTractPatchList. *)
Theorem rings_findTract_search : forall offset c mk ov g, rings_wf g ->
  search offset (rings_def c mk ov g) (rings_findTract offset (rings_def c mk ov g) g).
Proof. exact rings_findTract_search_proof. Qed.
Print Assumptions rings_findTract_search.

(** C34: findTractPatchList returns exactly the tracts that findAllTracts finds for some of the
    coordinates and that have a non-empty patch list, each once, in order of first occurrence, each
    with the list that tract.findPatchList gives (settled maps). *)
Theorem rings_findTractPatchList_correct : forall offset c mk ov g coords s s' l,
  rings_wf g -> at_least 3 g ->
  let d := rings_def c mk ov g in
  settled offset d s -> sm_reachable offset d s ->
  rings_findTractPatchList offset d g coords s = (s', Ok l) ->
  exists tss, Forall2 (fun co ts => rings_findAllTracts offset d g co s' = (s', Ok ts)) coords tss
    /\ (forall t pl, In (t, pl) l <->
          In t (concat tss) /\ findPatchList (sm_builder s') t coords = Ok pl /\ pl <> [])
    /\ (forall t pl, In (t, pl) l -> exists co, In co coords /\ tract_contains t co = Ok true)
    /\ map fst l = filter (fun t => match findPatchList (sm_builder s') t coords with
                                    | Ok (_ :: _) => true | _ => false end)
                     (first_occurrences (fun t u => Nat.eqb (t_oid t) (t_oid u)) (concat tss))
    /\ NoDup (map (fun tp => t_id (fst tp)) l).
Proof. exact rings_findTractPatchList_correct_proof. Qed.
Print Assumptions rings_findTractPatchList_correct.
