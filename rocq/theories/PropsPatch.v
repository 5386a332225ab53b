(** Property theorems; generated by tools/mkprops.py from MainPatch.v. *)
From Coq Require Import Reals Lra.
From Flocq Require Import Raux.
Require Import Verif.Py Verif.Geom Verif.PatchInfo Verif.TractBuilder Verif.TractInfo Verif.Spec.
Require Import Verif.PatchProofs Verif.Examples.
From Coq Require Import ZifyBool.
Require Import Verif.MainPatch.
Open Scope Z_scope.

(** C01: setting up patches never fails; the grown box contains the minimum box, is an exact
    multiple of the patch size, exceeds the minimum box by less than one patch per axis, and the
    added pixels on the two sides of an axis differ by at most one. *)
Theorem tract_growth : forall c b m,
  cfg_ok c -> builder_reachable c b -> box_wf m ->
  exists b' bbox nx ny,
    setupPatches b m = Ok (b', (bbox, (nx, ny)))
    /\ (forall px py, in_box px py m -> in_box px py bbox)
    /\ dimx bbox = nx * fst (cfg_inner c) /\ dimy bbox = ny * snd (cfg_inner c)
    /\ dimx m <= dimx bbox < dimx m + fst (cfg_inner c)
    /\ dimy m <= dimy bbox < dimy m + snd (cfg_inner c)
    /\ (let left := minx m - minx bbox in
        let right := (minx bbox + dimx bbox) - (minx m + dimx m) in
        0 <= left <= right /\ right <= left + 1)
    /\ (let below := miny m - miny bbox in
        let above := (miny bbox + dimy bbox) - (miny m + dimy m) in
        0 <= below <= above /\ above <= below + 1).
Proof. exact tract_growth_proof. Qed.
Print Assumptions tract_growth.

(** C01, tract level: a tract's bounding box starts at (0,0) and its size is the number of
    patches times the patch size (both counts are zero or both are positive). *)
Theorem tract_box_exact : forall (Sky : Type) (offset : Sky -> R -> R -> Sky) c t,
  cfg_ok c -> tract_made offset c t ->
  exists nx ny, t_numPatches t = (nx, ny) /\ 0 <= nx /\ 0 <= ny /\ (nx = 0 <-> ny = 0)
    /\ t_bbox t = Box 0 0 (nx * fst (cfg_inner c)) (ny * snd (cfg_inner c)).
Proof. exact tract_box_exact_proof. Qed.
Print Assumptions tract_box_exact.

(** C02: every pixel of the tract is in the inner box of exactly one patch, inner boxes do not
    leave the tract and all have the configured size. *)
Theorem patches_tile_tract : forall (Sky : Type) (offset : Sky -> R -> R -> Sky) c b t,
  cfg_ok c -> in_use offset c b t ->
  (forall px py, in_box px py (t_bbox t) ->
     exists x y p, tract_getPatchInfo b t (IxIndex2D x y) = Ok p /\ in_box px py (p_inner p)
       /\ forall x' y' p', tract_getPatchInfo b t (IxIndex2D x' y') = Ok p' ->
            in_box px py (p_inner p') -> x' = x /\ y' = y)
  /\ (forall ix p, tract_getPatchInfo b t ix = Ok p ->
        box_dims (p_inner p) = cfg_inner c
        /\ forall px py, in_box px py (p_inner p) -> in_box px py (t_bbox t)).
Proof. exact patches_tile_tract_proof. Qed.
Print Assumptions patches_tile_tract.

(** C03: with the legacy builder the outer box consists of exactly the tract pixels at most
    patch_border away, in x and in y, from some pixel of the inner box; in particular it contains
    the inner box and never leaves the tract. *)
Theorem legacy_outer : forall (Sky : Type) (offset : Sky -> R -> R -> Sky) inner border b t x y p,
  cfg_ok (LegacyCfg inner border) -> in_use offset (LegacyCfg inner border) b t ->
  tract_getPatchInfo b t (IxIndex2D x y) = Ok p ->
  (forall px py, in_box px py (p_outer p) <->
     in_box px py (t_bbox t)
     /\ exists qx qy, in_box qx qy (p_inner p) /\ Z.abs (px - qx) <= border /\ Z.abs (py - qy) <= border)
  /\ (forall px py, in_box px py (p_inner p) -> in_box px py (p_outer p)).
Proof. exact legacy_outer_proof. Qed.
Print Assumptions legacy_outer.

(** C04: with the cells builder the outer box is the inner box enlarged on every side by the
    widths of the border cells plus the cell border (the cell width is used for both axes), without
    clipping at the tract edge. *)
Theorem cells_outer : forall (Sky : Type) (offset : Sky -> R -> R -> Sky) cw ch cb nI nB b t x y p,
  cfg_ok (CellCfg (cw, ch) cb nI nB) -> in_use offset (CellCfg (cw, ch) cb nI nB) b t ->
  tract_getPatchInfo b t (IxIndex2D x y) = Ok p ->
  enlarged (nB * cw + cb) (p_inner p) (p_outer p).
Proof. exact cells_outer_proof. Qed.
Print Assumptions cells_outer.

(** C05: a pair is accepted exactly when it is in range (given as Index2D or as any sequence of
    two ints), and IndexError is raised otherwise; the internal consistency errors never occur. *)
Theorem patch_lookup_pair : forall (Sky : Type) (offset : Sky -> R -> R -> Sky) c b t x y nx ny,
  cfg_ok c -> in_use offset c b t -> t_numPatches t = (nx, ny) ->
  (0 <= x < nx /\ 0 <= y < ny ->
     exists p, tract_getPatchInfo b t (IxIndex2D x y) = Ok p
            /\ tract_getPatchInfo b t (IxSeq [x; y]) = Ok p /\ p_index p = (x, y))
  /\ (~ (0 <= x < nx /\ 0 <= y < ny) ->
     tract_getPatchInfo b t (IxIndex2D x y) = Raise IndexError
     /\ tract_getPatchInfo b t (IxSeq [x; y]) = Raise IndexError).
Proof. exact patch_lookup_pair_proof. Qed.
Print Assumptions patch_lookup_pair.

(** C05, sequential numbers: a number is accepted exactly when 0 <= n < len(tract), and then
    denotes the patch with that sequential index; otherwise IndexError (for a tract without
    patches, as built from positions that cannot be computed, ZeroDivisionError). *)
Theorem patch_lookup_number : forall (Sky : Type) (offset : Sky -> R -> R -> Sky) c b t n,
  cfg_ok c -> in_use offset c b t ->
  (0 <= n < tract_len t ->
     exists p, tract_getPatchInfo b t (IxNum n) = Ok p /\ p_seq p = n)
  /\ (~ (0 <= n < tract_len t) ->
     tract_getPatchInfo b t (IxNum n) =
       Raise (if tract_len t =? 0 then ZeroDivisionError else IndexError)).
Proof. exact patch_lookup_number_proof. Qed.
Print Assumptions patch_lookup_number.

(** C05, malformed indices: sequences of another length and non-iterables raise TypeError. *)
Theorem patch_lookup_malformed : forall (Sky : Type) (offset : Sky -> R -> R -> Sky) c b t l,
  cfg_ok c -> in_use offset c b t ->
  tract_getPatchInfo b t IxOther = Raise TypeError
  /\ (length l <> 2%nat -> tract_getPatchInfo b t (IxSeq l) = Raise TypeError).
Proof. exact patch_lookup_malformed_proof. Qed.
Print Assumptions patch_lookup_malformed.

(** C06: getSequentialPatchIndexFromPair and getPatchIndexPair are mutually inverse between the
    valid pairs and 0..len-1, and the number stored in a patch is the one of its pair. *)
Theorem sequential_patch_bijection : forall (Sky : Type) (offset : Sky -> R -> R -> Sky) c b t nx ny,
  cfg_ok c -> in_use offset c b t -> t_numPatches t = (nx, ny) ->
  (forall x y, 0 <= x < nx -> 0 <= y < ny ->
     exists n, getSequentialPatchIndexFromPair b (IxIndex2D x y) = Ok n
       /\ 0 <= n < tract_len t /\ getPatchIndexPair b n = Ok (x, y))
  /\ (forall n, 0 <= n < tract_len t ->
     exists x y, getPatchIndexPair b n = Ok (x, y) /\ 0 <= x < nx /\ 0 <= y < ny
       /\ getSequentialPatchIndexFromPair b (IxIndex2D x y) = Ok n)
  /\ (forall x y p, tract_getPatchInfo b t (IxIndex2D x y) = Ok p ->
     getSequentialPatchIndexFromPair b (IxIndex2D x y) = Ok (p_seq p)
     /\ getSequentialPatchIndex b p = Ok (p_seq p)).
Proof. exact sequential_patch_bijection_proof. Qed.
Print Assumptions sequential_patch_bijection.

(** C07: iterating a tract yields len(tract) patches, the k-th being tract[k] with sequential
    index k; hence every patch occurs exactly once. *)
Theorem tract_iteration : forall (Sky : Type) (offset : Sky -> R -> R -> Sky) c b t,
  cfg_ok c -> in_use offset c b t ->
  exists ps, tract_iter b t = Ok ps
    /\ Z.of_nat (length ps) = tract_len t
    /\ (forall k p, nth_error ps k = Some p ->
          tract_getPatchInfo b t (IxNum (Z.of_nat k)) = Ok p /\ p_seq p = Z.of_nat k)
    /\ (forall ix p, tract_getPatchInfo b t ix = Ok p -> In p ps).
Proof. exact tract_iteration_proof. Qed.
Print Assumptions tract_iteration.

(** C08: the sequential index is not unique over the pairs that are accepted: the out-of-range
    pair (nx, 0) gets the number of the valid patch (0, 1), in every tract with at least two rows. *)
Theorem sequential_patch_unique_refuted :
  forall (Sky : Type) (offset : Sky -> R -> R -> Sky) c b t nx ny,
  cfg_ok c -> in_use offset c b t -> t_numPatches t = (nx, ny) -> 2 <= ny ->
  exists n, getSequentialPatchIndexFromPair b (IxIndex2D nx 0) = Ok n
    /\ getSequentialPatchIndexFromPair b (IxIndex2D 0 1) = Ok n
    /\ (exists p, tract_getPatchInfo b t (IxIndex2D 0 1) = Ok p /\ p_seq p = n)
    /\ tract_getPatchInfo b t (IxIndex2D nx 0) = Raise IndexError.
Proof. exact sequential_patch_unique_refuted_proof. Qed.
Print Assumptions sequential_patch_unique_refuted.

(** C01-C08, non-vacuity: a legacy tract of 3 x 2 patches of 4000 x 4000 pixels, and a cell
    tract of 4 x 2 patches, are in use. *)
Example patch_hypotheses_met :
  cfg_ok legacy_default /\ cfg_ok cell_default
  /\ (exists b t, in_use flat_offset legacy_default b t /\ t_numPatches t = (3, 2))
  /\ (exists b t, in_use flat_offset cell_default b t /\ t_numPatches t = (4, 2)).
Proof. exact patch_hypotheses_met_proof. Qed.
