(** Property theorems; generated by tools/mkprops.py from MainAlias.v. *)
From Coq Require Import Reals Lia.
Require Import Verif.Py Verif.Geom Verif.PatchInfo Verif.TractBuilder Verif.TractInfo Verif.Spec.
Require Import Verif.PatchProofs Verif.SkyMap Verif.SkySpec Verif.SkyProofs Verif.SkyProofs2 Verif.Examples.
Require Import Verif.Alias Verif.AliasSpec Verif.AliasProofs.
Require Import Verif.MainAlias.
Open Scope Z_scope.

(** C83: as long as the user changes no object that came from [patch_inner_dimensions], the sky map is always
    in a state that accesses alone can bring about, whatever else was obtained and changed in place: an access
    is an access to that state, and nothing else has an effect on it.  So all properties of reachable sky
    maps hold, whatever the user does with the boxes and extents handed out. *)
Theorem handed_out_map : forall (Sky : Type) (offset : Sky -> R -> R -> Sky) d w,
  history offset d but_dims w ->
  sm_reachable offset d (read_map w)
  /\ forall a, (forall o, changes w a o -> o <> FromPatchDims) ->
     read_map (act offset d a w)
     = match a with AGetitem i => fst (sm_getitem offset d i (read_map w)) | _ => read_map w end.
Proof. exact handed_out_map_proof. Qed.
Print Assumptions handed_out_map.

(** C83: the patches that a call returns (tract[index], findPatch, findPatchList, iteration over a tract) are,
    at that moment, the ones that the model without objects computes for the tract of the sky map; and so is
    the box that tract.bbox returns. *)
Theorem handed_out_answers : forall (Sky : Type) (offset : Sky -> R -> R -> Sky) d w i t,
  history offset d but_dims w -> slot w i = Some t ->
  holds offset d i (read_map w) (read_tract (w_heap w) t)
  /\ (forall q l, ask q (sm_builder (read_map w)) (read_tract (w_heap w) t) = Ok l ->
      exists ps, w_patches (act offset d (AQuery i q) w) = w_patches w ++ ps
        /\ map (read_patch (w_heap (act offset d (AQuery i q) w))) ps = l)
  /\ (exists r, w_given (act offset d (ABBox i) w) = w_given w ++ [(FromTractBBox, r)]
        /\ value_at (w_heap (act offset d (ABBox i) w)) r = VBox (t_bbox (read_tract (w_heap w) t))).
Proof. exact handed_out_answers_proof. Qed.
Print Assumptions handed_out_answers.

(** C83: a cell taken from a patch is, at that moment, the one that the model without objects computes for what
    the patch holds now; and the attributes of patches and cells and patch_inner_dimensions hand out objects that
    hold what the patch, cell or map holds now. *)
Theorem handed_out_attributes : forall (Sky : Type) (offset : Sky -> R -> R -> Sky) d w,
  history offset d anything w ->
  (forall k p ix c, nth_error (w_patches w) k = Some p -> getCellInfo (read_patch (w_heap w) p) ix = Ok c ->
     exists x, w_cells (act offset d (ACell k ix) w) = w_cells w ++ [x]
       /\ read_cell (w_heap (act offset d (ACell k ix) w)) x = c)
  /\ (forall k p, nth_error (w_patches w) k = Some p ->
     let q := read_patch (w_heap w) p in
     forall a v, (a = AInner k /\ v = VBox (p_inner q)) \/ (a = AOuter k /\ v = VBox (p_outer q))
               \/ (a = ACellDims k /\ v = VExt (p_cellInner q)) ->
     exists r, w_given (act offset d a w) = w_given w ++ [(FromPatch k, r)]
       /\ w_heap (act offset d a w) = w_heap w /\ value_at (w_heap w) r = v)
  /\ (forall k c, nth_error (w_cells w) k = Some c ->
     let q := read_cell (w_heap w) c in
     forall a v, (a = ACellInner k /\ v = VBox (c_inner q)) \/ (a = ACellOuter k /\ v = VBox (c_outer q)) ->
     exists r, w_given (act offset d a w) = w_given w ++ [(FromCell k, r)]
       /\ w_heap (act offset d a w) = w_heap w /\ value_at (w_heap w) r = v)
  /\ (forall i t, slot w i = Some t ->
     exists r, w_given (act offset d (ADims i) w) = w_given w ++ [(FromPatchDims, r)]
       /\ w_heap (act offset d (ADims i) w) = w_heap w
       /\ value_at (w_heap w) r = VExt (b_patchInner (sm_builder (read_map w)))).
Proof. exact handed_out_attributes_proof. Qed.
Print Assumptions handed_out_attributes.

(** C83: what a patch holds changes only if the user changes an object obtained from this very patch, and
    likewise for a cell and for a box obtained from tract.bbox (each call of which gives a new one); this
    holds even if the patch dimensions are tampered with. *)
Theorem handed_out_local : forall (Sky : Type) (offset : Sky -> R -> R -> Sky) d w a,
  history offset d anything w ->
  (forall k p, nth_error (w_patches w) k = Some p -> ~ changes w a (FromPatch k) ->
     nth_error (w_patches (act offset d a w)) k = Some p
     /\ read_patch (w_heap (act offset d a w)) p = read_patch (w_heap w) p)
  /\ (forall k c, nth_error (w_cells w) k = Some c -> ~ changes w a (FromCell k) ->
     nth_error (w_cells (act offset d a w)) k = Some c
     /\ read_cell (w_heap (act offset d a w)) c = read_cell (w_heap w) c)
  /\ (forall j r, nth_error (w_given w) j = Some (FromTractBBox, r) -> (forall v, a <> AChange j v) ->
     value_at (w_heap (act offset d a w)) r = value_at (w_heap w) r).
Proof. exact handed_out_local_proof. Qed.
Print Assumptions handed_out_local.

(** C83: the attributes inner_bbox and outer_bbox of a patch are the patch's own objects: a change of them is a
    change of the patch (and of the cells taken from it afterwards). *)
Theorem handed_out_patch_own : forall (Sky : Type) (offset : Sky -> R -> R -> Sky) d w k p bx,
  history offset d anything w -> nth_error (w_patches w) k = Some p ->
  let j := length (w_given w) in
  let w1 := act offset d (AChange j (VBox bx)) (act offset d (AInner k) w) in
  let w2 := act offset d (AChange j (VBox bx)) (act offset d (AOuter k) w) in
  (nth_error (w_patches w1) k = Some p /\ p_inner (read_patch (w_heap w1) p) = bx
   /\ p_outer (read_patch (w_heap w1) p) = p_outer (read_patch (w_heap w) p))
  /\ (nth_error (w_patches w2) k = Some p /\ p_outer (read_patch (w_heap w2) p) = bx
   /\ p_inner (read_patch (w_heap w2) p) = p_inner (read_patch (w_heap w) p)).
Proof. exact handed_out_patch_own_proof. Qed.
Print Assumptions handed_out_patch_own.

(** C83: the result of patch_inner_dimensions is the tract builder's own object, shared by all tracts: a change of it
    changes the dimensions used for every tract of the map, and the inner boxes of all their patches. *)
Theorem handed_out_dims_shared :
  forall (Sky : Type) (offset : Sky -> R -> R -> Sky) d w j r i t nx ny x y e1 e2,
  let c := sd_cfg d in
  cfg_ok c -> history offset d anything w -> nth_error (w_given w) j = Some (FromPatchDims, r) ->
  slot w i = Some t -> in_use offset c (sm_builder (read_map w)) (read_tract (w_heap w) t) ->
  t_numPatches (read_tract (w_heap w) t) = (nx, ny) -> 0 <= x < nx -> 0 <= y < ny ->
  0 < e1 <= fst (cfg_inner c) -> 0 < e2 <= snd (cfg_inner c) ->
  let w' := act offset d (AChange j (VExt (e1, e2))) w in
  b_patchInner (sm_builder (read_map w')) = (e1, e2)
  /\ read_tract (w_heap w') t = read_tract (w_heap w) t
  /\ (exists p, tract_getPatchInfo (sm_builder (read_map w)) (read_tract (w_heap w) t) (IxIndex2D x y) = Ok p
      /\ p_inner p = Box (x * fst (cfg_inner c)) (y * snd (cfg_inner c)) (fst (cfg_inner c)) (snd (cfg_inner c)))
  /\ (exists p, tract_getPatchInfo (sm_builder (read_map w')) (read_tract (w_heap w') t) (IxIndex2D x y) = Ok p
      /\ p_inner p = Box (x * e1) (y * e2) e1 e2).
Proof. exact handed_out_dims_shared_proof. Qed.
Print Assumptions handed_out_dims_shared.

(** C83, non-vacuity: a map of two tracts of 4 x 2 patches with cells, with both tracts generated, a patch and a
    cell of the second one, a box from tract.bbox and the patch dimensions obtained from the first one, and the
    inner box of the patch changed in place. *)
Example handed_out_hypotheses_met :
  exists d w t u p0 c0 r1 r2 r3, cfg_ok (sd_cfg d) /\ sd_num d = 2
    /\ history flat_offset d but_dims w
    /\ slot w 0 = Some t /\ slot w 1 = Some u
    /\ in_use flat_offset (sd_cfg d) (sm_builder (read_map w)) (read_tract (w_heap w) u)
    /\ t_numPatches (read_tract (w_heap w) u) = (4, 2)
    /\ nth_error (w_patches w) 0 = Some p0 /\ nth_error (w_cells w) 0 = Some c0
    /\ w_given w = [(FromTractBBox, r1); (FromPatchDims, r2); (FromPatch 0, r3)]
    /\ p_inner (read_patch (w_heap w) p0) = Box 7 7 7 7
    /\ c_inner (read_cell (w_heap w) c0) = Box 2850 (-150) 150 150.
Proof. exact handed_out_hypotheses_met_proof. Qed.
