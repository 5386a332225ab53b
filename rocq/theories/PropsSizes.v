(** Property theorems; generated by tools/mkprops.py from MainSizes.v. *)
From Coq Require Import Reals ZArith Lia List Bool.
Require Import Verif.Py Verif.Geom Verif.PatchInfo Verif.TractBuilder Verif.TractInfo Verif.Spec Verif.PatchProofs.
Require Import Verif.SkyMap Verif.SkySpec Verif.SkyProofs Verif.SkyProofs2 Verif.Uniform Verif.MainSky Verif.Register Verif.RegSpec Verif.RegProofs Verif.RegProofs2 Verif.MainRegister.
From Coq Require Import ZifyBool.
Import ListNotations.
Require Import Verif.MainSizes.
Open Scope Z_scope.

(** C91: setting up the patches of a tract (any minimum box) raises ZeroDivisionError if the configured patch inner size is zero along an axis, and
    succeeds otherwise, negative sizes included; no exception comes from any border. *)
Theorem zero_size : forall c b m, builder_reachable c b ->
  (fst (cfg_inner c) = 0 \/ snd (cfg_inner c) = 0 -> setupPatches b m = Raise ZeroDivisionError)
  /\ (fst (cfg_inner c) <> 0 -> snd (cfg_inner c) <> 0 -> exists b' out, setupPatches b m = Ok (b', out)).
Proof. exact zero_size_proof. Qed.
Print Assumptions zero_size.

(** C91: patches can be obtained from a tract (whose minimum box is not empty) exactly if the patch inner sizes are positive and the border is not negative
    (leaving aside the size -1 in a tract one pixel wide).  If they can, every index in range gives a patch; if they cannot, every index
    in range raises RuntimeError.  An index out of range raises IndexError in any case. *)
Theorem usable_sizes : forall (W : Type) c b m b' B nx ny (wcs : W), builder_reachable c b -> box_wf m -> m <> box_empty ->
  setupPatches b m = Ok (b', (B, (nx, ny))) ->
  let usable := axis_usable (fst (cfg_inner c)) (dimx m) /\ axis_usable (snd (cfg_inner c)) (dimy m) /\ 0 <= cfg_border c in
  (usable -> 0 < nx /\ 0 < ny)
  /\ (forall x y, 0 <= x < nx -> 0 <= y < ny -> usable -> exists p, getPatchInfo b' (IxIndex2D x y) wcs = Ok p)
  /\ (forall x y, 0 <= x < nx -> 0 <= y < ny -> ~ usable -> getPatchInfo b' (IxIndex2D x y) wcs = Raise RuntimeError)
  /\ (forall x y, ~ (0 <= x < nx /\ 0 <= y < ny) -> getPatchInfo b' (IxIndex2D x y) wcs = Raise IndexError).
Proof. exact usable_sizes_proof. Qed.
Print Assumptions usable_sizes.

(** C91: with a negative border no tract builder, in any state, returns a patch for any index. *)
Theorem negative_border : forall (W : Type) c b ix (wcs : W), builder_reachable c b -> cfg_border c < 0 ->
  exists e, getPatchInfo b ix wcs = Raise e.
Proof. exact negative_border_proof. Qed.
Print Assumptions negative_border.

(** C91: with a negative patch inner size along an axis, tracts wider than that size along the axis can be made, but have no patches: the count along
    the axis is zero or negative, iterating over the tract yields nothing whatever the state of the builder, and so registering the tract writes no patches. *)
Theorem negative_size : forall (Sky : Type) (offset : Sky -> R -> R -> Sky) c t b, tract_made offset c t ->
  fst (cfg_inner c) < 0 /\ - fst (cfg_inner c) < dimx (t_bbox t) \/ snd (cfg_inner c) < 0 /\ - snd (cfg_inner c) < dimy (t_bbox t) ->
  (fst (t_numPatches t) <= 0 \/ snd (t_numPatches t) <= 0) /\ tract_iter b t = Ok []
  /\ forall name, patch_records name b t = Ok [].
Proof. exact negative_size_proof. Qed.
Print Assumptions negative_size.

(** C91: of a sky map with a zero patch inner size no tract can ever be obtained (so a map that makes its tracts when it is constructed cannot be
    constructed), registering it fails and adds no records. *)
Theorem zero_size_maps : forall (Sky : Type) (offset : Sky -> R -> R -> Sky) d, fst (cfg_inner (sd_cfg d)) = 0 \/ snd (cfg_inner (sd_cfg d)) = 0 ->
  (forall s i s' t, sm_reachable offset d s -> 0 <= i -> sm_getitem offset d i s <> (s', Ok t))
  /\ (forall s, sd_kind d = EagerMap -> 0 < sd_num d -> sm_new offset d <> Ok s)
  /\ (forall faults sha name s r s' u' out, sm_reachable offset d s -> register offset faults d sha name s (butler_on r) = (s', u', out) ->
        (forall x, out <> Done x) /\ same_records r (u_durable u')).
Proof. exact zero_size_maps_proof. Qed.
Print Assumptions zero_size_maps.

(** C91: registering a sky map with a negative border, under a new name, fails and adds no records, unless none of its tracts has patches. *)
Theorem negative_border_register : forall (Sky : Type) (offset : Sky -> R -> R -> Sky) d faults sha name s r s' u' out, cfg_border (sd_cfg d) < 0 ->
  sm_reachable offset d s -> ~ In name (map k_name (g_skymaps r)) -> register offset faults d sha name s (butler_on r) = (s', u', out) ->
  (exists i t, holds offset d i s' t /\ 0 < fst (t_numPatches t) /\ 0 < snd (t_numPatches t)) ->
  (forall x, out <> Done x) /\ same_records r (u_durable u').
Proof. exact negative_border_register_proof. Qed.
Print Assumptions negative_border_register.

(** C91: cells.  Patches of cell based tracts may exist although their cells do not work: with a negative cell border (and a patch border that is not negative) getCellInfo raises RuntimeError
    for every cell index in range; with a negative number of cells in the patch border the corner of the patch's inner region lies in no cell. *)
Theorem cell_sizes : forall (W : Type) w h cb n nb b ix (wcs : W) p,
  let c := CellCfg (w, h) cb n nb in
  builder_reachable c b -> 0 < w -> 0 < h -> 0 < n -> getPatchInfo b ix wcs = Ok p ->
  p_numCells p = (n + 2 * nb, n + 2 * nb)
  /\ (cb < 0 -> forall x y, 0 <= x < n + 2 * nb -> 0 <= y < n + 2 * nb -> getCellInfo p (IxIndex2D x y) = Raise RuntimeError)
  /\ (nb < 0 -> forall ix' cell, getCellInfo p ix' = Ok cell -> ~ in_box (minx (p_inner p)) (miny (p_inner p)) (c_inner cell)).
Proof. exact cell_sizes_proof. Qed.
Print Assumptions cell_sizes.

(** C91, non-vacuity: configurations of each kind pass validation; for a tract of 10000 by 9000 pixels the default sizes are usable, and so are cells with numCellsInPatchBorder -1 and cellBorder 200,
    or with numCellsInPatchBorder 1 and cellBorder -10; a negative patch border, zero and negative sizes are not. *)
Example sizes_met :
  let m := Box 5 7 10000 9000 in
  let valid c := tb_validate c = Ok tt /\ builder_reachable c (builder_init c) /\ box_wf m /\ m <> box_empty in
  let usable c := axis_usable (fst (cfg_inner c)) (dimx m) /\ axis_usable (snd (cfg_inner c)) (dimy m) /\ 0 <= cfg_border c in
  let made c n := valid c /\ exists b' B, setupPatches (builder_init c) m = Ok (b', (B, n)) in
  (made legacy_default (3, 3) /\ usable legacy_default)
  /\ (made (CellCfg (150, 150) 200 20 (-1)) (4, 3) /\ usable (CellCfg (150, 150) 200 20 (-1)))
  /\ (made (CellCfg (150, 150) (-10) 20 1) (4, 3) /\ usable (CellCfg (150, 150) (-10) 20 1))
  /\ (made (LegacyCfg (4000, 4000) (-1)) (3, 3) /\ ~ usable (LegacyCfg (4000, 4000) (-1)))
  /\ (made (LegacyCfg (-4000, 4000) 100) (-2, 3) /\ ~ usable (LegacyCfg (-4000, 4000) 100))
  /\ valid (LegacyCfg (4000, 0) 100) /\ valid (CellCfg (150, 150) 50 0 1).
Proof. exact sizes_met_proof. Qed.
