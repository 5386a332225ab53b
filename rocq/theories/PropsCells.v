(** Property theorems; generated by tools/mkprops.py from MainCells.v. *)
From Coq Require Import Reals Lra.
Require Import Verif.Py Verif.Geom Verif.PatchInfo Verif.TractBuilder Verif.TractInfo Verif.Spec.
Require Import Verif.PatchProofs Verif.CellProofs Verif.Examples.
Require Import Verif.MainCells.
Open Scope Z_scope.

(** C09: in a patch with cells, getSequentialCellIndexFromPair and getCellIndexPair are mutually
    inverse between valid cell pairs and 0..len-1. *)
Theorem sequential_cell_bijection :
  forall (Sky : Type) (offset : Sky -> R -> R -> Sky) d cb nI nB b t X Y p,
  cfg_ok (CellCfg d cb nI nB) -> in_use offset (CellCfg d cb nI nB) b t ->
  tract_getPatchInfo b t (IxIndex2D X Y) = Ok p ->
  let N := nI + 2 * nB in
  patch_len p = N * N
  /\ (forall x y, 0 <= x < N -> 0 <= y < N ->
     exists n, getSequentialCellIndexFromPair p (IxIndex2D x y) = Ok n
       /\ 0 <= n < patch_len p /\ getCellIndexPair p n = Ok (x, y))
  /\ (forall n, 0 <= n < patch_len p ->
     exists x y, getCellIndexPair p n = Ok (x, y) /\ 0 <= x < N /\ 0 <= y < N
       /\ getSequentialCellIndexFromPair p (IxIndex2D x y) = Ok n).
Proof. exact sequential_cell_bijection_proof. Qed.
Print Assumptions sequential_cell_bijection.

(** C09, iteration: list(patch) has len(patch) elements, the k-th is patch[k] and has sequential
    index k, and every cell occurs. *)
Theorem cell_iteration :
  forall (Sky : Type) (offset : Sky -> R -> R -> Sky) d cb nI nB b t X Y p,
  cfg_ok (CellCfg d cb nI nB) -> in_use offset (CellCfg d cb nI nB) b t ->
  tract_getPatchInfo b t (IxIndex2D X Y) = Ok p ->
  exists cs, patch_iter p = Ok cs
    /\ Z.of_nat (length cs) = patch_len p
    /\ (forall k c, nth_error cs k = Some c ->
          getCellInfo p (IxNum (Z.of_nat k)) = Ok c /\ c_seq c = Z.of_nat k)
    /\ (forall x y c, getCellInfo p (IxIndex2D x y) = Ok c -> In c cs).
Proof. exact cell_iteration_proof. Qed.
Print Assumptions cell_iteration.

(** C10: the cell inner boxes tile, without overlap, exactly the patch inner box enlarged by
    numCellsInPatchBorder cells on every side; cells at least numCellsInPatchBorder away from the
    edge of the patch grid tile exactly the patch inner box. *)
Theorem cells_tile_patch :
  forall (Sky : Type) (offset : Sky -> R -> R -> Sky) cw ch cb nI nB b t X Y p,
  cfg_ok (CellCfg (cw, ch) cb nI nB) -> in_use offset (CellCfg (cw, ch) cb nI nB) b t ->
  tract_getPatchInfo b t (IxIndex2D X Y) = Ok p ->
  (forall px py,
     (minx (p_inner p) - nB * cw <= px < minx (p_inner p) + dimx (p_inner p) + nB * cw /\
      miny (p_inner p) - nB * ch <= py < miny (p_inner p) + dimy (p_inner p) + nB * ch)
     <-> exists x y c, getCellInfo p (IxIndex2D x y) = Ok c /\ in_box px py (c_inner c))
  /\ (forall px py,
     in_box px py (p_inner p)
     <-> exists x y c, getCellInfo p (IxIndex2D x y) = Ok c /\ in_box px py (c_inner c)
           /\ nB <= x < nB + nI /\ nB <= y < nB + nI)
  /\ (forall px py x y c x' y' c',
     getCellInfo p (IxIndex2D x y) = Ok c -> getCellInfo p (IxIndex2D x' y') = Ok c' ->
     in_box px py (c_inner c) -> in_box px py (c_inner c') -> x = x' /\ y = y')
  /\ (forall x y c, getCellInfo p (IxIndex2D x y) = Ok c -> box_dims (c_inner c) = (cw, ch)).
Proof. exact cells_tile_patch_proof. Qed.
Print Assumptions cells_tile_patch.

(** C11: for square cells, the outer box of a cell is its inner box enlarged by cellBorder and
    lies in the patch outer box; conversely every pixel of the patch outer box lies in the outer
    box of some cell. *)
Theorem cell_outer_cover :
  forall (Sky : Type) (offset : Sky -> R -> R -> Sky) cs cb nI nB b t X Y p,
  cfg_ok (CellCfg (cs, cs) cb nI nB) -> in_use offset (CellCfg (cs, cs) cb nI nB) b t ->
  tract_getPatchInfo b t (IxIndex2D X Y) = Ok p ->
  (forall x y c, getCellInfo p (IxIndex2D x y) = Ok c -> enlarged cb (c_inner c) (c_outer c))
  /\ (forall px py, in_box px py (p_outer p)
        <-> exists x y c, getCellInfo p (IxIndex2D x y) = Ok c /\ in_box px py (c_outer c)).
Proof. exact cell_outer_cover_proof. Qed.
Print Assumptions cell_outer_cover.

(** C09: the sequential index of a cell object of the patch is the number it carries, is in range, and looking the cell up by
    it gives the same cell. *)
Theorem cell_own_number :
  forall (Sky : Type) (offset : Sky -> R -> R -> Sky) d cb nI nB b t X Y p ix c,
  cfg_ok (CellCfg d cb nI nB) -> in_use offset (CellCfg d cb nI nB) b t ->
  tract_getPatchInfo b t (IxIndex2D X Y) = Ok p -> getCellInfo p ix = Ok c ->
  getSequentialCellIndex p c = Ok (c_seq c) /\ 0 <= c_seq c < patch_len p
  /\ getCellInfo p (IxNum (c_seq c)) = Ok c
  /\ getCellIndexPair p (c_seq c) = Ok (c_index c).
Proof. exact cell_own_number_proof. Qed.
Print Assumptions cell_own_number.

(** C11: validate accepts every legacy configuration and exactly the cell configurations with square cells, others raise
    ValueError; the cells of a patch of a configuration it accepts exactly cover the patch outer box, and for
    a configuration it refuses (with a border of cells) those of no patch do. *)
Theorem cell_validation :
  (forall inner border, tb_validate (LegacyCfg inner border) = Ok tt)
  /\ (forall cw ch cb nI nB, (tb_validate (CellCfg (cw, ch) cb nI nB) = Ok tt <-> cw = ch)
                           /\ (tb_validate (CellCfg (cw, ch) cb nI nB) = Raise ValueError <-> cw <> ch))
  /\ (forall (Sky : Type) (offset : Sky -> R -> R -> Sky) d cb nI nB b t X Y p,
       cfg_ok (CellCfg d cb nI nB) -> in_use offset (CellCfg d cb nI nB) b t ->
       tract_getPatchInfo b t (IxIndex2D X Y) = Ok p ->
       let covered := forall px py, in_box px py (p_outer p)
         <-> exists x y c, getCellInfo p (IxIndex2D x y) = Ok c /\ in_box px py (c_outer c) in
       (tb_validate (CellCfg d cb nI nB) = Ok tt -> covered)
       /\ (tb_validate (CellCfg d cb nI nB) <> Ok tt -> 0 < nB -> ~ covered)).
Proof. exact cell_validation_proof. Qed.
Print Assumptions cell_validation.

(** C12: cells of two patches of one tract whose inner boxes share a pixel are the same cell:
    identical inner and outer boxes. *)
Theorem neighbour_cells_coincide :
  forall (Sky : Type) (offset : Sky -> R -> R -> Sky) d cb nI nB b t X Y p X' Y' p' x y c x' y' c' px py,
  cfg_ok (CellCfg d cb nI nB) -> in_use offset (CellCfg d cb nI nB) b t ->
  tract_getPatchInfo b t (IxIndex2D X Y) = Ok p -> tract_getPatchInfo b t (IxIndex2D X' Y') = Ok p' ->
  getCellInfo p (IxIndex2D x y) = Ok c -> getCellInfo p' (IxIndex2D x' y') = Ok c' ->
  in_box px py (c_inner c) -> in_box px py (c_inner c') ->
  c_inner c = c_inner c' /\ c_outer c = c_outer c'.
Proof. exact neighbour_cells_coincide_proof. Qed.
Print Assumptions neighbour_cells_coincide.

(** C13: a patch of a legacy tract has no cells: every lookup raises IndexError. *)
Theorem cell_lookup_legacy :
  forall (Sky : Type) (offset : Sky -> R -> R -> Sky) inner border b t X Y p ix,
  cfg_ok (LegacyCfg inner border) -> in_use offset (LegacyCfg inner border) b t ->
  tract_getPatchInfo b t (IxIndex2D X Y) = Ok p ->
  getCellInfo p ix = Raise IndexError /\ patch_len p = 0 /\ patch_iter p = Ok [].
Proof. exact cell_lookup_legacy_proof. Qed.
Print Assumptions cell_lookup_legacy.

(** C13: a patch of a cell tract accepts exactly the valid pairs and numbers. *)
Theorem cell_lookup :
  forall (Sky : Type) (offset : Sky -> R -> R -> Sky) d cb nI nB b t X Y p,
  cfg_ok (CellCfg d cb nI nB) -> in_use offset (CellCfg d cb nI nB) b t ->
  tract_getPatchInfo b t (IxIndex2D X Y) = Ok p ->
  let N := nI + 2 * nB in
  (forall x y, 0 <= x < N /\ 0 <= y < N ->
     exists c, getCellInfo p (IxIndex2D x y) = Ok c /\ getCellInfo p (IxSeq [x; y]) = Ok c
            /\ c_index c = (x, y))
  /\ (forall x y, ~ (0 <= x < N /\ 0 <= y < N) ->
     getCellInfo p (IxIndex2D x y) = Raise IndexError
     /\ getCellInfo p (IxSeq [x; y]) = Raise IndexError)
  /\ (forall n, 0 <= n < patch_len p -> exists c, getCellInfo p (IxNum n) = Ok c /\ c_seq c = n)
  /\ (forall n, ~ (0 <= n < patch_len p) -> getCellInfo p (IxNum n) = Raise IndexError).
Proof. exact cell_lookup_proof. Qed.
Print Assumptions cell_lookup.

(** C14: the IndexError documented for the two index converters is not raised: an out-of-range
    pair is silently mapped to the number of another cell, an out-of-range number to an
    out-of-range pair (shown for every cell tract patch). *)
Theorem cell_converters_indexerror_refuted :
  forall (Sky : Type) (offset : Sky -> R -> R -> Sky) d cb nI nB b t X Y p,
  cfg_ok (CellCfg d cb nI nB) -> in_use offset (CellCfg d cb nI nB) b t ->
  tract_getPatchInfo b t (IxIndex2D X Y) = Ok p ->
  let N := nI + 2 * nB in
  (* the pair (N, 0) is out of range, yet gets the number of the pair (0, 1) *)
  getCellInfo p (IxIndex2D N 0) = Raise IndexError
  /\ getSequentialCellIndexFromPair p (IxIndex2D N 0) = Ok N
  /\ getSequentialCellIndexFromPair p (IxIndex2D 0 1) = Ok N
  (* the number len(patch) is out of range, yet is converted *)
  /\ getCellInfo p (IxNum (patch_len p)) = Raise IndexError
  /\ getCellIndexPair p (patch_len p) = Ok (0, N).
Proof. exact cell_converters_indexerror_refuted_proof. Qed.
Print Assumptions cell_converters_indexerror_refuted.

(** C14: exactly what the two index converters do, for every argument: a pair (x, y) gives y*n + x and a number k gives
    (k mod n, k div n), where n is the number of cells along a side; neither ever raises (for a pair of integers
    or a number), in particular not IndexError; the arguments for which patch[index] is
    refused are exactly those out of range. *)
Theorem cell_converters_exact :
  forall (Sky : Type) (offset : Sky -> R -> R -> Sky) d cb nI nB b t X Y p,
  cfg_ok (CellCfg d cb nI nB) -> in_use offset (CellCfg d cb nI nB) b t ->
  tract_getPatchInfo b t (IxIndex2D X Y) = Ok p ->
  let n := nI + 2 * nB in
  0 < n
  /\ (forall x y, getSequentialCellIndexFromPair p (IxIndex2D x y) = Ok (y * n + x)
                /\ getSequentialCellIndexFromPair p (IxSeq [x; y]) = Ok (y * n + x))
  /\ (forall k, getCellIndexPair p k = Ok (k mod n, k / n))
  /\ (forall x y, getCellInfo p (IxIndex2D x y) = Raise IndexError <-> ~ (0 <= x < n /\ 0 <= y < n))
  /\ (forall k, getCellInfo p (IxNum k) = Raise IndexError <-> ~ (0 <= k < n * n)).
Proof. exact cell_converters_exact_proof. Qed.
Print Assumptions cell_converters_exact.

(** C56: patches made by tract builders (of any two configurations) that compare equal have the
    same cells: every index gives cells with equal index, number, inner and outer boxes, or the
    same exception. *)
Theorem equal_patches_equal_cells :
  forall (Sky : Type) (offset : Sky -> R -> R -> Sky) c1 c2 b1 b2 t1 t2 X1 Y1 X2 Y2 p1 p2 ix,
  cfg_ok c1 -> cfg_ok c2 -> in_use offset c1 b1 t1 -> in_use offset c2 b2 t2 ->
  tract_getPatchInfo b1 t1 (IxIndex2D X1 Y1) = Ok p1 ->
  tract_getPatchInfo b2 t2 (IxIndex2D X2 Y2) = Ok p2 ->
  patch_eqb p1 p2 = true ->
  match getCellInfo p1 ix, getCellInfo p2 ix with
  | Ok e1, Ok e2 => c_index e1 = c_index e2 /\ c_seq e1 = c_seq e2
                    /\ c_inner e1 = c_inner e2 /\ c_outer e1 = c_outer e2
  | Raise x1, Raise x2 => x1 = x2
  | _, _ => False
  end.
Proof. exact equal_patches_equal_cells_proof. Qed.
Print Assumptions equal_patches_equal_cells.

(** C09-C14, non-vacuity: a patch of the default cell configuration, which has 22 x 22 cells. *)
Example cell_hypotheses_met :
  exists b t p, cfg_ok cell_default /\ in_use flat_offset cell_default b t
    /\ tract_getPatchInfo b t (IxIndex2D 1 1) = Ok p /\ patch_len p = 484 /\ patch_eqb p p = true.
Proof. exact cell_hypotheses_met_proof. Qed.
