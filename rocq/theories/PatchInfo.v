(** Model of python/lsst/skymap/cellInfo.py and python/lsst/skymap/patchInfo.py. *)
Require Import Verif.Py Verif.Geom.
Open Scope Z_scope.

(** Python [a // b] and [a % b] on ints. *)
Definition py_floordiv (a b : Z) : res Z := if b =? 0 then Raise ZeroDivisionError else Ok (a / b).
Definition py_mod (a b : Z) : res Z := if b =? 0 then Raise ZeroDivisionError else Ok (a mod b).

(** The row-major enumeration used by the [__iter__] methods:
    [for y in range(yNum): for x in range(xNum): ...]
    (patchInfo.py:339-341, tractInfo.py:407-409). *)
Definition grid (nx ny : Z) : list pair2 :=
  flat_map (fun y => map (fun x => (x, y)) (zrange 0 nx)) (zrange 0 ny).

Section Info.
Context {W : Type}.   (* the type of WCS objects *)

(** cellInfo.py:46-53 [CellInfo.__init__] attributes. *)
Record cell := mkCell {
  c_index : pair2; c_seq : Z; c_inner : box; c_outer : box; c_wcs : W }.

(** cellInfo.py:46-53 [CellInfo.__init__] *)
Definition CellInfo_init (index : pair2) (inner outer : box) (sequentialIndex : Z) (wcs : W)
  : res cell :=
  if negb (box_contains_box outer inner) then Raise RuntimeError
  else Ok (mkCell index sequentialIndex inner outer wcs).

(** cellInfo.py:155-158 [CellInfo.__eq__] *)
Definition cell_eqb (a b : cell) : bool :=
  (fst (c_index a) =? fst (c_index b)) && (snd (c_index a) =? snd (c_index b))
  && box_eqb (c_inner a) (c_inner b) && box_eqb (c_outer a) (c_outer b).

(** patchInfo.py:68-87 attributes of [PatchInfo]. *)
Record patch := mkPatch {
  p_index : pair2; p_seq : Z; p_inner : box; p_outer : box; p_wcs : W;
  p_cellInner : pair2; p_cellBorder : Z; p_nBorder : Z; p_numCells : pair2 }.

(** patchInfo.py:64-87 [PatchInfo.__init__].  [cellInnerDimensions] is given
    as in Python: an Extent2I/pair ([IxIndex2D]), some iterable, or neither. *)
Definition PatchInfo_init (index : pair2) (inner outer : box) (sequentialIndex : Z) (wcs : W)
    (cellInnerDimensions : pyindex) (cellBorder numCellsPerPatchInner numCellsInPatchBorder : Z)
  : res patch :=
  if negb (box_contains_box outer inner) then Raise RuntimeError
  else
    dims <- match cellInnerDimensions with
            | IxIndex2D x y => Ok (x, y)
            | IxSeq [x; y] => Ok (x, y)
            | IxSeq _ => Raise ValueError
            | IxNum _ => Raise ValueError
            | IxOther => Raise ValueError
            end ;;
    let n := if numCellsPerPatchInner =? 0 then 0
             else numCellsPerPatchInner + 2 * numCellsInPatchBorder in
    Ok (mkPatch index sequentialIndex inner outer wcs dims cellBorder numCellsInPatchBorder (n, n)).

(** patchInfo.py:306-311 [PatchInfo.getSequentialCellIndexFromPair] *)
Definition getSequentialCellIndexFromPair (p : patch) (ix : pyindex) : res Z :=
  i <- index2D_of_star ix ;;
  let '(nx, ny) := p_numCells p in
  Ok (nx * snd i + fst i).

(** patchInfo.py:286-287 [PatchInfo.getSequentialCellIndex] *)
Definition getSequentialCellIndex (p : patch) (c : cell) : res Z :=
  getSequentialCellIndexFromPair p (IxIndex2D (fst (c_index c)) (snd (c_index c))).

(** patchInfo.py:329-335 [PatchInfo.getCellIndexPair] *)
Definition getCellIndexPair (p : patch) (n : Z) : res pair2 :=
  let '(nx, ny) := p_numCells p in
  if (nx =? 0) || (ny =? 0) then Raise IndexError
  else
    x <- py_mod n nx ;;
    y <- py_floordiv n nx ;;
    Ok (x, y).

(** patchInfo.py:228-260 [PatchInfo.getCellInfo] (also [__getitem__], 347-348) *)
Definition getCellInfo (p : patch) (ix : pyindex) : res cell :=
  let '(nx, ny) := p_numCells p in
  if (nx =? 0) || (ny =? 0) then Raise IndexError
  else
    i <- match ix with
         | IxIndex2D x y => Ok (x, y)
         | IxNum n => getCellIndexPair p n
         | IxSeq _ | IxOther => index2D_of_star ix
         end ;;
    let '(x, y) := i in
    if negb ((0 <=? x) && (x <? nx)) || negb ((0 <=? y) && (y <? ny)) then Raise IndexError
    else
      let innerMin :=
        ((x - p_nBorder p) * fst (p_cellInner p) + minx (p_inner p),
         (y - p_nBorder p) * snd (p_cellInner p) + miny (p_inner p)) in
      let innerBBox := box_make innerMin (p_cellInner p) in
      let outerBBox := box_grow innerBBox (p_cellBorder p) in
      s <- getSequentialCellIndexFromPair p (IxIndex2D x y) ;;
      CellInfo_init (x, y) innerBBox outerBBox s (p_wcs p).

(** patchInfo.py:337-341 [PatchInfo.__iter__], run to exhaustion *)
Definition patch_iter (p : patch) : res (list cell) :=
  let '(nx, ny) := p_numCells p in
  mapM (fun i => getCellInfo p (IxIndex2D (fst i) (snd i))) (grid nx ny).

(** patchInfo.py:343-345 [PatchInfo.__len__] *)
Definition patch_len (p : patch) : Z := let '(nx, ny) := p_numCells p in nx * ny.

(** patchInfo.py:350-355 [PatchInfo.__eq__] *)
Definition patch_eqb (a b : patch) : bool :=
  (fst (p_index a) =? fst (p_index b)) && (snd (p_index a) =? snd (p_index b))
  && box_eqb (p_inner a) (p_inner b) && box_eqb (p_outer a) (p_outer b)
  && ((fst (p_numCells a) =? fst (p_numCells b)) && (snd (p_numCells a) =? snd (p_numCells b)))
  && (p_cellBorder a =? p_cellBorder b).
End Info.
Arguments cell W : clear implicits.
Arguments patch W : clear implicits.
