(** Model of python/lsst/skymap/tractBuilder.py. *)
Require Import Verif.Py Verif.Geom Verif.PatchInfo.
Open Scope Z_scope.

(** tractBuilder.py:198-209 [LegacyTractBuilderConfig] and 271-292
    [CellTractBuilderConfig]. *)
Inductive tb_config :=
| LegacyCfg (patchInnerDimensions : pair2) (patchBorder : Z)
| CellCfg (cellInnerDimensions : pair2) (cellBorder numCellsPerPatchInner numCellsInPatchBorder : Z).

(** tractBuilder.py:199-209, 272-292: the default values. *)
Definition legacy_default : tb_config := LegacyCfg (4000, 4000) 100.
Definition cell_default : tb_config := CellCfg (150, 150) 50 20 1.

(** tractBuilder.py:294-299 [CellTractBuilderConfig.validate] (the length check is
    subsumed by the pair type); the legacy config has no check of its own. *)
Definition tb_validate (c : tb_config) : res unit :=
  match c with
  | LegacyCfg _ _ => Ok tt
  | CellCfg (w, h) _ _ _ => if negb (w =? h) then Raise ValueError else Ok tt
  end.

(** The mutable tract builder object: the attributes assigned in the two
    [__init__] methods (215-221, 305-318) and in [setupPatches] (89-92). *)
Record builder := mkBuilder {
  b_config : tb_config;
  b_patchInner : pair2;
  b_patchBorder : Z;
  b_initialized : bool;
  b_numPatches : pair2;
  b_tractBBox : box }.

(** tractBuilder.py:215-221 and 305-318 [LegacyTractBuilder.__init__],
    [CellTractBuilder.__init__].  [_numPatches] and [_tractBBox] do not exist
    before [setupPatches]; they are only read behind [_initialized] or after it. *)
Definition builder_init (c : tb_config) : builder :=
  match c with
  | LegacyCfg inner border => mkBuilder c inner border false (0, 0) box_empty
  | CellCfg (w, h) cellBorder nInner nBorder =>
      mkBuilder c (w * nInner, h * nInner) (nBorder * w + cellBorder) false (0, 0) box_empty
  end.

(** tractBuilder.py:80-86, the loop body for one axis: returns the new minimum,
    the new dimension and the number of patches. *)
Definition setup_axis (mn dim innerDim : Z) : res (Z * Z * Z) :=
  num <- py_floordiv (dim + innerDim - 1) innerDim ;;
  let deltaDim := innerDim * num - dim in
  if 0 <? deltaDim then Ok (mn - deltaDim / 2, innerDim * num, num)
  else Ok (mn, dim, num).

(** tractBuilder.py:53-94 [BaseTractBuilder.setupPatches]: returns the grown
    box and patch counts, and stores them in the builder.  [minBBox] is the
    argument after the [Box2I(minBBox)] conversion of line 76. *)
Definition setupPatches (b : builder) (minBBox : box) : res (builder * (box * pair2)) :=
  ax <- setup_axis (minx minBBox) (dimx minBBox) (fst (b_patchInner b)) ;;
  ay <- setup_axis (miny minBBox) (dimy minBBox) (snd (b_patchInner b)) ;;
  let '(x0, w, nx) := ax in
  let '(y0, h, ny) := ay in
  let bbox := box_make (x0, y0) (w, h) in
  let numPatches := (nx, ny) in
  Ok (mkBuilder (b_config b) (b_patchInner b) (b_patchBorder b) true numPatches
                (box_make (0, 0) (box_dims bbox)),
      (bbox, numPatches)).

(** tractBuilder.py:144-165 [getSequentialPatchIndexFromPair] *)
Definition getSequentialPatchIndexFromPair (b : builder) (ix : pyindex) : res Z :=
  i <- match ix with
       | IxIndex2D x y => Ok (x, y)
       | IxSeq [x; y] => Ok (x, y)
       | IxSeq _ => Raise ValueError
       | IxNum _ | IxOther => Raise ValueError
       end ;;
  let '(nx, ny) := b_numPatches b in
  Ok (nx * snd i + fst i).

(** tractBuilder.py:129-142 [getSequentialPatchIndex] *)
Definition getSequentialPatchIndex {W} (b : builder) (p : patch W) : res Z :=
  getSequentialPatchIndexFromPair b (IxIndex2D (fst (p_index p)) (snd (p_index p))).

(** tractBuilder.py:167-181 [getPatchIndexPair] *)
Definition getPatchIndexPair (b : builder) (n : Z) : res pair2 :=
  let '(nx, ny) := b_numPatches b in
  x <- py_mod n nx ;;
  y <- py_floordiv n nx ;;
  Ok (x, y).

(** tractBuilder.py:223-253 [LegacyTractBuilder.getPatchInfo] and 320-354
    [CellTractBuilder.getPatchInfo]: identical up to the clipping of the outer
    box (246, absent at 343) and the cell arguments (350-353). *)
Definition getPatchInfo {W} (b : builder) (ix : pyindex) (tractWcs : W) : res (patch W) :=
  if negb (b_initialized b) then Raise RuntimeError
  else
    i <- match ix with
         | IxIndex2D x y => Ok (x, y)
         | IxNum n => getPatchIndexPair b n
         | IxSeq _ | IxOther => index2D_of_star ix
         end ;;
    let '(x, y) := i in
    let '(nx, ny) := b_numPatches b in
    if negb ((0 <=? x) && (x <? nx)) || negb ((0 <=? y) && (y <? ny)) then Raise IndexError
    else
      let innerMin := (x * fst (b_patchInner b), y * snd (b_patchInner b)) in
      let innerBBox := box_make innerMin (b_patchInner b) in
      if negb (box_contains_box (b_tractBBox b) innerBBox) then Raise RuntimeError
      else
        let grown := box_grow innerBBox (b_patchBorder b) in
        s <- getSequentialPatchIndexFromPair b (IxIndex2D x y) ;;
        match b_config b with
        | LegacyCfg _ _ =>
            PatchInfo_init (x, y) innerBBox (box_clip grown (b_tractBBox b)) s tractWcs
                           (IxSeq [0; 0]) 0 0 0
        | CellCfg (cw, ch) cellBorder nInner nBorder =>
            PatchInfo_init (x, y) innerBBox grown s tractWcs
                           (IxIndex2D cw ch) cellBorder nInner nBorder
        end.
