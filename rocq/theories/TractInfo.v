(** Model of python/lsst/skymap/tractInfo.py and of
    [makeSkyPolygonFromBBox] (detail/utils.py:61-78).

    Sky coordinates are an arbitrary type [Sky]; a WCS is an arbitrary pair of
    functions between sky and pixel positions whose [skyToPixel] may raise or
    return NaN.  [offset] is [SpherePoint.offset(bearing, amount)] (radians). *)
From Coq Require Import Reals.
From Flocq Require Import Raux.
Require Import Verif.Py Verif.Float64 Verif.Geom Verif.PatchInfo Verif.TractBuilder.
Open Scope Z_scope.

(** Exceptions of SkyWcs: [lsst.pex.exceptions.DomainError] and [RuntimeError]
    are caught by the code, any other one is not. *)
Inductive wcs_exn := WDomainError | WRuntimeError | WOtherError.

(** Outcome of [wcs.skyToPixel(coord)].  AST returns NaN for both coordinates of
    a position it cannot map; infinite coordinates are not modelled. *)
Inductive pixres := PixRaise (e : wcs_exn) | PixNaN | Pix (x y : R).

Record wcs (Sky : Type) := mkWcs { skyToPixel : Sky -> pixres; pixelToSky : R * R -> Sky }.
Arguments mkWcs {Sky}.  Arguments skyToPixel {Sky}.  Arguments pixelToSky {Sky}.

(** [SkyWcs.copyAtShiftedPixelOrigin(shift)] (external): pixel positions of the
    new WCS are those of the old one plus [shift]. *)
Definition copyAtShiftedPixelOrigin {Sky} (w : wcs Sky) (dx dy : R) : wcs Sky :=
  mkWcs (fun c => match skyToPixel w c with
                  | Pix x y => Pix (x + dx) (y + dy)
                  | r => r
                  end)
        (fun p => pixelToSky w ((fst p - dx)%R, (snd p - dy)%R)).

(** Converting NaN to int on x86-64 gives INT_MIN. *)
Definition int_min : Z := -2147483648.

(** [geom.Point2I(pixel)] of a [skyToPixel] result that did not raise. *)
Definition point2I_of_pix (p : pixres) : pair2 :=
  match p with
  | Pix x y => (round_pixel x, round_pixel y)
  | _ => (int_min, int_min)
  end.

Section Tract.
Context {Sky : Type}.
Variable offset : Sky -> R -> R -> Sky.

(** tractInfo.py:87-97 the attributes of [TractInfo]; [t_oid] is the identity
    of the Python object ([TractInfo] defines no [__eq__], so [==] is [is]).
    [_innerBoxCorners] is a pair of (lon, lat) pairs in radians. *)
Record tract := mkTract {
  t_oid : nat; t_id : Z; t_ctr : Sky; t_verts : list Sky; t_overlap : R;
  t_numPatches : pair2; t_bbox : box; t_wcs : wcs Sky;
  t_innerBoxCorners : option ((R * R) * (R * R)) }.

(** [minBBoxD.include(wcs.skyToPixel(c))] for each [c]; an exception of the WCS
    propagates; including a NaN point leaves a Box2D unchanged. *)
Definition include_sky (w : wcs Sky) (acc : res box2d) (c : Sky) : res box2d :=
  b <- acc ;;
  match skyToPixel w c with
  | PixRaise _ => Raise WcsError
  | PixNaN => Ok b
  | Pix x y => Ok (box2d_include b x y)
  end.
Definition include_all (w : wcs Sky) (l : list Sky) : res box2d :=
  fold_left (include_sky w) l (Ok Box2DEmpty).

(** tractInfo.py:108-121: the sky points included by
    [TractInfo._minimumBoundingBox]: each vertex, or 24 points around it. *)
Definition overlap_samples (tractOverlap : R) (v : Sky) : list Sky :=
  if Req_bool tractOverlap 0 then [v]
  else map (fun i => offset v ((2 * PI) / 24 * IZR i)%R (tractOverlap / 2)%R) (zrange 0 24).
Definition min_bbox_samples (verts : list Sky) (tractOverlap : R) : list Sky :=
  flat_map (overlap_samples tractOverlap) verts.

(** tractInfo.py:484-487: the sky points included by
    [ExplicitTractInfo._minimumBoundingBox]: four cardinal directions. *)
Definition explicit_samples (ctr : Sky) (radius tractOverlap : R) : list Sky :=
  map (fun i => offset ctr (IZR i * (PI / 2))%R (radius + tractOverlap)%R) (zrange 0 4).

(** tractInfo.py:123-149 [TractInfo._finalOrientation] *)
Definition finalOrientation (bbox : box) (w : wcs Sky) : box * wcs Sky :=
  let finalBBox := box_make (0, 0) (box_dims bbox) in
  (finalBBox,
   copyAtShiftedPixelOrigin w (IZR (minx finalBBox - minx bbox)) (IZR (miny finalBBox - miny bbox))).

(** tractInfo.py:95-97, the common tail of the constructors. *)
Definition tract_build (b : builder) (oid : nat) (id : Z) (ctr : Sky) (verts : list Sky)
    (overlap : R) (w : wcs Sky) (corners : option ((R * R) * (R * R))) (samples : list Sky)
  : res (builder * tract) :=
  minBBox <- include_all w samples ;;
  r <- setupPatches b (box_of_box2d minBBox) ;;
  let '(b', (initialBBox, numPatches)) := r in
  let '(bbox, w') := finalOrientation initialBBox w in
  Ok (b', mkTract oid id ctr verts overlap numPatches bbox w' corners).

(** tractInfo.py:87-97 [TractInfo.__init__] *)
Definition TractInfo_init (b : builder) (oid : nat) (id : Z) (ctr : Sky) (verts : list Sky)
    (overlap : R) (w : wcs Sky) (corners : option ((R * R) * (R * R))) : res (builder * tract) :=
  tract_build b oid id ctr verts overlap w corners (min_bbox_samples verts overlap).

(** tractInfo.py:459-477 [ExplicitTractInfo.__init__]: the vertices are the
    corners of the tract box shrunk by 0.001 pixel. *)
Definition ExplicitTractInfo_init (b : builder) (oid : nat) (id : Z) (ctr : Sky) (radius : R)
    (overlap : R) (w : wcs Sky) (corners : option ((R * R) * (R * R))) : res (builder * tract) :=
  r <- tract_build b oid id ctr [] overlap w corners (explicit_samples ctr radius overlap) ;;
  let '(b', t) := r in
  let bboxD := box2d_grow (box2d_of_box (t_bbox t)) (- (1 / 1000)) in
  Ok (b', mkTract (t_oid t) (t_id t) (t_ctr t)
                  (map (pixelToSky (t_wcs t)) (box2d_corners bboxD))
                  (t_overlap t) (t_numPatches t) (t_bbox t) (t_wcs t) (t_innerBoxCorners t)).

(** The remaining methods read the tract object [t] and the tract builder
    object [b] it refers to (in its current state). *)

(** tractInfo.py:309-329 [TractInfo.getPatchInfo], 415-416 [__getitem__] *)
Definition tract_getPatchInfo (b : builder) (t : tract) (ix : pyindex) : res (patch (wcs Sky)) :=
  getPatchInfo b ix (t_wcs t).

(** tractInfo.py:211-222 [TractInfo.findPatch] *)
Definition findPatch (b : builder) (t : tract) (coord : Sky) : res (patch (wcs Sky)) :=
  match skyToPixel (t_wcs t) coord with
  | PixRaise WDomainError | PixRaise WRuntimeError => Raise LookupError
  | PixRaise WOtherError => Raise WcsError
  | pixel =>
      let '(px, py) := point2I_of_pix pixel in
      if negb (box_contains_point (t_bbox t) (px, py)) then Raise LookupError
      else
        ix <- py_int_truediv px (fst (b_patchInner b)) ;;
        iy <- py_int_truediv py (snd (b_patchInner b)) ;;
        tract_getPatchInfo b t (IxSeq [ix; iy])
  end.

(** tractInfo.py:249-257: the Box2D of the positions that can be computed. *)
Definition include_caught (w : wcs Sky) (acc : res box2d) (c : Sky) : res box2d :=
  b <- acc ;;
  match skyToPixel w c with
  | PixRaise WDomainError | PixRaise WRuntimeError => Ok b
  | PixRaise WOtherError => Raise WcsError
  | PixNaN => Ok b
  | Pix x y => Ok (box2d_include b x y)
  end.

(** tractInfo.py:224-268 [TractInfo.findPatchList] *)
Definition findPatchList (b : builder) (t : tract) (coordList : list Sky)
  : res (list (patch (wcs Sky))) :=
  box2D <- fold_left (include_caught (t_wcs t)) coordList (Ok Box2DEmpty) ;;
  let bbox := box_clip (box_grow (box_of_box2d box2D) (b_patchBorder b)) (t_bbox t) in
  if box_isEmpty bbox then Ok []
  else
    llx <- py_int_truediv (minx bbox) (fst (b_patchInner b)) ;;
    lly <- py_int_truediv (miny bbox) (snd (b_patchInner b)) ;;
    urx <- py_int_truediv (maxx bbox) (fst (b_patchInner b)) ;;
    ury <- py_int_truediv (maxy bbox) (snd (b_patchInner b)) ;;
    mapM (fun i => tract_getPatchInfo b t (IxSeq [fst i; snd i]))
         (flat_map (fun xInd => map (fun yInd => (xInd, yInd)) (zrange lly (ury + 1)))
                   (zrange llx (urx + 1))).

(** tractInfo.py:405-409 [TractInfo.__iter__], run to exhaustion *)
Definition tract_iter (b : builder) (t : tract) : res (list (patch (wcs Sky))) :=
  let '(nx, ny) := t_numPatches t in
  mapM (fun i => tract_getPatchInfo b t (IxIndex2D (fst i) (snd i))) (grid nx ny).

(** tractInfo.py:411-413 [TractInfo.__len__] *)
Definition tract_len (t : tract) : Z := let '(nx, ny) := t_numPatches t in nx * ny.

(** tractInfo.py:418-428 [TractInfo.contains] *)
Definition tract_contains (t : tract) (coord : Sky) : res bool :=
  match skyToPixel (t_wcs t) coord with
  | PixRaise WDomainError | PixRaise WRuntimeError => Ok false
  | PixRaise WOtherError => Raise WcsError
  | PixNaN => Ok false
  | Pix x y => Ok (box_contains_point (t_bbox t) (round_pixel x, round_pixel y))
  end.

(** detail/utils.py:61-78 [makeSkyPolygonFromBBox]: the vertices given to the
    ConvexPolygon constructor. *)
Definition makeSkyPolygonFromBBox (bbox : box) (w : wcs Sky) : list Sky :=
  map (pixelToSky w) (box2d_corners (box2d_of_box bbox)).

(** patchInfo.py:149-187 sky polygons of a patch; [tractWcs] defaults to the
    patch's own WCS. *)
Definition patch_getInnerSkyPolygon (p : patch (wcs Sky)) (tractWcs : option (wcs Sky)) : list Sky :=
  makeSkyPolygonFromBBox (p_inner p) (match tractWcs with Some w => w | None => p_wcs p end).
Definition patch_getOuterSkyPolygon (p : patch (wcs Sky)) (tractWcs : option (wcs Sky)) : list Sky :=
  makeSkyPolygonFromBBox (p_outer p) (match tractWcs with Some w => w | None => p_wcs p end).

(** tractInfo.py:380-383 [TractInfo.getOuterSkyPolygon] *)
Definition tract_getOuterSkyPolygon (t : tract) : list Sky :=
  makeSkyPolygonFromBBox (t_bbox t) (t_wcs t).
End Tract.
Arguments tract Sky : clear implicits.
