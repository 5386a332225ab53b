(** Property theorems; generated by tools/mkprops.py from MainTract.v. *)
From Coq Require Import Reals Lra Sorted.
From Flocq Require Import Raux.
Require Import Verif.Py Verif.Geom Verif.PatchInfo Verif.TractBuilder Verif.TractInfo Verif.Spec.
Require Import Verif.PatchProofs Verif.TractProofs Verif.Examples.
Require Import Verif.MainTract.
Open Scope Z_scope.

(** C15: findPatch agrees with contains: for a coordinate in the tract it returns a patch of the
    tract whose inner box holds the pixel of the coordinate (the binary64 division never selects
    a neighbour), for one that is not in the tract it raises LookupError. *)
Theorem findPatch_correct : forall (Sky : Type) (offset : Sky -> R -> R -> Sky) c b t coord,
  cfg_ok c -> in_use offset c b t -> dimx (t_bbox t) < 2 ^ 31 -> dimy (t_bbox t) < 2 ^ 31 ->
  match tract_contains t coord with
  | Ok true =>
      exists p i j px py, findPatch b t coord = Ok p
        /\ tract_getPatchInfo b t (IxIndex2D i j) = Ok p
        /\ pixel_of t coord px py /\ in_box px py (t_bbox t) /\ in_box px py (p_inner p)
  | Ok false => findPatch b t coord = Raise LookupError
  | Raise e => findPatch b t coord = Raise e
  end.
Proof. exact findPatch_correct_proof. Qed.
Print Assumptions findPatch_correct.

(** C15: contains(coord) is true exactly when the pixel of coord can be computed and lies in the
    tract box. *)
Theorem contains_correct : forall (Sky : Type) (t : tract Sky) coord,
  tract_contains t coord = Ok true <->
  exists px py, pixel_of t coord px py /\ in_box px py (t_bbox t).
Proof. exact contains_correct_proof. Qed.
Print Assumptions contains_correct.

(** C16: findPatchList returns the patches, ordered by x then y without repetition, whose inner
    box comes within patch_border of the pixel bounding box of the computable coordinates. *)
Theorem findPatchList_correct : forall (Sky : Type) (offset : Sky -> R -> R -> Sky) c b t coords,
  cfg_ok c -> in_use offset c b t -> dimx (t_bbox t) < 2 ^ 31 -> dimy (t_bbox t) < 2 ^ 31 ->
  (forall s, In s coords -> skyToPixel (t_wcs t) s <> PixRaise WOtherError) ->
  exists ps B, findPatchList b t coords = Ok ps
    /\ pixel_bbox t coords B
    /\ (forall i j p, tract_getPatchInfo b t (IxIndex2D i j) = Ok p ->
          (In p ps <-> exists px py qx qy, in_box px py B /\ in_box qx qy (p_inner p)
                         /\ Z.abs (px - qx) <= cfg_border c /\ Z.abs (py - qy) <= cfg_border c))
    /\ (forall p, In p ps -> exists i j, tract_getPatchInfo b t (IxIndex2D i j) = Ok p)
    /\ StronglySorted (fun p q => fst (p_index p) < fst (p_index q) \/
                        (fst (p_index p) = fst (p_index q) /\ snd (p_index p) < snd (p_index q))) ps.
Proof. exact findPatchList_correct_proof. Qed.
Print Assumptions findPatchList_correct.

(** C16: in particular the patch found for each coordinate in the tract is in the list. *)
Theorem findPatchList_complete : forall (Sky : Type) (offset : Sky -> R -> R -> Sky) c b t coords coord p,
  cfg_ok c -> in_use offset c b t -> dimx (t_bbox t) < 2 ^ 31 -> dimy (t_bbox t) < 2 ^ 31 ->
  (forall s, In s coords -> skyToPixel (t_wcs t) s <> PixRaise WOtherError) ->
  In coord coords -> findPatch b t coord = Ok p ->
  exists ps, findPatchList b t coords = Ok ps /\ In p ps.
Proof. exact findPatchList_complete_proof. Qed.
Print Assumptions findPatchList_complete.

(** C16: an exception of the WCS other than DomainError and RuntimeError escapes. *)
Theorem findPatchList_wcs_error : forall (Sky : Type) (b : builder) (t : tract Sky) coords s,
  In s coords -> skyToPixel (t_wcs t) s = PixRaise WOtherError ->
  findPatchList b t coords = Raise WcsError.
Proof. exact findPatchList_wcs_error_proof. Qed.
Print Assumptions findPatchList_wcs_error.

(** C17: every sampled position of the region a tract must cover that has a pixel position is in
    the finished tract (each vertex for zero overlap, else each vertex displaced by half the
    overlap in each of 24 directions), and the tract's WCS is the given one shifted by whole pixels. *)
Theorem tract_contains_samples :
  forall (Sky : Type) (offset : Sky -> R -> R -> Sky) c b oid id ctr verts overlap w corners b' t,
  cfg_ok c -> builder_reachable c b ->
  TractInfo_init offset b oid id ctr verts overlap w corners = Ok (b', t) ->
  (forall v i x y, In v verts -> overlap <> 0%R -> 0 <= i < 24 ->
     skyToPixel w (offset v ((2 * PI) / 24 * IZR i)%R (overlap / 2)%R) = Pix x y ->
     tract_contains t (offset v ((2 * PI) / 24 * IZR i)%R (overlap / 2)%R) = Ok true)
  /\ (forall v x y, In v verts -> overlap = 0%R -> skyToPixel w v = Pix x y ->
     tract_contains t v = Ok true)
  /\ (exists dx dy : Z, forall s, skyToPixel (t_wcs t) s =
        match skyToPixel w s with Pix x y => Pix (x + IZR dx) (y + IZR dy) | r => r end)
  /\ t_id t = id /\ t_ctr t = ctr /\ t_verts t = verts /\ t_overlap t = overlap.
Proof. exact tract_contains_samples_proof. Qed.
Print Assumptions tract_contains_samples.

(** C17, explicit tracts: the four points at distance radius + overlap from the centre in the
    cardinal directions are in the tract. *)
Theorem explicit_contains_samples :
  forall (Sky : Type) (offset : Sky -> R -> R -> Sky) c b oid id ctr radius overlap w corners b' t i x y,
  cfg_ok c -> builder_reachable c b ->
  ExplicitTractInfo_init offset b oid id ctr radius overlap w corners = Ok (b', t) ->
  0 <= i < 4 ->
  skyToPixel w (offset ctr (IZR i * (PI / 2))%R (radius + overlap)%R) = Pix x y ->
  tract_contains t (offset ctr (IZR i * (PI / 2))%R (radius + overlap)%R) = Ok true.
Proof. exact explicit_contains_samples_proof. Qed.
Print Assumptions explicit_contains_samples.

(** C18: the four vertices of an explicit tract with patches are in the tract, in the four corner
    patches, when the WCS maps pixels to sky and back consistently. *)
Theorem explicit_vertices :
  forall (Sky : Type) (offset : Sky -> R -> R -> Sky) c b oid id ctr radius overlap w corners b' t nx ny,
  cfg_ok c -> builder_reachable c b ->
  ExplicitTractInfo_init offset b oid id ctr radius overlap w corners = Ok (b', t) ->
  (forall x y, skyToPixel w (pixelToSky w (x, y)) = Pix x y) ->
  t_numPatches t = (nx, ny) -> 0 < nx ->
  dimx (t_bbox t) < 2 ^ 31 -> dimy (t_bbox t) < 2 ^ 31 ->
  exists v0 v1 v2 v3, t_verts t = [v0; v1; v2; v3]
    /\ tract_contains t v0 = Ok true /\ tract_contains t v1 = Ok true
    /\ tract_contains t v2 = Ok true /\ tract_contains t v3 = Ok true
    /\ findPatch b' t v0 = tract_getPatchInfo b' t (IxIndex2D 0 0)
    /\ findPatch b' t v1 = tract_getPatchInfo b' t (IxIndex2D (nx - 1) 0)
    /\ findPatch b' t v2 = tract_getPatchInfo b' t (IxIndex2D (nx - 1) (ny - 1))
    /\ findPatch b' t v3 = tract_getPatchInfo b' t (IxIndex2D 0 (ny - 1)).
Proof. exact explicit_vertices_proof. Qed.
Print Assumptions explicit_vertices.

(** C19: inner sky polygons of adjacent patches share exactly the two vertices of the common edge;
    the corner patches have the corners of the tract polygon. *)
Theorem sky_polygons_shared :
  forall (Sky : Type) (offset : Sky -> R -> R -> Sky) c b t nx ny,
  cfg_ok c -> in_use offset c b t -> t_numPatches t = (nx, ny) ->
  let poly i j := match tract_getPatchInfo b t (IxIndex2D i j) with
                  | Ok p => patch_getInnerSkyPolygon p None | Raise _ => [] end in
  (forall i j, 0 <= i < nx - 1 -> 0 <= j < ny ->
     exists a1 a2 b1 b2 c1 c2, poly i j = [a1; b1; b2; a2] /\ poly (i + 1) j = [b1; c1; c2; b2])
  /\ (forall i j, 0 <= i < nx -> 0 <= j < ny - 1 ->
     exists a1 a2 b1 b2 c1 c2, poly i j = [a1; a2; b2; b1] /\ poly i (j + 1) = [b1; b2; c2; c1])
  /\ (0 < nx -> exists v0 v1 v2 v3, tract_getOuterSkyPolygon t = [v0; v1; v2; v3]
     /\ nth_error (poly 0 0) 0 = Some v0 /\ nth_error (poly (nx - 1) 0) 1 = Some v1
     /\ nth_error (poly (nx - 1) (ny - 1)) 2 = Some v2 /\ nth_error (poly 0 (ny - 1)) 3 = Some v3).
Proof. exact sky_polygons_shared_proof. Qed.
Print Assumptions sky_polygons_shared.

(** C15-C17, C19, non-vacuity: a tract in use, below the 32 bit limit, with a coordinate in it. *)
Example tract_hypotheses_met :
  exists b t, in_use flat_offset legacy_default b t /\ t_numPatches t = (3, 2)
    /\ dimx (t_bbox t) < 2 ^ 31 /\ dimy (t_bbox t) < 2 ^ 31
    /\ tract_contains t (9999, 4999)%R = Ok true.
Proof. exact tract_hypotheses_met_proof. Qed.

(** C18, non-vacuity: an explicit tract of 3 x 3 patches with a consistent WCS. *)
Example explicit_hypotheses_met :
  exists offset b' t, cfg_ok legacy_default
    /\ ExplicitTractInfo_init offset (builder_init legacy_default) 0 0 (0, 0)%R 9999 0 flat_wcs None = Ok (b', t)
    /\ t_numPatches t = (3, 3) /\ dimx (t_bbox t) < 2 ^ 31 /\ dimy (t_bbox t) < 2 ^ 31
    /\ (forall x y, skyToPixel flat_wcs (pixelToSky flat_wcs (x, y)) = Pix x y).
Proof. exact explicit_hypotheses_met_proof. Qed.
