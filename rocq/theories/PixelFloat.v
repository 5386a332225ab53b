(** Pixel look-up of a tract in IEEE binary64 arithmetic, operation by operation as the code computes it (Geom.v and
    TractInfo.v have the same functions over exact reals).  Pixel positions are pairs of doubles, as
    [TractInfo.wcs.skyToPixel] returns them; positions that cannot be computed and NaN positions are not part of this
    file (TractInfo.v has them). *)
From Coq Require Import Reals.
From Flocq Require Import Core BinarySingleNaN.
Require Import Verif.Py Verif.Geom Verif.Float64 Verif.PatchInfo Verif.TractBuilder Verif.TractInfo Verif.RingsFloat.
Import ListNotations.
Open Scope Z_scope.

(** [static_cast<int>(floor(x))] and [static_cast<int>(ceil(x))] (external), within the range of int *)
Definition f_floor (x : f64) : Z := Zfloor (f2R x).
Definition f_ceil (x : f64) : Z := Zceil (f2R x).
(** [geom.Point2I(geom.Point2D)] (external), one coordinate: [floor(x + 0.5)] *)
Definition f_pixel (x : f64) : Z := f_floor (fadd x f_half).

(** [Box2D._tweakMax] (external), [EPSILON = 2*DBL_EPSILON]: the compiler folds [1.0 - EPSILON] and [1.0 + EPSILON]. *)
Definition f_zero : f64 := float_of_int 0.
Definition f_eps : f64 := f64_make 1 (-51).
Definition f_tweak (x : f64) : f64 :=
  if fltb x f_zero then fmul x (fsub (float_of_int 1) f_eps)
  else if fltb f_zero x then fmul x (fadd (float_of_int 1) f_eps)
  else f_eps.
(** [geom.Box2D] (external): minimum and maximum of the two coordinates *)
Inductive f_box2d := FBoxEmpty | FBox (x0 y0 x1 y1 : f64).
(** [Box2D.include(Point2D)] (external), finite point *)
Definition f_include_axis (lo hi p : f64) : f64 * f64 :=
  if fltb p lo then (p, hi)
  else if fleb hi p then (lo, f_tweak p)
  else (lo, hi).
Definition f_include (b : f_box2d) (p : f64 * f64) : f_box2d :=
  let '(x, y) := p in
  match b with
  | FBoxEmpty => FBox x y (f_tweak x) (f_tweak y)
  | FBox x0 y0 x1 y1 =>
      let '(x0', x1') := f_include_axis x0 x1 x in
      let '(y0', y1') := f_include_axis y0 y1 y in
      FBox x0' y0' x1' y1'
  end.
(** [geom.Box2I(geom.Box2D)] (external): [floor(min + 0.5)] to [ceil(max - 0.5)] *)
Definition f_box_of_box2d (b : f_box2d) : box :=
  match b with
  | FBoxEmpty => box_empty
  | FBox x0 y0 x1 y1 =>
      let mx := f_pixel x0 in let my := f_pixel y0 in
      Box mx my (f_ceil (fsub x1 f_half) + 1 - mx) (f_ceil (fsub y1 f_half) + 1 - my)
  end.

Section Tract.
Context {Sky : Type}.

(** tractInfo.py:216-222 [TractInfo.findPatch], from the pixel position on *)
Definition f_findPatch (b : builder) (t : tract Sky) (pixel : f64 * f64) : res (patch (wcs Sky)) :=
  let px := f_pixel (fst pixel) in
  let py := f_pixel (snd pixel) in
  if negb (box_contains_point (t_bbox t) (px, py)) then Raise LookupError
  else
    ix <- py_int_truediv px (fst (b_patchInner b)) ;;
    iy <- py_int_truediv py (snd (b_patchInner b)) ;;
    tract_getPatchInfo b t (IxSeq [ix; iy]).

(** tractInfo.py:424-428 [TractInfo.contains], from the pixel position on *)
Definition f_contains (t : tract Sky) (pixel : f64 * f64) : bool :=
  box_contains_point (t_bbox t) (f_pixel (fst pixel), f_pixel (snd pixel)).

(** tractInfo.py:249-268 [TractInfo.findPatchList], the list of the positions of those coordinates that have one given *)
Definition f_findPatchList (b : builder) (t : tract Sky) (pixels : list (f64 * f64)) : res (list (patch (wcs Sky))) :=
  let box2D := fold_left f_include pixels FBoxEmpty in
  let bbox := box_clip (box_grow (f_box_of_box2d box2D) (b_patchBorder b)) (t_bbox t) in
  if box_isEmpty bbox then Ok []
  else
    llx <- py_int_truediv (minx bbox) (fst (b_patchInner b)) ;;
    lly <- py_int_truediv (miny bbox) (snd (b_patchInner b)) ;;
    urx <- py_int_truediv (maxx bbox) (fst (b_patchInner b)) ;;
    ury <- py_int_truediv (maxy bbox) (snd (b_patchInner b)) ;;
    mapM (fun i => tract_getPatchInfo b t (IxSeq [fst i; snd i]))
         (flat_map (fun xInd => map (fun yInd => (xInd, yInd)) (zrange lly (ury + 1)))
                   (zrange llx (urx + 1))).
End Tract.
