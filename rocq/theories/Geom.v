(** The parts of [lsst.geom] used by lsst/skymap.  This is external code (not
    in /repo), modelled from its documentation and source; it belongs to the
    trusted base.  Integers are unbounded [Z] (the C++ class uses 32 bit ints
    and raises OverflowError beyond them); doubles are exact reals. *)
From Coq Require Import Reals.
From Flocq Require Import Raux.
Require Import Verif.Py.
Open Scope Z_scope.

(** [lsst.geom.Box2I]: minimum corner and dimensions, in pixels. *)
Record box := Box { minx : Z; miny : Z; dimx : Z; dimy : Z }.

(** The default constructed (empty) box. *)
Definition box_empty : box := Box 0 0 0 0.
(** [Box2I.isEmpty] *)
Definition box_isEmpty (b : box) : bool := (dimx b =? 0) && (dimy b =? 0).
(** [Box2I.getMaxX], [getMaxY] (inclusive) *)
Definition maxx (b : box) : Z := minx b + dimx b - 1.
Definition maxy (b : box) : Z := miny b + dimy b - 1.
(** [Box2I.getDimensions] *)
Definition box_dims (b : box) : pair2 := (dimx b, dimy b).

(** [Box2I(Point2I, Extent2I)]: a zero dimension makes the box empty, a negative
    one is inverted. *)
Definition box_make (mn dm : pair2) : box :=
  let '(x, y) := mn in let '(w, h) := dm in
  if (w =? 0) || (h =? 0) then box_empty
  else Box (if w <? 0 then x + w + 1 else x) (if h <? 0 then y + h + 1 else y)
           (Z.abs w) (Z.abs h).

(** [Box2I.contains(Point2I)] *)
Definition box_contains_point (b : box) (p : pair2) : bool :=
  let '(x, y) := p in
  (minx b <=? x) && (x <=? maxx b) && (miny b <=? y) && (y <=? maxy b).

(** [Box2I.contains(Box2I)]: always true for an empty argument. *)
Definition box_contains_box (b o : box) : bool :=
  box_isEmpty o
  || ((minx b <=? minx o) && (miny b <=? miny o)
      && (maxx o <=? maxx b) && (maxy o <=? maxy b)).

(** [Box2I.grow(int)] (in place in Python; returns the new box here). *)
Definition box_grow (b : box) (n : Z) : box :=
  if box_isEmpty b then b
  else
    let w := dimx b + 2 * n in let h := dimy b + 2 * n in
    if (w <=? 0) || (h <=? 0) then box_empty
    else Box (minx b - n) (miny b - n) w h.

(** [Box2I.clip(Box2I)] *)
Definition box_clip (b o : box) : box :=
  if box_isEmpty b then b
  else if box_isEmpty o then box_empty
  else
    let x0 := Z.max (minx b) (minx o) in let y0 := Z.max (miny b) (miny o) in
    let x1 := Z.min (maxx b) (maxx o) in let y1 := Z.min (maxy b) (maxy o) in
    if (x1 <? x0) || (y1 <? y0) then box_empty
    else Box x0 y0 (x1 - x0 + 1) (y1 - y0 + 1).

(** [Box2I.__eq__] *)
Definition box_eqb (a b : box) : bool :=
  (minx a =? minx b) && (miny a =? miny b) && (dimx a =? dimx b) && (dimy a =? dimy b).

(** ** Floating point geometry, over exact reals *)

(** [Point2I(Point2D)] rounds each coordinate: pixel [i] covers [i-0.5, i+0.5). *)
Definition round_pixel (x : R) : Z := Zfloor (x + / 2).

(** [lsst.geom.Box2D]; the empty box is the one with NaN minimum. *)
Inductive box2d := Box2DEmpty | Box2D (x0 y0 x1 y1 : R).

(** [Box2D._tweakMax]: EPSILON = 2 * DBL_EPSILON; makes the half open box
    contain the point that defined its maximum. *)
Definition box2d_eps : R := (/ IZR (2 ^ 51))%R.
Definition tweak_max (x : R) : R :=
  if Rlt_bool x 0 then (x * (1 - box2d_eps))%R
  else if Rlt_bool 0 x then (x * (1 + box2d_eps))%R
  else box2d_eps.

(** [Box2D.include(Point2D)], finite point. *)
Definition include_axis (lo hi p : R) : R * R :=
  if Rlt_bool p lo then (p, hi)
  else if Rle_bool hi p then (lo, tweak_max p)
  else (lo, hi).
Definition box2d_include (b : box2d) (x y : R) : box2d :=
  match b with
  | Box2DEmpty => Box2D x y (tweak_max x) (tweak_max y)
  | Box2D x0 y0 x1 y1 =>
      let '(x0', x1') := include_axis x0 x1 x in
      let '(y0', y1') := include_axis y0 y1 y in
      Box2D x0' y0' x1' y1'
  end.

(** [Box2I(Box2D)] with the default EdgeHandling EXPAND. *)
Definition box_of_box2d (b : box2d) : box :=
  match b with
  | Box2DEmpty => box_empty
  | Box2D x0 y0 x1 y1 =>
      let mx := Zfloor (x0 + / 2) in let my := Zfloor (y0 + / 2) in
      Box mx my (Zceil (x1 - / 2) + 1 - mx) (Zceil (y1 - / 2) + 1 - my)
  end.

(** [Box2D(Box2I)]: pixel edges. *)
Definition box2d_of_box (b : box) : box2d :=
  if box_isEmpty b then Box2DEmpty
  else Box2D (IZR (minx b) - / 2) (IZR (miny b) - / 2)
             (IZR (maxx b) + / 2) (IZR (maxy b) + / 2).

(** [Box2D.grow(double)] *)
Definition box2d_grow (b : box2d) (d : R) : box2d :=
  match b with
  | Box2DEmpty => Box2DEmpty
  | Box2D x0 y0 x1 y1 =>
      let x0' := (x0 - d)%R in let y0' := (y0 - d)%R in
      let x1' := (x1 + d)%R in let y1' := (y1 + d)%R in
      if Rle_bool x1' x0' || Rle_bool y1' y0' then Box2DEmpty
      else Box2D x0' y0' x1' y1'
  end.

(** [Box2D.getCorners]; the corners of an empty box are NaN points, which
    nothing in the model uses: returned as no corners. *)
Definition box2d_corners (b : box2d) : list (R * R) :=
  match b with
  | Box2DEmpty => []
  | Box2D x0 y0 x1 y1 => [(x0, y0); (x1, y0); (x1, y1); (x0, y1)]
  end.
