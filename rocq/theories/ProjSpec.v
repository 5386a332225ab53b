(** The vocabulary for properties of zenithal projections. *)
From Coq Require Import Reals.
From Flocq Require Import Core.Raux.
Require Import Verif.Py Verif.Geom Verif.TractInfo Verif.Rings Verif.Sphere.
Open Scope R_scope.

(** The WCS is the zenithal projection with the given radial factor centred at
    [ctr], with reference pixel (0, 0), and any pixel scale, rotation and
    handedness: [a] and [b] are perpendicular to the centre and to each other and
    equally long. *)
Definition projects (factor : R -> option R) (ctr : sphere) (w : wcs sphere) : Prop :=
  exists a b, dot a (vec_of ctr) = 0 /\ dot b (vec_of ctr) = 0 /\ dot a b = 0
    /\ dot a a = dot b b /\ 0 < dot a a
    /\ forall c, skyToPixel w c =
         match factor (dot (vec_of c) (vec_of ctr)) with
         | Some f => Pix (f * dot (vec_of c) a) (f * dot (vec_of c) b)
         | None => PixNaN
         end.

(** The distance from a point up to which the regular spherical 24-gon with
    vertices at distance [r] reaches. *)
Definition inradius24 (r : R) : R := atan (cos (PI / 24) * tan r).

(** The WCS is the cylindrical equal area (CEA) projection about the equatorial
    point [ctr] with reference pixel (0, 0) and any pixel scale, rotation and
    handedness: the longitude relative to [ctr] (from -pi to pi) and the sine of the
    latitude, transformed linearly. *)
Definition cylindrical (ctr : sphere) (w : wcs sphere) : Prop :=
  exists a b c d, forall p,
    let v := vec_of p in
    let lon := atan2 (dot v (east ctr)) (dot v (vec_of ctr)) in
    let z := dot v (north ctr) in
    skyToPixel w p = Pix (a * lon + b * z) (c * lon + d * z).

(** A gnomonic (TAN) WCS: about some centre, with any reference pixel, pixel scale,
    rotation and handedness; pixel positions lead to the sky and back. *)
Definition gnomonic (w : wcs sphere) : Prop :=
  (exists ctr a b x0 y0, dot a (vec_of ctr) = 0 /\ dot b (vec_of ctr) = 0 /\ dot a b = 0
    /\ dot a a = dot b b /\ 0 < dot a a
    /\ forall c, skyToPixel w c =
         let d := dot (vec_of c) (vec_of ctr) in
         if Rlt_bool 0 d then Pix (x0 + dot (vec_of c) a / d) (y0 + dot (vec_of c) b / d) else PixNaN)
  /\ forall x y, skyToPixel w (pixelToSky w (x, y)) = Pix x y.

(** The position (x, y) is in the closed area that the pixels of the box cover. *)
Definition in_area (x y : R) (B : box) : Prop :=
  IZR (minx B) - / 2 <= x <= IZR (minx B + dimx B) - / 2
  /\ IZR (miny B) - / 2 <= y <= IZR (miny B + dimy B) - / 2.
