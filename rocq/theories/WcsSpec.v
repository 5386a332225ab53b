(** The vocabulary of C81: what it means that a WCS has a projection, a pixel
    scale (radians per pixel), a rotation and a handedness. *)
From Coq Require Import Reals String ZArith.
Require Import Verif.Py Verif.TractInfo Verif.Rings Verif.Sphere Verif.Config.
Import ListNotations.
Open Scope list_scope.
Open Scope R_scope.

(** The names of the zenithal projections modelled, the distance on the sky that
    corresponds to a distance in the plane, and the distance from which on
    coordinates have no position. *)
Definition zenithal_kinds : list (string * (R -> R) * R) :=
  [("TAN"%string, atan, PI / 2); ("STG"%string, fun t => 2 * atan (t / 2), PI)].

(** The pixel at distance [r] from the reference pixel (cx, cy) in direction [phi]
    (from +x towards +y) is at the distance [dist (r * scale)] from the reference
    coordinate, in the direction (from east towards north) [phi - rotation] if
    flipped, else [pi - phi - rotation]; so +y points to the position angle
    [rotation] (from north through east), and +x a quarter turn to its west, or to its east if flipped.
    The two directions of the WCS are inverse to each other; the coordinates
    without a position are those [limit] away or more. *)
Definition zenithal_at (dist : R -> R) (limit scale rotation : R) (flipX : bool) (crval : sphere) (cx cy : R) (w : wcs sphere) : Prop :=
  (forall r phi, pixelToSky w (cx + r * cos phi, cy + r * sin phi)
     = sphere_offset crval (if flipX then phi - rotation else PI - phi - rotation) (dist (r * scale)))
  /\ (forall x y, skyToPixel w (pixelToSky w (x, y)) = Pix x y)
  /\ (forall c x y, skyToPixel w c = Pix x y -> vec_of (pixelToSky w (x, y)) = vec_of c)
  /\ (forall c, skyToPixel w c = PixNaN <-> limit <= separation c crval)
  /\ (forall c, (exists x y, skyToPixel w c = Pix x y) <-> separation c crval < limit).

(** The pixel [x, y] away from the reference pixel is as much east of the reference
    longitude [mid], and the sine of its latitude is as large, as the rotated and
    scaled (x, y) say; likewise back from a longitude (relative to [mid], up to a
    half turn) and a latitude to the pixel. *)
Definition cea_at (scale rotation : R) (flipX : bool) (mid cx cy : R) (w : wcs sphere) : Prop :=
  let m := if flipX then 1 else -1 in
  (forall x y, pixelToSky w (cx + x, cy + y)
     = spherePoint (mid + scale * (m * x * cos rotation + y * sin rotation)) (asin (scale * (y * cos rotation - m * x * sin rotation))))
  /\ (forall lon lat, - PI < lon <= PI -> - (PI / 2) < lat < PI / 2 ->
        exists x y, skyToPixel w (spherePoint (mid + lon) lat) = Pix (cx + x) (cy + y)
          /\ x = m * (lon * cos rotation - sin lat * sin rotation) / scale
          /\ y = (lon * sin rotation + sin lat * cos rotation) / scale
          /\ pixelToSky w (cx + x, cy + y) = spherePoint (mid + lon) lat).

(** The coordinate a tract of a map is projected about. *)
Definition reference (k : class_cfg) (i : Z) (ctr : sphere) : sphere :=
  match k with
  | EquatCfg n _ => spherePoint (deg (360 * (IZR i + 1 / 2) / IZR n)) 0
  | _ => ctr
  end.

(** The part of a tract's half-width that is left when four points, a quarter turn
    apart from each other on a circle and turned by [rotation] from the axes, size it (C85). *)
Definition axis_part (rotation : R) : R := Rmax (Rabs (cos rotation)) (Rabs (sin rotation)).

(** The angular radius (radians) that a configuration gives to tract [i]: half the
    ring height, except for Discrete maps, which list it. *)
Definition tract_radius (k : class_cfg) (i : Z) (radius : R) : Prop :=
  match k with
  | RingsCfg n _ => radius = PI / (IZR n + 1) / 2
  | DiscreteCfg _ _ radii => exists x, py_nth radii i = Ok x /\ radius = deg (f2r x)
  | _ => False
  end.
