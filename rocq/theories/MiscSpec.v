(** The vocabulary for the contents of tracts. *)
From Coq Require Import Reals.
Require Import Verif.Py Verif.Geom Verif.PatchInfo Verif.TractBuilder Verif.TractInfo.
Open Scope Z_scope.

(** [w'] is the projection [w] with the pixel origin moved by whole pixels. *)
Definition same_projection {Sky} (w w' : wcs Sky) : Prop :=
  exists dx dy : Z,
    (forall coord, skyToPixel w' coord = match skyToPixel w coord with
                                         | Pix x y => Pix (x + IZR dx) (y + IZR dy)
                                         | r => r
                                         end)
    /\ (forall x y, pixelToSky w' (x, y) = pixelToSky w ((x - IZR dx)%R, (y - IZR dy)%R)).

(** The tract has the given number, centre, vertices and overlap, and is projected like [w]. *)
Definition tract_with {Sky} (id : Z) (ctr : Sky) (verts : list Sky) (overlap : R) (w : wcs Sky) (t : tract Sky) : Prop :=
  t_id t = id /\ t_ctr t = ctr /\ t_verts t = verts /\ t_overlap t = overlap /\ same_projection w (t_wcs t).

(** The tract contains the point, or the projection has no position for it. *)
Definition contains_projected {Sky} (w : wcs Sky) (t : tract Sky) (p : Sky) : Prop :=
  forall x y, skyToPixel w p = Pix x y -> tract_contains t p = Ok true.

(** ... and all points at distance [overlap/2] from [v] in 24 directions ([v] itself if overlap is 0). *)
Definition contains_around {Sky} (offset : Sky -> R -> R -> Sky) (w : wcs Sky) (overlap : R) (t : tract Sky) (v : Sky) : Prop :=
  (overlap = 0%R -> contains_projected w t v)
  /\ (overlap <> 0%R -> forall i, 0 <= i < 24 ->
        contains_projected w t (offset v (2 * PI / 24 * IZR i)%R (overlap / 2)%R)).
