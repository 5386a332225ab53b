(** The vocabulary in which the properties of patches, cells and tracts are
    stated.  It depends on the model only through its data types and its
    constructors of tract builders and tracts. *)
From Coq Require Import Reals.
Require Import Verif.Py Verif.Geom Verif.PatchInfo Verif.TractBuilder Verif.TractInfo.
Open Scope Z_scope.

(** The pixel (px, py) belongs to the box (integer pixels, half open). *)
Definition in_box (px py : Z) (b : box) : Prop :=
  minx b <= px < minx b + dimx b /\ miny b <= py < miny b + dimy b.

(** A box as [lsst.geom.Box2I] can represent it: empty or with positive sides. *)
Definition box_wf (b : box) : Prop := b = box_empty \/ (0 < dimx b /\ 0 < dimy b).

(** [b] is [a] enlarged by [n] pixels on all four sides. *)
Definition enlarged (n : Z) (a b : box) : Prop :=
  minx b = minx a - n /\ miny b = miny a - n /\ dimx b = dimx a + 2 * n /\ dimy b = dimy a + 2 * n.

(** The configured geometry: size of a patch inner region and its border. *)
Definition cfg_inner (c : tb_config) : pair2 :=
  match c with
  | LegacyCfg inner _ => inner
  | CellCfg (w, h) _ n _ => (w * n, h * n)
  end.
Definition cfg_border (c : tb_config) : Z :=
  match c with
  | LegacyCfg _ border => border
  | CellCfg (w, _) cb _ nb => nb * w + cb
  end.
Definition is_cells (c : tb_config) : Prop :=
  match c with CellCfg _ _ _ _ => True | LegacyCfg _ _ => False end.

(** Sensible configurations: positive sizes, non-negative borders. *)
Definition cfg_ok (c : tb_config) : Prop :=
  match c with
  | LegacyCfg (w, h) border => 0 < w /\ 0 < h /\ 0 <= border
  | CellCfg (w, h) cb n nb => 0 < w /\ 0 < h /\ 0 <= cb /\ 0 < n /\ 0 <= nb
  end.

(** A tract builder object in any state it can get into: created from a
    configuration and then used to set up any number of tracts. *)
Inductive builder_reachable (c : tb_config) : builder -> Prop :=
| br_init : builder_reachable c (builder_init c)
| br_setup b m b' out :
    builder_reachable c b -> box_wf m -> setupPatches b m = Ok (b', out) -> builder_reachable c b'.

Section Tract.
Context {Sky : Type}.
Variable offset : Sky -> R -> R -> Sky.

(** [t] was made by one of the two tract classes with a builder of configuration [c]. *)
Inductive tract_made (c : tb_config) : tract Sky -> Prop :=
| tm_plain b b' t oid id ctr verts overlap w corners :
    builder_reachable c b ->
    TractInfo_init offset b oid id ctr verts overlap w corners = Ok (b', t) -> tract_made c t
| tm_explicit b b' t oid id ctr radius overlap w corners :
    builder_reachable c b ->
    ExplicitTractInfo_init offset b oid id ctr radius overlap w corners = Ok (b', t) ->
    tract_made c t.

(** The tract [t] is used while its builder is in the state [b] and the last
    tract set up with this builder was [t] or another one with the same patch counts. *)
Record in_use (c : tb_config) (b : builder) (t : tract Sky) : Prop := {
  iu_reach : builder_reachable c b;
  iu_init : b_initialized b = true;
  iu_made : tract_made c t;
  iu_sync : b_numPatches b = t_numPatches t }.
End Tract.

(** (px, py) is the pixel of a coordinate: the pixel centre nearest to its
    position, pixel [n] covering [n - 1/2, n + 1/2). *)
Definition pixel_of {Sky} (t : tract Sky) (coord : Sky) (px py : Z) : Prop :=
  exists x y, skyToPixel (t_wcs t) coord = Pix x y
    /\ (IZR px - / 2 <= x < IZR px + / 2)%R /\ (IZR py - / 2 <= y < IZR py + / 2)%R.

(** [B] is the pixel bounding box of those coordinates that have a position:
    empty when there are none; otherwise it holds the pixel of each, its lower
    edges are attained, and its upper edges exceed the largest position by at
    most half a pixel plus rounding (relative 2^-51). *)
Definition pixel_bbox {Sky} (t : tract Sky) (coords : list Sky) (B : box) : Prop :=
  box_wf B
  /\ (forall s px py, In s coords -> pixel_of t s px py -> in_box px py B)
  /\ (0 < dimx B ->
      (exists s px py, In s coords /\ pixel_of t s px py /\ px = minx B)
      /\ (exists s px py, In s coords /\ pixel_of t s px py /\ py = miny B)
      /\ (exists s x y, In s coords /\ skyToPixel (t_wcs t) s = Pix x y
            /\ (IZR (minx B + dimx B - 1) - / 2 < x + / IZR (2 ^ 51) * Rmax 1 (Rabs x))%R)
      /\ (exists s x y, In s coords /\ skyToPixel (t_wcs t) s = Pix x y
            /\ (IZR (miny B + dimy B - 1) - / 2 < y + / IZR (2 ^ 51) * Rmax 1 (Rabs y))%R)).
