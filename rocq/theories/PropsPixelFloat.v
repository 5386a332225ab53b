(** Property theorems; generated by tools/mkprops.py from MainPixelFloat.v. *)
From Coq Require Import Reals Lra Lia Sorted.
From Flocq Require Import Core BinarySingleNaN.
Require Import Verif.Py Verif.Float64 Verif.Geom Verif.PatchInfo Verif.TractBuilder Verif.TractInfo Verif.Spec.
Require Import Verif.RingsFloat Verif.PixelFloat Verif.PixelFloatSpec.
Require Import Verif.FloatOps Verif.PatchProofs Verif.TractProofs Verif.PixelFloatProofs Verif.Examples.
Import ListNotations.
Require Import Verif.MainPixelFloat.
Open Scope Z_scope.

(** C101: rounding a binary64 position to a pixel (Point2I of a Point2D: floor of the sum with 0.5, which is rounded itself) gives the pixel
    it lies in, for every finite double up to 2^49 but exactly one: the double before 0.5, which lies in pixel 0, gets pixel 1. *)
Theorem pixel_of_double : forall (x : f64) n, finite x = true -> (Rabs (f2R x) <= 562949953421312)%R -> in_pixel (f2R x) n ->
  (f2R x <> before_half -> f_pixel x = n) /\ (f2R x = before_half -> n = 0 /\ f_pixel x = 1).
Proof. exact pixel_of_double_proof. Qed.
Print Assumptions pixel_of_double.

(** C101: so when patches are at least 2 pixels wide and high, contains and findPatch with binary64 positions answer exactly what they answer
    in exact arithmetic (to which C15 applies), for every position up to 2^49 pixels, in the tract or not. *)
Theorem lookup_as_exact : forall (Sky : Type) (offset : Sky -> R -> R -> Sky) c b (t : tract Sky) s p,
  cfg_ok c -> in_use offset c b t -> dimx (t_bbox t) < 2 ^ 31 -> dimy (t_bbox t) < 2 ^ 31 ->
  2 <= fst (cfg_inner c) -> 2 <= snd (cfg_inner c) -> position p ->
  skyToPixel (t_wcs t) s = Pix (f2R (fst p)) (f2R (snd p)) ->
  tract_contains t s = Ok (f_contains t p) /\ findPatch b t s = f_findPatch b t p.
Proof. exact lookup_as_exact_proof. Qed.
Print Assumptions lookup_as_exact.

(** C101: in other words: a tract contains exactly the positions on the region its box covers, and findPatch returns exactly the patch on the
    region of whose inner box the position is (LookupError when there is none): no rounding moves a position into a neighbouring patch or across
    the edge of the tract. *)
Theorem patch_of_double : forall (Sky : Type) (offset : Sky -> R -> R -> Sky) c b (t : tract Sky) p,
  cfg_ok c -> in_use offset c b t -> dimx (t_bbox t) < 2 ^ 31 -> dimy (t_bbox t) < 2 ^ 31 ->
  2 <= fst (cfg_inner c) -> 2 <= snd (cfg_inner c) -> position p ->
  (f_contains t p = true <-> on_box p (t_bbox t))
  /\ (forall q, f_findPatch b t p = Ok q <->
       (exists i j, tract_getPatchInfo b t (IxIndex2D i j) = Ok q) /\ on_box p (p_inner q))
  /\ (f_contains t p = false -> f_findPatch b t p = Raise LookupError).
Proof. exact patch_of_double_proof. Qed.
Print Assumptions patch_of_double.

(** C101: findPatchList with binary64 positions (the box is accumulated with rounding, its upper edges are moved by the factor of
    Box2D's tweakMax and its corners rounded), when there is a patch border or patches are at least 2 pixels wide and high: it returns the patches, ordered by x then y without
    repetition, whose inner box comes within patch_border of a pixel bounding box of the positions that is exact below and on the left and
    within a relative 2^-50 above and on the right; without positions it returns none. *)
Theorem patches_of_doubles : forall (Sky : Type) (offset : Sky -> R -> R -> Sky) c b (t : tract Sky) l,
  cfg_ok c -> in_use offset c b t -> dimx (t_bbox t) < 2 ^ 31 -> dimy (t_bbox t) < 2 ^ 31 ->
  (1 <= cfg_border c \/ (2 <= fst (cfg_inner c) /\ 2 <= snd (cfg_inner c))) -> (forall p, In p l -> position p) ->
  (l = [] -> f_findPatchList b t l = Ok [])
  /\ (l <> [] -> exists ps B, f_findPatchList b t l = Ok ps
    /\ positions_box l B
    /\ (forall i j p, tract_getPatchInfo b t (IxIndex2D i j) = Ok p ->
          (In p ps <-> exists px py qx qy, in_box px py B /\ in_box qx qy (p_inner p)
                         /\ Z.abs (px - qx) <= cfg_border c /\ Z.abs (py - qy) <= cfg_border c))
    /\ (forall p, In p ps -> exists i j, tract_getPatchInfo b t (IxIndex2D i j) = Ok p)
    /\ StronglySorted (fun p q => fst (p_index p) < fst (p_index q) \/
                        (fst (p_index p) = fst (p_index q) /\ snd (p_index p) < snd (p_index q))) ps).
Proof. exact patches_of_doubles_proof. Qed.
Print Assumptions patches_of_doubles.

(** C101: in particular the patch found for each of the positions is in the list (patches at least 2 pixels wide and high). *)
Theorem doubles_complete : forall (Sky : Type) (offset : Sky -> R -> R -> Sky) c b (t : tract Sky) l p q,
  cfg_ok c -> in_use offset c b t -> dimx (t_bbox t) < 2 ^ 31 -> dimy (t_bbox t) < 2 ^ 31 ->
  2 <= fst (cfg_inner c) -> 2 <= snd (cfg_inner c) -> (forall p, In p l -> position p) ->
  In p l -> f_findPatch b t p = Ok q -> exists ps, f_findPatchList b t l = Ok ps /\ In q ps.
Proof. exact doubles_complete_proof. Qed.
Print Assumptions doubles_complete.

(** C101, refuted: that this holds for patches one pixel wide: in a tract of 10 x 10 patches of one pixel the position (1/2 - 2^-54, 3) is on patch (0, 3), and
    findPatch returns patch (1, 3). *)
Theorem one_pixel_patches_refuted :
  exists b (t : tract flat) p q r, in_use flat_offset (LegacyCfg (1, 1) 0) b t /\ cfg_ok (LegacyCfg (1, 1) 0)
    /\ t_bbox t = Box 0 0 10 10 /\ position p
    /\ f_findPatch b t p = Ok q /\ p_index q = (1, 3) /\ ~ on_box p (p_inner q)
    /\ tract_getPatchInfo b t (IxIndex2D 0 3) = Ok r /\ on_box p (p_inner r).
Proof. exact one_pixel_patches_refuted_proof. Qed.
Print Assumptions one_pixel_patches_refuted.

(** C101, non-vacuity: a tract in use with two positions in it. *)
Example double_positions_met :
  exists b (t : tract flat) p q, in_use flat_offset legacy_default b t /\ cfg_ok legacy_default
    /\ dimx (t_bbox t) < 2 ^ 31 /\ dimy (t_bbox t) < 2 ^ 31
    /\ 2 <= fst (cfg_inner legacy_default) /\ 2 <= snd (cfg_inner legacy_default)
    /\ position p /\ position q /\ f_contains t p = true /\ f_contains t q = true /\ f_findPatch b t p <> f_findPatch b t q.
Proof. exact double_positions_met_proof. Qed.
