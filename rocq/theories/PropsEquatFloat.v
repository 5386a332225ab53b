(** Property theorems; generated by tools/mkprops.py from MainEquatFloat.v. *)
From Coq Require Import Reals Lra Lia.
From Flocq Require Import Core BinarySingleNaN.
Require Import Verif.Py Verif.Geom Verif.PatchInfo Verif.TractBuilder Verif.TractInfo Verif.SkyMap.
Require Import Verif.Float64 Verif.Float64Proofs Verif.Rings Verif.RingsProofs Verif.RingsSpec Verif.Sphere Verif.Maps Verif.RingsFloat Verif.RingsFloatSpec Verif.FloatOps.
Require Import Verif.RingsFloatProofs Verif.RingsFloatProofs2 Verif.MainRingsFloat Verif.EquatFloat Verif.EquatFloatProofs.
Import ListNotations.
Require Import Verif.MainEquatFloat.
Open Scope Z_scope.

(** C99: the centre, the vertices and the reference coordinate of the WCS of tract i of an EquatSkyMap as computed in binary64 are
    valid SpherePoints at most 2^-48 radians from the exact ones in declination and 2^-46 in right ascension (3e-9 arc seconds), for up to 2^31 tracts; and
    the constructor raises in binary64 for exactly those declination ranges for which it does in exact arithmetic. *)
Theorem equat_float_coords : forall makeWcs ov n d0 d1 i, 1 <= n <= 2 ^ 31 -> 0 <= i < n -> finite d0 = true -> finite d1 = true ->
  match equat_args makeWcs ov n (f2R d0, f2R d1) i, fe_coords n (d0, d1) i with
  | Ok (PlainArgs ctr verts _ w _), Ok (c, vs, cr) =>
      stored_near ctr c /\ Forall2 stored_near verts vs /\ exists crval, w = makeWcs crval /\ stored_near crval cr
  | Raise e, Raise e' => e = InvalidParameterError /\ e' = e /\ (90 < Rabs (f2R d0) \/ 90 < Rabs (f2R d1))%R
  | _, _ => False
  end.
Proof. exact equat_float_coords_proof. Qed.
Print Assumptions equat_float_coords.

(** C99: in binary64 too the tracts of an EquatSkyMap are in the order of their numbers: tract i has vertices at the longitudes b, e, e, b; its
    centre and its WCS's reference coordinate are east of b and, unless it is the last tract, west of e. *)
Theorem equat_float_order : forall n d0 d1 i c vs cr, 1 <= n <= 2 ^ 31 -> 0 <= i < n -> fe_coords n (d0, d1) i = Ok (c, vs, cr) ->
  exists b e lo hi, vs = [(b, lo); (e, lo); (e, hi); (b, hi)] /\ fst cr = fst c
    /\ (f2R b < f2R (fst c))%R /\ (i + 1 < n -> (f2R (fst c) < f2R e)%R)
    /\ forall j c' vs' cr', i < j < n -> fe_coords n (d0, d1) j = Ok (c', vs', cr') ->
         forall v, In v vs' -> j + 1 < n -> (f2R (fst c) < f2R (fst v))%R /\ (f2R b < f2R (fst v))%R.
Proof. exact equat_float_order_proof. Qed.
Print Assumptions equat_float_order.

(** C99: the east edge of a tract and the west edge of the next (of the first, for the last tract) are at most 2^-45 radians apart in binary64. *)
Theorem equat_float_neighbours : forall n d0 d1 i c vs cr c' vs' cr', 1 <= n <= 2 ^ 31 -> 0 <= i < n ->
  fe_coords n (d0, d1) i = Ok (c, vs, cr) -> fe_coords n (d0, d1) ((i + 1) mod n) = Ok (c', vs', cr') ->
  exists b e lo hi b' e', vs = [(b, lo); (e, lo); (e, hi); (b, hi)] /\ vs' = [(b', lo); (e', lo); (e', hi); (b', hi)]
    /\ exists k : Z, (Rabs (f2R e - f2R b' + IZR k * (2 * PI)) <= / 35184372088832)%R.
Proof. exact equat_float_neighbours_proof. Qed.
Print Assumptions equat_float_neighbours.

(** C99: no double lies strictly between the east edge of a tract and the west edge of the next, so no SpherePoint falls into a gap: every
    longitude is in the closed slice of a tract, or not west of the last. *)
Theorem equat_float_no_gap : forall n d0 d1 x, 1 <= n <= 2 ^ 31 -> finite x = true -> (0 <= f2R x < f2R f_twopi)%R ->
  (forall i, 0 <= i < n -> exists c vs cr, fe_coords n (d0, d1) i = Ok (c, vs, cr)) ->
  exists i b e lo hi c cr, 0 <= i < n /\ fe_coords n (d0, d1) i = Ok (c, [(b, lo); (e, lo); (e, hi); (b, hi)], cr)
    /\ (f2R b <= f2R x)%R /\ (i + 1 < n -> (f2R x <= f2R e)%R).
Proof. exact equat_float_no_gap_proof. Qed.
Print Assumptions equat_float_no_gap.

(** C99, refuted: the edges are not the same double: with 12 tracts, tract 5 ends west of the beginning of tract 6, at 180 degrees, and with 11 tract 5 ends east
    of it; with 1206 tracts a longitude just below 360 degrees is east of the last tract.  With the default of four, edges are equal. *)
Theorem equat_float_same_edge_refuted :
  (f2R (fe_end 12 5) < f2R (fe_beg 12 6))%R /\ (f2R (fe_beg 11 6) < f2R (fe_end 11 5))%R
  /\ (exists x, finite x = true /\ (f2R (f_wrap (fe_end 1206 1205)) < f2R x < f2R f_twopi)%R /\ (6 < f2R (f_wrap (fe_end 1206 1205)))%R)
  /\ (forall i, 0 <= i < 3 -> fe_end 4 i = fe_beg 4 (i + 1)).
Proof. exact equat_float_same_edge_refuted_proof. Qed.
Print Assumptions equat_float_same_edge_refuted.

(** C99: the hypotheses can be met: the default configuration (four tracts, declinations from -1.25 to 1.25 degrees). *)
Example equat_float_default : forall i, 0 <= i < 4 -> exists c vs cr, fe_coords 4 (f64_make (-5) (-2), f64_make 5 (-2)) i = Ok (c, vs, cr).
Proof. exact equat_float_default_proof. Qed.
