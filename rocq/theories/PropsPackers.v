(** Property theorems; generated by tools/mkprops.py from MainPackers.v. *)
From Coq Require Import String.
Require Import Verif.Py Verif.Packers.
Require Import Verif.MainPackers.
Open Scope string_scope.
Open Scope Z_scope.

(** C46: every id packed from non-negative tract, patch and band numbers is non-negative and has at
    most maxBits bits. *)
Theorem packed_id_fits : forall p d n,
  packer_pack p d = Ok n -> nonneg_id p d -> 0 <= n < 2 ^ packer_maxBits p.
Proof. exact packed_id_fits_proof. Qed.
Print Assumptions packed_id_fits.

(** C46: the number of bits is the least possible: if bands are not packed, or some band has the largest number allowed, the data id of the last patch of
    the last tract (and that band) is accepted, and fits in no smaller number of bits.  For a single patch, tract and band maxBits is 0. *)
Theorem packed_id_bits_tight : forall p,
  0 <= p_n_bands p -> 0 < p_n_patches p -> 0 < p_n_tracts p ->
  (p_n_bands p <> 0 -> exists b, dict_get (p_bands p) (Some b) = Some (p_n_bands p - 1)) ->
  exists d n, packer_pack p d = Ok n /\ nonneg_id p d /\ forall bits, 0 <= bits < packer_maxBits p -> 2 ^ bits <= n.
Proof. exact packed_id_bits_tight_proof. Qed.
Print Assumptions packed_id_bits_tight.

(** C47: two accepted data ids with non-negative numbers and equal packed ids are equal, provided
    distinct bands have distinct numbers. *)
Theorem packing_injective : forall p d d' n,
  distinct_numbers (p_bands p) -> nonneg_id p d -> nonneg_id p d' ->
  packer_pack p d = Ok n -> packer_pack p d' = Ok n -> same_id p d d'.
Proof. exact packing_injective_proof. Qed.
Print Assumptions packing_injective.

(** C48, C49: exactly when does unpack invert pack: without bands always (unless band is among the
    dimensions); with bands exactly for the data ids whose band stands at the position of its number
    in the mapping. *)
Theorem unpack_pack_iff : forall p d n,
  packer_pack p d = Ok n -> nonneg_id p d ->
  (p_n_bands p = 0 -> name_in "band" (p_dims p) = false ->
     packer_unpack p n = Ok (mkDataId (d_skymap d) (d_tract d) (d_patch d) None))
  /\ (p_n_bands p <> 0 -> forall b k, d_band d = Some b -> dict_get (p_bands p) (Some b) = Some k ->
      (packer_unpack p n = Ok d <-> nth_error (map fst (p_bands p)) (Z.to_nat k) = Some (Some b))).
Proof. exact unpack_pack_iff_proof. Qed.
Print Assumptions unpack_pack_iff.

(** C48: unpack(pack(d)) gives back d for every accepted data id with non-negative tract and patch:
    with bands whenever the mapping numbers its bands 0, 1, 2, ... in order, as the default one does,
    and without bands for data ids without a band. *)
Theorem unpack_inverts_pack : forall fixed dims bands n_bands nt np p d n,
  packer_init fixed dims bands n_bands nt np = Ok p ->
  (forall m, bands = Some m -> dict_ok m /\ numbered_in_order m) ->
  packer_pack p d = Ok n -> 0 <= d_tract d -> 0 <= d_patch d ->
  (p_n_bands p <> 0 -> packer_unpack p n = Ok d)
  /\ (d_band d = None -> name_in "band" (p_dims p) = false -> packer_unpack p n = Ok d).
Proof. exact unpack_inverts_pack_proof. Qed.
Print Assumptions unpack_inverts_pack.

(** C49 REFUTED: with the mapping {"r": 1, "g": 0} unpack(pack(d)) exchanges the two bands, and with
    {"r": 1} and two reserved numbers it raises IndexError; in general it fails for every band that
    is not at the position of its number (unpack_pack_iff). *)
Theorem unpack_bands_refuted :
  (exists p d n d', packer_init (mkFixed "s" (Some (mkSkymapRec 10 3 3))) None
        (Some [(Some "r", 1); (Some "g", 0)]) None None None = Ok p
     /\ d_band d = Some "r" /\ packer_pack p d = Ok n /\ nonneg_id p d
     /\ packer_unpack p n = Ok d' /\ d_band d' = Some "g")
  /\ (exists p d n, packer_init (mkFixed "s" (Some (mkSkymapRec 10 3 3))) None
        (Some [(Some "r", 1)]) (Some 2) None None = Ok p
     /\ packer_pack p d = Ok n /\ nonneg_id p d /\ packer_unpack p n = Raise IndexError).
Proof. exact unpack_bands_refuted_proof. Qed.
Print Assumptions unpack_bands_refuted.

(** C50: pack raises ValueError exactly when the skymap differs, patch >= n_patches, tract >=
    n_tracts, or (with bands) the band is unknown or its number >= n_bands; the only other failure is
    KeyError for a data id without a band when bands are packed. *)
Theorem pack_rejects_exactly : forall p d,
  let bad := d_skymap d <> f_skymap (p_fixed p) \/ p_n_patches p <= d_patch d \/ p_n_tracts p <= d_tract d in
  (packer_pack p d = Raise ValueError <->
     bad \/ p_n_bands p <> 0 /\ exists b, d_band d = Some b
              /\ (dict_get (p_bands p) (Some b) = None
                  \/ exists k, dict_get (p_bands p) (Some b) = Some k /\ p_n_bands p <= k))
  /\ (packer_pack p d = Raise KeyError <-> ~ bad /\ p_n_bands p <> 0 /\ d_band d = None)
  /\ (forall e, packer_pack p d = Raise e -> e = ValueError \/ e = KeyError).
Proof. exact pack_rejects_exactly_proof. Qed.
Print Assumptions pack_rejects_exactly.

(** C50 REFUTED for negative numbers: every packer with at least two tracts and one patch accepts
    patch -1 of tract 1 and gives it the id of the last patch of tract 0 (no bands packed); and a
    mapping with a negative number gives negative ids. *)
Theorem pack_negative_refuted :
  (forall p, p_n_bands p = 0 -> 1 <= p_n_patches p -> 2 <= p_n_tracts p ->
     let s := f_skymap (p_fixed p) in
     exists n, packer_pack p (mkDataId s 1 (-1) None) = Ok n
       /\ packer_pack p (mkDataId s 0 (p_n_patches p - 1) None) = Ok n)
  /\ (exists p d n, packer_init (mkFixed "s" (Some (mkSkymapRec 10 3 3))) None
        (Some [(Some "r", -1)]) None None None = Ok p
      /\ packer_pack p d = Ok n /\ 0 <= d_tract d /\ 0 <= d_patch d /\ n < 0).
Proof. exact pack_negative_refuted_proof. Qed.
Print Assumptions pack_negative_refuted.

(** C51: construction raises ValueError exactly for explicit dimensions that are neither
    {skymap, tract, patch} nor {skymap, tract, patch, band}; otherwise, if the counts are known, it
    succeeds; bands can take part in packing only if band is a dimension, and without explicit
    dimensions exactly when. *)
Theorem packer_construction : forall fixed dims bands n_bands nt np,
  let is l names := forall n, In n l <-> In n names in
  (packer_init fixed dims bands n_bands nt np = Raise ValueError <->
     exists l, dims = Some l /\ ~ is l ["skymap"; "tract"; "patch"] /\ ~ is l ["skymap"; "tract"; "patch"; "band"])
  /\ (forall p, packer_init fixed dims bands n_bands nt np = Ok p ->
       (p_n_bands p <> 0 -> In "band" (p_dims p))
       /\ (dims = None -> In "band" (p_dims p) -> p_n_bands p <> 0)
       /\ (is (p_dims p) ["skymap"; "tract"; "patch"] \/ is (p_dims p) ["skymap"; "tract"; "patch"; "band"]))
  /\ (f_record fixed <> None \/ nt <> None /\ np <> None ->
       (exists p, packer_init fixed dims bands n_bands nt np = Ok p)
       \/ packer_init fixed dims bands n_bands nt np = Raise ValueError).
Proof. exact packer_construction_proof. Qed.
Print Assumptions packer_construction.

(** C51 REFUTED, first half: with explicit dimensions including band and n_bands = 0, band is a
    dimension of the packer but takes no part in packing: two data ids that differ in band get the
    same id, and unpack of any id raises (with at least one patch). *)
Theorem packer_band_ignored_refuted : forall fixed bands p,
  packer_init fixed (Some ["skymap"; "tract"; "patch"; "band"]) bands (Some 0) (Some 10) (Some 9) = Ok p ->
  In "band" (p_dims p) /\ p_n_bands p = 0
  /\ (exists n, packer_pack p (mkDataId (f_skymap fixed) 1 2 (Some "g")) = Ok n
             /\ packer_pack p (mkDataId (f_skymap fixed) 1 2 (Some "r")) = Ok n)
  /\ (forall n, packer_unpack p n = Raise KeyError).
Proof. exact packer_band_ignored_refuted_proof. Qed.
Print Assumptions packer_band_ignored_refuted.

(** C51: a packer made from a configuration has the bands of the configuration (the 28 standard ones if it
    has none), as many bands, tracts and patches as the configuration says, and, where it leaves the
    counts open, the number of its bands, the tract maximum of the skymap record and the product of the
    patch maxima of the record; the default configuration packs tract and patch only. *)
Theorem packer_from_config_correct : forall fixed cfg p, packer_from_config fixed cfg = Ok p ->
  p_fixed p = fixed
  /\ (forall b, c_bands cfg = Some b -> p_bands p = b) /\ (c_bands cfg = None -> p_bands p = default_bands)
  /\ (forall n, c_n_bands cfg = Some n -> p_n_bands p = n)
  /\ (c_n_bands cfg = None -> p_n_bands p = Z.of_nat (List.length (p_bands p)))
  /\ (forall n, c_n_tracts cfg = Some n -> p_n_tracts p = n)
  /\ (c_n_tracts cfg = None -> exists r, f_record fixed = Some r /\ p_n_tracts p = r_tract_max r)
  /\ (forall n, c_n_patches cfg = Some n -> p_n_patches p = n)
  /\ (c_n_patches cfg = None -> exists r, f_record fixed = Some r /\ p_n_patches p = r_nx_max r * r_ny_max r)
  /\ (cfg = default_packer_config -> p_dims p = ["skymap"; "tract"; "patch"]
        /\ forall d, d_skymap d = f_skymap fixed -> 0 <= d_tract d < p_n_tracts p -> 0 <= d_patch d < p_n_patches p ->
             packer_pack p d = Ok (d_patch d + p_n_patches p * d_tract d)
             /\ packer_unpack p (d_patch d + p_n_patches p * d_tract d)
                = Ok (mkDataId (d_skymap d) (d_tract d) (d_patch d) None)).
Proof. exact packer_from_config_correct_proof. Qed.
Print Assumptions packer_from_config_correct.

(** C51: exactly when band is a dimension of the packer but takes no part in packing: when the dimensions are
    given explicitly with band, and n_bands is 0, or not given with an empty mapping. *)
Theorem packer_band_ignored_exactly : forall fixed dims bands n_bands nt np p,
  packer_init fixed dims bands n_bands nt np = Ok p ->
  (In "band" (p_dims p) /\ p_n_bands p = 0 <->
     (exists l, dims = Some l /\ In "band" l) /\ (n_bands = Some 0 \/ n_bands = None /\ bands = Some [])).
Proof. exact packer_band_ignored_exactly_proof. Qed.
Print Assumptions packer_band_ignored_exactly.

(** C46-C48, C50, C51, non-vacuity: a packer with the default bands made from a skymap record, a data id it
    accepts, and its id. *)
Example packer_hypotheses_met :
  exists p, packer_init (mkFixed "s" (Some (mkSkymapRec 100 9 9))) None None None None None = Ok p
    /\ p_n_bands p = 28 /\ distinct_numbers (p_bands p) /\ packer_maxBits p = 18
    /\ packer_pack p (mkDataId "s" 42 17 (Some "i")) = Ok (17 + 81 * 42 + 4 * 81 * 100)
    /\ nonneg_id p (mkDataId "s" 42 17 (Some "i"))
    /\ packer_unpack p (17 + 81 * 42 + 4 * 81 * 100) = Ok (mkDataId "s" 42 17 (Some "i")).
Proof. exact packer_hypotheses_met_proof. Qed.
