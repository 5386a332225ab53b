(** Property theorems; generated by tools/mkprops.py from MainPackers2.v. *)
From Coq Require Import String.
Require Import Verif.Py Verif.Packers Verif.MainPackers.
Require Import Verif.MainPackers2.
Open Scope string_scope.
Open Scope list_scope.
Open Scope Z_scope.

(** C74: the layout of packed ids, on which ids already written to disk depend.  A packer made without a band
    mapping packs (tract, patch) to patch + P*tract, and with bands to patch + P*(tract + T*number of the band):
    T is n_tracts or else the tract_max of the sky map record, P is n_patches or else patch_nx_max*patch_ny_max, bands take
    part if the dimensions (when given) have band and n_bands is not 0 (28 if not given), and the numbers of the bands are
    those of the list. *)
Theorem packed_id_layout : forall fixed dims n_bands nt np p d n,
  packer_init fixed dims None n_bands nt np = Ok p ->
  (packer_pack p d = Ok n <->
   exists T P B,
     (nt = Some T \/ nt = None /\ exists r, f_record fixed = Some r /\ T = r_tract_max r)
     /\ (np = Some P \/ np = None /\ exists r, f_record fixed = Some r /\ P = r_nx_max r * r_ny_max r)
     /\ B = (if match dims with Some l => name_in "band" l | None => true end
             then match n_bands with Some b => b | None => 28 end else 0)
     /\ d_skymap d = f_skymap fixed /\ d_tract d < T /\ d_patch d < P
     /\ ((B = 0 /\ n = d_patch d + P * d_tract d)
         \/ B <> 0 /\ exists band k, d_band d = Some band /\ In (band, k) released_bands /\ k < B
              /\ n = d_patch d + P * (d_tract d + T * k))).
Proof. exact packed_id_layout_proof. Qed.
Print Assumptions packed_id_layout.

(** C74: a concrete case: tract 5, patch 7, band i of a sky map with tracts up to 9 and 3 x 4 patches. *)
Example packed_id_layout_example :
  exists p, packer_init (mkFixed "m" (Some (mkSkymapRec 10 3 4))) None None None None None = Ok p
    /\ packer_pack p (mkDataId "m" 5 7 (Some "i")) = Ok (7 + 12 * (5 + 10 * 4)).
Proof. exact packed_id_layout_example_proof. Qed.

(** C96: what unpack does for any integer n, T tracts, P patches.  Without bands: tract n // P and patch n % P (however large or
    negative n is), KeyError if band is a dimension.  With bands: the band at position n // (T*P) of the mapping, counted from the end if negative,
    IndexError if there is none and ValueError if it is the None of the default mapping; tract and patch from the remainder.
    ZeroDivisionError if a count that is divided by is 0. *)
Theorem unpack_outcome : forall p n,
  let T := p_n_tracts p in let P := p_n_patches p in let s := f_skymap (p_fixed p) in
  let L := Z.of_nat (length (p_bands p)) in let i := n / (T * P) in let r := n mod (T * P) in
  (p_n_bands p = 0 ->
     (P = 0 -> packer_unpack p n = Raise ZeroDivisionError)
     /\ (P <> 0 -> In "band" (p_dims p) -> packer_unpack p n = Raise KeyError)
     /\ (P <> 0 -> ~ In "band" (p_dims p) -> packer_unpack p n = Ok (mkDataId s (n / P) (n mod P) None)))
  /\ (p_n_bands p <> 0 ->
     (T = 0 \/ P = 0 -> packer_unpack p n = Raise ZeroDivisionError)
     /\ (T <> 0 -> P <> 0 ->
          (i < - L \/ L <= i -> packer_unpack p n = Raise IndexError)
          /\ (forall key number, - L <= i < L -> nth_error (p_bands p) (Z.to_nat (if i <? 0 then L + i else i)) = Some (key, number) ->
                packer_unpack p n = match key with
                                    | Some b => Ok (mkDataId s (r / P) (r mod P) (Some b))
                                    | None => Raise ValueError
                                    end))).
Proof. exact unpack_outcome_proof. Qed.
Print Assumptions unpack_outcome.

(** C96: unpacking and packing again: the patch of an unpacked data id is always in range, with bands the tract too; packing it gives back the
    integer exactly if, without bands, the tract is less than T, and with bands, the band's number is n // (T*P) and less than n_bands. *)
Theorem pack_unpack_iff : forall p n d,
  let T := p_n_tracts p in let P := p_n_patches p in
  0 < T -> 0 < P -> packer_unpack p n = Ok d ->
  0 <= d_patch d < P
  /\ (p_n_bands p = 0 -> d_band d = None /\ (packer_pack p d = Ok n <-> d_tract d < T))
  /\ (p_n_bands p <> 0 -> 0 <= d_tract d < T
      /\ exists b, d_band d = Some b
         /\ (packer_pack p d = Ok n <-> dict_get (p_bands p) (Some b) = Some (n / (T * P)) /\ n / (T * P) < p_n_bands p)).
Proof. exact pack_unpack_iff_proof. Qed.
Print Assumptions pack_unpack_iff.

(** C96: concrete cases: with the default bands, 10 tracts and 3 x 3 patches the integer -1 is unpacked to tract 9, patch 8, band N964 (the last), which
    packs to 2519; without bands 1000 is unpacked to tract 111, which pack rejects. *)
Example unpack_any_integer_example :
  (exists p d, packer_init (mkFixed "m" (Some (mkSkymapRec 10 3 3))) None None None None None = Ok p
     /\ packer_unpack p (-1) = Ok d /\ d = mkDataId "m" 9 8 (Some "N964") /\ packer_pack p d = Ok 2519)
  /\ (exists p d, packer_init (mkFixed "m" (Some (mkSkymapRec 10 3 3))) None None (Some 0) None None = Ok p
     /\ packer_unpack p 1000 = Ok d /\ d = mkDataId "m" 111 1 None /\ packer_pack p d = Raise ValueError).
Proof. exact unpack_any_integer_example_proof. Qed.
