(** Model of python/lsst/skymap/packers.py.

    The butler classes it uses are external and reduced to what matters here: a
    data id is its skymap name, tract, patch and (if present) band; a dimension
    group is the set of its dimension names (a list; order and repetitions do
    not matter); a skymap dimension record gives tract_max, patch_nx_max and
    patch_ny_max. *)
From Coq Require Import String.
Require Import Verif.Py.
Open Scope string_scope.
Open Scope Z_scope.

(** Keys of a band mapping: the default mapping also has the key [None]. *)
Definition band_key : Type := option string.
(** A Python dict from band to int, in insertion order (keys are distinct). *)
Definition band_map : Type := list (band_key * Z).

Definition key_eqb (a b : band_key) : bool :=
  match a, b with
  | None, None => true
  | Some x, Some y => String.eqb x y
  | _, _ => false
  end.
(** [d.get(key)] *)
Fixpoint dict_get (m : band_map) (k : band_key) : option Z :=
  match m with
  | [] => None
  | (k', v) :: m => if key_eqb k k' then Some v else dict_get m k
  end.

(** packers.py:120-125 [SUPPORTED_FILTERS] *)
Definition SUPPORTED_FILTERS : list band_key :=
  None :: map Some
    ["u"; "g"; "r"; "i"; "z"; "y"; "U"; "B"; "G"; "V"; "R"; "I"; "Z"; "Y"; "J"; "H"; "K";
     "N387"; "N515"; "N656"; "N816"; "N921"; "N1010"; "N419"; "N540"; "N708"; "N964"].
(** packers.py:146 [{b: i for i, b in enumerate(self.SUPPORTED_FILTERS)}] *)
Definition enumerate {A} (l : list A) : list (A * Z) :=
  combine l (zrange 0 (Z.of_nat (List.length l))).
Definition default_bands : band_map := enumerate SUPPORTED_FILTERS.

(** A data id: [skymap], [tract], [patch], and [band] if it has that dimension. *)
Record data_id := mkDataId { d_skymap : string; d_tract : Z; d_patch : Z; d_band : option string }.

(** The attached skymap dimension record. *)
Record skymap_rec := mkSkymapRec { r_tract_max : Z; r_nx_max : Z; r_ny_max : Z }.

(** [fixed]: the skymap name and, if attached, the record. *)
Record fixed_id := mkFixed { f_skymap : string; f_record : option skymap_rec }.

(** [set] comparison of names. *)
Definition name_in (n : string) (l : list string) : bool := existsb (String.eqb n) l.
Definition same_names (a b : list string) : bool :=
  forallb (fun n => name_in n b) a && forallb (fun n => name_in n a) b.

Record packer := mkPacker {
  p_fixed : fixed_id; p_dims : list string; p_bands : band_map;
  p_n_bands : Z; p_n_tracts : Z; p_n_patches : Z }.

(** packers.py:145-167: the bands, number of bands and dimensions.
    [universe.conform] (external) adds the dimensions that tract and patch require. *)
Definition packer_dims (dimensions : option (list string)) (bands : option band_map)
    (n_bands : option Z) : res (band_map * Z * list string) :=
  let bands := match bands with Some b => b | None => default_bands end in
  match dimensions with
  | None =>
      let n := match n_bands with Some n => n | None => Z.of_nat (List.length bands) end in
      Ok (bands, n, if negb (n =? 0) then ["skymap"; "tract"; "patch"; "band"]
                    else ["skymap"; "tract"; "patch"])
  | Some dims =>
      if negb (name_in "band" dims) then
        if negb (same_names dims ["tract"; "patch"; "skymap"]) then Raise ValueError
        else Ok (bands, 0, dims)
      else if negb (same_names dims ["tract"; "patch"; "skymap"; "band"]) then Raise ValueError
      else Ok (bands, match n_bands with Some n => n | None => Z.of_nat (List.length bands) end, dims)
  end.

(** packers.py:136-180 [SkyMapDimensionPacker.__init__].  Asking for the records
    of a data id that has none attached raises an exception of daf_butler, here
    [AssertionError]. *)
Definition packer_init (fixed : fixed_id) (dimensions : option (list string))
    (bands : option band_map) (n_bands n_tracts n_patches : option Z) : res packer :=
  bnd <- packer_dims dimensions bands n_bands ;;
  let '(b, n, dims) := bnd in
  nt <- match n_tracts with
        | Some n => Ok n
        | None => match f_record fixed with Some r => Ok (r_tract_max r) | None => Raise AssertionError end
        end ;;
  np <- match n_patches with
        | Some n => Ok n
        | None => match f_record fixed with
                  | Some r => Ok (r_nx_max r * r_ny_max r) | None => Raise AssertionError end
        end ;;
  Ok (mkPacker fixed dims b n nt np).

(** packers.py:32-64, 202-236 [SkyMapDimensionPackerConfig] and [from_config]. *)
Record packer_config := mkPackerConfig {
  c_bands : option band_map; c_n_bands : option Z; c_n_tracts : option Z; c_n_patches : option Z }.
Definition default_packer_config : packer_config := mkPackerConfig None (Some 0) None None.
Definition packer_from_config (data_id : fixed_id) (c : packer_config) : res packer :=
  packer_init data_id None (c_bands c) (c_n_bands c) (c_n_tracts c) (c_n_patches c).

(** [int.bit_length()] *)
Definition bit_length (n : Z) : Z := if n =? 0 then 0 else Z.log2 (Z.abs n) + 1.

(** packers.py:238-244 [maxBits] *)
Definition packer_maxBits (p : packer) : Z :=
  let packedMax := p_n_tracts p * p_n_patches p in
  let packedMax := if negb (p_n_bands p =? 0) then packedMax * p_n_bands p else packedMax in
  bit_length (packedMax - 1).

(** packers.py:246-265 [_pack]; a data id without a band raises KeyError when the
    band is asked for. *)
Definition packer_pack0 (p : packer) (d : data_id) : res Z :=
  if p_n_patches p <=? d_patch d then Raise ValueError
  else if p_n_tracts p <=? d_tract d then Raise ValueError
  else
    let packed := d_patch d + p_n_patches p * d_tract d in
    if negb (p_n_bands p =? 0) then
      match d_band d with
      | None => Raise KeyError
      | Some b =>
          match dict_get (p_bands p) (Some b) with
          | None => Raise ValueError
          | Some band_index =>
              if p_n_bands p <=? band_index then Raise ValueError
              else Ok (packed + band_index * p_n_patches p * p_n_tracts p)
          end
      end
    else Ok packed.

(** [DimensionPacker.pack] of daf_butler (external): the data id must agree with
    [fixed]. *)
Definition packer_pack (p : packer) (d : data_id) : res Z :=
  if negb (String.eqb (d_skymap d) (f_skymap (p_fixed p))) then Raise ValueError
  else packer_pack0 p d.

(** [divmod] *)
Definition py_divmod (a b : Z) : res (Z * Z) :=
  if b =? 0 then Raise ZeroDivisionError else Ok (a / b, a mod b).

(** packers.py:267-276 [unpack].  [DataCoordinate.standardize] (external) checks
    that every dimension of the packer has a value; a band [None] (from the
    default mapping) is not a valid value. *)
Definition packer_unpack (p : packer) (packedId : Z) : res data_id :=
  bp <- (if negb (p_n_bands p =? 0) then
           im <- py_divmod packedId (p_n_tracts p * p_n_patches p) ;;
           b <- py_nth (map fst (p_bands p)) (fst im) ;;
           Ok (Some b, snd im)
         else Ok (None, packedId)) ;;
  let '(band, packedId) := bp in
  tp <- py_divmod packedId (p_n_patches p) ;;
  match band with
  | Some (Some b) => Ok (mkDataId (f_skymap (p_fixed p)) (fst tp) (snd tp) (Some b))
  | Some None => Raise ValueError
  | None => if name_in "band" (p_dims p) then Raise KeyError
            else Ok (mkDataId (f_skymap (p_fixed p)) (fst tp) (snd tp) None)
  end.
