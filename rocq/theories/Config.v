(** Model of the configurations of the sky map classes, of [struct.pack],
    [getPackedConfig], [updateSha1], [getSha1], [__eq__], [__hash__], the
    constructors and pickling (baseSkyMap.py, tractBuilder.py, cachingSkyMap.py
    and the five sky map modules).

    Floats are IEEE 754 doubles (Flocq's [binary64]); where the model of the
    geometry uses reals, it takes the value [B2R] of the double, so infinities
    and NaNs (which pexConfig accepts) give the geometry of 0: statements about
    geometry are about finite values.  Strings are lists of code points and byte
    strings are lists of numbers.  lsst.pex.config is trusted: a field holds the
    value last assigned, a config pickles to an equal config, and a frozen config
    does not change; so a config is here a value. *)
From Coq Require Import Reals String Ascii.
From Flocq Require Import IEEE754.Binary IEEE754.Bits.
Require Import Verif.Py Verif.Geom Verif.PatchInfo Verif.TractBuilder Verif.TractInfo Verif.SkyMap.
Require Import Verif.Rings Verif.Maps Verif.Dodeca.
Open Scope list_scope.
Open Scope Z_scope.

Notation bytes := (list Z).
Notation pystr := (list Z).
Definition of_string (s : string) : pystr :=
  map (fun c => Z.of_nat (nat_of_ascii c)) (list_ascii_of_string s).

(** ** Configurations *)

(** tractBuilder.py:196-209 and 271-292 *)
Record legacy_cfg := mkLegacy { lc_inner : pair2; lc_border : Z }.
Record cells_cfg := mkCells {
  cc_inner : pair2; cc_border : Z; cc_numInner : Z; cc_numBorder : Z }.

(** tractBuilder.py:374-379 [tractBuilderRegistry] *)
Inductive tb_name := Legacy | Cells.

(** The registry field [tractBuilder]: the selected name and the sub-config of
    each name ([config.tractBuilder["legacy"]], [config.tractBuilder["cells"]]). *)
Record tb_field := mkTB { tb_sel : tb_name; tb_legacy : legacy_cfg; tb_cells : cells_cfg }.

(** The class-specific fields: ringsSkyMap.py:36-40, discreteSkyMap.py:33-38,
    equatSkyMap.py:33-43, dodecaSkyMap.py:39-44, healpixSkyMap.py:79-82.  Lists
    declared with [length=2] are pairs. *)
Inductive class_cfg :=
| RingsCfg (numRings : Z) (raStart : binary64)
| DiscreteCfg (raList decList radiusList : list binary64)
| EquatCfg (numTracts : Z) (decRange : binary64 * binary64)
| DodecaCfg (withTractsOnPoles : bool)
| HealpixCfg (log2NSide : Z) (nest : bool).

(** baseSkyMap.py:39-67 [BaseSkyMapConfig] and the subclass fields; the class of
    the config stands for the sky map class. *)
Record config := mkConfig {
  c_tb : tb_field; c_overlap : binary64; c_scale : binary64; c_projection : pystr;
  c_rotation : binary64; c_class : class_cfg }.

(** baseSkyMap.py:71-131, the backward compatible properties. *)
Definition getPatchInnerDimensions (c : config) : pair2 := lc_inner (tb_legacy (c_tb c)).
Definition getPatchBorder (c : config) : Z := lc_border (tb_legacy (c_tb c)).
Definition set_tb (c : config) (t : tb_field) : config :=
  mkConfig t (c_overlap c) (c_scale c) (c_projection c) (c_rotation c) (c_class c).
Definition setPatchInnerDimensions (c : config) (v : pair2) : config :=
  let t := c_tb c in
  set_tb c (mkTB (tb_sel t) (mkLegacy v (lc_border (tb_legacy t))) (tb_cells t)).
Definition setPatchBorder (c : config) (v : Z) : config :=
  let t := c_tb c in
  set_tb c (mkTB (tb_sel t) (mkLegacy (lc_inner (tb_legacy t)) v) (tb_cells t)).
(** [config.tractBuilder.name = n], [config.tractBuilder["cells"] = v] *)
Definition selectBuilder (c : config) (n : tb_name) : config :=
  let t := c_tb c in set_tb c (mkTB n (tb_legacy t) (tb_cells t)).
Definition setCells (c : config) (v : cells_cfg) : config :=
  let t := c_tb c in set_tb c (mkTB (tb_sel t) (tb_legacy t) v).

(** The default values: tractBuilder.py:197-209, 272-292, baseSkyMap.py:40-67. *)
Definition tb_default : tb_field := mkTB Legacy (mkLegacy (4000, 4000) 100) (mkCells (150, 150) 50 20 1).
(** Decimal literals as the doubles Python reads: 1.0, 0.333, 0.0, 3.5, 0.2, 45.0,
    -1.25, 1.25. *)
Definition f64_one := b64_of_bits 0x3FF0000000000000.
Definition f64_0_333 := b64_of_bits 0x3FD54FDF3B645A1D.
Definition f64_zero := b64_of_bits 0.
Definition f64_neg_zero := b64_of_bits 0x8000000000000000.
Definition f64_3_5 := b64_of_bits 0x400C000000000000.
Definition f64_0_2 := b64_of_bits 0x3FC999999999999A.
Definition f64_45 := b64_of_bits 0x4046800000000000.
Definition f64_m1_25 := b64_of_bits 0xBFF4000000000000.
Definition f64_1_25 := b64_of_bits 0x3FF4000000000000.
Definition base_default (k : class_cfg) : config :=
  mkConfig tb_default f64_one f64_0_333 (of_string "STG") f64_zero k.
Definition rings_default (numRings : Z) : config := base_default (RingsCfg numRings f64_zero).
Definition discrete_default : config := base_default (DiscreteCfg [] [] []).
(** equatSkyMap.py:45-46 [setDefaults] *)
Definition equat_default : config :=
  let c := base_default (EquatCfg 4 (f64_m1_25, f64_1_25)) in
  mkConfig (c_tb c) (c_overlap c) (c_scale c) (of_string "CEA") (c_rotation c) (c_class c).
(** dodecaSkyMap.py:46-51 [setDefaults] *)
Definition dodeca_default : config :=
  let c := base_default (DodecaCfg false) in
  let c := mkConfig (c_tb c) f64_3_5 (c_scale c) (c_projection c) (c_rotation c) (c_class c) in
  let c := setPatchBorder c 250 in
  let c := mkConfig (c_tb c) (c_overlap c) f64_0_2 (c_projection c) (c_rotation c) (c_class c) in
  let c := setPatchInnerDimensions c (4000, 4000) in
  mkConfig (c_tb c) (c_overlap c) (c_scale c) (of_string "STG") (c_rotation c) (c_class c).
(** healpixSkyMap.py:84-85 [setDefaults] *)
Definition healpix_default : config :=
  let c := base_default (HealpixCfg 0 false) in
  mkConfig (c_tb c) (c_overlap c) (c_scale c) (c_projection c) f64_45 (c_class c).

(** ** [struct.pack] with little-endian formats of the codes used: "i", "d",
    "3s", "?" (Python library). *)
Inductive fcode := Fi | Fd | F3s | Fbool.
Inductive sval := VInt (z : Z) | VFloat (f : binary64) | VBytes (b : bytes) | VBool (b : bool).

Fixpoint le_bytes (n : nat) (v : Z) : bytes :=
  match n with
  | O => []
  | S n => v mod 256 :: le_bytes n (v / 256)
  end.

Definition pack1 (f : fcode) (v : sval) : res bytes :=
  match f, v with
  | Fi, VInt z =>
      if (- 2 ^ 31 <=? z) && (z <? 2 ^ 31) then Ok (le_bytes 4 (z mod 2 ^ 32)) else Raise StructError
  | Fd, VFloat x => Ok (le_bytes 8 (bits_of_b64 x))
  | F3s, VBytes b => Ok (firstn 3 (b ++ [0; 0; 0]))
  | Fbool, VBool b => Ok [if b then 1 else 0]
  | _, _ => Raise StructError
  end.

Fixpoint pack_all (fmt : list fcode) (vs : list sval) : res bytes :=
  match fmt, vs with
  | [], [] => Ok []
  | f :: fmt, v :: vs => b <- pack1 f v ;; r <- pack_all fmt vs ;; Ok (b ++ r)
  | _, _ => Raise StructError
  end.
(** The number of values is checked first; a wrong number also raises StructError. *)
Definition struct_pack (fmt : list fcode) (vs : list sval) : res bytes :=
  if Nat.eqb (length fmt) (length vs) then pack_all fmt vs else Raise StructError.

(** [s.encode('ascii')] *)
Definition encode_ascii (s : pystr) : res bytes :=
  if forallb (fun c => (0 <=? c) && (c <? 128)) s then Ok s else Raise UnicodeEncodeError.

(** ** Hashing *)

(** [config.tractBuilder[config.tractBuilder.name]], the configuration of the
    tract builder made by [config.tractBuilder.apply()]. *)
Definition selected (t : tb_field) : tb_config :=
  match tb_sel t with
  | Legacy => LegacyCfg (lc_inner (tb_legacy t)) (lc_border (tb_legacy t))
  | Cells => CellCfg (cc_inner (tb_cells t)) (cc_border (tb_cells t))
                     (cc_numInner (tb_cells t)) (cc_numBorder (tb_cells t))
  end.

(** tractBuilder.py:255-268 and 356-371 [getPackedConfig] of the builder class
    registered under the selected name.  The arguments of [struct.pack] are
    evaluated before the call. *)
Definition getPackedConfig (c : config) : res bytes :=
  p <- encode_ascii (c_projection c) ;;
  match selected (c_tb c) with
  | LegacyCfg inner border =>
      struct_pack [Fi; Fi; Fi; Fd; Fd; F3s; Fd]
        [VInt (fst inner); VInt (snd inner); VInt border;
         VFloat (c_overlap c); VFloat (c_scale c); VBytes p; VFloat (c_rotation c)]
  | CellCfg inner border numInner numBorder =>
      struct_pack [Fi; Fi; Fi; Fi; Fi; Fd; Fd; F3s; Fd]
        [VInt (fst inner); VInt (snd inner); VInt border; VInt numInner; VInt numBorder;
         VFloat (c_overlap c); VFloat (c_scale c); VBytes p; VFloat (c_rotation c)]
  end.

(** The [updateSha1] methods: ringsSkyMap.py:370-372, discreteSkyMap.py:78-83,
    equatSkyMap.py:141-143, dodecaSkyMap.py:154-156, healpixSkyMap.py:138-140:
    the bytes they add to the hash. *)
Definition class_bytes (k : class_cfg) : res bytes :=
  match k with
  | RingsCfg n ra => struct_pack [Fi; Fd] [VInt n; VFloat ra]
  | DiscreteCfg ras decs radii =>
      let fmt := repeat Fd (length radii) in
      a <- struct_pack fmt (map VFloat ras) ;;
      b <- struct_pack fmt (map VFloat decs) ;;
      c <- struct_pack fmt (map VFloat radii) ;;
      Ok (a ++ b ++ c)
  | EquatCfg n (d0, d1) => struct_pack [Fi; Fd; Fd] [VInt n; VFloat d0; VFloat d1]
  | DodecaCfg b => struct_pack [Fbool] [VBool b]
  | HealpixCfg n nest => struct_pack [Fi; Fbool] [VInt n; VBool nest]
  end.

(** [type(self).__name__] *)
Definition class_name (k : class_cfg) : pystr :=
  of_string (match k with
             | RingsCfg _ _ => "RingsSkyMap"
             | DiscreteCfg _ _ _ => "DiscreteSkyMap"
             | EquatCfg _ _ => "EquatSkyMap"
             | DodecaCfg _ => "DodecaSkyMap"
             | HealpixCfg _ _ => "HealpixSkyMap"
             end)%string.

(** baseSkyMap.py:357-363: the concatenation of everything fed to the hash
    ([sha1.update(a); sha1.update(b)] hashes [a + b]).  The class names are ASCII,
    so their UTF-8 encoding is the code points. *)
Definition hashed_bytes (c : config) : res bytes :=
  p <- getPackedConfig c ;;
  k <- class_bytes (c_class c) ;;
  Ok (class_name (c_class c) ++ p ++ k).

(** ** Sky map objects *)

(** A version attribute: an int, or a tuple of ints. *)
Inductive pyversion := VerInt (v : Z) | VerTuple (l : list Z).

Section Objects.
(** External functions: spherical offset, the WCS of the factory
    (projection, pixel scale in arcsec, rotation in degrees, crVal), hpgeom, the
    iteration order of Python sets of ints, SHA-1 and [hash] of byte strings. *)
Variable offset : sphere -> R -> R -> sphere.
Variable skyWcs : pystr -> R -> R -> sphere -> wcs sphere.
Variable pixel_to_angle : Z -> bool -> Z -> R * R.
Variable boundaries : Z -> bool -> Z -> list (R * R).
Variable order : set_order.
Variable sha1 : bytes -> bytes.
Variable pyhash : bytes -> Z.

Record skymap := mkMap {
  m_config : config; m_version : pyversion; m_def : skydef sphere;
  m_state : smstate sphere; m_sha1 : option bytes }.

Definition f2r (x : binary64) : R := B2R 53 1024 x.

(** detail/wcsFactory.py:47-51 [WcsFactory.__init__] and 53-69 [makeWcs] at
    [crPixPos=(0, 0)]. *)
Definition wcsFactory (c : config) : res (sphere -> wcs sphere) :=
  if negb (Nat.eqb (length (c_projection c)) 3) then Raise RuntimeError
  else Ok (skyWcs (c_projection c) (f2r (c_scale c)) (f2r (c_rotation c))).

(** baseSkyMap.py:158-170 [BaseSkyMap.__init__] with the rest of the constructor. *)
Definition finish (c : config) (v : pyversion) (d : skydef sphere) : res skymap :=
  s <- sm_new offset d ;;
  Ok (mkMap c v d s None).

(** The constructors, [version] being the optional second argument:
    ringsSkyMap.py:79-93, discreteSkyMap.py:66-68, healpixSkyMap.py:108-111,
    equatSkyMap.py:64-99, dodecaSkyMap.py:68-93, cachingSkyMap.py:51-56.  Equat
    and Dodeca take no version (TypeError) and have the class attribute (1, 0). *)
Definition construct (c : config) (version : option pyversion) : res skymap :=
  let tb := selected (c_tb c) in
  let ov := f2r (c_overlap c) in
  match c_class c with
  | RingsCfg n ra =>
      let v := match version with None => VerInt 1 | Some v => v end in
      g <- rings_init n (f2r ra) (match v with VerInt z => z | VerTuple _ => -1 end) ;;
      w <- wcsFactory c ;;
      finish c v (rings_def tb w ov g)
  | DiscreteCfg ras decs radii =>
      let v := match version with None => VerInt 0 | Some v => v end in
      w <- wcsFactory c ;;
      finish c v (discrete_def tb w ov (mkDiscrete (map f2r ras) (map f2r decs) (map f2r radii)))
  | HealpixCfg n nest =>
      let v := match version with None => VerInt 0 | Some v => v end in
      _ <- healpix_nside n ;;
      w <- wcsFactory c ;;
      d <- healpix_def pixel_to_angle boundaries tb w ov n nest ;;
      finish c v d
  | EquatCfg n (d0, d1) =>
      match version with
      | Some _ => Raise TypeError
      | None =>
          w <- wcsFactory c ;;
          d <- equat_def tb w ov n (f2r d0, f2r d1) ;;
          finish c (VerTuple [1; 0]) d
      end
  | DodecaCfg b =>
      match version with
      | Some _ => Raise TypeError
      | None =>
          w <- wcsFactory c ;;
          D <- Dodecahedron_init order b ;;
          finish c (VerTuple [1; 0]) (dodeca_def tb w ov D)
      end
  end.

(** baseSkyMap.py:344-365 [getSha1]: the digest is kept. *)
Definition getSha1 (m : skymap) : skymap * res bytes :=
  match m_sha1 m with
  | Some h => (m, Ok h)
  | None =>
      match hashed_bytes (m_config m) with
      | Ok b => (mkMap (m_config m) (m_version m) (m_def m) (m_state m) (Some (sha1 b)), Ok (sha1 b))
      | Raise e => (m, Raise e)
      end
  end.

(** baseSkyMap.py:308-309 [__hash__] *)
Definition map_hash (m : skymap) : skymap * res Z :=
  let '(m', r) := getSha1 m in
  (m', h <- r ;; Ok (pyhash h)).

Fixpoint bytes_eqb (a b : bytes) : bool :=
  match a, b with
  | [], [] => true
  | x :: a, y :: b => (x =? y) && bytes_eqb a b
  | _, _ => false
  end.

(** The right operand of [==]: a sky map, or an object without [getSha1]. *)
Inductive pyobj := OMap (m : skymap) | OOther.

(** baseSkyMap.py:311-315 [__eq__], as the expression [m == o]: the
    AttributeError gives NotImplemented, and Python then answers False (the
    other object is assumed not to claim equality). *)
Definition py_eq (m : skymap) (o : pyobj) : skymap * pyobj * res bool :=
  let '(m', r) := getSha1 m in
  match r with
  | Raise e => (m', o, Raise e)
  | Ok h =>
      match o with
      | OOther => (m', o, Ok false)
      | OMap m2 => let '(m2', r2) := getSha1 m2 in (m', OMap m2', h2 <- r2 ;; Ok (bytes_eqb h h2))
      end
  end.
(** baseSkyMap.py:317-318 [__ne__] *)
Definition py_ne (m : skymap) (o : pyobj) : skymap * pyobj * res bool :=
  let '(m', o', r) := py_eq m o in (m', o', b <- r ;; Ok (negb b)).

(** ** Pickling *)

(** What the pickle of a map contains: the constructor and its arguments
    (cachingSkyMap.py:58-69 [__reduce__]), or the state dictionary
    (equatSkyMap.py:101-114, dodecaSkyMap.py:95-108 [__getstate__]). *)
Inductive pickled :=
| PReduce (c : config) (version : pyversion)
| PState (version : pyversion) (c : config).

Definition caching_class (k : class_cfg) : bool :=
  match k with
  | RingsCfg _ _ | DiscreteCfg _ _ _ | HealpixCfg _ _ => true
  | EquatCfg _ _ | DodecaCfg _ => false
  end.
Definition pickle (m : skymap) : pickled :=
  if caching_class (c_class (m_config m)) then PReduce (m_config m) (m_version m)
  else PState (m_version m) (m_config m).

(** Lexicographic [>=] of tuples. *)
Fixpoint tuple_ge (a b : list Z) : bool :=
  match a, b with
  | _, [] => true
  | [], _ :: _ => false
  | x :: a, y :: b => if x =? y then tuple_ge a b else y <? x
  end.

(** [__reduce__]'s call, or equatSkyMap.py:116-129, dodecaSkyMap.py:110-122
    [__setstate__] of the class. *)
Definition unpickle (p : pickled) : res skymap :=
  match p with
  | PReduce c v => construct c (Some v)
  | PState v c =>
      match v with
      | VerInt _ => Raise TypeError
      | VerTuple l => if tuple_ge l [2; 0] then Raise RuntimeError else construct c None
      end
  end.
End Objects.
