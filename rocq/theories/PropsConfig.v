(** Property theorems; generated by tools/mkprops.py from MainConfig.v. *)
From Coq Require Import Reals Lra Lia String.
From Flocq Require Import IEEE754.Binary IEEE754.Bits.
Require Import Verif.Py Verif.Geom Verif.PatchInfo Verif.TractBuilder Verif.TractInfo Verif.Spec.
Require Import Verif.SkyMap Verif.SkySpec Verif.SkyProofs Verif.SkyProofs2 Verif.RegProofs3.
Require Import Verif.Rings Verif.RingsSpec Verif.RingsProofs Verif.RingsProofs2 Verif.MainRings Verif.MainRings2.
Require Import Verif.Sphere Verif.Uniform Verif.Maps Verif.Dodeca.
Require Import Verif.Config Verif.ConfigSpec Verif.ConfigProofs.
Require Import Verif.MainConfig.
Open Scope list_scope.
Open Scope Z_scope.

(** C43: two sky maps of any of the five classes, with either tract builder, feed the same bytes to
    SHA-1 exactly if they have the same class and the same class-specific values, the same kind of
    tract builder with the same values, and the same overlap, pixel scale, projection and rotation. *)
Theorem hashed_bytes_determine : forall offset skyWcs p2a bnd order c c' ver ver' m m' b b',
  construct offset skyWcs p2a bnd order c ver = Ok m ->
  construct offset skyWcs p2a bnd order c' ver' = Ok m' ->
  hashed_bytes (m_config m) = Ok b -> hashed_bytes (m_config m') = Ok b' ->
  (b = b' <-> same_settings (m_config m) (m_config m')).
Proof. exact hashed_bytes_determine_proof. Qed.
Print Assumptions hashed_bytes_determine.

(** C61: the hash of a sky map can be computed exactly if its projection is ASCII, the integers of its
    configuration that are hashed fit 32 bits and the three lists of a DiscreteSkyMap have equal
    lengths; otherwise getSha1, hash() and every comparison raise. *)
Theorem hash_computable : forall offset skyWcs p2a bnd order sha1 pyhash c ver m m',
  construct offset skyWcs p2a bnd order c ver = Ok m -> used offset sha1 m m' ->
  (packable c -> exists b, hashed_bytes c = Ok b /\ snd (getSha1 sha1 m') = Ok (sha1 b))
  /\ (~ packable c -> exists e, (e = StructError \/ e = UnicodeEncodeError) /\ snd (getSha1 sha1 m') = Raise e
        /\ snd (map_hash sha1 pyhash m') = Raise e /\ forall o, snd (py_eq sha1 m' o) = Raise e).
Proof. exact hash_computable_proof. Qed.
Print Assumptions hash_computable.

(** C44: getSha1 returns the same value at any two points of the life of a sky map, and its value
    depends on the hashed bytes of the configuration only. *)
Theorem sha_history_independent : forall offset skyWcs p2a bnd order sha1 c ver m m1 m2,
  construct offset skyWcs p2a bnd order c ver = Ok m ->
  used offset sha1 m m1 -> used offset sha1 m m2 ->
  snd (getSha1 sha1 m1) = snd (getSha1 sha1 m2)
  /\ (forall b, hashed_bytes c = Ok b -> snd (getSha1 sha1 m1) = Ok (sha1 b)).
Proof. exact sha_history_independent_proof. Qed.
Print Assumptions sha_history_independent.

(** C44: between sky maps whose hash can be computed, == always answers and is an equivalence
    relation whatever was done with the maps, != is its negation, equal maps have equal hash(), and a
    sky map is not equal to an object that is not a sky map. *)
Theorem equality_coherent : forall offset skyWcs p2a bnd order sha1 pyhash,
  let is_map m := exists c ver m0, construct offset skyWcs p2a bnd order c ver = Ok m0 /\ packable c
                    /\ used offset sha1 m0 m in
  let eq m m' := snd (py_eq sha1 m (OMap m')) = Ok true in
  (forall m m', is_map m -> is_map m' -> exists b, snd (py_eq sha1 m (OMap m')) = Ok b
      /\ snd (py_ne sha1 m (OMap m')) = Ok (negb b))
  /\ (forall m, is_map m -> eq m m)
  /\ (forall m m', is_map m -> is_map m' -> eq m m' -> eq m' m)
  /\ (forall m m' m'', is_map m -> is_map m' -> is_map m'' -> eq m m' -> eq m' m'' -> eq m m'')
  /\ (forall m m', is_map m -> is_map m' -> eq m m' ->
        exists h, snd (map_hash sha1 pyhash m) = Ok h /\ snd (map_hash sha1 pyhash m') = Ok h)
  /\ (forall m, is_map m -> snd (py_eq sha1 m OOther) = Ok false /\ snd (py_ne sha1 m OOther) = Ok true)
  /\ (forall m m' m1 m1', is_map m -> is_map m' -> used offset sha1 m m1 -> used offset sha1 m' m1' ->
        snd (py_eq sha1 m1 (OMap m1')) = snd (py_eq sha1 m (OMap m'))).
Proof. exact equality_coherent_proof. Qed.
Print Assumptions equality_coherent.

(** C45: two maps that compare equal, if SHA-1 does not collide on their configurations, have the
    same length and the same tract at every index (up to object identity) at any points of their
    lives, unless they are RingsSkyMaps of different versions. *)
Theorem equal_maps_same_tracts : forall offset skyWcs p2a bnd order sha1 c c' ver ver' m0 m0' m m',
  construct offset skyWcs p2a bnd order c ver = Ok m0 -> used offset sha1 m0 m ->
  construct offset skyWcs p2a bnd order c' ver' = Ok m0' -> used offset sha1 m0' m' ->
  (forall b b', hashed_bytes c = Ok b -> hashed_bytes c' = Ok b' -> sha1 b = sha1 b' -> b = b') ->
  (match c_class c with RingsCfg _ _ => m_version m = m_version m' | _ => True end) ->
  snd (py_eq sha1 m (OMap m')) = Ok true ->
  sm_len (m_def m) (m_state m) = sm_len (m_def m') (m_state m')
  /\ (forall i t t', holds offset (m_def m) i (m_state m) t -> holds offset (m_def m') i (m_state m') t' -> same_tract t t')
  /\ (forall i t, holds offset (m_def m) i (m_state m) t ->
        exists s' t', sm_getitem offset (m_def m') i (m_state m') = (s', Ok t') /\ same_tract t t').
Proof. exact equal_maps_same_tracts_proof. Qed.
Print Assumptions equal_maps_same_tracts.

(** C45: REFUTED for RingsSkyMap: whatever configuration with at least two rings is used (TAN or STG
    projection), the version 0 and the version 1 map made from it compare equal, but have tracts with
    different centres at a common index. *)
Theorem equal_maps_refuted : forall skyWcs p2a bnd order sha1 c n ra scale,
  c_class c = RingsCfg n ra -> 2 <= n -> packable c -> length (c_projection c) = 3%nat ->
  cfg_ok (selected (c_tb c)) ->
  standard_wcs scale (skyWcs (c_projection c) (f2r (c_scale c)) (f2r (c_rotation c))) ->
  exists m0 m1,
    construct sphere_offset skyWcs p2a bnd order c (Some (VerInt 0)) = Ok m0
    /\ construct sphere_offset skyWcs p2a bnd order c None = Ok m1
    /\ snd (py_eq sha1 m0 (OMap m1)) = Ok true
    /\ exists i s0 t0 s1 t1,
         sm_getitem sphere_offset (m_def m0) i (m_state m0) = (s0, Ok t0)
         /\ sm_getitem sphere_offset (m_def m1) i (m_state m1) = (s1, Ok t1)
         /\ t_ctr t0 <> t_ctr t1.
Proof. exact equal_maps_refuted_proof. Qed.
Print Assumptions equal_maps_refuted.

(** C45: the hypotheses are met by the default configuration with three rings. *)
Example equal_maps_hypotheses_met : forall scale,
  let c := rings_default 3 in
  let skyWcs := fun (_ : pystr) (_ _ : R) => stg_wcs scale in
  c_class c = RingsCfg 3 f64_zero /\ packable c /\ length (c_projection c) = 3%nat
  /\ cfg_ok (selected (c_tb c))
  /\ standard_wcs scale (skyWcs (c_projection c) (f2r (c_scale c)) (f2r (c_rotation c))).
Proof. exact equal_maps_hypotheses_met_proof. Qed.

(** C23: the pickle of a sky map, at any point of its life, unpickles to a new map of the same class,
    configuration and version, with the same number of tracts and the same SHA-1 (or the same error);
    every tract that exists in the original can be obtained from the new map at any point of that
    map's life, with the same id, centre, vertices, overlap, patch counts, bounding box and WCS. *)
Theorem pickle_round_trip : forall offset skyWcs p2a bnd order sha1 c ver m0 m,
  construct offset skyWcs p2a bnd order c ver = Ok m0 -> used offset sha1 m0 m ->
  exists n, unpickle offset skyWcs p2a bnd order (pickle m) = Ok n
    /\ m_config n = m_config m /\ m_version n = m_version m
    /\ (forall n', used offset sha1 n n' ->
          snd (getSha1 sha1 n') = snd (getSha1 sha1 m)
          /\ sm_len (m_def n') (m_state n') = sm_len (m_def m) (m_state m)
          /\ (forall i t, holds offset (m_def m) i (m_state m) t ->
                exists s t', sm_getitem offset (m_def n') i (m_state n') = (s, Ok t') /\ same_tract t t')
          /\ (forall i t', holds offset (m_def n') i (m_state n') t' ->
                exists s t, sm_getitem offset (m_def m) i (m_state m) = (s, Ok t) /\ same_tract t t')).
Proof. exact pickle_round_trip_proof. Qed.
Print Assumptions pickle_round_trip.

(** C23: unpickling the state of an Equat or Dodeca map raises RuntimeError if its version pair is
    (2, 0) or later, and otherwise makes a new map from its configuration. *)
Theorem unpickle_versions : forall offset skyWcs p2a bnd order a b c,
  (2 < a \/ a = 2 /\ 0 <= b ->
     unpickle offset skyWcs p2a bnd order (PState (VerTuple [a; b]) c) = Raise RuntimeError)
  /\ (a < 2 \/ a = 2 /\ b < 0 ->
     unpickle offset skyWcs p2a bnd order (PState (VerTuple [a; b]) c) = construct offset skyWcs p2a bnd order c None).
Proof. exact unpickle_versions_proof. Qed.
Print Assumptions unpickle_versions.

(** C58: after any sequence of assignments to patchInnerDimensions and patchBorder, choices of the
    tract builder and assignments to the cells configuration, each property reads what was last set,
    the legacy configuration has exactly these values, and the cells configuration and the choice of
    the builder are what was last set for them; nothing else changes. *)
Theorem config_properties : forall c l,
  let c' := do_ops c l in
  getPatchInnerDimensions c' = last_of inner_of l (getPatchInnerDimensions c)
  /\ getPatchBorder c' = last_of border_of l (getPatchBorder c)
  /\ tb_legacy (c_tb c') = mkLegacy (last_of inner_of l (getPatchInnerDimensions c)) (last_of border_of l (getPatchBorder c))
  /\ tb_cells (c_tb c') = last_of cells_of l (tb_cells (c_tb c))
  /\ tb_sel (c_tb c') = last_of name_of l (tb_sel (c_tb c))
  /\ c_overlap c' = c_overlap c /\ c_scale c' = c_scale c /\ c_projection c' = c_projection c
  /\ c_rotation c' = c_rotation c /\ c_class c' = c_class c.
Proof. exact config_properties_proof. Qed.
Print Assumptions config_properties.

(** C58: if the cells builder is selected, assignments to patchInnerDimensions and patchBorder change
    neither the tract builder that a sky map gets, nor the map's tracts, nor its hash. *)
Theorem config_properties_cells : forall offset skyWcs p2a bnd order c l ver,
  (forall o, In o l -> exists v w, o = SetInner v \/ o = SetBorder w) ->
  tb_sel (c_tb c) = Cells ->
  let c' := do_ops c l in
  selected (c_tb c') = selected (c_tb c)
  /\ builder_init (selected (c_tb c')) = builder_init (selected (c_tb c))
  /\ hashed_bytes c' = hashed_bytes c
  /\ (forall m, construct offset skyWcs p2a bnd order c ver = Ok m ->
        construct offset skyWcs p2a bnd order c' ver = Ok (mkMap c' (m_version m) (m_def m) (m_state m) None)).
Proof. exact config_properties_cells_proof. Qed.
Print Assumptions config_properties_cells.

(** C58: the class defaults: Equat has projection CEA, Healpix rotation 45 degrees, and Dodeca the
    legacy values 4000x4000 and border 250, set through the compatible properties; the cells defaults
    are those of every class. *)
Theorem class_defaults :
  c_projection equat_default = of_string "CEA"
  /\ c_rotation healpix_default = f64_45
  /\ getPatchInnerDimensions dodeca_default = (4000, 4000) /\ getPatchBorder dodeca_default = 250
  /\ selected (c_tb dodeca_default) = LegacyCfg (4000, 4000) 250
  /\ c_overlap dodeca_default = f64_3_5 /\ c_scale dodeca_default = f64_0_2
  /\ (forall c, In c [equat_default; healpix_default; dodeca_default; discrete_default] ->
        tb_sel (c_tb c) = Legacy /\ tb_cells (c_tb c) = mkCells (150, 150) 50 20 1 /\ packable c).
Proof. exact class_defaults_proof. Qed.
Print Assumptions class_defaults.

(** C62: maps made from configurations whose values are numerically equal, whatever was done with them, compare
    equal exactly if zeros have the same sign in both (unless SHA-1 collides on the two). *)
Theorem equal_numbers_equal_maps : forall offset skyWcs p2a bnd order sha1 c c' ver ver' m0 m0' m m',
  construct offset skyWcs p2a bnd order c ver = Ok m0 -> used offset sha1 m0 m ->
  construct offset skyWcs p2a bnd order c' ver' = Ok m0' -> used offset sha1 m0' m' ->
  (forall b b', hashed_bytes c = Ok b -> hashed_bytes c' = Ok b' -> sha1 b = sha1 b' -> b = b') ->
  packable c -> packable c' -> agree same_number c c' ->
  (snd (py_eq sha1 m (OMap m')) = Ok true <-> agree same_sign c c').
Proof. exact equal_numbers_equal_maps_proof. Qed.
Print Assumptions equal_numbers_equal_maps.

(** C62: REFUTED: two configurations whose values are numerically equal need not give equal maps: a
    right ascension of -0.0 instead of 0.0 gives a map with the same definition, hence the same
    tracts, that compares different (unless SHA-1 collides on the two). *)
Theorem negative_zero_refuted : forall offset skyWcs p2a bnd order sha1 n,
  let c := rings_default n in
  let c' := mkConfig (c_tb c) (c_overlap c) (c_scale c) (c_projection c) (c_rotation c) (RingsCfg n f64_neg_zero) in
  int32 n ->
  f2r f64_neg_zero = f2r f64_zero
  /\ exists m m' b b', construct offset skyWcs p2a bnd order c None = Ok m
    /\ construct offset skyWcs p2a bnd order c' None = Ok m'
    /\ m_def m = m_def m' /\ hashed_bytes c = Ok b /\ hashed_bytes c' = Ok b' /\ b <> b'
    /\ (sha1 b <> sha1 b' -> snd (py_eq sha1 m (OMap m')) = Ok false).
Proof. exact negative_zero_refuted_proof. Qed.
Print Assumptions negative_zero_refuted.

(** C23, C43, C44, C45, C61: a concrete case: default Discrete maps with one tract, used once, and
    with lists of different lengths. *)
Example hash_example : forall offset skyWcs p2a bnd order sha1,
  let c := base_default (DiscreteCfg [f64_zero] [f64_1_25] [f64_one]) in
  let bad := base_default (DiscreteCfg [f64_zero] [] [f64_one]) in
  packable c /\ ~ packable bad
  /\ (exists m, construct offset skyWcs p2a bnd order c None = Ok m /\ used offset sha1 m (fst (getSha1 sha1 m)))
  /\ (exists m, construct offset skyWcs p2a bnd order bad (Some (VerInt 7)) = Ok m /\ m_version m = VerInt 7)
  /\ (exists b, hashed_bytes c = Ok (of_string "DiscreteSkyMap" ++ [160; 15; 0; 0; 160; 15; 0; 0; 100; 0; 0; 0] ++ b)
       /\ length b = 51%nat)
  /\ exists b, hashed_bytes (base_default (HealpixCfg 258 true)) = Ok (of_string "HealpixSkyMap" ++ b ++ [2; 1; 0; 0; 1])
       /\ hashed_bytes (base_default (HealpixCfg 258 false)) = Ok (of_string "HealpixSkyMap" ++ b ++ [2; 1; 0; 0; 0]).
Proof. exact hash_example_proof. Qed.
