(** Property theorems; generated by tools/mkprops.py from MainRegister.v. *)
From Coq Require Import Reals Lra String.
Require Import Verif.Py Verif.Geom Verif.PatchInfo Verif.TractBuilder Verif.TractInfo Verif.Spec.
Require Import Verif.PatchProofs Verif.TractProofs Verif.Examples.
Require Import Verif.SkyMap Verif.SkySpec Verif.SkyProofs Verif.SkyProofs2 Verif.MainSky.
Require Import Verif.Packers Verif.MainPackers.
Require Import Verif.Register Verif.RegSpec Verif.RegProofs Verif.RegProofs2 Verif.RegProofs3.
Require Import Verif.MainRegister.
Open Scope list_scope.
Open Scope Z_scope.

(** C52: whatever fails and whenever the process crashes, afterwards the repository either has the
    same skymap, tract and patch records and datasets as before, or the complete records of the map
    in addition; the former if register raised; if it returned, the map is in the repository. *)
Theorem register_all_or_nothing :
  forall (Sky : Type) (offset : Sky -> R -> R -> Sky) faults d sha name s r s' u' out,
  cfg_ok (sd_cfg d) -> sm_reachable offset d s ->
  register offset faults d sha name s (butler_on r) = (s', u', out) ->
  let r' := u_durable u' in
  (same_records r r'
   \/ exists hash, sha = Ok hash /\ ~ In name (map k_name (g_skymaps r)) /\ ~ In hash (map k_hash (g_skymaps r))
        /\ completely_registered offset d name hash s' r r')
  /\ (forall e, out = Raised e -> same_records r r')
  /\ (out = Done tt -> exists hash, sha = Ok hash
        /\ exists k, In k (g_skymaps r') /\ k_name k = name /\ k_hash k = hash /\ k_tract_max k = sd_num d).
Proof. exact register_all_or_nothing_proof. Qed.
Print Assumptions register_all_or_nothing.

(** C52: whatever fails, registration removes no collection and no dataset type and adds at most the collection "skymaps" and
    the dataset type "skyMap"; both exist if it returned normally. *)
Theorem register_collections :
  forall (Sky : Type) (offset : Sky -> R -> R -> Sky) faults d sha name s r s' u' out,
  register offset faults d sha name s (butler_on r) = (s', u', out) ->
  let r' := u_durable u' in
  (forall x, In x (g_runs r) -> In x (g_runs r')) /\ (forall x, In x (g_types r) -> In x (g_types r'))
  /\ (forall x, In x (g_runs r') -> In x (g_runs r) \/ x = "skymaps"%string)
  /\ (forall x, In x (g_types r') -> In x (g_types r) \/ x = "skyMap"%string)
  /\ (out = Done tt -> In "skymaps"%string (g_runs r') /\ In "skyMap"%string (g_types r')).
Proof. exact register_collections_proof. Qed.
Print Assumptions register_collections.

(** C52: in every repository reached from an empty one by any registrations with any failures and
    crashes: names and hashes are distinct; the tract records of each registered map are exactly one
    for each of 0 .. tract_max - 1; patch records have distinct numbers within a tract, belong to
    a registered tract and lie in the ranges given in the skymap record; exactly the registered maps
    are stored as datasets. *)
Theorem repository_sound : forall (Sky : Type) (offset : Sky -> R -> R -> Sky) r,
  reg_history offset r -> sound r.
Proof. exact repository_sound_proof. Qed.
Print Assumptions repository_sound.

(** C52: if nothing fails, a map with equal patch counts in all tracts, under a new name and with a new hash,
    is registered completely. *)
Theorem register_succeeds :
  forall (Sky : Type) (offset : Sky -> R -> R -> Sky) d n name hash s r,
  cfg_ok (sd_cfg d) -> 0 < sd_num d -> generable offset d -> uniform_counts offset d n ->
  sm_reachable offset d s -> reg_history offset r ->
  ~ In name (map k_name (g_skymaps r)) -> ~ In hash (map k_hash (g_skymaps r)) ->
  exists s' u', register offset no_faults d (Ok hash) name s (butler_on r) = (s', u', Done tt)
    /\ completely_registered offset d name hash s' r (u_durable u').
Proof. exact register_succeeds_proof. Qed.
Print Assumptions register_succeeds.

(** C53: registering the same map again under the same name, from any object of that map with any
    history of accesses: nothing is ever changed, and if nothing fails it returns normally. *)
Theorem register_again :
  forall (Sky : Type) (offset : Sky -> R -> R -> Sky) d name hash s r r1 s2 faults s' u' out,
  cfg_ok (sd_cfg d) -> 0 < sd_num d -> sm_reachable offset d s -> sm_reachable offset d s2 ->
  (forall i, 0 <= i < sd_num d -> exists t, holds offset d i s t) ->
  reg_history offset r1 -> completely_registered offset d name hash s r r1 ->
  register offset faults d (Ok hash) name s2 (butler_on r1) = (s', u', out) ->
  same_records r1 (u_durable u') /\ (faults = no_faults -> out = Done tt).
Proof. exact register_again_proof. Qed.
Print Assumptions register_again.

(** C53: if the name is registered with another hash, number of tracts or largest patch counts, or the hash is
    registered under another name, register changes nothing and does not return normally; if nothing else fails
    it raises ConflictingDefinitionError. *)
Theorem register_conflict :
  forall (Sky : Type) (offset : Sky -> R -> R -> Sky) d name hash s r k faults s' u' out,
  cfg_ok (sd_cfg d) -> 0 < sd_num d -> generable offset d -> sm_reachable offset d s -> reg_history offset r ->
  In k (g_skymaps r) ->
  (k_name k = name /\ (k_hash k <> hash \/ k_tract_max k <> sd_num d
       \/ (forall s1, accesses offset d s s1 -> ~ largest_count offset fst d s1 (k_nx_max k))
       \/ (forall s1, accesses offset d s s1 -> ~ largest_count offset snd d s1 (k_ny_max k)))
   \/ k_name k <> name /\ k_hash k = hash) ->
  register offset faults d (Ok hash) name s (butler_on r) = (s', u', out) ->
  same_records r (u_durable u') /\ out <> Done tt
  /\ (faults = no_faults -> out = Raised ConflictingDefinitionError).
Proof. exact register_conflict_proof. Qed.
Print Assumptions register_conflict.

(** C54: a packer made from the skymap record of a registered map, with no counts given, accepts
    every registered patch of that map (with any known band whose number is in range, if bands are
    packed), its packed id is in range, and distinct patch records get distinct ids. *)
Theorem registered_ids_pack :
  forall (Sky : Type) (offset : Sky -> R -> R -> Sky) r k bands n_bands dims pk,
  reg_history offset r -> In k (g_skymaps r) ->
  packer_init (mkFixed (k_name k) (Some (mkSkymapRec (k_tract_max k) (k_nx_max k) (k_ny_max k)))) dims bands n_bands None None
    = Ok pk ->
  let id p band := mkDataId (k_name k) (pr_tract p) (pr_patch p) band in
  let known band := p_n_bands pk = 0 \/ exists b m, band = Some b /\ dict_get (p_bands pk) (Some b) = Some m /\ 0 <= m < p_n_bands pk in
  (forall p band, In p (g_patches r) -> pr_skymap p = k_name k -> known band ->
     exists n, packer_pack pk (id p band) = Ok n /\ 0 <= n < 2 ^ packer_maxBits pk)
  /\ (forall p q band n, In p (g_patches r) -> In q (g_patches r) -> pr_skymap p = k_name k -> pr_skymap q = k_name k ->
       known band -> packer_pack pk (id p band) = Ok n -> packer_pack pk (id q band) = Ok n -> p = q).
Proof. exact registered_ids_pack_proof. Qed.
Print Assumptions registered_ids_pack.

(** C55, for maps whose tracts all have nx x ny patches: the patch records added by a registration are exactly
    one for each tract i and each patch (x, y) of it, with patch number y * nx + x (the number the tract itself
    gives to that patch), indices x and y and the sky region of the outer box of that very patch. *)
Theorem registered_patches_uniform :
  forall (Sky : Type) (offset : Sky -> R -> R -> Sky) d nx ny name hash s r r',
  cfg_ok (sd_cfg d) -> sm_reachable offset d s -> uniform_counts offset d (nx, ny) ->
  completely_registered offset d name hash s r r' ->
  exists added, g_patches r' = g_patches r ++ added
    /\ Z.of_nat (List.length added) = Z.max 0 (sd_num d) * (nx * ny)
    /\ forall rec, In rec added <->
         exists i t x y p, holds offset d i s t /\ 0 <= x < nx /\ 0 <= y < ny
           /\ tract_getPatchInfo (sm_builder s) t (IxIndex2D x y) = Ok p
           /\ getSequentialPatchIndex (sm_builder s) p = Ok (y * nx + x)
           /\ rec = mkPatchRec name i (y * nx + x) x y (patch_getOuterSkyPolygon p (Some (t_wcs t))).
Proof. exact registered_patches_uniform_proof. Qed.
Print Assumptions registered_patches_uniform.

(** C55: exactly, for every map: the patch records added by a registration are one for each patch (x, y) of each
    tract, with number y * w + x where w is the number of columns of the tract generated last; these are the
    tract's own numbers (y * nx + x with its own nx) exactly for the tracts with w columns or a single row. *)
Theorem registered_numbers_exact :
  forall (Sky : Type) (offset : Sky -> R -> R -> Sky) d name hash s r r' u w h,
  cfg_ok (sd_cfg d) -> sm_reachable offset d s -> completely_registered offset d name hash s r r' ->
  holds offset d (last (sm_log s) 0) s u -> t_numPatches u = (w, h) ->
  exists added, g_patches r' = g_patches r ++ added
    /\ (forall rec, In rec added <->
         exists i t nx ny x y p, holds offset d i s t /\ t_numPatches t = (nx, ny) /\ 0 <= x < nx /\ 0 <= y < ny
           /\ tract_getPatchInfo (sm_builder s) t (IxIndex2D x y) = Ok p
           /\ rec = mkPatchRec name i (y * w + x) x y (patch_getOuterSkyPolygon p (Some (t_wcs t))))
    /\ (forall i t nx ny, holds offset d i s t -> t_numPatches t = (nx, ny) -> 0 < nx ->
         ((forall rec, In rec added -> pr_tract rec = i -> pr_patch rec = pr_y rec * nx + pr_x rec)
          <-> nx = w \/ ny <= 1)).
Proof. exact registered_numbers_exact_proof. Qed.
Print Assumptions registered_numbers_exact.

(** C55 REFUTED in general: once all tracts of a map exist, if some tract has more patches along an axis than
    the tract generated last, the map cannot be registered at all under a new name: register never returns
    normally, and nothing is registered. *)
Theorem unequal_tracts_not_registered_refuted :
  forall (Sky : Type) (offset : Sky -> R -> R -> Sky) faults d name sha s r i t u s' u' out,
  cfg_ok (sd_cfg d) -> 0 < sd_num d -> sm_reachable offset d s ->
  (forall j, 0 <= j < sd_num d -> exists v, holds offset d j s v) ->
  holds offset d i s t -> holds offset d (last (sm_log s) 0) s u ->
  fst (t_numPatches u) < fst (t_numPatches t) \/ snd (t_numPatches u) < snd (t_numPatches t) ->
  ~ In name (map k_name (g_skymaps r)) ->
  register offset faults d sha name s (butler_on r) = (s', u', out) ->
  same_records r (u_durable u') /\ out <> Done tt.
Proof. exact unequal_tracts_not_registered_refuted_proof. Qed.
Print Assumptions unequal_tracts_not_registered_refuted.

(** C55: exactly which maps can be registered: when all tracts exist and nothing fails, a map under a new name
    and with a new hash is registered exactly if no tract has more columns or rows of patches than the tract
    generated last. *)
Theorem register_exactly :
  forall (Sky : Type) (offset : Sky -> R -> R -> Sky) d name hash s r u,
  cfg_ok (sd_cfg d) -> 0 < sd_num d -> generable offset d -> sm_reachable offset d s -> reg_history offset r ->
  (forall j, 0 <= j < sd_num d -> exists v, holds offset d j s v) ->
  holds offset d (last (sm_log s) 0) s u ->
  ~ In name (map k_name (g_skymaps r)) -> ~ In hash (map k_hash (g_skymaps r)) ->
  ((exists s' u', register offset no_faults d (Ok hash) name s (butler_on r) = (s', u', Done tt))
   <-> forall i t, holds offset d i s t ->
         fst (t_numPatches t) <= fst (t_numPatches u) /\ snd (t_numPatches t) <= snd (t_numPatches u)).
Proof. exact register_exactly_proof. Qed.
Print Assumptions register_exactly.

(** C55 REFUTED, a concrete map of two tracts with 3 x 2 and 1 x 2 patches.  If the tracts are used in the order
    0, 1 before registration, register always fails.  If they are used in the order 1, 0, registration in an empty
    repository succeeds, and patch (0, 1) of tract 1 is registered as number 3, although
    the tract itself numbered it 1 when it was made. *)
Theorem registered_numbers_refuted :
  exists s0, sm_new flat_offset unequal_map = Ok s0
    /\ (exists s1 t s2 u, sm_getitem flat_offset unequal_map 0 s0 = (s1, Ok t) /\ sm_getitem flat_offset unequal_map 1 s1 = (s2, Ok u)
        /\ forall faults sha name s' u' out,
             register flat_offset faults unequal_map sha name s2 (butler_on (mkReg [] [] [] [] [] [])) = (s', u', out) ->
             out <> Done tt /\ g_patches (u_durable u') = [])
    /\ (exists s1 t s2 u, sm_getitem flat_offset unequal_map 1 s0 = (s1, Ok u) /\ sm_getitem flat_offset unequal_map 0 s1 = (s2, Ok t)
        /\ t_numPatches u = (1, 2) /\ getSequentialPatchIndexFromPair (sm_builder s1) (IxIndex2D 0 1) = Ok 1
        /\ forall name hash, exists s' u',
             register flat_offset no_faults unequal_map (Ok hash) name s2 (butler_on (mkReg [] [] [] [] [] [])) = (s', u', Done tt)
             /\ exists region, In (mkPatchRec name 1 3 0 1 region) (g_patches (u_durable u'))).
Proof. exact registered_numbers_refuted_proof. Qed.
Print Assumptions registered_numbers_refuted.

(** C52, C53, C54, C55: the hypotheses of the theorems above are met: a map of two tracts with 3 x 2 patches can be generated,
    is registered in an empty repository as 1 skymap, 2 tracts and 12 patches; registering it again returns
    normally; registering it under the same name with another hash raises ConflictingDefinitionError; a
    packer can be made from the skymap record. *)
Example registration_example :
  exists s0, sm_new flat_offset uniform_map = Ok s0 /\ generable flat_offset uniform_map
    /\ uniform_counts flat_offset uniform_map (3, 2)
    /\ forall name hash, exists s1 u1,
         register flat_offset no_faults uniform_map (Ok hash) name s0 (butler_on (mkReg [] [] [] [] [] [])) = (s1, u1, Done tt)
         /\ reg_history flat_offset (u_durable u1)
         /\ completely_registered flat_offset uniform_map name hash s1 (mkReg [] [] [] [] [] []) (u_durable u1)
         /\ g_skymaps (u_durable u1) = [mkSkyRec name hash 2 3 2]
         /\ List.length (g_tracts (u_durable u1)) = 2%nat /\ List.length (g_patches (u_durable u1)) = 12%nat
         /\ (exists s2 u2, register flat_offset no_faults uniform_map (Ok hash) name s0 (butler_on (u_durable u1)) = (s2, u2, Done tt))
         /\ (forall hash', hash' <> hash -> exists s2 u2,
               register flat_offset no_faults uniform_map (Ok hash') name s0 (butler_on (u_durable u1))
               = (s2, u2, Raised ConflictingDefinitionError))
         /\ (exists pk, packer_init (mkFixed name (Some (mkSkymapRec 2 3 2))) None None None None None = Ok pk).
Proof. exact registration_example_proof. Qed.
