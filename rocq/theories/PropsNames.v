(** Property theorems; generated by tools/mkprops.py from MainNames.v. *)
From Coq Require Import Reals Lra Lia String.
From Flocq Require Import Core.Raux.
Require Import Verif.Py Verif.Geom Verif.PatchInfo Verif.TractBuilder Verif.TractInfo Verif.Spec.
Require Import Verif.PatchProofs Verif.TractProofs Verif.SkyMap Verif.SkySpec Verif.SkyProofs Verif.SkyProofs2.
Require Import Verif.Register Verif.RegSpec Verif.RegProofs Verif.RegProofs2 Verif.RegProofs3 Verif.MainRegister Verif.Concurrent Verif.ConcProofs Verif.MainConcurrent.
Require Import Verif.MainSky Verif.Uniform Verif.Rings Verif.RingsSpec Verif.RingsProofs Verif.RingsProofs2 Verif.MainRings Verif.MainRings2 Verif.Sphere.
Require Import Verif.SphereProofs Verif.Maps Verif.Dodeca Verif.DodecaSpec Verif.MainMaps Verif.Config Verif.ConfigSpec Verif.ConfigProofs Verif.MainConfig.
Require Import Verif.Wcs Verif.WcsSpec Verif.MainWcs Verif.MainRotated Verif.MainRegions Verif.Lookup Verif.MainLookup Verif.MainDataId.
Require Import Verif.MainNames.
Open Scope list_scope.
Open Scope Z_scope.

(** C90: of any processes registering sky maps in one repository, in any interleaving, two that returned normally used
    the same name if and only if their sky maps agree in every hashed configuration value, that is, compare equal (SHA-1 not
    colliding on the two); then, but for Rings maps of different versions, their tracts are the same. *)
Theorem registered_names :
  forall offset skyWcs p2a bnd order sha1 c c' ver ver' m0 m0' m m' r0 D cs cl cl' name name',
  construct offset skyWcs p2a bnd order c ver = Ok m0 -> used offset sha1 m0 m ->
  construct offset skyWcs p2a bnd order c' ver' = Ok m0' -> used offset sha1 m0' m' ->
  (forall b b', hashed_bytes c = Ok b -> hashed_bytes c' = Ok b' -> sha1 b = sha1 b' -> b = b') ->
  reg_history offset r0 -> sys_steps offset (r0, []) (D, cs) -> In cl cs -> In cl' cs ->
  c_req cl = mkRequest (m_def m) (snd (getSha1 sha1 m)) name (m_state m) -> c_out cl = Some (Done tt) ->
  c_req cl' = mkRequest (m_def m') (snd (getSha1 sha1 m')) name' (m_state m') -> c_out cl' = Some (Done tt) ->
  (name = name' <-> same_settings c c')
  /\ (name = name' <-> snd (py_eq sha1 m (OMap m')) = Ok true)
  /\ (name = name' -> match c_class c with RingsCfg _ _ => m_version m = m_version m' | _ => True end ->
      sm_len (m_def m) (m_state m) = sm_len (m_def m') (m_state m')
      /\ forall i t t', holds offset (m_def m) i (m_state m) t -> holds offset (m_def m') i (m_state m') t' -> same_tract t t').
Proof. exact registered_names_proof. Qed.
Print Assumptions registered_names.

(** C90, one after the other: the same if the second map is registered any time after the first, whatever processes
    did in between. *)
Theorem registered_names_later :
  forall offset skyWcs p2a bnd order sha1 c c' ver ver' m0 m0' m m' r faults s u D cs faults' s' u' name name',
  construct offset skyWcs p2a bnd order c ver = Ok m0 -> used offset sha1 m0 m -> cfg_ok (selected (c_tb c)) ->
  construct offset skyWcs p2a bnd order c' ver' = Ok m0' -> used offset sha1 m0' m' -> cfg_ok (selected (c_tb c')) ->
  (forall b b', hashed_bytes c = Ok b -> hashed_bytes c' = Ok b' -> sha1 b = sha1 b' -> b = b') ->
  reg_history offset r ->
  register offset faults (m_def m) (snd (getSha1 sha1 m)) name (m_state m) (butler_on r) = (s, u, Done tt) ->
  sys_steps offset (u_durable u, []) (D, cs) ->
  register offset faults' (m_def m') (snd (getSha1 sha1 m')) name' (m_state m') (butler_on D) = (s', u', Done tt) ->
  (name = name' <-> same_settings c c')
  /\ (name = name' <-> snd (py_eq sha1 m (OMap m')) = Ok true)
  /\ (name = name' -> match c_class c with RingsCfg _ _ => m_version m = m_version m' | _ => True end ->
      sm_len (m_def m) (m_state m) = sm_len (m_def m') (m_state m')
      /\ forall i t t', holds offset (m_def m) i (m_state m) t -> holds offset (m_def m') i (m_state m') t' -> same_tract t t').
Proof. exact registered_names_later_proof. Qed.
Print Assumptions registered_names_later.

(** C90, REFUTED for Rings maps of versions 0 and 1: take any Rings configuration of two rings or more with the TAN, STG or CEA
    projection.  After the map of version 0 has been registered under a new name, registering the map of version 1 under that name returns
    normally and adds nothing, although the records are those of version 0: the record of some tract has the
    outer sky polygon of the tract of version 0, whose centre is not the centre of the tract of version 1 with that id. *)
Theorem registered_names_refuted :
  forall named p2a bnd order sha1 c n ra proj name r,
  knows named -> c_class c = RingsCfg n ra -> 2 <= n -> packable c -> cfg_ok (selected (c_tb c)) ->
  In proj ["TAN"; "STG"; "CEA"]%string -> c_projection c = of_string proj ->
  reg_history sphere_offset r -> ~ In name (map k_name (g_skymaps r)) ->
  (forall b, hashed_bytes c = Ok b -> ~ In (sha1 b) (map k_hash (g_skymaps r))) ->
  exists m0 m1 s0 u0 s1 u1 i t0 t1,
    construct sphere_offset (factory_wcs named) p2a bnd order c (Some (VerInt 0)) = Ok m0
    /\ construct sphere_offset (factory_wcs named) p2a bnd order c None = Ok m1
    /\ register sphere_offset no_faults (m_def m0) (snd (getSha1 sha1 m0)) name (m_state m0) (butler_on r) = (s0, u0, Done tt)
    /\ register sphere_offset no_faults (m_def m1) (snd (getSha1 sha1 m1)) name (m_state m1) (butler_on (u_durable u0)) = (s1, u1, Done tt)
    /\ same_records (u_durable u0) (u_durable u1)
    /\ holds sphere_offset (m_def m0) i s0 t0 /\ holds sphere_offset (m_def m1) i s1 t1
    /\ In (mkTractRec name i (tract_getOuterSkyPolygon t0)) (g_tracts (u_durable u1))
    /\ t_ctr t0 <> t_ctr t1.
Proof. exact registered_names_refuted_proof. Qed.
Print Assumptions registered_names_refuted.

(** C90, non-vacuity: the default Rings settings with 120 rings meet the hypotheses of the refutation, in an empty repository; and an
    object of that map, registered twice under a name, returns normally both times. *)
Example registered_names_example : forall p2a bnd order sha1 name, any_order order ->
  let c := rings_default 120 in let r := mkReg [] [] [] [] [] [] : registry sphere in
  knows fits_projections /\ c_class c = RingsCfg 120 f64_zero /\ packable c /\ cfg_ok (selected (c_tb c))
  /\ c_projection c = of_string "STG" /\ reg_history sphere_offset r
  /\ exists m s u s' u', construct sphere_offset (factory_wcs fits_projections) p2a bnd order c None = Ok m
     /\ register sphere_offset no_faults (m_def m) (snd (getSha1 sha1 m)) name (m_state m) (butler_on r) = (s, u, Done tt)
     /\ register sphere_offset no_faults (m_def m) (snd (getSha1 sha1 m)) name (m_state m) (butler_on (u_durable u)) = (s', u', Done tt).
Proof. exact registered_names_example_proof. Qed.
