(** From a coordinate to the registered data ids (C89). *)
From Coq Require Import Reals Lra Lia String.
From Flocq Require Import Core.Raux.
Require Import Verif.Py Verif.Geom Verif.PatchInfo Verif.TractBuilder Verif.TractInfo Verif.Spec.
Require Import Verif.PatchProofs Verif.TractProofs Verif.SkyMap Verif.SkySpec Verif.SkyProofs Verif.SkyProofs2.
Require Import Verif.Packers Verif.MainPackers.
Require Import Verif.Register Verif.RegSpec Verif.RegProofs Verif.RegProofs2 Verif.RegProofs3 Verif.MainRegister Verif.Concurrent Verif.ConcProofs Verif.MainConcurrent.
Require Import Verif.MainSky Verif.Uniform Verif.Rings Verif.RingsSpec Verif.RingsProofs Verif.RingsProofs2 Verif.MainRings Verif.MainRings2 Verif.Sphere Verif.Region Verif.ProjSpec Verif.MainPolygons Verif.MainMisc.
Require Import Verif.SphereProofs Verif.Maps Verif.Dodeca Verif.DodecaSpec Verif.MainMaps Verif.Config Verif.ConfigSpec Verif.ConfigProofs.
Require Import Verif.Wcs Verif.WcsSpec Verif.MainWcs Verif.MainRotated Verif.MainRegions Verif.Lookup Verif.MainLookup Verif.MainHealpix.
Open Scope list_scope.
Open Scope Z_scope.
Local Arguments Z.mul : simpl never.

(*@ C89: whatever other processes do afterwards (registrations at the same time, failures, crashes), every record and
    dataset of the repository stays there, and the records that are added come after them. *)
Lemma records_kept_proof :
  forall (Sky : Type) (offset : Sky -> R -> R -> Sky) r0 D cs,
  reg_history offset r0 -> sys_steps offset (r0, []) (D, cs) ->
  exists ks ts ps ds, g_skymaps D = g_skymaps r0 ++ ks /\ g_tracts D = g_tracts r0 ++ ts
    /\ g_patches D = g_patches r0 ++ ps /\ g_datasets D = g_datasets r0 ++ ds.
Proof.
  intros Sky offset r0 D cs Hh St.
  assert (G : forall x y, sys_steps offset x y -> fst x = r0 -> sys_inv offset x ->
     exists ks ts ps ds, g_skymaps (fst y) = g_skymaps r0 ++ ks /\ g_tracts (fst y) = g_tracts r0 ++ ts
       /\ g_patches (fst y) = g_patches r0 ++ ps /\ g_datasets (fst y) = g_datasets r0 ++ ds).
  { intros x y H. induction H as [x|x y z Hxy IH Sz]; intros Ex Ix.
    - rewrite Ex. exists [], [], [], []. now rewrite !app_nil_r.
    - destruct (IH Ex Ix) as (ks & ts & ps & ds & E1 & E2 & E3 & E4).
      pose proof (sys_steps_inv offset x y Ix Hxy) as [_ Hf].
      destruct Sz as [D1 cs1 q Hc Hr|D1 cs1 c cs2 D2 c' Sc]; cbn [fst snd] in *; [exists ks, ts, ps, ds; auto|].
      apply Forall_app in Hf. destruct Hf as [_ Hf]. inversion Hf as [|? ? Hci _]; subst.
      destruct (client_step_inv offset D1 c D2 c' Hci Sc) as (_ & _ & _ & [(S1 & S2 & S3 & S4)|(_ & _ & s1 & hash & rec & _ & _ & _ & trs & blocks & -> & _)]).
      + exists ks, ts, ps, ds. rewrite S1, S2, S3, S4. auto.
      + exists (ks ++ [rec]), (ts ++ trs), (ps ++ concat blocks), (ds ++ [(rq_name (c_req c), hash)]). cbn.
        rewrite E1, E2, E3, E4, !app_assoc. auto. }
  exact (G _ _ St eq_refl (sys_inv_start offset r0 Hh)).
Qed.

(*@ C89: let a map with equal patch counts be registered.  Then for any other object of the same map, in any state,
    each of its tracts has a record with its id and its outer sky polygon, and each patch of that tract has a record
    with the number that this object gives to the patch, its index and its outer sky polygon. *)
Lemma other_object_registered_proof :
  forall (Sky : Type) (offset : Sky -> R -> R -> Sky) d n name hash s r r' s2 i t,
  cfg_ok (sd_cfg d) -> sm_reachable offset d s -> uniform_counts offset d n -> completely_registered offset d name hash s r r' ->
  sm_reachable offset d s2 -> holds offset d i s2 t ->
  In (mkTractRec name i (tract_getOuterSkyPolygon t)) (g_tracts r')
  /\ forall ix p, tract_getPatchInfo (sm_builder s2) t ix = Ok p ->
       exists m, getSequentialPatchIndex (sm_builder s2) p = Ok m
         /\ In (mkPatchRec name i m (fst (p_index p)) (snd (p_index p)) (patch_getOuterSkyPolygon p (Some (t_wcs t)))) (g_patches r').
Proof.
  intros Sky offset d [nx ny] name hash s r r' s2 i t Hc Hr Hun CR Hr2 Ht.
  destruct (registered_patches_uniform_proof _ offset d nx ny name hash s r r' Hc Hr Hun CR) as (added & Ea & _ & Hadd).
  destruct CR as (nxm & nym & trs & blocks & lt & _ & _ & _ & _ & Htr & _ & _ & FT & _).
  pose proof (proj1 (proj1 (holds_slot offset d s2 i t Hr2) Ht)) as Hi.
  destruct (Forall2_In_l _ _ _ i FT) as (tr & Hin & t1 & Ht1 & ->); [apply in_zrange; lia|].
  destruct (same_tract_held offset d s s2 i t1 t Hr Ht1 Hr2 Ht) as (S1 & S2 & S3 & S4 & S5 & S6 & S7 & S8).
  split.
  { rewrite Htr. apply in_or_app. right. unfold tract_getOuterSkyPolygon in *. rewrite S6, S7 in Hin. exact Hin. }
  intros ix p Hp.
  pose proof (uniform_in_use offset d (nx, ny) s2 i t Hc Hun Hr2 Ht) as Hu. pose proof (uniform_holds offset d (nx, ny) s2 i t Hun Hr2 Ht) as Hn.
  pose proof (uniform_in_use offset d (nx, ny) s i t1 Hc Hun Hr Ht1) as Hu1. pose proof (uniform_holds offset d (nx, ny) s i t1 Hun Hr Ht1) as Hn1.
  destruct (patch_attributes_proof _ offset _ _ _ _ _ nx ny Hc Hu Hn Hp) as (x & y & Hx & Hy & Eix & Ei & Es & Ew & _).
  destruct (in_use_spec offset _ _ _ Hc Hu) as (a & b & Hbi & Hinit & Hnb & Hnt & _). rewrite Hn in Hnt. injection Hnt as <- <-.
  destruct (in_use_spec offset _ _ _ Hc Hu1) as (a & b & Hbi1 & Hinit1 & Hnb1 & Hnt1 & _). rewrite Hn1 in Hnt1. injection Hnt1 as <- <-.
  assert (Hxy : p = the_patch (sd_cfg d) nx ny (t_wcs t) x y).
  { unfold tract_getPatchInfo in Hp. pose proof (getPatchInfo_pair _ _ nx ny (t_wcs t) x y Hc Hbi Hinit Hnb Hx Hy) as G.
    destruct Eix as [-> | [-> | ->]].
    - rewrite G in Hp. now injection Hp.
    - rewrite getPatchInfo_seq, G in Hp. now injection Hp.
    - rewrite (getPatchInfo_num _ nx ny) in Hp by (assumption || lia).
      replace (y * nx + x) with (x + y * nx) in Hp by lia.
      rewrite Z.mod_add, Z.div_add, Z.mod_small, (Z.div_small x), Z.add_0_l, G in Hp by lia. now injection Hp. }
  subst p. exists (y * nx + x). split.
  { unfold getSequentialPatchIndex, getSequentialPatchIndexFromPair. rewrite Hnb. cbn. f_equal. lia. }
  rewrite Ea. apply in_or_app. right. apply Hadd. exists i, t1, x, y, (the_patch (sd_cfg d) nx ny (t_wcs t1) x y).
  split; [exact Ht1|]. split; [exact Hx|]. split; [exact Hy|]. split.
  { exact (getPatchInfo_pair _ _ nx ny (t_wcs t1) x y Hc Hbi1 Hinit1 Hnb1 Hx Hy). }
  split; [unfold getSequentialPatchIndex, getSequentialPatchIndexFromPair; rewrite Hnb1; cbn; f_equal; lia|].
  cbn [the_patch p_index fst snd]. unfold patch_getOuterSkyPolygon. now rewrite S7.
Qed.

(*@ C89: take a configuration of the Rings (version 1), Discrete, Equat or Dodeca class whose tracts cover a coordinate
    (C86) and have equal patch counts.  One object of the map is registered under a new name; afterwards any processes
    register any maps in the same repository, in any interleaving and with any failures.  Then another object of the
    map, in any state, finds a tract for the coordinate, and the repository has the skymap record, the record of that
    tract with its id and outer sky polygon, and, tract sizes being less than 2^31 pixels, findPatch succeeds and there
    is exactly one patch record with its number, which has its index and its outer sky polygon; with the TAN projection
    both regions contain the coordinate.  Every packer made from the skymap record packs the data id (with a known
    band, if bands are packed) to an id in its range and unpacks that to the same data id. *)
Lemma found_data_id_registered_proof :
  forall named p2a bnd a2p order sha1 c ver m0 m1 m2 n faults sha name r s1 u1 D cs coord,
  knows named -> any_order order -> construct sphere_offset (factory_wcs named) p2a bnd order c ver = Ok m0 ->
  used sphere_offset sha1 m0 m1 -> used sphere_offset sha1 m0 m2 ->
  cfg_ok (selected (c_tb c)) -> (0 < f2r (c_scale c))%R -> on_sphere coord ->
  (forall n ra, c_class c = RingsCfg n ra -> m_version m0 = VerInt 1) -> covered c coord ->
  uniform_counts sphere_offset (m_def m0) n ->
  reg_history sphere_offset r -> ~ In name (map k_name (g_skymaps r)) ->
  register sphere_offset faults (m_def m1) sha name (m_state m1) (butler_on r) = (s1, u1, Done tt) ->
  sys_steps sphere_offset (u_durable u1, []) (D, cs) ->
  exists s2 t k tr,
    map_findTract a2p sphere_offset order m2 coord (m_state m2) = (s2, Ok t) /\ tract_contains t coord = Ok true
    /\ In k (g_skymaps D) /\ k_name k = name /\ 0 <= t_id t < k_tract_max k
    /\ In tr (g_tracts D) /\ tr_skymap tr = name /\ tr_tract tr = t_id t /\ tr_region tr = tract_getOuterSkyPolygon t
    /\ (c_projection c = of_string "TAN" -> region_contains (sky_polygon (tr_region tr)) coord)
    /\ (dimx (t_bbox t) < 2 ^ 31 -> dimy (t_bbox t) < 2 ^ 31 ->
        exists p pr, findPatch (sm_builder s2) t coord = Ok p
          /\ In pr (g_patches D) /\ pr_skymap pr = name /\ pr_tract pr = t_id t
          /\ getSequentialPatchIndex (sm_builder s2) p = Ok (pr_patch pr)
          /\ (forall pr', In pr' (g_patches D) -> pr_skymap pr' = name -> pr_tract pr' = t_id t -> pr_patch pr' = pr_patch pr -> pr' = pr)
          /\ (pr_x pr, pr_y pr) = p_index p /\ pr_region pr = patch_getOuterSkyPolygon p (Some (t_wcs t))
          /\ (c_projection c = of_string "TAN" -> region_contains (sky_polygon (pr_region pr)) coord)
          /\ (forall dims bands n_bands pk band,
                packer_init (mkFixed name (Some (mkSkymapRec (k_tract_max k) (k_nx_max k) (k_ny_max k)))) dims bands n_bands None None = Ok pk ->
                (forall m, bands = Some m -> dict_ok m /\ numbered_in_order m) ->
                (p_n_bands pk = 0 -> band = None /\ name_in "band" (p_dims pk) = false) ->
                (p_n_bands pk <> 0 -> exists b v, band = Some b /\ dict_get (p_bands pk) (Some b) = Some v /\ 0 <= v < p_n_bands pk) ->
                let id := mkDataId name (t_id t) (pr_patch pr) band in
                exists v, packer_pack pk id = Ok v /\ 0 <= v < 2 ^ packer_maxBits pk /\ packer_unpack pk v = Ok id)).
Proof.
  intros named p2a bnd a2p order sha1 c ver m0 m1 m2 n faults sha name r s1 u1 D cs coord Hk Ho C U1 U2 Hc Hs Hsp Hv Hcov Hun Hh Hnew Hreg Hsys.
  destruct (coordinate_lookup_proof named p2a bnd a2p order sha1 c ver m0 m2 coord Hk Ho C U2 Hc Hs Hsp Hv Hcov) as (s2 & t & Ef & Ha & Ht & Hcon & Hfind).
  destruct (used_fields _ _ _ _ U1) as (_ & _ & Ed1 & _). destruct (used_fields _ _ _ _ U2) as (_ & _ & Ed2 & _).
  pose proof (construct_cfg _ _ _ _ _ _ _ _ C) as Ecfg.
  pose proof (reach named p2a bnd order sha1 c ver m0 m1 C U1) as Hr1. pose proof (reach named p2a bnd order sha1 c ver m0 m2 C U2) as Hr2.
  pose proof (reachable_accesses _ _ _ _ Hr2 Ha) as Hr2'.
  assert (Hg : c_projection c = of_string "TAN" -> gnomonic (t_wcs t)).
  { intros Hproj. pose proof (used_access sphere_offset sha1 m0 m2 s2 U2 Ha) as U2'.
    refine (proj1 (proj2 (map_wcs_proof named sphere_offset p2a bnd order sha1 c ver m0 _ (t_id t) t Hk Ho C U2' Hc _ Hs Ht)) Hproj).
    intros k ra E. unfold covered in Hcov. rewrite E in Hcov. destruct Hcov as [Hcov _]. lia. }
  rewrite Ed1 in Hreg, Hr1. rewrite Ed2 in Hr2, Hr2', Ht, Ha, Hfind. set (d := m_def m0) in *.
  assert (Hcd : cfg_ok (sd_cfg d)) by (now rewrite Ecfg).
  destruct (register_all_or_nothing_proof _ sphere_offset faults d sha name (m_state m1) r s1 u1 (Done tt) Hcd Hr1 Hreg) as (A & _ & B).
  destruct (B eq_refl) as (hash & Esha & k & Hin & Ek & _ & Ekn).
  destruct A as [(Q & _)|(hash' & _ & _ & _ & CR)].
  { exfalso. apply Hnew. rewrite <- Ek. apply in_map. rewrite Q in Hin. exact Hin. }
  destruct (register_spec sphere_offset faults d sha name (m_state m1) r s1 u1 _ Hr1 Hreg) as (Ha1 & _).
  pose proof (reachable_accesses _ _ _ _ Hr1 Ha1) as Hr1'.
  pose proof (rh_register sphere_offset r faults d sha name (m_state m1) s1 u1 (Done tt) Hh Hcd Hr1 Hreg) as Hh'.
  destruct (records_kept_proof _ sphere_offset (u_durable u1) D cs Hh' Hsys) as (ks & ts & ps & ds & K1 & K2 & K3 & _).
  destruct (concurrent_serialisable_proof _ sphere_offset (u_durable u1) D cs Hh' Hsys) as ((r2 & Hh2 & R1 & R2 & R3 & R4) & Snd).
  destruct (other_object_registered_proof _ sphere_offset d n name hash' s1 r (u_durable u1) s2 (t_id t) t Hcd Hr1' Hun CR Hr2' Ht) as [T P].
  assert (Hk' : In k (g_skymaps D)) by (rewrite K1; apply in_or_app; now left).
  exists s2, t, k, (mkTractRec name (t_id t) (tract_getOuterSkyPolygon t)).
  split; [exact Ef|]. split; [exact Hcon|]. split; [exact Hk'|]. split; [exact Ek|].
  split; [rewrite Ekn; exact (proj1 (proj1 (holds_slot sphere_offset d s2 (t_id t) t Hr2') Ht))|].
  split; [rewrite K2; apply in_or_app; now left|]. split; [reflexivity|]. split; [reflexivity|]. split; [reflexivity|]. cbn [tr_region].
  pose proof (uniform_in_use sphere_offset d n s2 (t_id t) t Hcd Hun Hr2' Ht) as Hu.
  split.
  { intros Hproj. exact (proj1 (gnomonic_patch_polygons_proof sphere_offset (sd_cfg d) (sm_builder s2) t coord Hcd Hu (Hg Hproj)) Hcon). }
  intros Dx Dy. destruct (Hfind (ex_intro _ n Hun) Dx Dy) as (p & i & j & px & py & F1 & F2 & F3 & F4).
  destruct (P _ p F2) as (m & Em & Hpr).
  set (pr := mkPatchRec name (t_id t) m (fst (p_index p)) (snd (p_index p)) (patch_getOuterSkyPolygon p (Some (t_wcs t)))) in *.
  assert (HprD : In pr (g_patches D)) by (rewrite K3; apply in_or_app; now left).
  exists p, pr. split; [exact F1|]. split; [exact HprD|]. split; [reflexivity|]. split; [reflexivity|]. split; [exact Em|]. split.
  { intros pr' H1 H2 H3 H4. apply (NoDup_map_inj patch_key (g_patches D)); [apply Snd|exact H1|exact HprD|]. unfold patch_key. now rewrite H2, H3, H4. }
  split; [cbn; now destruct (p_index p)|]. split; [reflexivity|]. split.
  { intros Hproj. pose proof (gnomonic_findPatch_polygon_proof sphere_offset _ _ _ coord p Hcd Hu Dx Dy (Hg Hproj) F1) as Hi.
    pose proof (proj1 (gnomonic_outer_polygon_proof sphere_offset _ _ t i j p coord Hcd Hu (Hg Hproj) F2) Hi) as Hout.
    destruct (t_numPatches t) as [nx ny] eqn:En.
    destruct (patch_attributes_proof _ sphere_offset _ _ _ _ _ nx ny Hcd Hu En F2) as (_ & _ & _ & _ & _ & _ & _ & Ew & _).
    unfold pr. cbn [pr_region]. unfold patch_getOuterSkyPolygon in *. rewrite Ew in Hout. exact Hout. }
  intros dims bands nb pk band Hpk Hbands Hno Hyes. set (id := mkDataId name (t_id t) (pr_patch pr) band).
  rewrite <- Ek in Hpk.
  destruct (registered_ids_pack_proof _ sphere_offset r2 k bands nb dims pk Hh2 ltac:(now rewrite <- R1) Hpk) as [Pk _].
  destruct (Pk pr band) as (v & Ev & Hrange).
  { now rewrite <- R3. }
  { now rewrite Ek. }
  { destruct (Z.eq_dec (p_n_bands pk) 0) as [E0|E0]; [now left|right]. exact (Hyes E0). }
  rewrite Ek in Ev. change (packer_pack pk id = Ok v) in Ev.
  exists v. split; [exact Ev|]. split; [exact Hrange|].
  assert (R : 0 <= d_tract id /\ 0 <= d_patch id).
  { destruct (sn_patches _ Snd pr HprD) as (k' & _ & _ & H1 & H2 & _). cbn in *. lia. }
  destruct (unpack_inverts_pack_proof _ dims bands nb None None pk id v Hpk Hbands Ev (proj1 R) (proj2 R)) as [X Y].
  destruct (Z.eq_dec (p_n_bands pk) 0) as [E0|E0]; [|exact (X E0)].
  destruct (Hno E0) as [Hb Hd]. exact (Y Hb Hd).
Qed.

(*@ C89: every tract of a constructed map can be generated (for HEALPix, if hpgeom gives colatitudes from 0 to pi), in any state of the map; so with equal
    patch counts, a new name and a new hash, registering any object of it succeeds unless something fails. *)
Lemma constructed_generable_proof :
  forall named p2a bnd order sha1 c ver m0, 
  construct sphere_offset (factory_wcs named) p2a bnd order c ver = Ok m0 -> cfg_ok (selected (c_tb c)) ->
  match c_class c with
  | RingsCfg n _ => 1 <= n
  | DiscreteCfg ras decs radii => 1 <= Z.of_nat (length radii) /\ length ras = length radii /\ length decs = length radii
      /\ forall d, In d decs -> (-90 <= f2r d <= 90)%R
  | EquatCfg n _ => 1 <= n
  | DodecaCfg _ => True
  | HealpixCfg k nest =>
      forall j, 0 <= j < 12 * 4 ^ k -> Forall (fun a => 0 <= fst a <= PI)%R (p2a (2 ^ k) nest j :: bnd (2 ^ k) nest j)
  end ->
  0 < sd_num (m_def m0) /\ generable sphere_offset (m_def m0)
  /\ (forall n name hash m r, uniform_counts sphere_offset (m_def m0) n -> used sphere_offset sha1 m0 m ->
        reg_history sphere_offset r -> ~ In name (map k_name (g_skymaps r)) -> ~ In hash (map k_hash (g_skymaps r)) ->
        exists s u, register sphere_offset no_faults (m_def m) (Ok hash) name (m_state m) (butler_on r) = (s, u, Done tt)).
Proof.
  intros named p2a bnd order sha1 c ver m0 C Hc Hcls.
  assert (G : 0 < sd_num (m_def m0) /\ generable sphere_offset (m_def m0)).
  { destruct (c_class c) as [n ra|ras decs radii|n [d0 d1]|b|n nest] eqn:Ec.
    - destruct (version_of _ _ _ _ _ _ _ _ _ _ C Ec) as (g & w & G & W & D). rewrite D.
      destruct (rings_init_wf n _ _ _ Hcls G) as (Wf & _). unfold wcsFactory in W. destruct (negb _); [discriminate|]. injection W as W.
      split; [pose proof (len_pos g Wf); cbn; lia|]. intros s i Hr Hi.
      destruct (getitem_total sphere_offset (rings_def (selected (c_tb c)) w (f2r (c_overlap c)) g) s i Hc) as (s' & t & Gt & _); [|exact Hr|exact Hi|eauto].
      intros j Hj. destruct (rings_args_total g w (f2r (c_overlap c)) Wf j Hj) as (a & Ea). exists a. split; [exact Ea|].
      destruct (rings_args_inv _ _ _ _ _ Ea) as (ctr & cor & _ & ->). intros s0 e _. cbn [args_wcs]. rewrite <- W. apply factory_no_raise.
    - destruct Hcls as (L & L1 & L2 & Hdec). unfold construct in C. rewrite Ec in C. destruct (wcsFactory _ c) as [w|] eqn:W; cbn [bind] in C; [|discriminate].
      destruct (finish_ok _ _ _ _ _ C) as (s0 & _ & E). rewrite E. cbn [m_def].
      unfold wcsFactory in W. destruct (negb _); [discriminate|]. injection W as W.
      set (dc := mkDiscrete (map f2r ras) (map f2r decs) (map f2r radii)) in *.
      split; [cbn; rewrite map_length; lia|]. intros s i Hr Hi.
      destruct (discrete_access_proof sphere_offset (selected (c_tb c)) w (f2r (c_overlap c)) dc s i Hc Hr) as [A _].
      + intros k co e. rewrite <- W. apply factory_no_raise.
      + cbn in Hi |- *. exact Hi.
      + apply A.
        * apply (discrete_validate_exact_proof dc). cbn. rewrite !map_length. auto.
        * cbn [dc dc_dec]. intros x Hx. apply in_map_iff in Hx. destruct Hx as (y & <- & Hy). auto.
    - destruct (equat_construct _ _ _ _ _ _ _ _ _ _ _ C Ec) as (w & W & D). 
      assert (K : sd_kind (m_def m0) = EagerMap /\ sd_num (m_def m0) = n).
      { unfold equat_def in D. destruct (n =? 0); [discriminate|]. injection D as <-. auto. }
      destruct K as [K N]. rewrite N. split; [lia|]. intros s i Hr Hi.
      destruct (eager_index_range_proof _ sphere_offset (m_def m0) s i K Hr ltac:(lia)) as (L & _ & X & _).
      destruct X as (t & Et & _); [rewrite L; exact Hi|]. eauto.
    - destruct (dodeca_construct _ _ _ _ _ _ _ _ _ C Ec) as (w & D & W & Ed & Edef & Es).
      rewrite Edef. assert (N : sd_num (dodeca_def (selected (c_tb c)) w (f2r (c_overlap c)) D) = 12) by reflexivity.
      split; [lia|]. intros s i Hr Hi.
      destruct (eager_index_range_proof _ sphere_offset (dodeca_def (selected (c_tb c)) w (f2r (c_overlap c)) D) s i eq_refl Hr ltac:(lia)) as (L & _ & X & _).
      destruct X as (t & Et & _); [rewrite L; exact Hi|]. eauto.
    - destruct (healpix_construct named p2a bnd order c ver m0 n nest C Ec Hcls) as (Hk0 & Hnum & Hok & _).
      rewrite Hnum. split; [pose proof (Z.pow_pos_nonneg 4 n); lia|]. intros s i Hr Hi. rewrite Hnum in Hi.
      destruct (getitem_total sphere_offset (m_def m0) s i) as (s' & t & Gt & _); [now rewrite (construct_cfg _ _ _ _ _ _ _ _ C)|exact Hok|exact Hr|now rewrite Hnum|eauto]. }
  destruct G as [G1 G2]. split; [exact G1|]. split; [exact G2|].
  intros n name hash m r Hu U Hh Hn Hha. destruct (used_fields _ _ _ _ U) as (_ & _ & Ed & _).
  pose proof (reach named p2a bnd order sha1 c ver m0 m C U) as Hr. rewrite Ed in Hr |- *.
  destruct (register_succeeds_proof _ sphere_offset (m_def m0) n name hash (m_state m) r) as (s & u & E & _); eauto.
  now rewrite (construct_cfg _ _ _ _ _ _ _ _ C).
Qed.

(*@ C89, non-vacuity: the default Rings settings with 120 rings (every coordinate), the default Equat settings
    (declinations from -1.25 to 1.25) and the default settings with one tract of radius 4 at RA 3.5, Dec 45
    (coordinates at most 5 degrees from there) meet the hypotheses: the maps are constructed, have equal patch counts, and any object of
    them is registered in any repository in which its name and hash are new. *)
Example found_data_id_defaults_proof : forall p2a bnd order sha1, any_order order ->
  let ready c cov := exists m n, construct sphere_offset (factory_wcs fits_projections) p2a bnd order c None = Ok m
    /\ cfg_ok (selected (c_tb c)) /\ (0 < f2r (c_scale c))%R /\ (forall n ra, c_class c = RingsCfg n ra -> m_version m = VerInt 1)
    /\ (forall coord, on_sphere coord -> cov coord -> covered c coord)
    /\ uniform_counts sphere_offset (m_def m) n
    /\ (forall name hash m1 r, used sphere_offset sha1 m m1 -> reg_history sphere_offset r ->
          ~ In name (map k_name (g_skymaps r)) -> ~ In hash (map k_hash (g_skymaps r)) ->
          exists s u, register sphere_offset no_faults (m_def m1) (Ok hash) name (m_state m1) (butler_on r) = (s, u, Done tt)) in
  knows fits_projections
  /\ ready (rings_default 120) (fun _ => True)
  /\ ready equat_default (fun coord => - deg (5 / 4) <= snd coord <= deg (5 / 4))%R
  /\ ready (base_default (DiscreteCfg [f64_3_5] [f64_45] [f64_4])) (fun coord => separation coord (spherePoint (deg (7 / 2)) (deg 45)) <= deg 5)%R.
Proof.
  intros p2a bnd order sha1 Ho ready.
  destruct (coordinate_lookup_defaults_proof p2a bnd order Ho) as (Hk & R1 & R2 & _ & R4). split; [exact Hk|].
  assert (S : forall (c : config) (cov : sphere -> Prop), (exists m, construct sphere_offset (factory_wcs fits_projections) p2a bnd order c None = Ok m
    /\ cfg_ok (selected (c_tb c)) /\ (0 < f2r (c_scale c))%R /\ (forall n ra, c_class c = RingsCfg n ra -> m_version m = VerInt 1)
    /\ (forall coord, on_sphere coord -> cov coord -> covered c coord)
    /\ (c <> dodeca_default -> exists n, uniform_counts sphere_offset (m_def m) n)) -> c <> dodeca_default ->
    match c_class c with
    | RingsCfg n _ => 1 <= n
    | DiscreteCfg ras decs radii => 1 <= Z.of_nat (length radii) /\ length ras = length radii /\ length decs = length radii
      /\ forall d, In d decs -> (-90 <= f2r d <= 90)%R
    | EquatCfg n _ => 1 <= n
    | DodecaCfg _ => True
    | HealpixCfg _ _ => False
    end -> ready c cov).
  { intros c cov (m & C & H1 & H2 & H3 & H4 & H5) Hd Hcl. destruct (H5 Hd) as (n & Hn).
    exists m, n. split; [exact C|]. split; [exact H1|]. split; [exact H2|]. split; [exact H3|]. split; [exact H4|]. split; [exact Hn|].
    intros name hash m1 r U Hh N1 N2.
    destruct (constructed_generable_proof fits_projections p2a bnd order sha1 c None m C H1) as (_ & _ & K); [|eauto].
    destruct (c_class c); [exact Hcl|exact Hcl|exact Hcl|exact Hcl|contradiction]. }
  split; [|split].
  - apply S; [exact R1|discriminate|cbn; lia].
  - apply S; [exact R2|discriminate|cbn; lia].
  - apply S; [exact R4|discriminate|]. cbn [c_class base_default length]. split; [lia|]. split; [reflexivity|]. split; [reflexivity|].
    intros d [<-|[]]. assert (F2 : f2r f64_45 = 45%R) by (vm_compute; lra). lra.
Qed.
