(** What a registered name says about the sky map (C90). *)
From Coq Require Import Reals Lra Lia String.
From Flocq Require Import Core.Raux.
Require Import Verif.Py Verif.Geom Verif.PatchInfo Verif.TractBuilder Verif.TractInfo Verif.Spec.
Require Import Verif.PatchProofs Verif.TractProofs Verif.SkyMap Verif.SkySpec Verif.SkyProofs Verif.SkyProofs2.
Require Import Verif.Register Verif.RegSpec Verif.RegProofs Verif.RegProofs2 Verif.RegProofs3 Verif.MainRegister Verif.Concurrent Verif.ConcProofs Verif.MainConcurrent.
Require Import Verif.MainSky Verif.Uniform Verif.Rings Verif.RingsSpec Verif.RingsProofs Verif.RingsProofs2 Verif.MainRings Verif.MainRings2 Verif.Sphere.
Require Import Verif.SphereProofs Verif.Maps Verif.Dodeca Verif.DodecaSpec Verif.MainMaps Verif.Config Verif.ConfigSpec Verif.ConfigProofs Verif.MainConfig.
Require Import Verif.Wcs Verif.WcsSpec Verif.MainWcs Verif.MainRotated Verif.MainRegions Verif.Lookup Verif.MainLookup Verif.MainDataId.
Open Scope list_scope.
Open Scope Z_scope.
Local Arguments Z.mul : simpl never.

(** Processes that were there before do not hinder. *)
Lemma sys_frame {Sky} (offset : Sky -> R -> R -> Sky) pre x y : sys_steps offset x y ->
  sys_steps offset (fst x, pre ++ snd x) (fst y, pre ++ snd y).
Proof.
  intros H. induction H as [x|x y z _ IH St]; [constructor|]. eapply ss_step; [exact IH|].
  destruct St as [D cs q Hc Hr|D cs1 c cs2 D' c' Sc]; cbn [fst snd].
  - rewrite app_assoc. now constructor.
  - rewrite !app_assoc. now constructor.
Qed.
Lemma sys_trans {Sky} (offset : Sky -> R -> R -> Sky) x y z : sys_steps offset x y -> sys_steps offset y z -> sys_steps offset x z.
Proof. intros H K. induction K as [y|y z w _ IH St]; [exact H|]. eapply ss_step; [exact (IH H)|exact St]. Qed.

Lemma names_settings offset skyWcs p2a bnd order sha1 c c' ver ver' m0 m0' m m' h h' (name name' : string) :
  construct offset skyWcs p2a bnd order c ver = Ok m0 -> used offset sha1 m0 m ->
  construct offset skyWcs p2a bnd order c' ver' = Ok m0' -> used offset sha1 m0' m' ->
  (forall b b', hashed_bytes c = Ok b -> hashed_bytes c' = Ok b' -> sha1 b = sha1 b' -> b = b') ->
  snd (getSha1 sha1 m) = Ok h -> snd (getSha1 sha1 m') = Ok h' -> (name = name' <-> h = h') ->
  (name = name' <-> same_settings c c') /\ (name = name' <-> snd (py_eq sha1 m (OMap m')) = Ok true).
Proof.
  intros C U C' U' NC G G' E.
  pose proof (getSha1_used _ _ _ _ _ _ _ _ _ _ C U) as K. pose proof (getSha1_used _ _ _ _ _ _ _ _ _ _ C' U') as K'.
  assert (P : h = h' <-> snd (py_eq sha1 m (OMap m')) = Ok true).
  { unfold py_eq. destruct (getSha1 sha1 m) as [m1 r], (getSha1 sha1 m') as [m1' r']. cbn [snd] in *. rewrite G, G'. cbn.
    split; [intros ->; f_equal; now apply bytes_eqb_eq|]. intros H. apply Ok_inj in H. now apply bytes_eqb_eq in H. }
  split; [|now rewrite E]. rewrite E.
  rewrite G in K. rewrite G' in K'. destruct (hashed_bytes c) as [b|] eqn:B; [|discriminate K]. destruct (hashed_bytes c') as [b'|] eqn:B'; [|discriminate K'].
  cbn in K, K'. apply Ok_inj in K. apply Ok_inj in K'. subst h h'.
  pose proof (construct_ok _ _ _ _ _ _ _ _ C) as (L & Ec & _). pose proof (construct_ok _ _ _ _ _ _ _ _ C') as (L' & Ec' & _).
  pose proof (hashed_bytes_determine_proof offset skyWcs p2a bnd order c c' ver ver' m0 m0' b b' C C') as HD. rewrite Ec, Ec' in HD.
  rewrite <- (HD B B'). split; [now apply NC|now intros ->].
Qed.

(*@ C90: of any processes registering sky maps in one repository, in any interleaving, two that returned normally used
    the same name if and only if their sky maps agree in every hashed configuration value, that is, compare equal (SHA-1 not
    colliding on the two); then, but for Rings maps of different versions, their tracts are the same. *)
Lemma registered_names_proof :
  forall offset skyWcs p2a bnd order sha1 c c' ver ver' m0 m0' m m' r0 D cs cl cl' name name',
  construct offset skyWcs p2a bnd order c ver = Ok m0 -> used offset sha1 m0 m ->
  construct offset skyWcs p2a bnd order c' ver' = Ok m0' -> used offset sha1 m0' m' ->
  (forall b b', hashed_bytes c = Ok b -> hashed_bytes c' = Ok b' -> sha1 b = sha1 b' -> b = b') ->
  reg_history offset r0 -> sys_steps offset (r0, []) (D, cs) -> In cl cs -> In cl' cs ->
  c_req cl = mkRequest (m_def m) (snd (getSha1 sha1 m)) name (m_state m) -> c_out cl = Some (Done tt) ->
  c_req cl' = mkRequest (m_def m') (snd (getSha1 sha1 m')) name' (m_state m') -> c_out cl' = Some (Done tt) ->
  (name = name' <-> same_settings c c')
  /\ (name = name' <-> snd (py_eq sha1 m (OMap m')) = Ok true)
  /\ (name = name' -> match c_class c with RingsCfg _ _ => m_version m = m_version m' | _ => True end ->
      sm_len (m_def m) (m_state m) = sm_len (m_def m') (m_state m')
      /\ forall i t t', holds offset (m_def m) i (m_state m) t -> holds offset (m_def m') i (m_state m') t' -> same_tract t t').
Proof.
  intros offset skyWcs p2a bnd order sha1 c c' ver ver' m0 m0' m m' r0 D cs cl cl' name name' C U C' U' NC Hh St H1 H2 Q1 O1 Q2 O2.
  destruct (concurrent_returned_proof _ offset r0 D cs Hh St) as [A B].
  destruct (A cl H1 O1) as (h & k & S1 & _). destruct (A cl' H2 O2) as (h' & k' & S2 & _).
  specialize (B cl cl' h h' H1 H2 O1 O2 S1 S2). rewrite Q1 in S1, B. rewrite Q2 in S2, B. cbn [rq_sha rq_name] in S1, S2, B.
  destruct (names_settings offset skyWcs p2a bnd order sha1 c c' ver ver' m0 m0' m m' h h' name name' C U C' U' NC S1 S2 B) as [X Y].
  split; [exact X|]. split; [exact Y|]. intros E V.
  destruct (equal_maps_same_tracts_proof offset skyWcs p2a bnd order sha1 c c' ver ver' m0 m0' m m' C U C' U' NC V (proj1 Y E)) as (T1 & T2 & _). auto.
Qed.

(*@ C90, one after the other: the same if the second map is registered any time after the first, whatever processes
    did in between. *)
Lemma registered_names_later_proof :
  forall offset skyWcs p2a bnd order sha1 c c' ver ver' m0 m0' m m' r faults s u D cs faults' s' u' name name',
  construct offset skyWcs p2a bnd order c ver = Ok m0 -> used offset sha1 m0 m -> cfg_ok (selected (c_tb c)) ->
  construct offset skyWcs p2a bnd order c' ver' = Ok m0' -> used offset sha1 m0' m' -> cfg_ok (selected (c_tb c')) ->
  (forall b b', hashed_bytes c = Ok b -> hashed_bytes c' = Ok b' -> sha1 b = sha1 b' -> b = b') ->
  reg_history offset r ->
  register offset faults (m_def m) (snd (getSha1 sha1 m)) name (m_state m) (butler_on r) = (s, u, Done tt) ->
  sys_steps offset (u_durable u, []) (D, cs) ->
  register offset faults' (m_def m') (snd (getSha1 sha1 m')) name' (m_state m') (butler_on D) = (s', u', Done tt) ->
  (name = name' <-> same_settings c c')
  /\ (name = name' <-> snd (py_eq sha1 m (OMap m')) = Ok true)
  /\ (name = name' -> match c_class c with RingsCfg _ _ => m_version m = m_version m' | _ => True end ->
      sm_len (m_def m) (m_state m) = sm_len (m_def m') (m_state m')
      /\ forall i t t', holds offset (m_def m) i (m_state m) t -> holds offset (m_def m') i (m_state m') t' -> same_tract t t').
Proof.
  intros offset skyWcs p2a bnd order sha1 c c' ver ver' m0 m0' m m' r faults s u D cs faults' s' u' name name' C U Hc C' U' Hc' NC Hh R1 St R2.
  assert (X : forall c ver m0 m, construct offset skyWcs p2a bnd order c ver = Ok m0 -> used offset sha1 m0 m -> cfg_ok (selected (c_tb c)) ->
     cfg_ok (sd_cfg (m_def m)) /\ sm_reachable offset (m_def m) (m_state m)).
  { clear. intros c ver m0 m C U Hc. destruct (used_fields _ _ _ _ U) as (_ & _ & Ed & _). rewrite Ed.
    split; [now rewrite (construct_cfg _ _ _ _ _ _ _ _ C)|exact (used_reachable _ _ _ _ _ _ _ _ _ _ C U)]. }
  destruct (X _ _ _ _ C U Hc) as [Y1 Y2]. destruct (X _ _ _ _ C' U' Hc') as [Y1' Y2'].
  set (q := mkRequest (m_def m) (snd (getSha1 sha1 m)) name (m_state m)). set (q' := mkRequest (m_def m') (snd (getSha1 sha1 m')) name' (m_state m')).
  destruct (concurrent_alone_proof _ offset r r [] q faults s u (Done tt) Hh (ss_refl _ _) Y1 Y2 R1) as (cl & Q1 & O1 & S1). cbn [app] in S1.
  pose proof (sys_trans offset _ _ _ S1 (sys_frame offset [cl] _ _ St)) as S2. cbn [fst snd app] in S2.
  destruct (concurrent_alone_proof _ offset r D (cl :: cs) q' faults' s' u' (Done tt) Hh S2 Y1' Y2' R2) as (cl' & Q2 & O2 & S3).
  apply (registered_names_proof offset skyWcs p2a bnd order sha1 c c' ver ver' m0 m0' m m' r _ _ cl cl' name name' C U C' U' NC Hh S3); auto.
  - now left.
  - apply in_or_app. right. now left.
Qed.

(** Equal counts of the tracts of different maps. *)
Lemma explicit_counts named name s o cfg rad ov : knows named -> In name ["TAN"; "STG"; "CEA"]%string -> cfg_ok cfg ->
  exists n, forall d : skydef sphere, sd_cfg d = cfg ->
    (forall i a, 0 <= i < sd_num d -> sd_args d i = Ok a -> exists ctr cor, a = ExplicitArgs ctr rad ov (factory_wcs named (of_string name) s o ctr) cor) ->
    uniform_counts sphere_offset d n.
Proof.
  intros Hk Hin Hc. set (k0 := (0, 0)%R : sphere).
  set (a0 := ExplicitArgs k0 rad ov (factory_wcs named (of_string name) s o k0) None).
  destruct (include_all_ok (args_wcs a0) (args_samples sphere_offset a0)) as (m & Em).
  { intros p e _. apply factory_no_raise. }
  destruct (make_tract_ok sphere_offset cfg (builder_init cfg) 0%nat 0 a0 m Hc (br_init cfg) Em) as (b0 & t0 & M0).
  exists (t_numPatches t0). intros d <- Ha i a b oid b' t Hi Ea Hr M.
  eapply (make_tract_counts sphere_offset (sd_cfg d) _ _ _ _ _ _ a a0); [exact Hc|exact Hr|exact (br_init (sd_cfg d))|exact M|exact M0|].
  destruct (Ha i a Hi Ea) as (ctr & cor & ->). cbn [args_wcs args_samples a0]. unfold explicit_samples. rewrite !map_map.
  apply map_ext. intros j. apply factory_offset; assumption.
Qed.

(** Registering a map whose skymap record is there already. *)
Lemma register_known {Sky} (offset : Sky -> R -> R -> Sky) d nx ny name hash s r :
  cfg_ok (sd_cfg d) -> 0 < sd_num d -> generable offset d -> uniform_counts offset d (nx, ny) -> sm_reachable offset d s -> sound r ->
  In (mkSkyRec name hash (sd_num d) nx ny) (g_skymaps r) ->
  exists s' u', register offset no_faults d (Ok hash) name s (butler_on r) = (s', u', Done tt) /\ same_records r (u_durable u')
    /\ accesses offset d s s' /\ forall i, 0 <= i < sd_num d -> exists t, holds offset d i s' t.
Proof.
  intros Hc Hn Hg Hu Hr Snd Hin.
  destruct (register_reaches offset d (Ok hash) name s r hash Hr eq_refl Hn) as (s1 & nxm & nym & r1 & Ha & Hall & (_ & ix & tx & Hx & Ex) & (_ & iy & ty & Hy & Ey) & Hs & E).
  { intros s1 i Ha Hi. apply Hg; [exact (reachable_accesses _ _ _ _ Hr Ha)|exact Hi]. }
  pose proof (reachable_accesses _ _ _ _ Hr Ha) as Hr1.
  rewrite (uniform_holds offset d _ s1 _ _ Hu Hr1 Hx) in Ex. rewrite (uniform_holds offset d _ s1 _ _ Hu Hr1 Hy) in Ey. cbn in Ex, Ey. subst nxm nym.
  set (rec := mkSkyRec name hash (sd_num d) nx ny) in *.
  destruct (tail_known offset d name hash rec s1 r1 2) as (u & Et & Eu).
  { pose proof Hs as (S1 & _). rewrite (sync_known rec r1 rec).
    - assert (sky_rec_eqb rec rec = true) as -> by (now apply sky_rec_eqb_spec). reflexivity.
    - rewrite S1. apply Snd.
    - now rewrite S1.
    - reflexivity. }
  exists s1, u. rewrite E, Et. split; [reflexivity|]. rewrite Eu. auto.
Qed.

(*@ C90, REFUTED for Rings maps of versions 0 and 1: take any Rings configuration of two rings or more with the TAN, STG or CEA
    projection.  After the map of version 0 has been registered under a new name, registering the map of version 1 under that name returns
    normally and adds nothing, although the records are those of version 0: the record of some tract has the
    outer sky polygon of the tract of version 0, whose centre is not the centre of the tract of version 1 with that id. *)
Lemma registered_names_refuted_proof :
  forall named p2a bnd order sha1 c n ra proj name r,
  knows named -> c_class c = RingsCfg n ra -> 2 <= n -> packable c -> cfg_ok (selected (c_tb c)) ->
  In proj ["TAN"; "STG"; "CEA"]%string -> c_projection c = of_string proj ->
  reg_history sphere_offset r -> ~ In name (map k_name (g_skymaps r)) ->
  (forall b, hashed_bytes c = Ok b -> ~ In (sha1 b) (map k_hash (g_skymaps r))) ->
  exists m0 m1 s0 u0 s1 u1 i t0 t1,
    construct sphere_offset (factory_wcs named) p2a bnd order c (Some (VerInt 0)) = Ok m0
    /\ construct sphere_offset (factory_wcs named) p2a bnd order c None = Ok m1
    /\ register sphere_offset no_faults (m_def m0) (snd (getSha1 sha1 m0)) name (m_state m0) (butler_on r) = (s0, u0, Done tt)
    /\ register sphere_offset no_faults (m_def m1) (snd (getSha1 sha1 m1)) name (m_state m1) (butler_on (u_durable u0)) = (s1, u1, Done tt)
    /\ same_records (u_durable u0) (u_durable u1)
    /\ holds sphere_offset (m_def m0) i s0 t0 /\ holds sphere_offset (m_def m1) i s1 t1
    /\ In (mkTractRec name i (tract_getOuterSkyPolygon t0)) (g_tracts (u_durable u1))
    /\ t_ctr t0 <> t_ctr t1.
Proof.
  intros named p2a bnd order sha1 c n ra proj name r Hk K Hn P Hc Hin Hproj Hh Hnew Hnewh.
  assert (L : length (c_projection c) = 3%nat) by (rewrite Hproj; destruct Hin as [<-|[<-|[<-|[]]]]; reflexivity).
  destruct (rings_init n (f2r ra) 0) as [g|e] eqn:G; [|discriminate].
  assert (W : rings_wf g) by (exact (proj1 (rings_init_wf n (f2r ra) 0 g ltac:(lia) G))).
  assert (V : rg_version g = 0) by (injection G as <-; reflexivity).
  assert (N : rg_numRings g = n) by (injection G as <-; reflexivity).
  assert (G1 : rings_init n (f2r ra) 1 = Ok (with_version g 1)) by (injection G as <-; reflexivity).
  set (g1 := with_version g 1) in *.
  assert (W1 : rings_wf g1) by (destruct W; constructor; auto).
  set (w := factory_wcs named (c_projection c) (f2r (c_scale c)) (f2r (c_rotation c))) in *.
  assert (Fw : wcsFactory (factory_wcs named) c = Ok w) by (unfold wcsFactory; rewrite L; reflexivity).
  set (d := rings_def (selected (c_tb c)) w (f2r (c_overlap c)) g).
  set (d1 := rings_def (selected (c_tb c)) w (f2r (c_overlap c)) g1).
  assert (E0 : exists s, sm_new sphere_offset d = Ok s) by (eexists; reflexivity).
  assert (E1 : exists s, sm_new sphere_offset d1 = Ok s) by (eexists; reflexivity).
  destruct E0 as [z0 E0], E1 as [z1 E1].
  set (m0 := mkMap c (VerInt 0) d z0 None). set (m1 := mkMap c (VerInt 1) d1 z1 None).
  assert (C0 : construct sphere_offset (factory_wcs named) p2a bnd order c (Some (VerInt 0)) = Ok m0).
  { unfold construct. rewrite K, G. cbn [bind]. rewrite Fw. cbn [bind]. fold d. unfold finish. rewrite E0. reflexivity. }
  assert (C1 : construct sphere_offset (factory_wcs named) p2a bnd order c None = Ok m1).
  { unfold construct. rewrite K, G1. cbn [bind]. rewrite Fw. cbn [bind]. fold d1. unfold finish. rewrite E1. reflexivity. }
  assert (Hcl : match c_class c with
    | RingsCfg n _ => 1 <= n
    | DiscreteCfg ras decs radii => 1 <= Z.of_nat (length radii) /\ length ras = length radii /\ length decs = length radii
      /\ forall d, In d decs -> (-90 <= f2r d <= 90)%R
    | EquatCfg n _ => 1 <= n
    | DodecaCfg _ => True
    | HealpixCfg k nest => forall j, 0 <= j < 12 * 4 ^ k -> Forall (fun a => 0 <= fst a <= PI)%R (p2a (2 ^ k) nest j :: bnd (2 ^ k) nest j)
    end) by (rewrite K; lia).
  destruct (constructed_generable_proof named p2a bnd order sha1 c _ m0 C0 Hc Hcl) as (P0 & Gen0 & _).
  destruct (constructed_generable_proof named p2a bnd order sha1 c _ m1 C1 Hc Hcl) as (P1 & Gen1 & _). cbn [m_def m0 m1] in P0, Gen0, P1, Gen1.
  destruct (explicit_counts named proj (f2r (c_scale c)) (f2r (c_rotation c)) (selected (c_tb c)) (1 / 2 * rg_size g)%R (deg (f2r (c_overlap c))) Hk Hin Hc) as ([nx ny] & Hu).
  assert (U : forall g', rg_size g' = rg_size g -> uniform_counts sphere_offset (rings_def (selected (c_tb c)) w (f2r (c_overlap c)) g') (nx, ny)).
  { intros g' Eg. apply Hu; [reflexivity|]. intros i a Hi Ea. destruct (rings_args_inv _ _ _ _ _ Ea) as (ctr & cor & _ & ->). exists ctr, cor.
    rewrite Eg. unfold w. now rewrite Hproj. }
  pose proof (U g eq_refl) as U0. pose proof (U g1 eq_refl) as U1. fold d in U0. fold d1 in U1.
  assert (R0 : sm_reachable sphere_offset d z0) by (exists z0; split; [exact E0|constructor]).
  assert (R1 : sm_reachable sphere_offset d1 z1) by (exists z1; split; [exact E1|constructor]).
  apply hashed_iff in P. destruct P as [b P].
  assert (S0 : snd (getSha1 sha1 m0) = Ok (sha1 b)) by (unfold getSha1; cbn [m_sha1 m0 m_config]; now rewrite P).
  assert (S1 : snd (getSha1 sha1 m1) = Ok (sha1 b)) by (unfold getSha1; cbn [m_sha1 m1 m_config]; now rewrite P).
  destruct (register_succeeds_proof _ sphere_offset d (nx, ny) name (sha1 b) z0 r Hc P0 Gen0 U0 R0 Hh Hnew (Hnewh b P)) as (s0 & u0 & Reg0 & CR).
  pose proof (rh_register sphere_offset r no_faults d (Ok (sha1 b)) name z0 s0 u0 (Done tt) Hh Hc R0 Reg0) as Hh0.
  destruct (register_spec sphere_offset no_faults d (Ok (sha1 b)) name z0 r s0 u0 _ R0 Reg0) as (Ha0 & _).
  pose proof (reachable_accesses _ _ _ _ R0 Ha0) as R0'.
  pose proof CR as (nxm & nym & trs & blocks & lt & (_ & ix & tx & Hx & Ex) & (_ & iy & ty & Hy & Ey) & _ & Esk & Etr & _ & _ & FT & _).
  rewrite (uniform_holds sphere_offset d _ s0 _ _ U0 R0' Hx) in Ex. rewrite (uniform_holds sphere_offset d _ s0 _ _ U0 R0' Hy) in Ey. cbn in Ex, Ey. subst nxm nym.
  destruct (register_known sphere_offset d1 nx ny name (sha1 b) z1 (u_durable u0) Hc P1 Gen1 U1 R1 (history_sound sphere_offset _ Hh0)) as (s1 & u1 & Reg1 & Same & Ha1 & Hall1).
  { rewrite Esk. apply in_or_app. right. now left. }
  pose proof (reachable_accesses _ _ _ _ R1 Ha1) as R1'.
  set (i := 1 + before g 1).
  destruct (ring_has_ex g W 0 ltac:(lia)) as (n0 & H0).
  destruct (ring_has_ex g W 1 ltac:(lia)) as (n1 & H1).
  pose proof (ring_has_lt g W _ _ H0). pose proof (ring_has_lt g W _ _ H1).
  assert (B1 : before g 1 = n0) by (change 1 with (0 + 1); rewrite (before_S g 0 n0 H0), before_0; lia).
  assert (Hi : 0 <= i < rings_numTracts g).
  { pose proof (before_lt g W 1 n1 1 H1 ltac:(lia)). unfold i. lia. }
  destruct (Forall2_In_l _ _ _ i FT) as (tr & Htr & t0 & Hh0' & ->); [apply in_zrange; exact Hi|].
  destruct (Hall1 i Hi) as (t1 & Hh1).
  exists m0, m1, s0, u0, s1, u1, i, t0, t1. rewrite S0, S1. cbn [m_def m_state m0 m1].
  split; [exact C0|]. split; [exact C1|]. split; [exact Reg0|]. split; [exact Reg1|]. split; [exact Same|]. split; [exact Hh0'|]. split; [exact Hh1|]. split.
  { destruct Same as (_ & -> & _). rewrite Etr. apply in_or_app. now right. }
  intros C.
  assert (T : forall d' g' s t, d' = rings_def (selected (c_tb c)) w (f2r (c_overlap c)) g' ->
      sm_reachable sphere_offset d' s -> holds sphere_offset d' i s t -> rings_center g' i = Ok (t_ctr t)).
  { clearbody i. clear. intros d' g' s t -> R Hh. destruct (holds_args _ _ _ _ _ R Hh) as (_ & a & b & b' & oid & Ea & _ & M).
    cbn [sd_args rings_def] in Ea. destruct (rings_args_inv _ _ _ _ _ Ea) as (ctr & cor & Ec & ->). rewrite Ec. f_equal.
    cbn in M. unfold ExplicitTractInfo_init in M. destruct (tract_build _ _ _ _ _ _ _ _ _) as [[b1 t1]|] eqn:TB; [|discriminate].
    cbn in M. injection M as _ <-. cbn. unfold tract_build in TB.
    destruct (include_all _ _); [|discriminate]. cbn in TB. destruct (setupPatches _ _) as [[? [? ?]]|]; [|discriminate].
    cbn in TB. injection TB as _ <-. reflexivity. }
  pose proof (T _ _ _ _ eq_refl R0' Hh0') as D0. pose proof (T _ _ _ _ eq_refl R1' Hh1) as D1.
  destruct (rings_v0_numbering_proof g W V) as (_ & _ & F).
  specialize (F 1 ltac:(lia)). fold i g1 in F. rewrite D0 in F. symmetry in F.
  destruct (rings_centres_distinct_proof g1 W1 eq_refl) as [_ Inj].
  assert (1 + before g (1 - 1) = i).
  { apply (Inj _ _ (t_ctr t0)); [|exact Hi|exact F|now rewrite C].
    change (1 - 1) with 0. rewrite before_0. change (rings_numTracts g1) with (rings_numTracts g).
    pose proof (len_pos g W). lia. }
  unfold i in *. change (1 - 1) with 0 in *. rewrite before_0 in *. lia.
Qed.

(*@ C90, non-vacuity: the default Rings settings with 120 rings meet the hypotheses of the refutation, in an empty repository; and an
    object of that map, registered twice under a name, returns normally both times. *)
Example registered_names_example_proof : forall p2a bnd order sha1 name, any_order order ->
  let c := rings_default 120 in let r := mkReg [] [] [] [] [] [] : registry sphere in
  knows fits_projections /\ c_class c = RingsCfg 120 f64_zero /\ packable c /\ cfg_ok (selected (c_tb c))
  /\ c_projection c = of_string "STG" /\ reg_history sphere_offset r
  /\ exists m s u s' u', construct sphere_offset (factory_wcs fits_projections) p2a bnd order c None = Ok m
     /\ register sphere_offset no_faults (m_def m) (snd (getSha1 sha1 m)) name (m_state m) (butler_on r) = (s, u, Done tt)
     /\ register sphere_offset no_faults (m_def m) (snd (getSha1 sha1 m)) name (m_state m) (butler_on (u_durable u)) = (s', u', Done tt).
Proof.
  intros p2a bnd order sha1 name Ho c r.
  assert (Hk : knows fits_projections) by (unfold knows, fits_projections; repeat split). split; [exact Hk|]. split; [reflexivity|].
  assert (P : packable c).
  { unfold packable. cbn. unfold int32. split; [|lia]. intros ch [<-|[<-|[<-|[]]]]; lia. }
  split; [exact P|]. assert (Hc : cfg_ok (selected (c_tb c))) by (cbn; lia). split; [exact Hc|]. split; [reflexivity|].
  assert (Hh : reg_history sphere_offset r) by constructor. split; [exact Hh|].
  destruct (found_data_id_defaults_proof p2a bnd order sha1 Ho) as (_ & (m & n & C & _ & _ & _ & _ & Hu & Reg) & _). fold c in C.
  apply hashed_iff in P. destruct P as [b P]. pose proof (construct_ok _ _ _ _ _ _ _ _ C) as (_ & Ec & Es & _).
  assert (S : snd (getSha1 sha1 m) = Ok (sha1 b)) by (rewrite (getSha1_used _ _ _ _ _ _ _ _ _ _ C (used_not sphere_offset sha1 m)), P; reflexivity).
  destruct (Reg name (sha1 b) m r (used_not sphere_offset sha1 m) Hh (fun H => H) (fun H => H)) as (s & u & R1).
  pose proof (reach fits_projections p2a bnd order sha1 c None m m C (used_not sphere_offset sha1 m)) as Hr.
  assert (Hcd : cfg_ok (sd_cfg (m_def m))) by (now rewrite (construct_cfg _ _ _ _ _ _ _ _ C)).
  destruct (constructed_generable_proof fits_projections p2a bnd order sha1 c None m C Hc ltac:(cbn; lia)) as (Hp & Hg & _).
  pose proof (rh_register sphere_offset r no_faults (m_def m) (Ok (sha1 b)) name (m_state m) s u (Done tt) Hh Hcd Hr R1) as Hh1.
  destruct (register_all_or_nothing_proof _ sphere_offset no_faults (m_def m) (Ok (sha1 b)) name (m_state m) r s u (Done tt) Hcd Hr R1) as (A & _ & B).
  destruct (B eq_refl) as (h & _ & k & Hin & Ek & _).
  destruct A as [(Q & _)|(h' & Eh & _ & _ & CR)]; [rewrite Q in Hin; contradiction Hin|]. injection Eh as <-.
  destruct n as [nx ny].
  pose proof (reachable_accesses _ _ _ _ Hr (proj1 (register_spec sphere_offset no_faults (m_def m) (Ok (sha1 b)) name (m_state m) r s u _ Hr R1))) as Hr'.
  pose proof CR as (nxm & nym & trs & blocks & lt & (_ & ix & tx & Hx & Ex) & (_ & iy & ty & Hy & Ey) & _ & Esk & _).
  rewrite (uniform_holds sphere_offset (m_def m) _ s _ _ Hu Hr' Hx) in Ex. rewrite (uniform_holds sphere_offset (m_def m) _ s _ _ Hu Hr' Hy) in Ey. cbn in Ex, Ey. subst nxm nym.
  destruct (register_known sphere_offset (m_def m) nx ny name (sha1 b) (m_state m) (u_durable u) Hcd Hp Hg Hu Hr (history_sound sphere_offset _ Hh1)) as (s' & u' & R2 & _).
  { rewrite Esk. apply in_or_app. right. now left. }
  exists m, s, u, s', u'. rewrite S. auto.
Qed.
