(** Configurations, hash, equality and pickling of sky maps (C23, C43-C45, C58, C61, C62). *)
From Coq Require Import Reals Lra Lia String.
From Flocq Require Import IEEE754.Binary IEEE754.Bits.
Require Import Verif.Py Verif.Geom Verif.PatchInfo Verif.TractBuilder Verif.TractInfo Verif.Spec.
Require Import Verif.SkyMap Verif.SkySpec Verif.SkyProofs Verif.SkyProofs2 Verif.RegProofs3.
Require Import Verif.Rings Verif.RingsSpec Verif.RingsProofs Verif.RingsProofs2 Verif.MainRings Verif.MainRings2.
Require Import Verif.Sphere Verif.Uniform Verif.Maps Verif.Dodeca.
Require Import Verif.Config Verif.ConfigSpec Verif.ConfigProofs.
Open Scope list_scope.
Open Scope Z_scope.
Local Arguments Z.mul : simpl never.

(*@ C43: two sky maps of any of the five classes, with either tract builder, feed the same bytes to
    SHA-1 exactly if they have the same class and the same class-specific values, the same kind of
    tract builder with the same values, and the same overlap, pixel scale, projection and rotation. *)
Lemma hashed_bytes_determine_proof : forall offset skyWcs p2a bnd order c c' ver ver' m m' b b',
  construct offset skyWcs p2a bnd order c ver = Ok m ->
  construct offset skyWcs p2a bnd order c' ver' = Ok m' ->
  hashed_bytes (m_config m) = Ok b -> hashed_bytes (m_config m') = Ok b' ->
  (b = b' <-> same_settings (m_config m) (m_config m')).
Proof.
  intros offset skyWcs p2a bnd order c c' ver ver' m m' b b' H H' E E'.
  apply construct_ok in H, H'. destruct H as (L & Hc & _), H' as (L' & Hc' & _). rewrite Hc, Hc' in *.
  split; [intros ->; eapply hashed_inj; eassumption|]. intros S. apply hashed_settings in S. congruence.
Qed.

(*@ C61: the hash of a sky map can be computed exactly if its projection is ASCII, the integers of its
    configuration that are hashed fit 32 bits and the three lists of a DiscreteSkyMap have equal
    lengths; otherwise getSha1, hash() and every comparison raise. *)
Lemma hash_computable_proof : forall offset skyWcs p2a bnd order sha1 pyhash c ver m m',
  construct offset skyWcs p2a bnd order c ver = Ok m -> used offset sha1 m m' ->
  (packable c -> exists b, hashed_bytes c = Ok b /\ snd (getSha1 sha1 m') = Ok (sha1 b))
  /\ (~ packable c -> exists e, (e = StructError \/ e = UnicodeEncodeError) /\ snd (getSha1 sha1 m') = Raise e
        /\ snd (map_hash sha1 pyhash m') = Raise e /\ forall o, snd (py_eq sha1 m' o) = Raise e).
Proof.
  intros offset skyWcs p2a bnd order sha1 pyhash c ver m m' H U.
  pose proof (getSha1_used _ _ _ _ _ _ _ _ _ _ H U) as E. split.
  - intros P. apply hashed_iff in P. destruct P as [b P]. rewrite P in E. eauto.
  - intros P. destruct (hashed_bytes c) as [b|e] eqn:Hb; [exfalso; apply P, hashed_iff; eauto|].
    exists e. split; [|split; [exact E|]].
    + clear - Hb. unfold hashed_bytes, getPackedConfig in Hb.
      assert (PA : forall fmt vs e, pack_all fmt vs = Raise e -> e = StructError).
      { induction fmt as [|f fmt IH]; intros [|v vs] e0; cbn [pack_all]; try congruence.
        destruct (pack1 f v) as [b|e1] eqn:E1; cbn [bind].
        - destruct (pack_all fmt vs) eqn:E2; cbn [bind]; [discriminate|]. intros E; injection E as <-. eauto.
        - intros E; injection E as <-. destruct f, v; cbn in E1; try congruence. destruct (_ && _); congruence. }
      assert (SP : forall fmt vs e, struct_pack fmt vs = Raise e -> e = StructError).
      { intros fmt vs e0. unfold struct_pack. destruct (Nat.eqb _ _); [apply PA|congruence]. }
      destruct (encode_ascii _) as [p|e0] eqn:P; cbn [bind] in Hb.
      * left. destruct (selected (c_tb c)) as [i bo|i bo n k];
          (match type of Hb with context [bind (struct_pack ?f ?v) _] => destruct (struct_pack f v) as [pk|e1] eqn:PK end);
          cbn [bind] in Hb; try (injection Hb as <-; exact (SP _ _ _ PK)).
        all: destruct (class_bytes (c_class c)) as [k0|e2] eqn:K; cbn [bind] in Hb; [discriminate|]; injection Hb as <-;
          destruct (c_class c) as [n' ra|ras decs radii|n' [d0 d1]|w'|n' nest]; cbn [class_bytes] in K;
          try exact (SP _ _ _ K);
          (destruct (struct_pack _ (map VFloat ras)) eqn:E1; cbn [bind] in K; [|injection K as <-; exact (SP _ _ _ E1)]);
          (destruct (struct_pack _ (map VFloat decs)) eqn:E2; cbn [bind] in K; [|injection K as <-; exact (SP _ _ _ E2)]);
          (destruct (struct_pack _ (map VFloat radii)) eqn:E3; cbn [bind] in K; [discriminate|injection K as <-; exact (SP _ _ _ E3)]).
      * right. injection Hb as <-. unfold encode_ascii in P. destruct (forallb _ _); congruence.
    + unfold map_hash, py_eq. destruct (getSha1 sha1 m') as [m1 r]. cbn [snd] in *. rewrite E. auto.
Qed.

(*@ C44: getSha1 returns the same value at any two points of the life of a sky map, and its value
    depends on the hashed bytes of the configuration only. *)
Lemma sha_history_independent_proof : forall offset skyWcs p2a bnd order sha1 c ver m m1 m2,
  construct offset skyWcs p2a bnd order c ver = Ok m ->
  used offset sha1 m m1 -> used offset sha1 m m2 ->
  snd (getSha1 sha1 m1) = snd (getSha1 sha1 m2)
  /\ (forall b, hashed_bytes c = Ok b -> snd (getSha1 sha1 m1) = Ok (sha1 b)).
Proof.
  intros offset skyWcs p2a bnd order sha1 c ver m m1 m2 H U1 U2.
  rewrite (getSha1_used _ _ _ _ _ _ _ _ _ _ H U1), (getSha1_used _ _ _ _ _ _ _ _ _ _ H U2).
  split; [reflexivity|]. intros b ->. reflexivity.
Qed.

(*@ C44: between sky maps whose hash can be computed, == always answers and is an equivalence
    relation whatever was done with the maps, != is its negation, equal maps have equal hash(), and a
    sky map is not equal to an object that is not a sky map. *)
Lemma equality_coherent_proof : forall offset skyWcs p2a bnd order sha1 pyhash,
  let is_map m := exists c ver m0, construct offset skyWcs p2a bnd order c ver = Ok m0 /\ packable c
                    /\ used offset sha1 m0 m in
  let eq m m' := snd (py_eq sha1 m (OMap m')) = Ok true in
  (forall m m', is_map m -> is_map m' -> exists b, snd (py_eq sha1 m (OMap m')) = Ok b
      /\ snd (py_ne sha1 m (OMap m')) = Ok (negb b))
  /\ (forall m, is_map m -> eq m m)
  /\ (forall m m', is_map m -> is_map m' -> eq m m' -> eq m' m)
  /\ (forall m m' m'', is_map m -> is_map m' -> is_map m'' -> eq m m' -> eq m' m'' -> eq m m'')
  /\ (forall m m', is_map m -> is_map m' -> eq m m' ->
        exists h, snd (map_hash sha1 pyhash m) = Ok h /\ snd (map_hash sha1 pyhash m') = Ok h)
  /\ (forall m, is_map m -> snd (py_eq sha1 m OOther) = Ok false /\ snd (py_ne sha1 m OOther) = Ok true)
  /\ (forall m m' m1 m1', is_map m -> is_map m' -> used offset sha1 m m1 -> used offset sha1 m' m1' ->
        snd (py_eq sha1 m1 (OMap m1')) = snd (py_eq sha1 m (OMap m'))).
Proof.
  intros offset skyWcs p2a bnd order sha1 pyhash is_map eq.
  assert (S : forall m, is_map m -> exists m1 h, getSha1 sha1 m = (m1, Ok h)).
  { intros m (c & ver & m0 & H & P & U). pose proof (getSha1_used _ _ _ _ _ _ _ _ _ _ H U) as E.
    apply hashed_iff in P. destruct P as [b P]. rewrite P in E. destruct (getSha1 sha1 m) as [m1 r]. cbn in E. subst r. eauto. }
  assert (Q : forall m m' m1 h m1' h', getSha1 sha1 m = (m1, Ok h) -> getSha1 sha1 m' = (m1', Ok h') ->
     py_eq sha1 m (OMap m') = (m1, OMap m1', Ok (bytes_eqb h h'))).
  { intros m m' m1 h m1' h' E E'. unfold py_eq. now rewrite E, E'. }
  repeat split.
  - intros m m' M M'. destruct (S m M) as (m1 & h & E), (S m' M') as (m1' & h' & E').
    exists (bytes_eqb h h'). unfold py_ne. rewrite (Q _ _ _ _ _ _ E E'). auto.
  - intros m M. destruct (S m M) as (m1 & h & E). unfold eq. rewrite (Q _ _ _ _ _ _ E E). cbn. f_equal. now apply bytes_eqb_eq.
  - intros m m' M M'. destruct (S m M) as (m1 & h & E), (S m' M') as (m1' & h' & E'). unfold eq.
    rewrite (Q _ _ _ _ _ _ E E'), (Q _ _ _ _ _ _ E' E). cbn. intros A. apply Ok_inj in A. apply bytes_eqb_eq in A. subst h'.
    f_equal. now apply bytes_eqb_eq.
  - intros m m' m'' M M' M''. destruct (S m M) as (m1 & h & E), (S m' M') as (m1' & h' & E'), (S m'' M'') as (m1'' & h'' & E''). unfold eq.
    rewrite (Q _ _ _ _ _ _ E E'), (Q _ _ _ _ _ _ E' E''), (Q _ _ _ _ _ _ E E''). cbn. intros A B.
    apply Ok_inj in A, B. apply bytes_eqb_eq in A, B. subst. f_equal. now apply bytes_eqb_eq.
  - intros m m' M M'. destruct (S m M) as (m1 & h & E), (S m' M') as (m1' & h' & E'). unfold eq.
    rewrite (Q _ _ _ _ _ _ E E'). cbn. intros A. apply Ok_inj in A. apply bytes_eqb_eq in A. subst h'.
    exists (pyhash h). unfold map_hash. rewrite E, E'. auto.
  - destruct (S m H) as (m1 & h & E). unfold py_eq. rewrite E. reflexivity.
  - destruct (S m H) as (m1 & h & E). unfold py_ne, py_eq. rewrite E. reflexivity.
  - intros m m' m1 m1' (c & ver & m0 & H & P & U) (c' & ver' & m0' & H' & P' & U') V V'.
    assert (T : forall a b d, used offset sha1 a b -> used offset sha1 b d -> used offset sha1 a d).
    { intros a b d X Y. induction Y; [exact X|econstructor; eassumption|econstructor; eassumption]. }
    pose proof (getSha1_used _ _ _ _ _ _ _ _ _ _ H U) as E1.
    pose proof (getSha1_used _ _ _ _ _ _ _ _ _ _ H (T _ _ _ U V)) as E2.
    pose proof (getSha1_used _ _ _ _ _ _ _ _ _ _ H' U') as E3.
    pose proof (getSha1_used _ _ _ _ _ _ _ _ _ _ H' (T _ _ _ U' V')) as E4.
    apply hashed_iff in P, P'. destruct P as [b P], P' as [b' P']. rewrite P in E1, E2. rewrite P' in E3, E4.
    destruct (getSha1 sha1 m) as [x1 r1] eqn:G1, (getSha1 sha1 m1) as [x2 r2] eqn:G2,
      (getSha1 sha1 m') as [x3 r3] eqn:G3, (getSha1 sha1 m1') as [x4 r4] eqn:G4.
    cbn [snd] in E1, E2, E3, E4. subst r1 r2 r3 r4.
    rewrite (Q _ _ _ _ _ _ G1 G3), (Q _ _ _ _ _ _ G2 G4). reflexivity.
Qed.

(*@ C45: two maps that compare equal, if SHA-1 does not collide on their configurations, have the
    same length and the same tract at every index (up to object identity) at any points of their
    lives, unless they are RingsSkyMaps of different versions. *)
Lemma equal_maps_same_tracts_proof : forall offset skyWcs p2a bnd order sha1 c c' ver ver' m0 m0' m m',
  construct offset skyWcs p2a bnd order c ver = Ok m0 -> used offset sha1 m0 m ->
  construct offset skyWcs p2a bnd order c' ver' = Ok m0' -> used offset sha1 m0' m' ->
  (forall b b', hashed_bytes c = Ok b -> hashed_bytes c' = Ok b' -> sha1 b = sha1 b' -> b = b') ->
  (match c_class c with RingsCfg _ _ => m_version m = m_version m' | _ => True end) ->
  snd (py_eq sha1 m (OMap m')) = Ok true ->
  sm_len (m_def m) (m_state m) = sm_len (m_def m') (m_state m')
  /\ (forall i t t', holds offset (m_def m) i (m_state m) t -> holds offset (m_def m') i (m_state m') t' -> same_tract t t')
  /\ (forall i t, holds offset (m_def m) i (m_state m) t ->
        exists s' t', sm_getitem offset (m_def m') i (m_state m') = (s', Ok t') /\ same_tract t t').
Proof.
  intros offset skyWcs p2a bnd order sha1 c c' ver ver' m0 m0' m m' H U H' U' NC V E.
  pose proof (getSha1_used _ _ _ _ _ _ _ _ _ _ H U) as G. pose proof (getSha1_used _ _ _ _ _ _ _ _ _ _ H' U') as G'.
  unfold py_eq in E. destruct (getSha1 sha1 m) as [m1 r], (getSha1 sha1 m') as [m1' r']. cbn [snd] in G, G'. subst r r'.
  destruct (hashed_bytes c) as [b|e] eqn:B; [|discriminate E].
  destruct (hashed_bytes c') as [b'|e] eqn:B'; [|discriminate E]. cbn in E. apply Ok_inj in E. apply bytes_eqb_eq in E.
  specialize (NC b b' eq_refl eq_refl E). subst b'.
  pose proof (construct_ok _ _ _ _ _ _ _ _ H) as (L & _ & _ & N). pose proof (construct_ok _ _ _ _ _ _ _ _ H') as (L' & _ & _ & N').
  pose proof (hashed_inj _ _ _ L L' B B') as SS.
  pose proof (used_reachable _ _ _ _ _ _ _ _ _ _ H U) as R. pose proof (used_reachable _ _ _ _ _ _ _ _ _ _ H' U') as R'.
  pose proof (used_fields _ _ _ _ U) as (_ & Fv & Fd & _ & _). pose proof (used_fields _ _ _ _ U') as (_ & Fv' & Fd' & _ & _).
  rewrite Fv, Fv' in V. destruct (construct_settings _ _ _ _ _ _ _ _ _ _ _ SS V H H') as [D _].
  rewrite Fd, Fd', D. rewrite D in R.
  split; [|split].
  - unfold sm_len. destruct (sd_kind (m_def m0')) eqn:K; [reflexivity|]. f_equal.
    rewrite (si_len _ _ _ _ (reachable_inv _ _ _ R)), (si_len _ _ _ _ (reachable_inv _ _ _ R')). reflexivity.
  - intros i t t' Ht Ht'. exact (same_tract_held _ _ _ _ _ _ _ R Ht R' Ht').
  - intros i t Ht. destruct (regenerate _ _ _ _ _ _ R Ht R') as (s2 & t2 & A & B2 & _). eauto.
Qed.

(*@ C45: REFUTED for RingsSkyMap: whatever configuration with at least two rings is used (TAN or STG
    projection), the version 0 and the version 1 map made from it compare equal, but have tracts with
    different centres at a common index. *)
Lemma equal_maps_refuted_proof : forall skyWcs p2a bnd order sha1 c n ra scale,
  c_class c = RingsCfg n ra -> 2 <= n -> packable c -> length (c_projection c) = 3%nat ->
  cfg_ok (selected (c_tb c)) ->
  standard_wcs scale (skyWcs (c_projection c) (f2r (c_scale c)) (f2r (c_rotation c))) ->
  exists m0 m1,
    construct sphere_offset skyWcs p2a bnd order c (Some (VerInt 0)) = Ok m0
    /\ construct sphere_offset skyWcs p2a bnd order c None = Ok m1
    /\ snd (py_eq sha1 m0 (OMap m1)) = Ok true
    /\ exists i s0 t0 s1 t1,
         sm_getitem sphere_offset (m_def m0) i (m_state m0) = (s0, Ok t0)
         /\ sm_getitem sphere_offset (m_def m1) i (m_state m1) = (s1, Ok t1)
         /\ t_ctr t0 <> t_ctr t1.
Proof.
  intros skyWcs p2a bnd order sha1 c n ra scale K Hn P L Hc Hw.
  destruct (rings_init n (f2r ra) 0) as [g|e] eqn:G; [|discriminate].
  assert (W : rings_wf g) by (exact (proj1 (rings_init_wf n (f2r ra) 0 g ltac:(lia) G))).
  assert (V : rg_version g = 0) by (injection G as <-; reflexivity).
  assert (N : rg_numRings g = n) by (injection G as <-; reflexivity).
  assert (G1 : rings_init n (f2r ra) 1 = Ok (with_version g 1)) by (injection G as <-; reflexivity).
  set (g1 := with_version g 1) in *.
  assert (W1 : rings_wf g1) by (destruct W; constructor; auto).
  set (w := skyWcs (c_projection c) (f2r (c_scale c)) (f2r (c_rotation c))) in *.
  assert (Fw : wcsFactory skyWcs c = Ok w) by (unfold wcsFactory; rewrite L; reflexivity).
  set (d := rings_def (selected (c_tb c)) w (f2r (c_overlap c)) g).
  set (d1 := rings_def (selected (c_tb c)) w (f2r (c_overlap c)) g1).
  assert (E0 : exists s, sm_new sphere_offset d = Ok s) by (eexists; reflexivity).
  assert (E1 : exists s, sm_new sphere_offset d1 = Ok s) by (eexists; reflexivity).
  destruct E0 as [s0 E0], E1 as [s1 E1].
  exists (mkMap c (VerInt 0) d s0 None), (mkMap c (VerInt 1) d1 s1 None).
  split; [|split; [|split]].
  - unfold construct. rewrite K, G. cbn [bind]. rewrite Fw. cbn [bind]. fold d. unfold finish. rewrite E0. reflexivity.
  - unfold construct. rewrite K, G1. cbn [bind]. rewrite Fw. cbn [bind]. fold d1. unfold finish. rewrite E1. reflexivity.
  - unfold py_eq, getSha1. cbn [m_sha1 m_config]. apply hashed_iff in P. destruct P as [b P]. rewrite P. cbn.
    f_equal. now apply bytes_eqb_eq.
  - cbn [m_def m_state]. set (i := 1 + before g 1).
    destruct (ring_has_ex g W 0 ltac:(lia)) as (n0 & H0).
    destruct (ring_has_ex g W 1 ltac:(lia)) as (n1 & H1).
    pose proof (ring_has_lt g W _ _ H0). pose proof (ring_has_lt g W _ _ H1).
    assert (B1 : before g 1 = n0) by (change 1 with (0 + 1); rewrite (before_S g 0 n0 H0), before_0; lia).
    assert (Hi : 0 <= i < rings_numTracts g).
    { pose proof (before_lt g W 1 n1 1 H1 ltac:(lia)). unfold i. lia. }
    assert (R0 : sm_reachable sphere_offset d s0) by (exists s0; split; [exact E0|constructor]).
    assert (R1 : sm_reachable sphere_offset d1 s1) by (exists s1; split; [exact E1|constructor]).
    destruct (getitem_total sphere_offset d s0 i Hc (rings_always_ok _ _ _ _ _ W Hw) R0 Hi) as (s0' & t0 & A0 & Hh0 & _ & R0').
    destruct (getitem_total sphere_offset d1 s1 i Hc (rings_always_ok _ _ _ _ _ W1 Hw) R1 Hi) as (s1' & t1 & A1 & Hh1 & _ & R1').
    exists i, s0', t0, s1', t1. split; [exact A0|]. split; [exact A1|]. intros C.
    assert (T : forall d' g' s t, d' = rings_def (selected (c_tb c)) w (f2r (c_overlap c)) g' ->
      sm_reachable sphere_offset d' s -> holds sphere_offset d' i s t -> rings_center g' i = Ok (t_ctr t)).
    { clearbody i. clear. intros d' g' s t -> R Hh. destruct (holds_args _ _ _ _ _ R Hh) as (_ & a & b & b' & oid & Ea & _ & M).
      cbn [sd_args rings_def] in Ea. destruct (rings_args_inv _ _ _ _ _ Ea) as (ctr & cor & Ec & ->). rewrite Ec. f_equal.
      cbn in M. unfold ExplicitTractInfo_init in M. destruct (tract_build _ _ _ _ _ _ _ _ _) as [[b1 t1]|] eqn:TB; [|discriminate].
      cbn in M. injection M as _ <-. cbn. unfold tract_build in TB.
      destruct (include_all _ _); [|discriminate]. cbn in TB. destruct (setupPatches _ _) as [[? [? ?]]|]; [|discriminate].
      cbn in TB. injection TB as _ <-. reflexivity. }
    pose proof (T _ _ _ _ eq_refl R0' Hh0) as C0. pose proof (T _ _ _ _ eq_refl R1' Hh1) as C1.
    destruct (rings_v0_numbering_proof g W V) as (_ & _ & F).
    specialize (F 1 ltac:(lia)). fold i g1 in F. rewrite C0 in F. symmetry in F.
    destruct (rings_centres_distinct_proof g1 W1 eq_refl) as [_ Inj].
    assert (1 + before g (1 - 1) = i).
    { apply (Inj _ _ (t_ctr t0)); [|exact Hi|exact F|now rewrite C].
      change (1 - 1) with 0. rewrite before_0. change (rings_numTracts g1) with (rings_numTracts g).
      pose proof (len_pos g W). lia. }
    unfold i in *. change (1 - 1) with 0 in *. rewrite before_0 in *. lia.
Qed.

(*@ C45: the hypotheses are met by the default configuration with three rings. *)
Example equal_maps_hypotheses_met_proof : forall scale,
  let c := rings_default 3 in
  let skyWcs := fun (_ : pystr) (_ _ : R) => stg_wcs scale in
  c_class c = RingsCfg 3 f64_zero /\ packable c /\ length (c_projection c) = 3%nat
  /\ cfg_ok (selected (c_tb c))
  /\ standard_wcs scale (skyWcs (c_projection c) (f2r (c_scale c)) (f2r (c_rotation c))).
Proof.
  intros scale c skyWcs. split; [reflexivity|]. split; [|split; [reflexivity|split]].
  - unfold packable. cbn. unfold int32. split; [|lia]. intros ch [<-|[<-|[<-|[]]]]; lia.
  - cbn. lia.
  - now right.
Qed.

(*@ C23: the pickle of a sky map, at any point of its life, unpickles to a new map of the same class,
    configuration and version, with the same number of tracts and the same SHA-1 (or the same error);
    every tract that exists in the original can be obtained from the new map at any point of that
    map's life, with the same id, centre, vertices, overlap, patch counts, bounding box and WCS. *)
Lemma pickle_round_trip_proof : forall offset skyWcs p2a bnd order sha1 c ver m0 m,
  construct offset skyWcs p2a bnd order c ver = Ok m0 -> used offset sha1 m0 m ->
  exists n, unpickle offset skyWcs p2a bnd order (pickle m) = Ok n
    /\ m_config n = m_config m /\ m_version n = m_version m
    /\ (forall n', used offset sha1 n n' ->
          snd (getSha1 sha1 n') = snd (getSha1 sha1 m)
          /\ sm_len (m_def n') (m_state n') = sm_len (m_def m) (m_state m)
          /\ (forall i t, holds offset (m_def m) i (m_state m) t ->
                exists s t', sm_getitem offset (m_def n') i (m_state n') = (s, Ok t') /\ same_tract t t')
          /\ (forall i t', holds offset (m_def n') i (m_state n') t' ->
                exists s t, sm_getitem offset (m_def m) i (m_state m) = (s, Ok t) /\ same_tract t t')).
Proof.
  intros offset skyWcs p2a bnd order sha1 c ver m0 m H U.
  exists m0. split; [exact (unpickle_construct _ _ _ _ _ _ _ _ _ _ H U)|].
  pose proof (used_fields _ _ _ _ U) as (A & B & C & _ & _). rewrite A, B. split; [reflexivity|]. split; [reflexivity|].
  intros n' U'. pose proof (used_fields _ _ _ _ U') as (A' & B' & C' & _ & _).
  pose proof (used_reachable _ _ _ _ _ _ _ _ _ _ H U) as R. pose proof (used_reachable _ _ _ _ _ _ _ _ _ _ H U') as R'.
  rewrite C, C'. split; [|split; [|split]].
  - now rewrite (getSha1_used _ _ _ _ _ _ _ _ _ _ H U), (getSha1_used _ _ _ _ _ _ _ _ _ _ H U').
  - unfold sm_len. destruct (sd_kind (m_def m0)); [reflexivity|].
    now rewrite (si_len _ _ _ _ (reachable_inv _ _ _ R)), (si_len _ _ _ _ (reachable_inv _ _ _ R')).
  - intros i t Ht. destruct (regenerate _ _ _ _ _ _ R Ht R') as (s2 & t2 & A2 & B2 & _). eauto.
  - intros i t Ht. destruct (regenerate _ _ _ _ _ _ R' Ht R) as (s2 & t2 & A2 & B2 & _). exists s2, t2.
    split; [exact A2|]. unfold same_tract in *. intuition congruence.
Qed.

(*@ C23: unpickling the state of an Equat or Dodeca map raises RuntimeError if its version pair is
    (2, 0) or later, and otherwise makes a new map from its configuration. *)
Lemma unpickle_versions_proof : forall offset skyWcs p2a bnd order a b c,
  (2 < a \/ a = 2 /\ 0 <= b ->
     unpickle offset skyWcs p2a bnd order (PState (VerTuple [a; b]) c) = Raise RuntimeError)
  /\ (a < 2 \/ a = 2 /\ b < 0 ->
     unpickle offset skyWcs p2a bnd order (PState (VerTuple [a; b]) c) = construct offset skyWcs p2a bnd order c None).
Proof.
  intros offset skyWcs p2a bnd order a b c. cbn [unpickle tuple_ge].
  destruct (Z.ltb_spec 2 a), (Z.ltb_spec 0 b), (Z.eqb_spec a 2), (Z.eqb_spec b 0);
    split; intros Hab; try reflexivity; exfalso; lia.
Qed.

(*@ C58: after any sequence of assignments to patchInnerDimensions and patchBorder, choices of the
    tract builder and assignments to the cells configuration, each property reads what was last set,
    the legacy configuration has exactly these values, and the cells configuration and the choice of
    the builder are what was last set for them; nothing else changes. *)
Lemma config_properties_proof : forall c l,
  let c' := do_ops c l in
  getPatchInnerDimensions c' = last_of inner_of l (getPatchInnerDimensions c)
  /\ getPatchBorder c' = last_of border_of l (getPatchBorder c)
  /\ tb_legacy (c_tb c') = mkLegacy (last_of inner_of l (getPatchInnerDimensions c)) (last_of border_of l (getPatchBorder c))
  /\ tb_cells (c_tb c') = last_of cells_of l (tb_cells (c_tb c))
  /\ tb_sel (c_tb c') = last_of name_of l (tb_sel (c_tb c))
  /\ c_overlap c' = c_overlap c /\ c_scale c' = c_scale c /\ c_projection c' = c_projection c
  /\ c_rotation c' = c_rotation c /\ c_class c' = c_class c.
Proof.
  intros c l. revert c. induction l as [|o l IH]; intros c; cbn zeta; unfold do_ops; cbn [fold_left last_of].
  - repeat split. unfold getPatchInnerDimensions, getPatchBorder. now destruct (tb_legacy (c_tb c)).
  - specialize (IH (do_op c o)). cbn zeta in IH. unfold do_ops in IH. destruct o; exact IH.
Qed.

(*@ C58: if the cells builder is selected, assignments to patchInnerDimensions and patchBorder change
    neither the tract builder that a sky map gets, nor the map's tracts, nor its hash. *)
Lemma config_properties_cells_proof : forall offset skyWcs p2a bnd order c l ver,
  (forall o, In o l -> exists v w, o = SetInner v \/ o = SetBorder w) ->
  tb_sel (c_tb c) = Cells ->
  let c' := do_ops c l in
  selected (c_tb c') = selected (c_tb c)
  /\ builder_init (selected (c_tb c')) = builder_init (selected (c_tb c))
  /\ hashed_bytes c' = hashed_bytes c
  /\ (forall m, construct offset skyWcs p2a bnd order c ver = Ok m ->
        construct offset skyWcs p2a bnd order c' ver = Ok (mkMap c' (m_version m) (m_def m) (m_state m) None)).
Proof.
  intros offset skyWcs p2a bnd order c l ver Hl Hs c'.
  assert (S : same_settings c' c).
  { unfold c'. clear c'. revert c Hs. induction l as [|o l IH]; intros c Hs; [repeat split|].
    unfold do_ops. cbn [fold_left]. fold (do_ops (do_op c o) l).
    assert (E : same_settings (do_op c o) c /\ tb_sel (c_tb (do_op c o)) = Cells).
    { destruct (Hl o (or_introl eq_refl)) as (v & w & [->| ->]); unfold same_settings, selected; cbn; rewrite Hs; repeat split. }
    destruct E as [E E']. specialize (IH (fun o' H => Hl o' (or_intror H)) _ E').
    unfold same_settings in *. intuition congruence. }
  pose proof S as (K & T & _). split; [exact T|]. split; [now rewrite T|]. split; [now apply hashed_settings|].
  intros m H. rewrite (construct_same _ _ _ _ _ c c' ver), H; [reflexivity|].
  unfold same_settings in *. intuition congruence.
Qed.

(*@ C58: the class defaults: Equat has projection CEA, Healpix rotation 45 degrees, and Dodeca the
    legacy values 4000x4000 and border 250, set through the compatible properties; the cells defaults
    are those of every class. *)
Lemma class_defaults_proof :
  c_projection equat_default = of_string "CEA"
  /\ c_rotation healpix_default = f64_45
  /\ getPatchInnerDimensions dodeca_default = (4000, 4000) /\ getPatchBorder dodeca_default = 250
  /\ selected (c_tb dodeca_default) = LegacyCfg (4000, 4000) 250
  /\ c_overlap dodeca_default = f64_3_5 /\ c_scale dodeca_default = f64_0_2
  /\ (forall c, In c [equat_default; healpix_default; dodeca_default; discrete_default] ->
        tb_sel (c_tb c) = Legacy /\ tb_cells (c_tb c) = mkCells (150, 150) 50 20 1 /\ packable c).
Proof.
  repeat (split; [reflexivity|]). intros c H.
  repeat (destruct H as [<-|H]; [split; [reflexivity|split; [reflexivity|]]; unfold packable; cbn; unfold int32;
    (split; [|repeat split; lia]; intros ch Hch; cbn in Hch; lia)|]). destruct H.
Qed.

Lemma same_double x y : same_number x y -> (same_sign x y <-> x = y).
Proof.
  intros (F & F' & E). split; [intros S; now apply B2R_Bsign_inj|intros ->; reflexivity].
Qed.
Lemma same_doubles l l' : Forall2 same_number l l' -> (Forall2 same_sign l l' <-> l = l').
Proof.
  induction 1 as [|x y l l' H HF IH]; [split; [reflexivity|constructor]|].
  split; [intros K; inversion K; subst; f_equal; [now apply same_double|now apply IH]|].
  intros K. injection K as -> ->. constructor; [reflexivity|now apply IH].
Qed.
Lemma agree_settings c c' : agree same_number c c' -> (agree same_sign c c' <-> same_settings c c').
Proof.
  unfold agree, same_settings. intros (A & B & C & D & E & F).
  rewrite (same_double _ _ C), (same_double _ _ D), (same_double _ _ E).
  destruct (c_class c) as [n ra|a d r|n [x y]|b|n b], (c_class c') as [n' ra'|a' d' r'|n' [x' y']|b'|n' b']; try contradiction.
  - destruct F as [-> F]. rewrite (same_double _ _ F). intuition congruence.
  - destruct F as (F1 & F2 & F3). rewrite (same_doubles _ _ F1), (same_doubles _ _ F2), (same_doubles _ _ F3). intuition congruence.
  - destruct F as (-> & F1 & F2). rewrite (same_double _ _ F1), (same_double _ _ F2). intuition congruence.
  - subst b'. intuition congruence.
  - destruct F as [-> ->]. intuition congruence.
Qed.

(*@ C62: maps made from configurations whose values are numerically equal, whatever was done with them, compare
    equal exactly if zeros have the same sign in both (unless SHA-1 collides on the two). *)
Lemma equal_numbers_equal_maps_proof : forall offset skyWcs p2a bnd order sha1 c c' ver ver' m0 m0' m m',
  construct offset skyWcs p2a bnd order c ver = Ok m0 -> used offset sha1 m0 m ->
  construct offset skyWcs p2a bnd order c' ver' = Ok m0' -> used offset sha1 m0' m' ->
  (forall b b', hashed_bytes c = Ok b -> hashed_bytes c' = Ok b' -> sha1 b = sha1 b' -> b = b') ->
  packable c -> packable c' -> agree same_number c c' ->
  (snd (py_eq sha1 m (OMap m')) = Ok true <-> agree same_sign c c').
Proof.
  intros offset skyWcs p2a bnd order sha1 c c' ver ver' m0 m0' m m' H U H' U' NC P P' A.
  rewrite (agree_settings _ _ A). apply hashed_iff in P, P'. destruct P as [b P], P' as [b' P'].
  pose proof (construct_ok _ _ _ _ _ _ _ _ H) as (L & _). pose proof (construct_ok _ _ _ _ _ _ _ _ H') as (L' & _).
  pose proof (getSha1_used _ _ _ _ _ _ _ _ _ _ H U) as E. pose proof (getSha1_used _ _ _ _ _ _ _ _ _ _ H' U') as E'.
  rewrite P in E. rewrite P' in E'. cbn in E, E'.
  assert (Q : snd (py_eq sha1 m (OMap m')) = Ok (bytes_eqb (sha1 b) (sha1 b'))).
  { unfold py_eq. destruct (getSha1 sha1 m) as [m1 r1]. destruct (getSha1 sha1 m') as [m2 r2]. cbn [snd] in E, E'. subst r1 r2. reflexivity. }
  rewrite Q. split.
  - intros K. injection K as K. apply bytes_eqb_eq in K. pose proof (NC b b' P P' K). subst b'. eapply hashed_inj; eassumption.
  - intros S. apply hashed_settings in S. rewrite P, P' in S. injection S as <-. f_equal. now apply bytes_eqb_eq.
Qed.

(*@ C62: REFUTED: two configurations whose values are numerically equal need not give equal maps: a
    right ascension of -0.0 instead of 0.0 gives a map with the same definition, hence the same
    tracts, that compares different (unless SHA-1 collides on the two). *)
Lemma negative_zero_refuted_proof : forall offset skyWcs p2a bnd order sha1 n,
  let c := rings_default n in
  let c' := mkConfig (c_tb c) (c_overlap c) (c_scale c) (c_projection c) (c_rotation c) (RingsCfg n f64_neg_zero) in
  int32 n ->
  f2r f64_neg_zero = f2r f64_zero
  /\ exists m m' b b', construct offset skyWcs p2a bnd order c None = Ok m
    /\ construct offset skyWcs p2a bnd order c' None = Ok m'
    /\ m_def m = m_def m' /\ hashed_bytes c = Ok b /\ hashed_bytes c' = Ok b' /\ b <> b'
    /\ (sha1 b <> sha1 b' -> snd (py_eq sha1 m (OMap m')) = Ok false).
Proof.
  intros offset skyWcs p2a bnd order sha1 n c c' Hn.
  assert (Z0 : f2r f64_neg_zero = f2r f64_zero) by reflexivity. split; [exact Z0|].
  assert (P : packable c) by (unfold packable; cbn; unfold int32 in *; split; [intros ch Hch; cbn in Hch; lia|lia]).
  assert (P' : packable c') by (unfold packable; cbn; unfold int32 in *; split; [intros ch Hch; cbn in Hch; lia|lia]).
  apply hashed_iff in P, P'. destruct P as [b P], P' as [b' P'].
  assert (E : exists m, construct offset skyWcs p2a bnd order c None = Ok m) by (eexists; reflexivity).
  assert (E' : exists m, construct offset skyWcs p2a bnd order c' None = Ok m) by (eexists; reflexivity).
  destruct E as [m E], E' as [m' E'].
  exists m, m', b, b'. split; [exact E|]. split; [exact E'|].
  assert (D : m_def m = m_def m').
  { unfold construct in E, E'. cbn in E, E'. injection E as <-. injection E' as <-. reflexivity. }
  split; [exact D|]. split; [exact P|]. split; [exact P'|]. split.
  - intros <-. pose proof (hashed_inj c c' b eq_refl eq_refl P P') as (K & _).
    apply (f_equal (fun k => match k with RingsCfg _ r => bits_of_b64 r | _ => 0 end)) in K. vm_compute in K. discriminate K.
  - intros NC. pose proof (construct_ok _ _ _ _ _ _ _ _ E) as (_ & C & N & _). pose proof (construct_ok _ _ _ _ _ _ _ _ E') as (_ & C' & N' & _).
    unfold py_eq, getSha1. rewrite N, N', C, C', P, P'. cbn. f_equal. apply not_true_is_false. intros Q. apply bytes_eqb_eq in Q. contradiction.
Qed.

(*@ C23, C43, C44, C45, C61: a concrete case: default Discrete maps with one tract, used once, and
    with lists of different lengths. *)
Example hash_example_proof : forall offset skyWcs p2a bnd order sha1,
  let c := base_default (DiscreteCfg [f64_zero] [f64_1_25] [f64_one]) in
  let bad := base_default (DiscreteCfg [f64_zero] [] [f64_one]) in
  packable c /\ ~ packable bad
  /\ (exists m, construct offset skyWcs p2a bnd order c None = Ok m /\ used offset sha1 m (fst (getSha1 sha1 m)))
  /\ (exists m, construct offset skyWcs p2a bnd order bad (Some (VerInt 7)) = Ok m /\ m_version m = VerInt 7)
  /\ (exists b, hashed_bytes c = Ok (of_string "DiscreteSkyMap" ++ [160; 15; 0; 0; 160; 15; 0; 0; 100; 0; 0; 0] ++ b)
       /\ length b = 51%nat)
  /\ exists b, hashed_bytes (base_default (HealpixCfg 258 true)) = Ok (of_string "HealpixSkyMap" ++ b ++ [2; 1; 0; 0; 1])
       /\ hashed_bytes (base_default (HealpixCfg 258 false)) = Ok (of_string "HealpixSkyMap" ++ b ++ [2; 1; 0; 0; 0]).
Proof.
  intros offset skyWcs p2a bnd order sha1 c bad.
  split; [|split; [|split; [|split; [|split]]]].
  - unfold packable; cbn; unfold int32; split; [intros ch Hch; cbn in Hch; lia|]. split; [lia|now split].
  - unfold packable. cbn. intros (_ & _ & _ & X). discriminate X.
  - eexists. split; [reflexivity|]. econstructor; [constructor|]. apply surjective_pairing.
  - eexists. split; reflexivity.
  - eexists. split; [vm_compute; reflexivity|reflexivity].
  - exists (match hashed_bytes (base_default (HealpixCfg 258 true)) with Ok b => firstn (length b - 18) (skipn 13 b) | _ => [] end). split; vm_compute; reflexivity.
Qed.
