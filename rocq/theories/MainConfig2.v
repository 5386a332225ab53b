(** The values of a configuration reach the tracts of the map made from it (C73). *)
From Coq Require Import Reals Lra Lia.
From Flocq Require Import Core.Raux.
Require Import Verif.Py Verif.Geom Verif.PatchInfo Verif.TractBuilder Verif.TractInfo Verif.Spec.
Require Import Verif.PatchProofs Verif.TractProofs Verif.MainPatch.
Require Import Verif.SkyMap Verif.SkySpec Verif.SkyProofs Verif.SkyProofs2 Verif.MainSky.
Require Import Verif.Rings Verif.RingsSpec Verif.RingsProofs Verif.Sphere Verif.SphereProofs Verif.TractBox Verif.Uniform Verif.Maps Verif.MapsProofs.
Require Import Verif.Dodeca Verif.DodecaSpec Verif.DodecaProofs3 Verif.DodecaProofs4 Verif.MainDodeca.
Require Import Verif.Config Verif.ConfigSpec Verif.ConfigProofs Verif.MiscSpec Verif.MainMisc.
Open Scope Z_scope.

(*@ C73: every tract of a sky map of any class, at any point of the map's life, has the configured overlap and is
    projected with the configured projection, pixel scale and rotation about its centre (Equat: about the point
    of the equator at its middle); the number of tracts and the centres are those the class-specific values
    give: numTracts slices of decRange for Equat, one tract per (raList, decList, radiusList) entry for
    Discrete, the faces for Dodeca, the pixels of resolution 2**log2NSide for Healpix, numRings rings from
    raStart for Rings (whose version decides the numbering). *)
Lemma config_reaches_tracts_proof : forall offset skyWcs p2a bnd order sha1 c ver m0 m i t, any_order order ->
  construct offset skyWcs p2a bnd order c ver = Ok m0 -> used offset sha1 m0 m ->
  cfg_ok (selected (c_tb c)) -> holds offset (m_def m) i (m_state m) t ->
  let mk := skyWcs (c_projection c) (f2r (c_scale c)) (f2r (c_rotation c)) in
  t_id t = i /\ t_overlap t = deg (f2r (c_overlap c))
  /\ match c_class c with
     | DiscreteCfg ras decs radii =>
         0 <= i < Z.of_nat (length radii)
         /\ exists ra dec radius, nth_error ras (Z.to_nat i) = Some ra /\ nth_error decs (Z.to_nat i) = Some dec
              /\ nth_error radii (Z.to_nat i) = Some radius
              /\ t_ctr t = spherePoint (deg (f2r ra)) (deg (f2r dec)) /\ same_projection (mk (t_ctr t)) (t_wcs t)
              /\ forall k, 0 <= k < 4 ->
                   contains_projected (mk (t_ctr t)) t (offset (t_ctr t) (IZR k * (PI / 2)) (deg (f2r radius) + deg (f2r (c_overlap c))))%R
     | EquatCfg n (d0, d1) =>
         0 <= i < n
         /\ let ra := (360 * (IZR i + 1 / 2) / IZR n)%R in
            t_ctr t = spherePoint (deg ra) (deg ((f2r d0 + f2r d1) / 2)%R)
            /\ same_projection (mk (spherePoint (deg ra) 0%R)) (t_wcs t)
     | DodecaCfg onPoles =>
         0 <= i < 12 /\ same_projection (mk (t_ctr t)) (t_wcs t)
         /\ exists D, Dodecahedron_init order onPoles = Ok D /\ dd_withFacesOnPoles D = onPoles
              /\ getFaceCtr D i = Ok (vec_of (t_ctr t))
     | HealpixCfg n nest =>
         0 <= n /\ 0 <= i < 12 * 2 ^ n * 2 ^ n
         /\ angToCoord (p2a (2 ^ n) nest i) = Ok (t_ctr t) /\ same_projection (mk (t_ctr t)) (t_wcs t)
     | RingsCfg n ra =>
         1 <= n -> same_projection (mk (t_ctr t)) (t_wcs t)
         /\ exists v g, m_version m = VerInt v /\ rings_init n (f2r ra) v = Ok g /\ 0 <= i < rings_numTracts g
              /\ forall r k cnt, getRingIndices g i = Ok (r, k) -> ring_has g r cnt ->
                   t_ctr t = spherePoint (deg (f2r ra + 360 * IZR k / IZR cnt)) (deg (-90 + 180 * (IZR r + 1) / (IZR n + 1)))%R
     end.
Proof.
  intros offset skyWcs p2a bnd order sha1 c ver m0 m i t Ho Hc Hu Hcfg Hh mk.
  pose proof (used_reachable _ _ _ _ _ _ _ _ _ _ Hc Hu) as Hr.
  destruct (used_fields _ _ _ _ Hu) as (A1 & A2 & A3 & A4 & _). rewrite A3 in Hh.
  unfold construct, wcsFactory in Hc.
  destruct (c_class c) as [n ra|ras decs radii|n [d0 d1]|b|n nest].
  - set (v := match ver with None => VerInt 1 | Some v => v end) in *.
    destruct (rings_init n (f2r ra) _) as [g|] eqn:G; [|discriminate]. cbn [bind] in Hc.
    destruct (negb _); [discriminate|]. cbn [bind] in Hc. apply finish_ok in Hc. destruct Hc as (s & Es & ->).
    cbn [m_def m_state m_version] in *. fold mk in Es, A4, Hr, Hh.
    destruct (holds_args offset _ _ i t Hr Hh) as (Hi & _).
    assert (Tag : t_id t = i /\ t_overlap t = deg (f2r (c_overlap c))).
    { destruct (holds_args offset _ _ i t Hr Hh) as (_ & a & b & b' & oid & Ea & _ & M). cbn [sd_args rings_def] in Ea.
      destruct (Verif.RegionProofs.rings_args_inv' _ _ _ _ _ Ea) as (ctr & a1 & a2 & d1 & d2 & _ & _ & ->).
      cbn [make_tract] in M. apply Verif.RegionProofs.explicit_keeps in M. tauto. }
    destruct Tag as [T1 T2]. split; [exact T1|]. split; [exact T2|]. intros Hn.
    destruct (rings_contents_proof offset _ mk _ n (f2r ra) _ g _ i t Hn G Hcfg Hr Hh) as (_ & _ & B3 & _ & _ & _ & B7).
    split; [exact B3|].
    assert (Ev : exists z, v = VerInt z /\ (z = match v with VerInt z => z | VerTuple _ => -1 end)).
    { destruct v as [z|l]; [eauto|]. unfold rings_init in G. cbn in G. discriminate. }
    destruct Ev as (z & Ev & Ez). exists z, g. split; [now rewrite A2|]. split; [now rewrite Ez|]. split; [exact Hi|exact B7].
  - destruct (negb _); [discriminate|]. cbn [bind] in Hc. apply finish_ok in Hc. destruct Hc as (s & Es & ->).
    cbn [m_def m_state m_version] in *. fold mk in Es, A4, Hr, Hh.
    set (dc := mkDiscrete (map f2r ras) (map f2r decs) (map f2r radii)) in *.
    destruct (discrete_contents_proof offset _ mk _ dc _ i t Hcfg Hr Hh) as (ra & dec & radius & E1 & E2 & E3 & B1 & B2 & B3 & B4 & B5).
    split; [exact B1|]. split; [exact B3|].
    destruct (holds_args offset _ _ i t Hr Hh) as (Hi & _). cbn [sd_num discrete_def dc dc_ra] in Hi.
    assert (Hi' : 0 <= i < Z.of_nat (length radii)) by (unfold dc in Hi; cbn in Hi; rewrite map_length in Hi; exact Hi).
    split; [exact Hi'|]. cbn [dc dc_ra dc_dec dc_radius] in E1, E2, E3.
    assert (Nth : forall l x, py_nth (map f2r l) i = Ok x -> exists y, nth_error l (Z.to_nat i) = Some y /\ x = f2r y).
    { intros l x E. unfold py_nth in E. destruct (Z.ltb_spec i 0); [lia|]. destruct (_ && _)%bool; [|discriminate].
      rewrite nth_error_map in E. destruct (nth_error l (Z.to_nat i)) as [y|]; [|discriminate]. injection E as <-. eauto. }
    destruct (Nth _ _ E1) as (ra' & N1 & ->). destruct (Nth _ _ E2) as (dec' & N2 & ->). destruct (Nth _ _ E3) as (rad' & N3 & ->).
    exists ra', dec', rad'. rewrite B2. auto 10.
  - destruct ver; [discriminate|]. destruct (negb _); [discriminate|]. cbn [bind] in Hc.
    destruct (equat_def _ _ _ _ _) as [d|] eqn:G; [|discriminate]. cbn [bind] in Hc. apply finish_ok in Hc. destruct Hc as (s & Es & ->).
    cbn [m_def m_state m_version] in *. fold mk in G.
    destruct (holds_args offset _ _ i t Hr Hh) as (Hi & _).
    assert (Hn : sd_num d = n) by (unfold equat_def in G; destruct (n =? 0); [discriminate|]; injection G as <-; reflexivity). rewrite Hn in Hi.
    destruct (equat_tracts_proof offset _ mk _ n (f2r d0) (f2r d1) d _ i t Hcfg ltac:(lia) G Hr Hh) as (_ & _ & (B1 & B2 & B3 & B4 & B5) & _).
    split; [exact B1|]. split; [exact B4|]. split; [exact Hi|]. cbv zeta. split; [exact B2|exact B5].
  - destruct ver; [discriminate|]. destruct (negb _); [discriminate|]. cbn [bind] in Hc.
    destruct (Dodecahedron_init order b) as [D|] eqn:G; [|discriminate]. cbn [bind] in Hc. apply finish_ok in Hc. destruct Hc as (s & Es & ->).
    cbn [m_def m_state m_version] in *. fold mk in Es, A4, Hr, Hh.
    destruct (dodeca_contents_proof order offset (selected (c_tb c)) mk (f2r (c_overlap c)) b D s (m_state m) i t Ho Hcfg) as (f & vs & E1 & E2 & B1 & B2 & B3 & B4 & B5 & _).
    { unfold dodeca_new. rewrite G. cbn [bind]. now rewrite Es. }
    { exact A4. } { exact Hh. }
    destruct (holds_args offset _ _ i t Hr Hh) as (Hi & _).
    split; [exact B3|]. split; [exact B4|]. split; [exact Hi|]. split; [exact B5|]. exists D. split; [reflexivity|].
    split; [|now rewrite B1]. destruct (shape_of order b D Ho G) as (K & _). exact K.
  - destruct (healpix_nside n) as [ns|] eqn:N; [|discriminate]. cbn [bind] in Hc.
    destruct (negb _); [discriminate|]. cbn [bind] in Hc.
    destruct (healpix_def _ _ _ _ _ _ _) as [d|] eqn:G; [|discriminate]. cbn [bind] in Hc. apply finish_ok in Hc. destruct Hc as (s & Es & ->).
    cbn [m_def m_state m_version] in *. fold mk in G.
    destruct (healpix_contents_proof p2a bnd offset _ mk _ n nest d _ i t Hcfg G Hr Hh) as (ctr & verts & E1 & E2 & (B1 & B2 & B3 & B4 & B5) & _).
    split; [exact B1|]. split; [exact B4|]. unfold healpix_nside in N. destruct (Z.ltb_spec n 0); [discriminate|]. split; [assumption|].
    destruct (holds_args offset _ _ i t Hr Hh) as (Hi & _). unfold healpix_def, healpix_nside in G.
    destruct (Z.ltb_spec n 0); [discriminate|]. cbn [bind] in G. rewrite Z.shiftl_mul_pow2, Z.mul_1_l in G by lia. injection G as <-. cbn [sd_num] in Hi.
    split; [exact Hi|]. rewrite B2. auto.
Qed.

(*@ C73: and its patches have the size, border and cells of the selected tract builder's configuration (asked while
    the last tract made by the map has the same patch counts). *)
Lemma config_reaches_patches_proof : forall offset skyWcs p2a bnd order sha1 c ver m0 m i t x y p,
  construct offset skyWcs p2a bnd order c ver = Ok m0 -> used offset sha1 m0 m ->
  cfg_ok (selected (c_tb c)) -> holds offset (m_def m) i (m_state m) t ->
  b_numPatches (sm_builder (m_state m)) = t_numPatches t ->
  tract_getPatchInfo (sm_builder (m_state m)) t (IxIndex2D x y) = Ok p ->
  match tb_sel (c_tb c) with
  | Legacy =>
      let k := tb_legacy (c_tb c) in
      (dimx (p_inner p), dimy (p_inner p)) = lc_inner k
      /\ (forall px py, in_box px py (p_outer p) <->
            in_box px py (t_bbox t)
            /\ exists qx qy, in_box qx qy (p_inner p) /\ Z.abs (px - qx) <= lc_border k /\ Z.abs (py - qy) <= lc_border k)
      /\ p_numCells p = (0, 0)
  | Cells =>
      let k := tb_cells (c_tb c) in
      (dimx (p_inner p), dimy (p_inner p)) = (cc_numInner k * fst (cc_inner k), cc_numInner k * snd (cc_inner k))
      /\ p_numCells p = (cc_numInner k + 2 * cc_numBorder k, cc_numInner k + 2 * cc_numBorder k)
      /\ p_cellInner p = cc_inner k /\ p_cellBorder p = cc_border k
  end.
Proof.
  intros offset skyWcs p2a bnd order sha1 c ver m0 m i t x y p Hc Hu Hcfg Hh Hs Hp.
  pose proof (used_reachable _ _ _ _ _ _ _ _ _ _ Hc Hu) as Hr. destruct (used_fields _ _ _ _ Hu) as (_ & _ & A3 & _). rewrite A3 in Hh.
  assert (Hd : sd_cfg (m_def m0) = selected (c_tb c)).
  { unfold construct, wcsFactory in Hc. destruct (c_class c) as [n ra|ras decs radii|n [d0 d1]|b|n nest].
    - destruct (rings_init _ _ _) as [g|]; [|discriminate]. cbn [bind] in Hc. destruct (negb _); [discriminate|]. cbn [bind] in Hc.
      apply finish_ok in Hc. destruct Hc as (s & _ & ->). reflexivity.
    - destruct (negb _); [discriminate|]. cbn [bind] in Hc. apply finish_ok in Hc. destruct Hc as (s & _ & ->). reflexivity.
    - destruct ver; [discriminate|]. destruct (negb _); [discriminate|]. cbn [bind] in Hc.
      destruct (equat_def _ _ _ _ _) as [d|] eqn:G; [|discriminate]. cbn [bind] in Hc. apply finish_ok in Hc. destruct Hc as (s & _ & ->).
      cbn [m_def]. unfold equat_def in G. destruct (n =? 0); [discriminate|]. injection G as <-. reflexivity.
    - destruct ver; [discriminate|]. destruct (negb _); [discriminate|]. cbn [bind] in Hc.
      destruct (Dodecahedron_init order b) as [D|]; [|discriminate]. cbn [bind] in Hc. apply finish_ok in Hc. destruct Hc as (s & _ & ->). reflexivity.
    - destruct (healpix_nside n) as [ns|] eqn:N; [|discriminate]. cbn [bind] in Hc.
      destruct (negb _); [discriminate|]. cbn [bind] in Hc.
      destruct (healpix_def _ _ _ _ _ _ _) as [d|] eqn:G; [|discriminate]. cbn [bind] in Hc. apply finish_ok in Hc. destruct Hc as (s & _ & ->).
      cbn [m_def]. unfold healpix_def in G. rewrite N in G. cbn [bind] in G. injection G as <-. reflexivity. }
  rewrite <- Hd in Hcfg.
  assert (Hin : in_use offset (sd_cfg (m_def m0)) (sm_builder (m_state m)) t).
  { destruct (builder_last offset (m_def m0) (m_state m) Hcfg Hr (holds_log_ne offset _ _ i t Hr Hh)) as (j & u & _ & [U1 U2 U3 U4] & _).
    constructor; [exact U1|exact U2|eapply holds_made; eauto|exact Hs]. }
  destruct (t_numPatches t) as [nx ny] eqn:En.
  destruct (patch_attributes_proof _ _ _ _ _ _ _ _ _ Hcfg Hin En Hp) as (x' & y' & _ & _ & _ & _ & _ & _ & K).
  destruct (patches_tile_tract_proof _ _ _ _ _ Hcfg Hin) as [_ Ti]. destruct (Ti _ _ Hp) as [Dm _]. unfold box_dims in Dm.
  rewrite Hd in *. unfold selected in *. destruct (tb_sel (c_tb c)); cbv zeta.
  - destruct (legacy_outer_proof _ _ _ _ _ _ _ _ _ Hcfg Hin Hp) as [Lo _]. split; [exact Dm|]. split; [exact Lo|apply K].
  - destruct K as (K1 & K2 & K3). split; [|auto]. rewrite Dm. unfold cfg_inner. destruct (cc_inner (tb_cells (c_tb c))) as [w h]. cbn [fst snd]. f_equal; ring.
Qed.

(*@ C73: a concrete case: a Discrete map of one tract; the tract after its first use, and the first patch of it. *)
Example config_reaches_example_proof : forall p2a bnd order sha1,
  let c := base_default (DiscreteCfg [f64_3_5] [f64_45] [f64_one]) in
  let skyWcs := fun (_ : pystr) (scale _ : R) => cea_wcs (/ scale) in
  exists m0 m t p, construct sphere_offset skyWcs p2a bnd order c None = Ok m0 /\ used sphere_offset sha1 m0 m
    /\ cfg_ok (selected (c_tb c)) /\ holds sphere_offset (m_def m) 0 (m_state m) t
    /\ b_numPatches (sm_builder (m_state m)) = t_numPatches t
    /\ tract_getPatchInfo (sm_builder (m_state m)) t (IxIndex2D 0 0) = Ok p.
Proof.
  intros p2a bnd order sha1 c skyWcs.
  assert (Hc : cfg_ok (selected (c_tb c))) by (cbn; lia).
  assert (F2 : f2r f64_45 = 45%R) by (vm_compute; lra).
  set (dc := mkDiscrete [f2r f64_3_5] [f2r f64_45] [f2r f64_one]).
  set (mk := cea_wcs (/ f2r f64_0_333)).
  set (d := discrete_def (selected (c_tb c)) mk (f2r f64_one) dc).
  assert (E0 : exists s0, sm_new sphere_offset d = Ok s0) by (eexists; reflexivity). destruct E0 as (s0 & E0).
  set (m0 := mkMap c (VerInt 0) d s0 None).
  assert (C0 : construct sphere_offset skyWcs p2a bnd order c None = Ok m0).
  { unfold construct. cbn [c_class c base_default]. unfold wcsFactory. cbn [c_projection c base_default length of_string negb Nat.eqb].
    change (negb (Nat.eqb _ _)) with false. cbn [bind]. unfold finish.
    change (sm_new sphere_offset _) with (sm_new sphere_offset d). rewrite E0. reflexivity. }
  assert (Hr : sm_reachable sphere_offset d s0) by (exists s0; split; [exact E0|constructor]).
  destruct (Verif.MainMaps.discrete_access_proof sphere_offset (selected (c_tb c)) mk (f2r f64_one) dc s0 0 Hc Hr) as [A _].
  { intros k co e. discriminate. }
  { cbn. lia. }
  destruct (A eq_refl) as (s & t & G).
  { cbn [dc dc_dec In]. rewrite F2. intros dec [<-|[]]; lra. }
  destruct (getitem_holds sphere_offset d s0 0 s t Hr ltac:(lia) G) as (Hr' & Ac & Hh).
  set (m := mkMap c (VerInt 0) d s None).
  assert (Hu : used sphere_offset sha1 m0 m) by (apply (used_access sphere_offset sha1 m0 m0 s (used_not _ _ _) Ac)).
  destruct (builder_last sphere_offset d s Hc Hr' (holds_log_ne sphere_offset d s 0 t Hr' Hh)) as (j & u & Hju & Hin & _ & El).
  assert (u = t).
  { apply (holds_slot sphere_offset d s _ _ Hr') in Hju, Hh. destruct Hju as [Hj Hju], Hh as [_ Hh].
    change (sd_num d) with 1 in Hj. assert (j = 0) as -> by lia. congruence. }
  subst u. destruct (in_use_spec sphere_offset _ _ t Hc Hin) as (nx & ny & Hi & Hinit & Hnb & Hnt & Hnx & Hny & Hz & HB).
  destruct (config_reaches_tracts_proof sphere_offset skyWcs p2a bnd (fun _ l => l) sha1 c None m0 m 0 t) as (_ & _ & _ & ra & dec & rad & _ & _ & _ & _ & _ & K);
    [intros p l; apply Permutation.Permutation_refl|exact C0|exact Hu|exact Hc|exact Hh|].
  specialize (K 0 ltac:(lia) _ _ eq_refl). unfold tract_contains in K.
  assert (0 < nx /\ 0 < ny).
  { destruct (Z.eq_dec nx 0) as [->|]; [|lia]. exfalso. assert (ny = 0) as -> by now apply Hz. rewrite HB, !Z.mul_0_l in K. destruct (skyToPixel (t_wcs t) _) as [[]| |x y]; try discriminate. apply (f_equal (fun r => match r with Ok b => b | _ => false end)) in K. apply contains_point_in_box in K. destruct K as [Kx Ky]; cbn in Kx; lia. }
  exists m0, m, t, (the_patch (selected (c_tb c)) nx ny (t_wcs t) 0 0).
  split; [exact C0|]. split; [exact Hu|]. split; [exact Hc|]. split; [exact Hh|]. split; [now rewrite Hnt|].
  unfold tract_getPatchInfo. apply (getPatchInfo_pair _ _ nx ny); auto; lia.
Qed.
