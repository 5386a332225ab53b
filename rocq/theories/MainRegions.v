(** The sky regions in the records of a registered map (C84). *)
From Coq Require Import Reals Lra Lia String.
From Flocq Require Import Core.Raux.
Require Import Verif.Py Verif.Geom Verif.PatchInfo Verif.TractBuilder Verif.TractInfo Verif.Spec.
Require Import Verif.PatchProofs Verif.CellProofs Verif.TractProofs.
Require Import Verif.SkyMap Verif.SkySpec Verif.SkyProofs Verif.SkyProofs2.
Require Import Verif.Register Verif.RegSpec Verif.MainRegister.
Require Import Verif.Rings Verif.Sphere Verif.Region Verif.ProjSpec Verif.MainPolygons Verif.MainMisc.
Require Import Verif.SphereProofs Verif.Maps Verif.Dodeca Verif.DodecaSpec Verif.MainMaps Verif.Config Verif.ConfigSpec Verif.ConfigProofs Verif.MainConfig2.
Require Import Verif.Wcs Verif.WcsSpec Verif.MainWcs Verif.RegProofs Verif.RegProofs2 Verif.RegProofs3.
Open Scope list_scope.
Open Scope Z_scope.
Local Arguments Z.mul : simpl never.

Section Regions.
Context (offset : sphere -> R -> R -> sphere) (d : skydef sphere) (s : smstate sphere).
Hypotheses (Hc : cfg_ok (sd_cfg d)) (Hr : sm_reachable offset d s).

(** The tract in use with a builder of its own. *)
Lemma own_builder i t : holds offset d i s t -> in_use offset (sd_cfg d) (builder_for (sd_cfg d) t) t.
Proof.
  intros Hh. pose proof (holds_made offset d s i t Hr Hh) as Hm. apply (holds_slot _ _ _ _ _ Hr) in Hh. destruct Hh as [Hi Hs].
  destruct (so_made _ _ _ _ _ (si_slots _ _ _ _ (reachable_inv _ _ _ Hr) _ _ Hs)) as (a & b0 & b1 & _ & Hb & Hk).
  destruct (make_tract_static _ _ _ _ _ _ _ _ Hb Hk) as (B1 & B2 & _).
  constructor; [now rewrite <- B2|reflexivity|exact Hm|reflexivity].
Qed.

(** The patch of tract [t] with the builder as another tract of the map left it. *)
Lemma other_patch j u i t x y p : holds offset d j s u -> sm_builder s = builder_for (sd_cfg d) u -> holds offset d i s t ->
  tract_getPatchInfo (sm_builder s) t (IxIndex2D x y) = Ok p ->
  p = the_patch (sd_cfg d) (fst (t_numPatches u)) (snd (t_numPatches u)) (t_wcs t) x y
  /\ 0 <= x < fst (t_numPatches u) /\ 0 <= y < snd (t_numPatches u).
Proof.
  intros Hu Eb Ht Hp.
  destruct (in_use_spec _ _ _ _ Hc (own_builder j u Hu)) as (nx & ny & Hi & Hinit & Hnb & Hnu & _).
  unfold tract_getPatchInfo in Hp. rewrite Eb in Hp.
  destruct (getPatchInfo_pair_inv _ _ _ _ _ _ _ _ Hc Hi Hinit Hnb Hp) as (Hx & Hy & E). rewrite Hnu. cbn [fst snd]. auto.
Qed.
Lemma outer_mono i t nx ny x y c : holds offset d i s t -> gnomonic (t_wcs t) -> 0 <= x < nx -> 0 <= y < ny ->
  region_contains (sky_polygon (makeSkyPolygonFromBBox (Box (x * fst (cfg_inner (sd_cfg d))) (y * snd (cfg_inner (sd_cfg d)))
    (fst (cfg_inner (sd_cfg d))) (snd (cfg_inner (sd_cfg d)))) (t_wcs t))) c ->
  region_contains (sky_polygon (makeSkyPolygonFromBBox (outer_of (sd_cfg d) nx ny x y) (t_wcs t))) c.
Proof.
  intros Hh Hg Hx Hy. destruct (cfg_inner_pos _ Hc) as [Hw Hh']. pose proof (cfg_border_nonneg _ Hc) as Hb.
  set (w := fst (cfg_inner (sd_cfg d))) in *. set (h := snd (cfg_inner (sd_cfg d))) in *.
  assert (w <= (nx - x) * w) by nia. assert (h <= (ny - y) * h) by nia. assert (0 <= x * w) by nia. assert (0 <= y * h) by nia.
  unfold outer_of. fold w h. destruct (sd_cfg d) as [inner border|dims cb nI nB]; cbn [cfg_border] in *;
    (apply polygon_mono; [exact Hg|cbn [dimx dimy]; lia ..|]); intros px py; unfold in_box; cbn [minx miny dimx dimy]; lia.
Qed.
End Regions.

(*@ C84: let the tracts of a registered map have gnomonic WCSs. The region of the tract record of every tract
    contains all coordinates that contains() accepts, and otherwise only coordinates exactly on its upper or
    right pixel edge; every coordinate in the region of a tract record is in the region of one of the patch
    records of that tract. (Whatever the patch counts of the tracts.) *)
Lemma registered_regions_proof : forall offset (d : skydef sphere) name hash s r r',
  cfg_ok (sd_cfg d) -> sm_reachable offset d s -> completely_registered offset d name hash s r r' ->
  (forall i t, holds offset d i s t -> gnomonic (t_wcs t)) ->
  exists tracts patches, g_tracts r' = g_tracts r ++ tracts /\ g_patches r' = g_patches r ++ patches
    /\ (forall i t, holds offset d i s t -> exists tr, In tr tracts /\ tr_skymap tr = name /\ tr_tract tr = i
          /\ forall c, tract_contains t c = Ok true -> region_contains (sky_polygon (tr_region tr)) c)
    /\ (forall tr, In tr tracts -> exists t, holds offset d (tr_tract tr) s t
          /\ forall c, region_contains (sky_polygon (tr_region tr)) c -> tract_contains t c = Ok true
             \/ exists x y, skyToPixel (t_wcs t) c = Pix x y
                 /\ (x = IZR (dimx (t_bbox t)) - / 2 \/ y = IZR (dimy (t_bbox t)) - / 2)%R)
    /\ (forall tr c, In tr tracts -> region_contains (sky_polygon (tr_region tr)) c ->
          exists pr, In pr patches /\ pr_skymap pr = name /\ pr_tract pr = tr_tract tr
            /\ region_contains (sky_polygon (pr_region pr)) c).
Proof.
  intros offset d name hash s r r' Hc Hr (nxm & nym & trs & blocks & lt & _ & _ & Hl & _ & Htr & Hp & _ & FT & F) Hg.
  exists trs, (concat blocks). split; [exact Htr|]. split; [exact Hp|].
  assert (TR : forall tr, In tr trs -> exists i t, holds offset d i s t /\ tr = mkTractRec name i (tract_getOuterSkyPolygon t)).
  { intros tr Hin. clear -FT Hin. induction FT as [|i x l l' (t & Ht & E) _ IH]; [contradiction|].
    destruct Hin as [<- | Hin]; eauto. }
  assert (TI : forall i t, holds offset d i s t -> In (mkTractRec name i (tract_getOuterSkyPolygon t)) trs).
  { intros i t Ht. pose proof Ht as Hi. apply (holds_slot _ _ _ _ _ Hr) in Hi.
    destruct (Forall2_In_l _ _ _ i FT) as (tr & Hin & t' & Ht' & ->); [apply in_zrange; lia|].
    now rewrite (holds_fun _ _ _ _ _ _ Ht Ht'). }
  assert (OW : forall i t c, holds offset d i s t -> _) by
    (intros i t c Ht; exact (gnomonic_patch_polygons_proof offset (sd_cfg d) _ t c Hc (own_builder offset d s Hr i t Ht) (Hg i t Ht))).
  cbv zeta in OW.
  split; [|split].
  - intros i t Ht. eexists. split; [exact (TI i t Ht)|]. split; [reflexivity|]. split; [reflexivity|]. intros c Hcon.
    cbn [tr_region]. exact (proj1 (OW i t c Ht) Hcon).
  - intros tr Hin. destruct (TR tr Hin) as (i & t & Ht & ->). exists t. split; [exact Ht|]. intros c Hcon. cbn [tr_region] in Hcon.
    exact (proj1 (proj2 (OW i t c Ht)) Hcon).
  - intros tr c Hin Hcon. destruct (TR tr Hin) as (i & t & Ht & ->). cbn [tr_region tr_tract] in *.
    apply (proj1 (proj2 (proj2 (OW i t c Ht)))) in Hcon. destruct Hcon as (x & y & q & Hq & Hin').
    pose proof (own_builder offset d s Hr i t Ht) as Hu.
    destruct (in_use_spec _ _ _ _ Hc Hu) as (nx & ny & Hi & Hinit & Hnb & Hnt & _).
    destruct (getPatchInfo_pair_inv _ _ _ _ _ _ _ _ Hc Hi Hinit Hnb Hq) as (Hx & Hy & Eq).
    pose proof Ht as Hslot. apply (holds_slot _ _ _ _ _ Hr) in Hslot.
    destruct (Forall2_In_l _ _ _ i F) as (block & Hbl & t' & Ht' & Hb); [apply in_zrange; lia|].
    pose proof (holds_fun offset d s i t' t Ht' Ht) as ->.
    destruct Hb as (a & b & En & _ & _ & _ & Hb). rewrite Hnt in En. injection En as <- <-.
    destruct (Hb x y Hx Hy) as (p & Ep & Hnth). apply nth_error_In in Hnth.
    eexists. split; [apply in_concat; exists block; split; [exact Hbl|exact Hnth]|]. split; [reflexivity|]. split; [reflexivity|].
    cbn [pr_region].
    destruct (builder_last offset d s Hc Hr (holds_log_ne offset d s i t Hr Ht)) as (j & u & Hju & _ & Eb & _).
    destruct (other_patch offset d s Hc Hr j u i t x y p Hju Eb Ht Ep) as (-> & Hx' & Hy').
    unfold patch_getOuterSkyPolygon. cbn [the_patch p_outer].
    apply (outer_mono offset d s Hc i t _ _ x y c Ht (Hg i t Ht) Hx' Hy').
    rewrite Eq in Hin'. exact Hin'.
Qed.

(*@ C84, when all tracts have the same patch counts: the patch that findPatch returns has a record, whose region
    contains the coordinate; with the legacy builder the region of every patch record is part of the region of the
    record of its tract. *)
Lemma registered_patch_regions_proof : forall offset (d : skydef sphere) n name hash s r r',
  cfg_ok (sd_cfg d) -> sm_reachable offset d s -> uniform_counts offset d n -> completely_registered offset d name hash s r r' ->
  (forall i t, holds offset d i s t -> gnomonic (t_wcs t)) ->
  exists tracts patches, g_tracts r' = g_tracts r ++ tracts /\ g_patches r' = g_patches r ++ patches
    /\ (forall i t c p, holds offset d i s t -> dimx (t_bbox t) < 2 ^ 31 -> dimy (t_bbox t) < 2 ^ 31 ->
          findPatch (sm_builder s) t c = Ok p ->
          exists pr, In pr patches /\ pr_skymap pr = name /\ pr_tract pr = i /\ (pr_x pr, pr_y pr) = p_index p /\ pr_patch pr = p_seq p
            /\ region_contains (sky_polygon (pr_region pr)) c)
    /\ (~ is_cells (sd_cfg d) -> forall pr, In pr patches ->
          exists tr, In tr tracts /\ tr_tract tr = pr_tract pr
            /\ forall c, region_contains (sky_polygon (pr_region pr)) c -> region_contains (sky_polygon (tr_region tr)) c).
Proof.
  intros offset d [nx ny] name hash s r r' Hc Hr Hun HC Hg.
  destruct (registered_patches_uniform_proof _ offset d nx ny name hash s r r' Hc Hr Hun HC) as (added & Ea & _ & Hadd).
  destruct HC as (nxm & nym & trs & blocks & lt & _ & _ & _ & _ & Htr & _ & _ & FT & _).
  exists trs, added. split; [exact Htr|]. split; [exact Ea|]. split.
  - intros i t c p Ht Dx Dy Hf.
    pose proof (uniform_in_use offset d (nx, ny) s i t Hc Hun Hr Ht) as Hu.
    pose proof (uniform_holds offset d (nx, ny) s i t Hun Hr Ht) as Hn.
    pose proof (findPatch_lemma _ offset _ _ _ c Hc Hu Dx Dy) as K.
    destruct (tract_contains t c) as [[]|e]; [|congruence|congruence].
    destruct K as (p' & x & y & px & py & E & Hp & _). rewrite Hf in E. injection E as <-.
    destruct (patch_attributes_proof _ offset _ _ _ _ _ nx ny Hc Hu Hn Hp) as (x' & y' & Hx & Hy & [H | [H | H]] & Ei & Es & Ew & _);
      [|discriminate|discriminate].
    injection H as <- <-.
    exists (mkPatchRec name i (y * nx + x) x y (patch_getOuterSkyPolygon p (Some (t_wcs t)))).
    split.
    { apply Hadd. exists i, t, x, y, p. split; [exact Ht|]. split; [exact Hx|]. split; [exact Hy|]. split; [exact Hp|]. split; [|reflexivity].
      destruct (in_use_spec _ _ _ _ Hc Hu) as (nxl & nyl & Hii & Hinit & Hnb & Hnt & _).
      rewrite Hn in Hnt. injection Hnt as <- <-.
      unfold getSequentialPatchIndex, getSequentialPatchIndexFromPair. rewrite Hnb, Ei. cbn. f_equal. lia. }
    cbn [pr_skymap pr_tract pr_x pr_y pr_patch pr_region]. split; [reflexivity|]. split; [reflexivity|]. split; [now rewrite Ei|].
    split; [now rewrite Es|].
    pose proof (gnomonic_findPatch_polygon_proof offset _ _ _ c p Hc Hu Dx Dy (Hg i t Ht) Hf) as Hin.
    pose proof (proj1 (gnomonic_outer_polygon_proof offset _ _ t x y p c Hc Hu (Hg i t Ht) Hp) Hin) as Hout.
    unfold patch_getOuterSkyPolygon in *. rewrite Ew in Hout. exact Hout.
  - intros Hleg pr Hin. apply Hadd in Hin. destruct Hin as (i & t & x & y & p & Ht & Hx & Hy & Ep & _ & ->).
    pose proof Ht as Hi. apply (holds_slot _ _ _ _ _ Hr) in Hi.
    destruct (Forall2_In_l _ _ _ i FT) as (tr & Hin & t' & Ht' & ->); [apply in_zrange; lia|].
    pose proof (holds_fun offset d s i t' t Ht' Ht) as ->.
    eexists. split; [exact Hin|]. cbn [tr_tract pr_tract pr_region tr_region]. split; [reflexivity|]. intros c Hcon.
    pose proof (uniform_in_use offset d (nx, ny) s i t Hc Hun Hr Ht) as Hu.
    pose proof (uniform_holds offset d (nx, ny) s i t Hun Hr Ht) as Hn.
    destruct (patch_attributes_proof _ offset _ _ _ _ _ nx ny Hc Hu Hn Ep) as (_ & _ & _ & _ & _ & _ & _ & Ew & _).
    apply (proj2 (gnomonic_outer_polygon_proof offset _ _ t x y p c Hc Hu (Hg i t Ht) Ep) Hleg).
    unfold patch_getOuterSkyPolygon in *. rewrite Ew. exact Hcon.
Qed.

(*@ C84, refuted otherwise: with the cells builder, or if another tract, generated later, has more columns of patches,
    and with a positive patch border, the region of a patch record of the tract reaches beyond the region of the
    record of that tract. *)
Lemma registered_patch_region_refuted_proof : forall offset (d : skydef sphere) name hash s r r' i t nx ny,
  cfg_ok (sd_cfg d) -> sm_reachable offset d s -> completely_registered offset d name hash s r r' ->
  holds offset d i s t -> gnomonic (t_wcs t) -> t_numPatches t = (nx, ny) -> 0 < nx -> 0 < ny -> 0 < cfg_border (sd_cfg d) ->
  is_cells (sd_cfg d) \/ (exists u, holds offset d (last (sm_log s) 0) s u /\ nx < fst (t_numPatches u)) ->
  exists tr pr c, In tr (g_tracts r') /\ In pr (g_patches r') /\ tr_skymap tr = name /\ pr_skymap pr = name
    /\ tr_tract tr = i /\ pr_tract pr = i
    /\ region_contains (sky_polygon (pr_region pr)) c /\ ~ region_contains (sky_polygon (tr_region tr)) c.
Proof.
  intros offset d name hash s r r' i t nx ny Hc Hr (nxm & nym & trs & blocks & lt & _ & _ & Hl & _ & Htr & Hp & _ & FT & F) Ht Hg Hn Hnx Hny Hb Hcase.
  pose proof Ht as Hi. apply (holds_slot _ _ _ _ _ Hr) in Hi.
  destruct (Forall2_In_l _ _ _ i FT) as (tr & Hin & t' & Ht' & Etr); [apply in_zrange; lia|].
  pose proof (holds_fun offset d s i t' t Ht' Ht) as ->.
  destruct (Forall2_In_l _ _ _ i F) as (block & Hbl & t' & Ht2 & Hblk); [apply in_zrange; lia|].
  pose proof (holds_fun offset d s i t' t Ht2 Ht) as ->.
  destruct Hblk as (a & b & En & _ & _ & _ & Hblk). rewrite Hn in En. injection En as <- <-.
  destruct (Hblk (nx - 1) 0 ltac:(lia) ltac:(lia)) as (p & Ep & Hnth). apply nth_error_In in Hnth.
  destruct (builder_last offset d s Hc Hr (holds_log_ne offset d s i t Hr Ht)) as (j & u & Hju & _ & Eb & Ej).
  destruct (other_patch offset d s Hc Hr j u i t _ _ p Hju Eb Ht Ep) as (Epp & Hx' & Hy').
  destruct (in_use_spec _ _ _ _ Hc (own_builder offset d s Hr i t Ht)) as (a & b & _ & _ & _ & Hnt & _ & _ & _ & HB).
  rewrite Hn in Hnt. injection Hnt as <- <-.
  destruct (cfg_inner_pos _ Hc) as [Hw Hh].
  set (w := fst (cfg_inner (sd_cfg d))) in *. set (h := snd (cfg_inner (sd_cfg d))) in *.
  exists tr, (mkPatchRec name i (0 * fst (t_numPatches lt) + (nx - 1)) (nx - 1) 0 (patch_getOuterSkyPolygon p (Some (t_wcs t)))),
    (pixelToSky (t_wcs t) (IZR (nx * w), 0%R)).
  split; [rewrite Htr; apply in_or_app; now right|].
  split; [rewrite Hp; apply in_or_app; right; apply in_concat; exists block; split; [exact Hbl|exact Hnth]|].
  rewrite Etr. cbn [tr_skymap tr_tract tr_region pr_skymap pr_tract pr_region]. do 4 (split; [reflexivity|]).
  assert (Wpos : 0 < nx * w) by nia. assert (Hpos : 0 < ny * h) by nia.
  split.
  - unfold patch_getOuterSkyPolygon. rewrite Epp. cbn [the_patch p_outer].
    assert (K : 0 < dimx (outer_of (sd_cfg d) (fst (t_numPatches u)) (snd (t_numPatches u)) (nx - 1) 0)
       /\ 0 < dimy (outer_of (sd_cfg d) (fst (t_numPatches u)) (snd (t_numPatches u)) (nx - 1) 0)
       /\ in_box (nx * w) 0 (outer_of (sd_cfg d) (fst (t_numPatches u)) (snd (t_numPatches u)) (nx - 1) 0)).
    { set (U := fst (t_numPatches u)) in *. set (V := snd (t_numPatches u)) in *.
      assert (h <= V * h) by nia.
      unfold outer_of. fold w h. replace ((nx - 1) * w) with (nx * w - w) by ring.
      destruct (sd_cfg d) as [inner border|dims cb nI nB]; unfold in_box; cbn [minx miny dimx dimy].
      - destruct Hcase as [[]|(u' & Hu' & Hlt)]. rewrite Ej in Hu'. pose proof (holds_fun offset d s _ _ _ Hu' Hju) as ->. fold U in Hlt.
        assert ((nx + 1) * w <= U * w) by nia. lia.
      - lia. }
    destruct K as (K1 & K2 & K3). apply (polygon_pixels _ _ _ Hg K1 K2).
    exists (IZR (nx * w)), 0%R, (nx * w), 0. split; [apply Hg|]. split; [|exact K3]. unfold at_pixel. lra.
  - unfold tract_getOuterSkyPolygon. rewrite HB. intros H.
    apply (gnomonic_polygon_proof _ _ _ Hg) in H; [|exact Wpos|exact Hpos]. destruct H as (x & y & E & [Ax _]).
    rewrite (proj2 Hg) in E. injection E as <- <-. cbn [minx dimx] in Ax. rewrite Z.add_0_l in Ax. lra.
Qed.

Lemma construct_cfg offset skyWcs p2a bnd order c ver m0 : construct offset skyWcs p2a bnd order c ver = Ok m0 ->
  sd_cfg (m_def m0) = selected (c_tb c).
Proof.
  intros Hc. unfold construct, wcsFactory in Hc. destruct (c_class c) as [n ra|ras decs radii|n [d0 d1]|b|n nest].
  - destruct (rings_init _ _ _) as [g|]; [|discriminate]. cbn [bind] in Hc. destruct (negb _); [discriminate|]. cbn [bind] in Hc.
    apply finish_ok in Hc. destruct Hc as (s & _ & ->). reflexivity.
  - destruct (negb _); [discriminate|]. cbn [bind] in Hc. apply finish_ok in Hc. destruct Hc as (s & _ & ->). reflexivity.
  - destruct ver; [discriminate|]. destruct (negb _); [discriminate|]. cbn [bind] in Hc.
    destruct (equat_def _ _ _ _ _) as [d|] eqn:G; [|discriminate]. cbn [bind] in Hc. apply finish_ok in Hc. destruct Hc as (s & _ & ->).
    cbn [m_def]. unfold equat_def in G. destruct (n =? 0); [discriminate|]. injection G as <-. reflexivity.
  - destruct ver; [discriminate|]. destruct (negb _); [discriminate|]. cbn [bind] in Hc.
    destruct (Dodecahedron_init order b) as [D|]; [|discriminate]. cbn [bind] in Hc. apply finish_ok in Hc. destruct Hc as (s & _ & ->). reflexivity.
  - destruct (healpix_nside n) as [ns|] eqn:N; [|discriminate]. cbn [bind] in Hc.
    destruct (negb _); [discriminate|]. cbn [bind] in Hc.
    destruct (healpix_def _ _ _ _ _ _ _) as [d|] eqn:G; [|discriminate]. cbn [bind] in Hc. apply finish_ok in Hc. destruct Hc as (s & _ & ->).
    cbn [m_def]. unfold healpix_def in G. rewrite N in G. cbn [bind] in G. injection G as <-. reflexivity.
Qed.

(*@ C84, from the configuration: let a map of any class have the TAN projection. Once it has been registered under a
    new name, every coordinate in one of its tracts is in the region of the record of that tract and in that of one of
    the records of the tract's patches. *)
Lemma registered_map_regions_proof : forall named offset p2a bnd order sha1 c ver m0 m faults sha name r s' u' i t co,
  knows named -> any_order order ->
  construct offset (factory_wcs named) p2a bnd order c ver = Ok m0 -> used offset sha1 m0 m ->
  cfg_ok (selected (c_tb c)) -> (forall n ra, c_class c = RingsCfg n ra -> 1 <= n) -> (0 < f2r (c_scale c))%R ->
  c_projection c = of_string "TAN" ->
  ~ In name (map k_name (g_skymaps r)) ->
  register offset faults (m_def m) sha name (m_state m) (butler_on r) = (s', u', Done tt) ->
  holds offset (m_def m) i s' t -> tract_contains t co = Ok true ->
  exists tr pr, In tr (g_tracts (u_durable u')) /\ tr_skymap tr = name /\ tr_tract tr = i
    /\ In pr (g_patches (u_durable u')) /\ pr_skymap pr = name /\ pr_tract pr = i
    /\ region_contains (sky_polygon (tr_region tr)) co /\ region_contains (sky_polygon (pr_region pr)) co.
Proof.
  intros named offset p2a bnd order sha1 c ver m0 m faults sha name r s' u' i t co Hk Hord C0 Hu Hc Hrings Hs Hproj Hnew H Ht Hcon.
  pose proof (used_reachable _ _ _ _ _ _ _ _ _ _ C0 Hu) as Hr. pose proof (used_fields _ _ _ _ Hu) as (F1 & F2 & F3 & F4 & F5).
  assert (Ed : sd_cfg (m_def m) = selected (c_tb c)) by (rewrite F3; exact (construct_cfg _ _ _ _ _ _ _ _ C0)).
  rewrite <- F3 in Hr. rewrite <- Ed in Hc.
  destruct (register_spec offset faults (m_def m) sha name (m_state m) r s' u' _ Hr H) as (Ha & _).
  destruct (register_all_or_nothing_proof _ offset faults (m_def m) sha name (m_state m) r s' u' (Done tt) Hc Hr H) as (A & _ & B).
  destruct (B eq_refl) as (hash & Esha & k & Hin & Ek & _).
  destruct A as [(Q & _)|(hash' & _ & _ & _ & CR)].
  { exfalso. apply Hnew. rewrite <- Ek. apply in_map. rewrite Q in Hin. exact Hin. }
  pose proof (reachable_accesses _ _ _ _ Hr Ha) as Hr'.
  assert (Hg : forall i t, holds offset (m_def m) i s' t -> gnomonic (t_wcs t)).
  { intros i' t' Ht'.
    pose proof (used_access offset sha1 m0 m s' Hu Ha) as Hu'.
    rewrite Ed in Hc.
    exact (proj1 (proj2 (map_wcs_proof named offset p2a bnd order sha1 c ver m0 _ i' t' Hk Hord C0 Hu' Hc Hrings Hs Ht')) Hproj). }
  destruct (registered_regions_proof offset (m_def m) name hash' s' r _ Hc Hr' CR Hg) as (trs & prs & E1 & E2 & R1 & _ & R3).
  destruct (R1 i t Ht) as (tr & T1 & T2 & T3 & T4). specialize (T4 co Hcon).
  destruct (R3 tr co T1 T4) as (pr & P1 & P2 & P3 & P4).
  exists tr, pr. rewrite E1, E2, !in_app_iff. rewrite P3. auto 10.
Qed.

(*@ C84, non-vacuity: a Discrete map of one tract (1 degree) with the TAN projection, rotated by 45 degrees, with the
    default (legacy) builder or with cells, is constructed, used, and registered in an empty repository; its tract
    contains the coordinate two degrees (radius and overlap) from the centre towards the east; it meets the hypotheses above. *)
Example registered_regions_example_proof : forall p2a bnd order sha1 hash name tb, any_order order ->
  tb = tb_default \/ tb = mkTB Cells (tb_legacy tb_default) (tb_cells tb_default) ->
  let c := mkConfig tb f64_one f64_0_333 (of_string "TAN") f64_45 (DiscreteCfg [f64_3_5] [f64_45] [f64_one]) in
  exists m0 m s' u' t nx ny, let co := sphere_offset (t_ctr t) 0 (deg 2) in
    construct sphere_offset (factory_wcs fits_projections) p2a bnd order c None = Ok m0 /\ used sphere_offset sha1 m0 m
    /\ cfg_ok (selected (c_tb c)) /\ (0 < f2r (c_scale c))%R
    /\ register sphere_offset no_faults (m_def m) (Ok hash) name (m_state m) (butler_on (mkReg [] [] [] [] [] [])) = (s', u', Done tt)
    /\ sm_reachable sphere_offset (m_def m) s'
    /\ uniform_counts sphere_offset (m_def m) (nx, ny)
    /\ completely_registered sphere_offset (m_def m) name hash s' (mkReg [] [] [] [] [] []) (u_durable u')
    /\ (forall i t, holds sphere_offset (m_def m) i s' t -> gnomonic (t_wcs t))
    /\ holds sphere_offset (m_def m) 0 s' t /\ tract_contains t co = Ok true
    /\ t_numPatches t = (nx, ny) /\ 0 < nx /\ 0 < ny /\ 0 < cfg_border (sd_cfg (m_def m)).
Proof.
  intros p2a bnd order sha1 hash name tb Hord Htb c.
  assert (Hk : knows fits_projections) by (unfold knows, fits_projections; repeat split).
  assert (Hc : cfg_ok (selected (c_tb c))) by (destruct Htb as [-> | ->]; cbn; lia).
  assert (F1 : f2r f64_one = 1%R) by (vm_compute; lra).
  assert (F2 : f2r f64_45 = 45%R) by (vm_compute; lra).
  assert (F3 : (0 < f2r f64_0_333)%R) by (vm_compute; lra).
  set (dc := mkDiscrete [f2r f64_3_5] [f2r f64_45] [f2r f64_one]).
  set (mk := factory_wcs fits_projections (of_string "TAN") (f2r (c_scale c)) (f2r (c_rotation c))).
  set (d := discrete_def (selected (c_tb c)) mk (f2r f64_one) dc).
  assert (E0 : exists s0, sm_new sphere_offset d = Ok s0) by (eexists; reflexivity). destruct E0 as (s0 & E0).
  set (m0 := mkMap c (VerInt 0) d s0 None).
  assert (C0 : construct sphere_offset (factory_wcs fits_projections) p2a bnd order c None = Ok m0).
  { unfold construct. cbn [c_class c]. unfold wcsFactory. cbn [c_projection c].
    change (Nat.eqb (length (of_string "TAN")) 3) with true.
    cbn [negb bind]. unfold finish.
    change (sm_new sphere_offset _) with (sm_new sphere_offset d). rewrite E0. reflexivity. }
  assert (Hr : sm_reachable sphere_offset d s0) by (exists s0; split; [exact E0|constructor]).
  destruct (Verif.MainMaps.discrete_access_proof sphere_offset (selected (c_tb c)) mk (f2r f64_one) dc s0 0 Hc Hr) as [A _].
  { intros k co e. unfold mk, factory_wcs, makeWcs. cbn [makeSkyWcs skyToPixel]. destruct (plane_of _ _ _); discriminate. }
  { cbn. lia. }
  destruct (A eq_refl) as (s & t & G).
  { cbn [dc dc_dec In]. rewrite F2. intros dec [<-|[]]; lra. }
  destruct (getitem_holds sphere_offset d s0 0 s t Hr ltac:(lia) G) as (Hr' & Ac & Hh).
  set (m := mkMap c (VerInt 0) d s None).
  assert (Hu : used sphere_offset sha1 m0 m) by (apply (used_access sphere_offset sha1 m0 m0 s (used_not _ _ _) Ac)).
  assert (Hs : (0 < f2r (c_scale c))%R) by exact F3.
  assert (Hc' : cfg_ok (sd_cfg d)) by exact Hc.
  destruct (t_numPatches t) as [nx ny] eqn:En.
  assert (Hun : uniform_counts sphere_offset d (nx, ny)).
  { intros i a b oid b' t' Hi Ha Hb Hm. assert (i = 0) by (cbn in Hi; lia). subst i.
    pose proof Hh as Hsl. apply (holds_slot _ _ _ _ _ Hr') in Hsl. destruct Hsl as [_ Hsl].
    destruct (so_made _ _ _ _ _ (si_slots _ _ _ _ (reachable_inv _ _ _ Hr') _ _ Hsl)) as (a' & b0 & b1 & Ha' & Hb' & Hm').
    change (Z.of_nat (Z.to_nat 0)) with 0 in *. rewrite Ha in Ha'. injection Ha' as <-.
    pose proof (make_tract_indep sphere_offset (sd_cfg d) b b0 oid (t_oid t) 0 a Hb Hb') as K. rewrite Hm, Hm' in K.
    destruct K as (_ & _ & _ & _ & _ & K & _). congruence. }
  assert (Hgen : generable sphere_offset d).
  { intros s1 i Hs1 Hi. assert (i = 0) by (cbn in Hi; lia). subst i.
    destruct (regenerate sphere_offset d s s1 0 t Hr' Hh Hs1) as (sx & tx & Gx & _). eauto. }
  destruct (register_succeeds_proof _ sphere_offset d (nx, ny) name hash s (mkReg [] [] [] [] [] []) Hc' ltac:(cbn; lia) Hgen Hun Hr' (rh_empty _))
    as (s' & u' & R & CR); [intros []|intros []|].
  destruct (register_spec sphere_offset no_faults d (Ok hash) name s _ s' u' _ Hr' R) as (Ha & _).
  pose proof (reachable_accesses _ _ _ _ Hr' Ha) as Hr2. pose proof (holds_accesses _ _ _ _ _ _ Hr' Ha Hh) as Hh2.
  exists m0, m, s', u', t, nx, ny. cbv zeta. split; [exact C0|]. split; [exact Hu|]. split; [exact Hc|]. split; [exact Hs|].
  split; [exact R|]. split; [exact Hr2|]. split; [exact Hun|]. split; [exact CR|].
  assert (Hg : forall i t, holds sphere_offset (m_def m) i s' t -> gnomonic (t_wcs t)).
  { intros i' t' Ht'. pose proof (used_access sphere_offset sha1 m0 m s' Hu Ha) as Hu'.
    exact (proj1 (proj2 (map_wcs_proof fits_projections sphere_offset p2a bnd order sha1 c None m0 _ i' t' Hk Hord C0 Hu' Hc ltac:(intros; discriminate) Hs Ht')) eq_refl). }
  split; [exact Hg|]. split; [exact Hh2|].
  assert (Hcon : tract_contains t (sphere_offset (t_ctr t) 0 (deg 2)) = Ok true).
  { destruct (discrete_tracts_proof sphere_offset (selected (c_tb c)) mk (f2r f64_one) dc s' Hc Hr2) as [_ K].
    destruct (K 0 t Hh2) as (ra & dec & radius & _ & _ & Erad & _ & _ & _ & P). change (Ok (f2r f64_one) = Ok radius) in Erad. assert (Er : radius = f2r f64_one) by congruence. clear Erad. subst radius.
    destruct (factory_projections_proof fits_projections (f2r (c_scale c)) (f2r (c_rotation c)) Hk Hs) as (T & _).
    destruct (T (t_ctr t)) as ((a & b & _ & _ & _ & _ & _ & Pp) & _).
    specialize (P 0). cbv zeta in P.
    replace (IZR 0 * (PI / 2))%R with 0%R in P by ring.
    assert (E2 : (deg (f2r f64_one) + deg (f2r f64_one))%R = deg 2) by (rewrite F1; unfold deg; lra).
    rewrite E2 in P. fold mk in Pp.
    specialize (Pp (sphere_offset (t_ctr t) 0 (deg 2))).
    assert (Ed : dot (vec_of (sphere_offset (t_ctr t) 0 (deg 2))) (vec_of (t_ctr t)) = cos (deg 2)).
    { unfold sphere_offset. destruct (offset_dots (t_ctr t) 0 (deg 2)) as (D1 & _ & _ & U). now rewrite (vec_of_coord _ U). }
    rewrite Ed in Pp. unfold tan_factor in Pp.
    pose proof PI_RGT_0. assert (0 < cos (deg 2))%R by (unfold deg; apply cos_gt_0; lra).
    destruct (Rlt_bool_spec 0 (cos (deg 2))); [|lra].
    eapply P; [lia|exact Pp]. }
  split; [exact Hcon|]. split; [exact En|].
  destruct (in_use_spec _ _ _ _ Hc' (own_builder sphere_offset d s' Hr2 0 t Hh2)) as (a & b & _ & _ & _ & Hnt & Ha0 & Hb0 & _ & HB).
  rewrite En in Hnt. injection Hnt as <- <-.
  apply contains_lemma in Hcon. destruct Hcon as (px & py & _ & Hin). rewrite HB in Hin. unfold in_box in Hin. cbn [minx miny dimx dimy] in Hin.
  destruct (cfg_inner_pos _ Hc') as [Hw Hh']. set (w := fst (cfg_inner (sd_cfg d))) in *. set (h := snd (cfg_inner (sd_cfg d))) in *. clearbody w h.
  split; [clear -Hin Hw Ha0; nia|]. split; [clear -Hin Hh' Hb0; nia|]. cbn [m_def m]. unfold d, discrete_def. cbn [sd_cfg]. destruct Htb as [-> | ->]; cbn; lia.
Qed.
