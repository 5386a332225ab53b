(** From a coordinate to its tract and patch, for sky maps of every class (C86). *)
From Coq Require Import Reals Lra Lia String.
From Flocq Require Import Core.Raux IEEE754.Binary IEEE754.Bits.
Require Import Verif.Py Verif.Geom Verif.PatchInfo Verif.TractBuilder Verif.TractInfo Verif.Spec.
Require Import Verif.PatchProofs Verif.TractProofs Verif.SkyMap Verif.SkySpec Verif.SkyProofs Verif.SkyProofs2 Verif.Uniform Verif.MainSky.
Require Import Verif.Rings Verif.RingsSpec Verif.RingsProofs Verif.RingsNum Verif.Sphere Verif.SphereProofs Verif.Maps Verif.Dodeca Verif.DodecaSpec.
Require Import Verif.RegionProofs Verif.RingsProofs2 Verif.RingsProofs3 Verif.MainRings Verif.MainRings2 Verif.MainRings4 Verif.MapsProofs Verif.MainMaps.
Require Import Verif.Config Verif.ConfigSpec Verif.ConfigProofs Verif.Wcs Verif.WcsSpec Verif.MainWcs Verif.RotatedProofs Verif.MainRotated.
Require Import Verif.MainRegions Verif.ProjSpec Verif.MainDodeca Verif.MainDodeca3 Verif.MainHull Verif.MainEquat Verif.Lookup.
Open Scope list_scope.
Open Scope Z_scope.

Lemma factory_no_raise named name s o k co e : skyToPixel (factory_wcs named name s o k) co <> PixRaise e.
Proof. unfold factory_wcs, makeWcs. cbn [makeSkyWcs skyToPixel]. destruct (plane_of _ _ _); discriminate. Qed.

Lemma version_of c ver m0 offset skyWcs p2a bnd order n ra : construct offset skyWcs p2a bnd order c ver = Ok m0 -> c_class c = RingsCfg n ra ->
  exists g w, rings_init n (f2r ra) (match m_version m0 with VerInt z => z | VerTuple _ => -1 end) = Ok g
    /\ wcsFactory skyWcs c = Ok w /\ m_def m0 = rings_def (selected (c_tb c)) w (f2r (c_overlap c)) g.
Proof.
  intros C E. unfold construct in C. rewrite E in C.
  destruct (rings_init _ _ _) as [g|] eqn:G; cbn [bind] in C; [|discriminate].
  destruct (wcsFactory skyWcs c) as [w|]; cbn [bind] in C; [|discriminate].
  destruct (finish_ok _ _ _ _ _ C) as (s & _ & ->). exists g, w. cbn [m_version m_def]. auto.
Qed.

Lemma equat_construct c ver m0 offset skyWcs p2a bnd order n d0 d1 : construct offset skyWcs p2a bnd order c ver = Ok m0 -> c_class c = EquatCfg n (d0, d1) ->
  exists w, wcsFactory skyWcs c = Ok w /\ equat_def (selected (c_tb c)) w (f2r (c_overlap c)) n (f2r d0, f2r d1) = Ok (m_def m0).
Proof.
  intros C Ec. unfold construct in C. rewrite Ec in C. destruct ver; [discriminate|]. destruct (wcsFactory skyWcs c) as [w|] eqn:W; cbn [bind] in C; [|discriminate].
  destruct (equat_def _ _ _ _ _) as [d|] eqn:D; cbn [bind] in C; [|discriminate].
  destruct (finish_ok _ _ _ _ _ C) as (s & _ & E). exists w. split; [reflexivity|]. rewrite E. exact D.
Qed.
Lemma dodeca_construct c ver m0 offset skyWcs p2a bnd order b : construct offset skyWcs p2a bnd order c ver = Ok m0 -> c_class c = DodecaCfg b ->
  exists w D, wcsFactory skyWcs c = Ok w /\ Dodecahedron_init order b = Ok D /\ m_def m0 = dodeca_def (selected (c_tb c)) w (f2r (c_overlap c)) D
    /\ sm_new offset (m_def m0) = Ok (m_state m0).
Proof.
  intros C Ec. unfold construct in C. rewrite Ec in C. destruct ver; [discriminate|]. destruct (wcsFactory skyWcs c) as [w|] eqn:W; cbn [bind] in C; [|discriminate].
  destruct (Dodecahedron_init order b) as [D|] eqn:Ed; cbn [bind] in C; [|discriminate].
  destruct (finish_ok _ _ _ _ _ C) as (s & Es & E). exists w, D. rewrite E. auto.
Qed.

Section Found.
Variables (named : pystr -> projection) (p2a : Z -> bool -> Z -> sphere) (bnd : Z -> bool -> Z -> list sphere) (a2p : Z -> bool -> R * R -> Z)
  (order : set_order) (sha1 : pystr -> pystr) (c : config) (ver : option pyversion) (m0 m : skymap) (coord : sphere).
Hypothesis Hk : knows named.
Hypothesis Hord : any_order order.
Hypothesis C : construct sphere_offset (factory_wcs named) p2a bnd order c ver = Ok m0.
Hypothesis U : used sphere_offset sha1 m0 m.
Hypothesis Hc : cfg_ok (selected (c_tb c)).
Hypothesis Hs : (0 < f2r (c_scale c))%R.
Hypothesis Hsp : on_sphere coord.

Definition found (s' : smstate sphere) (t : tract sphere) : Prop :=
  map_findTract a2p sphere_offset order m coord (m_state m) = (s', Ok t)
  /\ accesses sphere_offset (m_def m) (m_state m) s' /\ holds sphere_offset (m_def m) (t_id t) s' t /\ tract_contains t coord = Ok true.

Lemma cls : m_config m = c /\ m_def m = m_def m0 /\ m_version m = m_version m0.
Proof.
  destruct (used_fields _ _ _ _ U) as (A & B & D & _). destruct (construct_ok _ _ _ _ _ _ _ _ C) as (_ & E & _). split; [congruence|]. auto.
Qed.
Lemma reach : sm_reachable sphere_offset (m_def m) (m_state m).
Proof. destruct cls as (_ & -> & _). exact (used_reachable _ _ _ _ _ _ _ _ _ _ C U). Qed.

Lemma later s' t i : accesses sphere_offset (m_def m) (m_state m) s' -> holds sphere_offset (m_def m) i s' t ->
  sm_reachable sphere_offset (m_def m) s' /\ used sphere_offset sha1 m0 (mkMap (m_config m) (m_version m) (m_def m) s' (m_sha1 m)) /\ t_id t = i.
Proof.
  intros Ha Hh. pose proof (reachable_accesses _ _ _ _ reach Ha) as Hr. split; [exact Hr|].
  split; [exact (used_access sphere_offset sha1 m0 m s' U Ha)|]. exact (holds_id _ _ _ _ _ Hr Hh).
Qed.

Lemma found_rings n ra : c_class c = RingsCfg n ra -> m_version m0 = VerInt 1 -> covered c coord -> exists s' t, found s' t.
Proof.
  intros Ec Hv Hcov. destruct cls as (E1 & E2 & E3). pose proof reach as Hr.
  unfold covered in Hcov. rewrite Ec in Hcov. destruct Hcov as (Hn & name & dist & limit & Hin & Hname & Hlim & Hpart).
  destruct (version_of _ _ _ _ _ _ _ _ _ _ C Ec) as (g & w & G & W & D). rewrite Hv in G.
  destruct (rings_init_wf n _ _ _ ltac:(lia) G) as (Wf & _ & EN & _).
  unfold wcsFactory in W. destruct (negb _); [discriminate|]. injection W as W.
  destruct (rings_findTract_total_proof sphere_offset (selected (c_tb c)) w (f2r (c_overlap c)) g coord (m_state m) Wf) as (i & Ei & Hi & E & _).
  rewrite E2, D in Hr.
  destruct (getitem_total sphere_offset (rings_def (selected (c_tb c)) w (f2r (c_overlap c)) g) (m_state m) i Hc) as (s' & t & Gt & Hh & Ha & Hr'); [|exact Hr|exact Hi|].
  { intros j Hj. destruct (rings_args_total g w (f2r (c_overlap c)) Wf j Hj) as (a & Ea). exists a. split; [exact Ea|].
    destruct (rings_args_inv _ _ _ _ _ Ea) as (ctr & cor & _ & ->). intros s e _. cbn [args_wcs]. rewrite <- W. apply factory_no_raise. }
  assert (Ef : rings_findTract sphere_offset (rings_def (selected (c_tb c)) w (f2r (c_overlap c)) g) g coord (m_state m) = (s', Ok t)) by (now rewrite E).
  pose proof (rings_found_distance_proof sphere_offset (selected (c_tb c)) w (f2r (c_overlap c)) n (f2r ra) 1 g coord (m_state m) s' t Hn G Hr Hsp Ef (or_introl eq_refl)) as Hd.
  rewrite <- D, <- E2 in Ha, Hh.
  destruct (later s' t i Ha Hh) as (_ & U' & Hid).
  exists s', t. split.
  { unfold map_findTract. rewrite E1, Ec. unfold smbind, smlift. rewrite E3, Hv, G, E2, D. exact Ef. }
  split; [exact Ha|]. split; [now rewrite Hid|].
  assert (Hrad : tract_radius (c_class c) i (PI / (IZR n + 1) / 2)) by (rewrite Ec; reflexivity).
  assert (Hn1 : forall n' ra', c_class c = RingsCfg n' ra' -> 1 <= n') by (intros n' ra' E'; rewrite Ec in E'; injection E' as <- _; lia).
  destruct (rotated_maps_proof named p2a bnd order sha1 c ver m0 _ i t _ name dist limit Hk C U' Hc Hn1 Hs Hname Hin Hh Hrad Hlim) as [K _].
  apply K. rewrite (rw_size g Wf), EN in Hd. lra.
Qed.

Lemma found_discrete ras decs radii : c_class c = DiscreteCfg ras decs radii -> covered c coord -> exists s' t, found s' t.
Proof.
  intros Ec Hcov. destruct cls as (E1 & E2 & E3). pose proof reach as Hr.
  unfold covered in Hcov. rewrite Ec in Hcov. destruct Hcov as (L1 & L2 & Hdec & name & dist & limit & Hin & Hname & k & ra & dec & K1 & K2 & Hrad).
  assert (D : exists w, wcsFactory (factory_wcs named) c = Ok w
     /\ m_def m0 = discrete_def (selected (c_tb c)) w (f2r (c_overlap c)) (mkDiscrete (map f2r ras) (map f2r decs) (map f2r radii))).
  { unfold construct in C. rewrite Ec in C. destruct (wcsFactory _ c) as [w|]; cbn [bind] in C; [|discriminate].
    destruct (finish_ok _ _ _ _ _ C) as (s & _ & E). exists w. split; [reflexivity|]. now rewrite E. }
  destruct D as (w & W & D). unfold wcsFactory in W. destruct (negb _); [discriminate|]. injection W as W.
  assert (Kr : (k < length radii)%nat) by (rewrite <- L1; apply nth_error_Some; congruence).
  destruct (base_findTract sphere_offset separation (m_def m) coord (m_state m)) as [s' r] eqn:E.
  destruct (base_findTract_nearest_proof _ sphere_offset separation (m_def m) coord (m_state m) s' r Hr E) as (Ha & _ & P & Q).
  assert (Hnum : sd_num (m_def m) = Z.of_nat (length radii)) by (rewrite E2, D; cbn; now rewrite map_length).
  set (dc := mkDiscrete (map f2r ras) (map f2r decs) (map f2r radii)) in *.
  destruct r as [t|e].
  2:{ exfalso. destruct (Q e eq_refl ltac:(lia)) as (i & s1 & Hi & Ha1 & G).
      pose proof (reachable_accesses _ _ _ _ Hr Ha1) as Hr1. rewrite E2, D in Hr1, G.
      destruct (discrete_access_proof sphere_offset (selected (c_tb c)) w (f2r (c_overlap c)) dc s1 i Hc Hr1) as [A _].
      - intros k0 co e0. rewrite <- W. apply factory_no_raise.
      - cbn. rewrite map_length. lia.
      - destruct A as (s2 & t & G'); [| |congruence].
        + apply (discrete_validate_exact_proof dc). cbn. rewrite !map_length. auto.
        + cbn [dc dc_dec]. intros x Hx. apply in_map_iff in Hx. destruct Hx as (y & <- & Hy). auto. }
  destruct (P t eq_refl) as (i & Hi & Hh & Hmin).
  destruct (later s' t i Ha Hh) as (Hr' & U' & Hid).
  exists s', t. split.
  { unfold map_findTract. now rewrite E1, Ec. }
  split; [exact Ha|]. split; [now rewrite Hid|].
  destruct (nth_error radii (Z.to_nat i)) as [x|] eqn:Ex; [|apply nth_error_None in Ex; lia].
  destruct (Hrad x (nth_error_In _ _ Ex)) as [Hlim Hx].
  assert (Hr2 : tract_radius (c_class c) i (f2r x * (PI / 180))).
  { rewrite Ec. exists x. split; [apply py_nth_in; [lia|exact Ex]|reflexivity]. }
  assert (Hn1 : forall n' ra', c_class c = RingsCfg n' ra' -> 1 <= n') by (intros n' ra' E'; rewrite Ec in E'; discriminate).
  destruct (rotated_maps_proof named p2a bnd order sha1 c ver m0 _ i t _ name dist limit Hk C U' Hc Hn1 Hs Hname Hin Hh Hr2 Hlim) as [K _].
  apply K. apply Rle_trans with (2 := Hx).
  destruct (Hmin (Z.of_nat k) ltac:(lia)) as (u & Hu & Hle & _).
  eapply Rle_trans; [exact Hle|]. right. f_equal.
  rewrite E2, D in Hr', Hu.
  destruct (discrete_tracts_proof sphere_offset (selected (c_tb c)) w (f2r (c_overlap c)) dc s' Hc Hr') as [_ T].
  destruct (T _ _ Hu) as (ra' & dec' & _ & R1 & R2 & _ & _ & -> & _).
  assert (M : forall l y v, nth_error l k = Some y -> py_nth (map f2r l) (Z.of_nat k) = Ok v -> v = f2r y).
  { intros l y v E0 E4. rewrite (py_nth_in (map f2r l) (Z.of_nat k) (f2r y)) in E4; [congruence|lia|].
    rewrite Nat2Z.id. now apply map_nth_error. }
  rewrite (M ras ra ra' K1 R1), (M decs dec dec' K2 R2). reflexivity.
Qed.

Lemma found_equat n d0 d1 : c_class c = EquatCfg n (d0, d1) -> covered c coord -> exists s' t, found s' t.
Proof.
  intros Ec Hcov. destruct cls as (E1 & E2 & E3). pose proof reach as Hr.
  unfold covered in Hcov. rewrite Ec in Hcov. destruct Hcov as (Hn & Hname & Hov & H0 & H1 & Hdec).
  destruct (equat_construct _ _ _ _ _ _ _ _ _ _ _ C Ec) as (w & W & D). rewrite <- E2 in D. remember (m_def m) as d eqn:Ed'. assert (Ed : m_def m = d) by (symmetry; exact Ed'). clear Ed'.
  unfold wcsFactory in W. destruct (negb _); [discriminate|]. injection W as W. rewrite Hname in W.
  destruct (factory_projections_proof named (f2r (c_scale c)) (f2r (c_rotation c)) Hk Hs) as (_ & _ & Hcyl). rewrite W in Hcyl.
  destruct (equat_cea_findTract_proof (selected (c_tb c)) w (f2r (c_overlap c)) n (f2r d0) (f2r d1) d (m_state m) coord Hc Hn Hcyl Hov H0 H1 D Hr Hsp Hdec) as (s' & t & Ef & Hcon).
  destruct (base_findTract_nearest_proof _ sphere_offset separation d coord (m_state m) s' (Ok t) Hr Ef) as (Ha & _ & P & _).
  destruct (P t eq_refl) as (i & Hi & Hh & _). rewrite <- Ed in Ha, Hh. destruct (later s' t i Ha Hh) as (_ & _ & Hid).
  exists s', t. split; [|split; [exact Ha|split; [now rewrite Hid|exact Hcon]]].
  unfold map_findTract. now rewrite E1, Ec, Ed.
Qed.

Lemma found_dodeca b : c_class c = DodecaCfg b -> covered c coord -> exists s' t, found s' t.
Proof.
  intros Ec Hcov. destruct cls as (E1 & E2 & E3). pose proof reach as Hr.
  unfold covered in Hcov. rewrite Ec in Hcov.
  destruct (dodeca_construct _ _ _ _ _ _ _ _ _ C Ec) as (w & D & W & Ed & Edef & Es). rewrite Edef in Es. rewrite <- E2 in Edef.
  set (s := m_state m0) in *.
  unfold wcsFactory in W. destruct (negb _); [discriminate|]. injection W as W.
  destruct (used_fields _ _ _ _ U) as (_ & _ & _ & Ha0 & _).
  assert (New : dodeca_new order sphere_offset (selected (c_tb c)) w (f2r (c_overlap c)) b = Ok (D, s)) by (unfold dodeca_new; rewrite Ed; cbn [bind]; now rewrite Es).
  fold s in Ha0. rewrite <- E2, Edef in Ha0.
  assert (K : exists t, dodeca_findTract sphere_offset (dodeca_def (selected (c_tb c)) w (f2r (c_overlap c)) D) D coord (m_state m) = (m_state m, Ok t) /\ tract_contains t coord = Ok true).
  { destruct (factory_projections_proof named (f2r (c_scale c)) (f2r (c_rotation c)) Hk Hs) as (Pt & Pg & _).
    destruct Hcov as [[Hname Hov]|[Hname Hov]]; rewrite Hname in W; rewrite W in *.
    - exact (dodeca_stereographic_cover_proof order _ w _ b D s (m_state m) coord Hord Hc Pg Hov New Ha0).
    - destruct (dodeca_gnomonic_cover_proof order _ w _ b D s (m_state m) coord Hord Hc (fun ctr => proj1 (Pt ctr)) Hov New Ha0) as (t & F1 & F2 & _). eauto. }
  destruct K as (t & Ef & Hcon). pose proof Ef as Ef'. unfold dodeca_findTract, smbind, smlift in Ef'.
  destruct (getFaceInd D (vec_of coord)) as [i|] eqn:Ei; [|discriminate].
  rewrite Edef in Hr. destruct (getitem_holds sphere_offset _ _ (Z.of_nat i) _ t Hr ltac:(lia) Ef') as (_ & Ha & Hh).
  rewrite <- Edef in Ha, Hh. destruct (later _ t _ Ha Hh) as (_ & _ & Hid).
  exists (m_state m), t. split; [|split; [exact Ha|split; [now rewrite Hid|exact Hcon]]].
  unfold map_findTract. rewrite E1, Ec. unfold smbind, smlift. rewrite Ed, Edef. exact Ef.
Qed.

Lemma found_all : (forall n ra, c_class c = RingsCfg n ra -> m_version m0 = VerInt 1) -> covered c coord -> exists s' t, found s' t.
Proof.
  intros Hv Hcov. destruct (c_class c) as [n ra|ras decs radii|n [d0 d1]|b|n nest] eqn:Ec.
  - eapply found_rings; eauto.
  - eapply found_discrete; eauto.
  - eapply found_equat; eauto.
  - eapply found_dodeca; eauto.
  - unfold covered in Hcov. rewrite Ec in Hcov. contradiction.
Qed.
End Found.

(** The pixel position depends on the components of a coordinate in the frame of the reference coordinate only. *)
Lemma factory_frame named name s o : knows named -> In name ["TAN"; "STG"; "CEA"]%string ->
  exists F, forall ctr c, skyToPixel (factory_wcs named (of_string name) s o ctr) c
    = F (dot (vec_of c) (vec_of ctr)) (dot (vec_of c) (east ctr)) (dot (vec_of c) (north ctr)).
Proof.
  intros (N1 & N2 & N3) Hin. unfold factory_wcs, makeWcs. cbn [f_projection f_cdMatrix]. set (cd := makeCdMatrix _ _ _).
  set (pos := fun p : option (R * R) => match p with Some p => let q := mat_apply (mat_inverse cd) p in Pix (0 + fst q) (0 + snd q) | None => PixNaN end).
  assert (Z : forall f, exists F : R -> R -> R -> pixres, forall ctr c, pos (zenithal_plane f ctr c) = F (dot (vec_of c) (vec_of ctr)) (dot (vec_of c) (east ctr)) (dot (vec_of c) (north ctr))).
  { intros f. exists (fun x y z => pos (match f x with Some u => Some (asDegrees (u * y), asDegrees (u * z)) | None => None end)).
    intros ctr c. unfold zenithal_plane. reflexivity. }
  cbn [In] in Hin. destruct Hin as [<-|[<-|[<-|[]]]]; rewrite ?N1, ?N2, ?N3.
  - exact (Z tan_factor).
  - exact (Z stg_factor).
  - exists (fun x y z => pos (Some (asDegrees (atan2 y x), asDegrees z))). reflexivity.
Qed.

Lemma factory_offset named name s o ctr ctr' b a : knows named -> In name ["TAN"; "STG"; "CEA"]%string ->
  skyToPixel (factory_wcs named (of_string name) s o ctr) (sphere_offset ctr b a)
  = skyToPixel (factory_wcs named (of_string name) s o ctr') (sphere_offset ctr' b a).
Proof.
  intros Hk Hin. destruct (factory_frame named name s o Hk Hin) as (F & HF). rewrite !HF. unfold sphere_offset.
  destruct (offset_dots ctr b a) as (D1 & D2 & D3 & U1). destruct (offset_dots ctr' b a) as (D1' & D2' & D3' & U1').
  rewrite !vec_of_coord by assumption. now rewrite D1, D2, D3, D1', D2', D3'.
Qed.

Lemma factory_invariant named name s o : knows named -> In name ["TAN"; "STG"; "CEA"]%string ->
  longitude_invariant (factory_wcs named (of_string name) s o).
Proof.
  intros Hk Hin a dl c c' E. destruct (factory_frame named name s o Hk Hin) as (F & HF). rewrite !HF.
  rewrite E, vec_of_shift, east_shift, north_shift, !rotz_dot. reflexivity.
Qed.

Lemma explicit_uniform named name s o (d : skydef sphere) rad ov : knows named -> In name ["TAN"; "STG"; "CEA"]%string -> cfg_ok (sd_cfg d) ->
  (forall i a, 0 <= i < sd_num d -> sd_args d i = Ok a -> exists ctr cor, a = ExplicitArgs ctr rad ov (factory_wcs named (of_string name) s o ctr) cor) ->
  exists n, uniform_counts sphere_offset d n.
Proof.
  intros Hk Hin Hc Ha. set (k0 := (0, 0)%R : sphere).
  set (a0 := ExplicitArgs k0 rad ov (factory_wcs named (of_string name) s o k0) None).
  destruct (include_all_ok (args_wcs a0) (args_samples sphere_offset a0)) as (m & Em).
  { intros p e _. apply factory_no_raise. }
  destruct (make_tract_ok sphere_offset (sd_cfg d) (builder_init (sd_cfg d)) 0%nat 0 a0 m Hc (br_init (sd_cfg d)) Em) as (b0 & t0 & M0).
  exists (t_numPatches t0). intros i a b oid b' t Hi Ea Hr M.
  eapply (make_tract_counts sphere_offset (sd_cfg d) _ _ _ _ _ _ a a0); [exact Hc|exact Hr|exact (br_init (sd_cfg d))|exact M|exact M0|].
  destruct (Ha i a Hi Ea) as (ctr & cor & ->). cbn [args_wcs args_samples a0]. unfold explicit_samples. rewrite !map_map.
  apply map_ext. intros j. apply factory_offset; assumption.
Qed.

(*@ C86, C20, C55: all tracts of a Rings map, of an Equat map, and of a Discrete map whose tracts have one radius have the same patch counts, for the projections
    TAN, STG and CEA at any scale and rotation. *)
Lemma equal_counts_proof : forall named p2a bnd order c ver m name,
  knows named -> construct sphere_offset (factory_wcs named) p2a bnd order c ver = Ok m -> cfg_ok (selected (c_tb c)) ->
  In name ["TAN"; "STG"; "CEA"]%string -> c_projection c = of_string name ->
  match c_class c with
  | RingsCfg _ _ | EquatCfg _ _ => True
  | DiscreteCfg _ _ radii => exists r, forall r', In r' radii -> f2r r' = r
  | DodecaCfg _ | HealpixCfg _ _ => False
  end ->
  exists n, uniform_counts sphere_offset (m_def m) n.
Proof.
  intros named p2a bnd order c ver m name Hk C Hc Hin Hn H.
  destruct (c_class c) as [n ra|ras decs radii|n [d0 d1]|b|n nest] eqn:Ec; [| | |contradiction|contradiction].
  - destruct (version_of _ _ _ _ _ _ _ _ _ _ C Ec) as (g & w & G & W & D). unfold wcsFactory in W. destruct (negb _); [discriminate|]. injection W as W. rewrite Hn in W.
    rewrite D. apply (explicit_uniform named name (f2r (c_scale c)) (f2r (c_rotation c)) (rings_def (selected (c_tb c)) w (f2r (c_overlap c)) g) (1 / 2 * rg_size g)%R (deg (f2r (c_overlap c))) Hk Hin Hc).
    intros i a Hi Ea. destruct (rings_args_inv _ _ _ _ _ Ea) as (ctr & cor & _ & ->). exists ctr, cor. now rewrite W.
  - destruct H as (r & Hr). unfold construct in C. rewrite Ec in C. destruct (wcsFactory _ c) as [w|] eqn:W; cbn [bind] in C; [|discriminate].
    destruct (finish_ok _ _ _ _ _ C) as (s & _ & E). rewrite E. cbn [m_def]. unfold wcsFactory in W. destruct (negb _); [discriminate|]. injection W as W. rewrite Hn in W.
    apply (explicit_uniform named name (f2r (c_scale c)) (f2r (c_rotation c)) (discrete_def (selected (c_tb c)) w (f2r (c_overlap c)) (mkDiscrete (map f2r ras) (map f2r decs) (map f2r radii))) (deg r) (deg (f2r (c_overlap c))) Hk Hin Hc).
    intros i a Hi Ea. cbn [sd_args discrete_def] in Ea. unfold discrete_args in Ea.
    destruct (py_nth _ i) as [x|] in Ea; [|discriminate]. cbn [bind] in Ea. destruct (py_nth _ i) as [y|] in Ea; [|discriminate]. cbn [bind] in Ea.
    destruct (makeSpherePoint _ _) as [ctr|]; [|discriminate]. cbn [bind] in Ea. destruct (py_nth _ i) as [z|] eqn:Ez in Ea; [|discriminate]. cbn [bind] in Ea.
    injection Ea as <-. cbn [dc_radius] in Ez. assert (z = r).
    { cbn in Hi. rewrite map_length in Hi. destruct (nth_error radii (Z.to_nat i)) as [r'|] eqn:En; [|apply nth_error_None in En; lia].
      rewrite (py_nth_in (map f2r radii) i (f2r r') (proj1 Hi)) in Ez by (now apply map_nth_error). injection Ez as <-. apply Hr. exact (nth_error_In _ _ En). }
    subst z. exists ctr, None. now rewrite W.
  - destruct (equat_construct _ _ _ _ _ _ _ _ _ _ _ C Ec) as (w & W & D). unfold wcsFactory in W. destruct (negb _); [discriminate|]. injection W as W. rewrite Hn in W.
    apply (equat_uniform_proof (selected (c_tb c)) w (f2r (c_overlap c)) n (f2r d0, f2r d1) (m_def m) (m_state m) Hc); [|exact D|].
    + rewrite <- W. now apply factory_invariant.
    + exact (used_reachable _ _ _ _ _ _ _ _ _ _ C (used_not sphere_offset (fun x => x) m)).
Qed.

(*@ C86: findTract of a constructed and used sky map, of any class but HEALPix, succeeds for every covered coordinate, and its tract contains the coordinate.  If all
    tracts of the map have the same patch counts, findPatch of that tract succeeds as well: the coordinate's pixel position lies in the inner box of its patch,
    which is the one getPatchInfo gives for its index. *)
Lemma coordinate_lookup_proof : forall named p2a bnd a2p order sha1 c ver m0 m coord,
  knows named -> any_order order -> construct sphere_offset (factory_wcs named) p2a bnd order c ver = Ok m0 -> used sphere_offset sha1 m0 m ->
  cfg_ok (selected (c_tb c)) -> (0 < f2r (c_scale c))%R -> on_sphere coord ->
  (forall n ra, c_class c = RingsCfg n ra -> m_version m0 = VerInt 1) -> covered c coord ->
  exists s' t, map_findTract a2p sphere_offset order m coord (m_state m) = (s', Ok t)
    /\ accesses sphere_offset (m_def m) (m_state m) s' /\ holds sphere_offset (m_def m) (t_id t) s' t
    /\ tract_contains t coord = Ok true
    /\ ((exists n, uniform_counts sphere_offset (m_def m) n) -> dimx (t_bbox t) < 2 ^ 31 -> dimy (t_bbox t) < 2 ^ 31 ->
        exists p i j px py, findPatch (sm_builder s') t coord = Ok p /\ tract_getPatchInfo (sm_builder s') t (IxIndex2D i j) = Ok p
          /\ pixel_of t coord px py /\ in_box px py (p_inner p)).
Proof.
  intros named p2a bnd a2p order sha1 c ver m0 m coord Hk Ho C U Hc Hs Hsp Hv Hcov.
  destruct (found_all named p2a bnd a2p order sha1 c ver m0 m coord Hk Ho C U Hc Hs Hsp Hv Hcov) as (s' & t & Ef & Ha & Hh & Hcon).
  exists s', t. split; [exact Ef|]. split; [exact Ha|]. split; [exact Hh|]. split; [exact Hcon|].
  intros (n & Hn) Hx Hy.
  assert (Ecfg : sd_cfg (m_def m) = selected (c_tb c)).
  { destruct (used_fields _ _ _ _ U) as (_ & _ & -> & _). exact (construct_cfg _ _ _ _ _ _ _ _ C). }
  pose proof (reach named p2a bnd order sha1 c ver m0 m C U) as Hr.
  pose proof (uniform_in_use sphere_offset (m_def m) n s' (t_id t) t ltac:(now rewrite Ecfg) Hn (reachable_accesses _ _ _ _ Hr Ha) Hh) as Hu.
  pose proof (findPatch_lemma _ sphere_offset (sd_cfg (m_def m)) (sm_builder s') t coord ltac:(now rewrite Ecfg) Hu Hx Hy) as K.
  rewrite Hcon in K. destruct K as (p & i & j & px & py & K1 & K2 & K3 & _ & K4). exists p, i, j, px, py. auto.
Qed.

Lemma axis_0 : axis_part (f2r f64_zero * (PI / 180)) = 1%R.
Proof.
  change (f2r f64_zero) with 0%R. unfold axis_part. rewrite Rmult_0_l, cos_0, sin_0, Rabs_R1, Rabs_R0. apply Rmax_left. lra.
Qed.

(*@ C86, non-vacuity: the default Rings settings with 120 rings and the default Dodeca settings cover every coordinate, the default Equat settings those with
    declinations from -1.25 to 1.25, and the default settings with one tract of radius 4 at RA 3.5, Dec 45 those at most 5 degrees from there; all four
    maps can be constructed, and three of them have equal patch counts. *)
Example coordinate_lookup_defaults_proof : forall p2a bnd order, any_order order ->
  let ready c cov := exists m, construct sphere_offset (factory_wcs fits_projections) p2a bnd order c None = Ok m
    /\ cfg_ok (selected (c_tb c)) /\ (0 < f2r (c_scale c))%R /\ (forall n ra, c_class c = RingsCfg n ra -> m_version m = VerInt 1)
    /\ (forall coord, on_sphere coord -> cov coord -> covered c coord)
    /\ (c <> dodeca_default -> exists n, uniform_counts sphere_offset (m_def m) n) in
  knows fits_projections
  /\ ready (rings_default 120) (fun _ => True)
  /\ ready equat_default (fun coord => - deg (5 / 4) <= snd coord <= deg (5 / 4))%R
  /\ ready dodeca_default (fun _ => True)
  /\ ready (base_default (DiscreteCfg [f64_3_5] [f64_45] [f64_4])) (fun coord => separation coord (spherePoint (deg (7 / 2)) (deg 45)) <= deg 5)%R.
Proof.
  intros p2a bnd order Ho ready. pose proof PI_RGT_0 as HP.
  assert (Hk : knows fits_projections) by (unfold knows, fits_projections; repeat split). split; [exact Hk|].
  assert (F1 : f2r f64_one = 1%R) by (vm_compute; lra). assert (F2 : f2r f64_45 = 45%R) by (vm_compute; lra).
  assert (F3 : (0 < f2r f64_0_333)%R) by (vm_compute; lra). assert (F4 : f2r f64_4 = 4%R) by (vm_compute; lra).
  assert (F5 : f2r f64_3_5 = (7 / 2)%R) by (vm_compute; lra). assert (F6 : (0 < f2r f64_0_2)%R) by (vm_compute; lra).
  assert (F7 : f2r f64_1_25 = (5 / 4)%R) by (vm_compute; lra). assert (F8 : f2r f64_m1_25 = (- (5 / 4))%R) by (vm_compute; lra).
  assert (S : forall c cov, (exists m, construct sphere_offset (factory_wcs fits_projections) p2a bnd order c None = Ok m) ->
    cfg_ok (selected (c_tb c)) -> (0 < f2r (c_scale c))%R -> 
    (forall coord, on_sphere coord -> cov coord -> covered c coord) ->
    (c <> dodeca_default -> (exists name, In name ["TAN"; "STG"; "CEA"]%string /\ c_projection c = of_string name) /\
       match c_class c with
       | RingsCfg _ _ | EquatCfg _ _ => True
       | DiscreteCfg _ _ radii => exists r, forall r', In r' radii -> f2r r' = r
       | DodecaCfg _ | HealpixCfg _ _ => False
       end) -> ready c cov).
  { intros c cov (m & C) Hc Hs Hcov Hu. exists m. split; [exact C|]. split; [exact Hc|]. split; [exact Hs|]. split.
    - intros n ra E. unfold construct in C. rewrite E in C. destruct (rings_init _ _ _); cbn [bind] in C; [|discriminate].
      destruct (wcsFactory _ c); cbn [bind] in C; [|discriminate]. destruct (finish_ok _ _ _ _ _ C) as (s & _ & ->). reflexivity.
    - split; [exact Hcov|]. intros H. destruct (Hu H) as ((name & H1 & H2) & H3). eapply equal_counts_proof; eassumption. }
  split; [|split; [|split]]; apply S; clear S.
  - eexists. reflexivity.
  - cbn; lia.
  - exact F3.
  - intros coord _ _. unfold covered. change (c_rotation _) with f64_zero. change (c_overlap _) with f64_one. rewrite axis_0, F1. cbn [c_class rings_default base_default].
    split; [lia|]. exists "STG"%string, (fun x => 2 * atan (x / 2))%R, PI. split; [right; left; reflexivity|]. split; [reflexivity|]. cbv zeta. lra.
  - intros _. split; [|exact I]. exists "STG"%string. cbn [In]. auto.
  - unfold construct. cbn [c_class equat_default base_default]. unfold wcsFactory. change (negb _) with false. cbn [bind].
    unfold equat_def. cbn [Z.eqb bind]. unfold finish.
    set (d := mkDef _ _ _ _). destruct (eager_new_ok sphere_offset d eq_refl) as (s0 & E0); [cbn; lia| |rewrite E0; cbn [bind]; eauto].
    intros i Hi. cbn [sd_args d].
    match goal with |- context [equat_args ?mk ?ov ?n ?ds i] => destruct (equat_args_ok mk ov n ds i) as (a & Ea) end.
    1,2: cbn [fst snd]; rewrite ?F7, ?F8; unfold deg; apply Rabs_le; lra.
    exists a. split; [exact Ea|]. intros s e _. apply equat_args_inv in Ea. destruct Ea as (_ & _ & ->). apply factory_no_raise.
  - cbn; lia.
  - exact F3.
  - intros coord _ Hd. unfold covered. cbn [c_class equat_default base_default]. change (c_overlap _) with f64_one. rewrite F1, F7, F8.
    rewrite Rabs_Ropp, Rabs_pos_eq by lra. unfold deg in Hd. split; [lia|]. split; [reflexivity|]. lra.
  - intros _. split; [|exact I]. exists "CEA"%string. cbn [In]. auto.
  - set (mk := factory_wcs fits_projections (c_projection dodeca_default) (f2r (c_scale dodeca_default)) (f2r (c_rotation dodeca_default))).
    destruct (dodeca_constructed_proof order sphere_offset (selected (c_tb dodeca_default)) mk (f2r (c_overlap dodeca_default)) false Ho) as (D & s & E & _).
    + cbn; lia.
    + intros ctr p e. apply factory_no_raise.
    + unfold dodeca_new in E. unfold construct. change (c_class dodeca_default) with (DodecaCfg false). unfold wcsFactory. change (negb _) with false. cbn [bind].
      destruct (Dodecahedron_init order false) as [D'|]; [|discriminate]. cbn [bind] in E |- *. unfold finish. fold mk.
      destruct (sm_new _ _) as [s'|]; [|discriminate]. cbn [bind]. eauto.
  - cbn; lia.
  - exact F6.
  - intros coord _ _. unfold covered. change (c_class dodeca_default) with (DodecaCfg false). left. split; [reflexivity|]. change (c_overlap dodeca_default) with f64_3_5. rewrite F5. lra.
  - intros H. contradiction H; reflexivity.
  - eexists. reflexivity.
  - cbn; lia.
  - exact F3.
  - intros coord _ Hd. unfold covered. change (c_rotation _) with f64_zero. change (c_overlap _) with f64_one. rewrite axis_0, F1. cbn [c_class base_default].
    split; [reflexivity|]. split; [reflexivity|]. split; [cbn [In]; intros d [<-|[]]; rewrite F2; lra|].
    exists "STG"%string, (fun x => 2 * atan (x / 2))%R, PI. split; [right; left; reflexivity|]. split; [reflexivity|].
    exists 0%nat, f64_3_5, f64_45. split; [reflexivity|]. split; [reflexivity|]. cbn [In]. intros r [<-|[]]. rewrite F4, F5, F2. unfold deg in Hd. lra.
  - intros _. split; [exists "STG"%string; cbn [In]; auto|]. cbn [c_class base_default]. exists (f2r f64_4). cbn [In]. intros r [<-|[]]. reflexivity.
Qed.
