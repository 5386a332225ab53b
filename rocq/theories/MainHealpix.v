(** From a coordinate to its tract, for constructed HEALPix sky maps (C86). *)
From Coq Require Import Reals Lra Lia String.
From Flocq Require Import Core.Raux IEEE754.Binary IEEE754.Bits.
Require Import Verif.Py Verif.Geom Verif.PatchInfo Verif.TractBuilder Verif.TractInfo Verif.Spec.
Require Import Verif.SkyMap Verif.SkySpec Verif.SkyProofs Verif.SkyProofs2 Verif.Uniform Verif.MainSky.
Require Import Verif.Rings Verif.Sphere Verif.SphereProofs Verif.TractBox Verif.TractProofs Verif.Maps Verif.Dodeca Verif.Region Verif.RegionProofs Verif.MapsProofs Verif.MainMaps.
Require Import Verif.Config Verif.ConfigSpec Verif.ConfigProofs Verif.Wcs Verif.WcsSpec Verif.MainWcs.
Require Import Verif.MainRegions Verif.ProjSpec Verif.TractHull Verif.MainHull Verif.MainLookup Verif.Lookup.
Import ListNotations.
Open Scope list_scope.
Open Scope Z_scope.

Lemma ang_ok a : (0 <= fst a <= PI)%R -> angToCoord a = Ok (spherePoint (snd a) (fst a - 1 / 2 * PI)).
Proof.
  intros H. unfold angToCoord, makeSpherePoint. destruct (Rle_bool_spec (Rabs (fst a - 1 / 2 * PI)) (PI / 2)) as [K|K]; [reflexivity|].
  exfalso. assert (Rabs (fst a - 1 / 2 * PI) <= PI / 2)%R by (apply Rabs_le; lra). lra.
Qed.
Lemma ang_vec a : vec_of (spherePoint (snd a) (fst a - 1 / 2 * PI)) = mirror (healpix_direction a).
Proof.
  rewrite vec_of_spherePoint. unfold vec_of, mirror, healpix_direction, vx, vy, vz. cbn [fst snd].
  replace (fst a - 1 / 2 * PI)%R with (- (PI / 2 - fst a))%R by field.
  rewrite cos_neg, sin_neg, cos_shift, sin_shift. apply vec_eq; ring.
Qed.
Lemma angs_ok l : Forall (fun a => 0 <= fst a <= PI)%R l -> mapM angToCoord l = Ok (map (fun a => spherePoint (snd a) (fst a - 1 / 2 * PI)) l).
Proof.
  induction 1 as [|a l H _ IH]; [reflexivity|]. cbn [mapM map]. rewrite (ang_ok a H). cbn [bind]. now rewrite IH.
Qed.

Lemma healpix_construct named p2a bnd order c ver m0 k nest :
  construct sphere_offset (factory_wcs named) p2a bnd order c ver = Ok m0 -> c_class c = HealpixCfg k nest ->
  (forall j, 0 <= j < 12 * 4 ^ k -> Forall (fun a => 0 <= fst a <= PI)%R (p2a (2 ^ k) nest j :: bnd (2 ^ k) nest j)) ->
  let w := factory_wcs named (c_projection c) (f2r (c_scale c)) (f2r (c_rotation c)) in
  0 <= k /\ sd_num (m_def m0) = 12 * 4 ^ k /\ always_ok sphere_offset (m_def m0)
  /\ forall j, 0 <= j < 12 * 4 ^ k -> sd_args (m_def m0) j
     = Ok (let ctr := spherePoint (snd (p2a (2 ^ k) nest j)) (fst (p2a (2 ^ k)%Z nest j) - 1 / 2 * PI)%R in
           PlainArgs ctr (map (fun a => spherePoint (snd a) (fst a - 1 / 2 * PI)) (bnd (2 ^ k) nest j)) (deg (f2r (c_overlap c))) (w ctr) None).
Proof.
  intros C Ec Hang w.
  assert (D : healpix_def p2a bnd (selected (c_tb c)) w (f2r (c_overlap c)) k nest = Ok (m_def m0)).
  { unfold construct in C. rewrite Ec in C. destruct (healpix_nside k); cbn [bind] in C; [|discriminate].
    unfold wcsFactory in C. destruct (negb _); cbn [bind] in C; [discriminate|]. fold w in C.
    destruct (healpix_def _ _ _ _ _ _ _) as [d|] eqn:Ed; cbn [bind] in C; [|discriminate].
    destruct (finish_ok _ _ _ _ _ C) as (s & _ & ->). reflexivity. }
  unfold healpix_def, healpix_nside in D. destruct (Z.ltb_spec k 0) as [|Hk0]; [discriminate|]. cbn [bind] in D.
  rewrite Z.shiftl_mul_pow2, Z.mul_1_l in D by lia. injection D as D.
  assert (Hnum : sd_num (m_def m0) = 12 * 4 ^ k).
  { rewrite <- D. change (12 * 2 ^ k * 2 ^ k = 12 * 4 ^ k). replace (4 ^ k) with (2 ^ k * 2 ^ k) by (rewrite <- Z.pow_mul_l; reflexivity). ring. }
  assert (Hargs : forall j, 0 <= j < 12 * 4 ^ k -> sd_args (m_def m0) j
     = Ok (let ctr := spherePoint (snd (p2a (2 ^ k) nest j)) (fst (p2a (2 ^ k)%Z nest j) - 1 / 2 * PI)%R in
           PlainArgs ctr (map (fun a => spherePoint (snd a) (fst a - 1 / 2 * PI)) (bnd (2 ^ k) nest j)) (deg (f2r (c_overlap c))) (w ctr) None)).
  { intros j Hj. specialize (Hang j Hj). inversion Hang as [|? ? Ha Hl]; subst. rewrite <- D. cbn [sd_args]. unfold healpix_args.
    rewrite (ang_ok _ Ha), (angs_ok _ Hl). reflexivity. }
  split; [exact Hk0|]. split; [exact Hnum|]. split; [|exact Hargs].
  intros j Hj. rewrite Hnum in Hj. eexists. split; [exact (Hargs j Hj)|]. intros s e _. cbn [args_wcs]. apply factory_no_raise.
Qed.

(*@ C86, HEALPix: if hpgeom numbers the pixels of nside 2^k from 0 to 12*4^k - 1 and gives colatitudes from 0 to pi, then findTract
    of a constructed and used map succeeds for every coordinate.  Its tract is that of the pixel hpgeom gives for
    the coordinate's (declination + pi/2, RA); its centre and vertices are those of the pixel, mirrored in the equator (C60).  With
    the TAN projection it contains the coordinate if that lies within the margin of C71 of the polygon of those vertices.  If all tracts of the map
    have the same patch counts, findPatch succeeds as well. *)
Lemma healpix_lookup_proof : forall named p2a bnd a2p order sha1 c ver m0 m k nest coord,
  knows named -> construct sphere_offset (factory_wcs named) p2a bnd order c ver = Ok m0 -> used sphere_offset sha1 m0 m ->
  cfg_ok (selected (c_tb c)) -> c_class c = HealpixCfg k nest ->
  (forall x, 0 <= a2p (2 ^ k) nest x < 12 * 4 ^ k) ->
  (forall j, 0 <= j < 12 * 4 ^ k -> Forall (fun a => 0 <= fst a <= PI)%R (p2a (2 ^ k) nest j :: bnd (2 ^ k) nest j)) ->
  let i := a2p (2 ^ k) nest (snd coord + PI / 2, fst coord)%R in
  exists s' t, map_findTract a2p sphere_offset order m coord (m_state m) = (s', Ok t)
    /\ accesses sphere_offset (m_def m) (m_state m) s' /\ t_id t = i /\ holds sphere_offset (m_def m) i s' t
    /\ vec_of (t_ctr t) = mirror (healpix_direction (p2a (2 ^ k) nest i))
    /\ map vec_of (t_verts t) = map (fun a => mirror (healpix_direction a)) (bnd (2 ^ k) nest i)
    /\ (forall p, c_projection c = of_string "TAN" -> (0 < f2r (c_scale c))%R -> (0 <= f2r (c_overlap c) < 180)%R ->
        (forall v, In v (t_verts t) -> separation v (t_ctr t) + deg (f2r (c_overlap c)) / 2 < PI / 2)%R -> t_verts t <> [] ->
        region_contains (getInnerSkyPolygon t) p -> (separation p coord <= inradius24 (deg (f2r (c_overlap c)) / 2))%R ->
        tract_contains t coord = Ok true
        /\ ((exists n, uniform_counts sphere_offset (m_def m) n) -> dimx (t_bbox t) < 2 ^ 31 -> dimy (t_bbox t) < 2 ^ 31 ->
            exists pa i' j' px py, findPatch (sm_builder s') t coord = Ok pa /\ tract_getPatchInfo (sm_builder s') t (IxIndex2D i' j') = Ok pa
              /\ pixel_of t coord px py /\ in_box px py (p_inner pa))).
Proof.
  intros named p2a bnd a2p order sha1 c ver m0 m k nest coord Hk C U Hc Ec Ha2p Hang i.
  pose proof (reach named p2a bnd order sha1 c ver m0 m C U) as Hr.
  destruct (used_fields _ _ _ _ U) as (A & _ & Edef & _). destruct (construct_ok _ _ _ _ _ _ _ _ C) as (_ & E & _).
  assert (E1 : m_config m = c) by congruence.
  assert (Ecfg : sd_cfg (m_def m) = selected (c_tb c)) by (rewrite Edef; exact (construct_cfg _ _ _ _ _ _ _ _ C)).
  destruct (healpix_construct named p2a bnd order c ver m0 k nest C Ec Hang) as (Hk0 & Hnum & Hok & Hargs).
  rewrite <- Edef in Hnum, Hok, Hargs. set (w := factory_wcs named (c_projection c) (f2r (c_scale c)) (f2r (c_rotation c))) in *.
  assert (Hi : 0 <= i < 12 * 4 ^ k) by apply Ha2p.
  destruct (getitem_total sphere_offset (m_def m) (m_state m) i) as (s' & t & G & Hh & Hacc & Hr').
  { now rewrite Ecfg. }
  { exact Hok. }
  { exact Hr. }
  { now rewrite Hnum. }
  exists s', t.
  destruct (holds_args sphere_offset (m_def m) s' i t Hr' Hh) as (_ & a & b & b' & oid & Ea & Hb & Hm).
  rewrite (Hargs i Hi) in Ea. cbv zeta in Ea.
  set (ctr := spherePoint (snd (p2a (2 ^ k) nest i)) (fst (p2a (2 ^ k)%Z nest i) - 1 / 2 * PI)%R) in *.
  set (vl := map (fun a => spherePoint (snd a) (fst a - 1 / 2 * PI)) (bnd (2 ^ k) nest i)) in *. injection Ea as <-.
  cbn [make_tract] in Hm.
  assert (Hf : t_ctr t = ctr /\ t_verts t = vl).
  { unfold TractInfo_init in Hm. apply tract_build_keeps in Hm. intuition congruence. }
  destruct Hf as [Hctr Hvl].
  split.
  { unfold map_findTract. rewrite E1, Ec. unfold healpix_findTract, coordToAng. replace (1 / 2 * PI)%R with (PI / 2)%R by field. exact G. }
  split; [exact Hacc|]. split; [exact (holds_id _ _ _ _ _ Hr' Hh)|]. split; [exact Hh|].
  split; [rewrite Hctr; apply ang_vec|].
  split; [rewrite Hvl; unfold vl; rewrite map_map; apply map_ext; intros; apply ang_vec|].
  intros p Hname Hs Hov Hsep Hne Hp Hd.
  assert (Hcon : tract_contains t coord = Ok true).
  { rewrite Hvl, Hctr in Hsep. rewrite Hvl in Hne.
    apply (tract_gnomonic_cover_proof (selected (c_tb c)) b oid i ctr vl (deg (f2r (c_overlap c))) (w ctr) None b' t p coord); try assumption.
    - now rewrite <- Ecfg.
    - destruct (factory_projections_proof named (f2r (c_scale c)) (f2r (c_rotation c)) Hk Hs) as (Pt & _ & _). unfold w. rewrite Hname. apply Pt.
    - unfold deg. pose proof PI_RGT_0. split; [apply Rmult_le_pos; lra|]. nra. }
  split; [exact Hcon|]. intros (n & Hn) Hx Hy.
  pose proof (uniform_in_use sphere_offset (m_def m) n s' i t ltac:(now rewrite Ecfg) Hn Hr' Hh) as Hu.
  pose proof (TractProofs.findPatch_lemma _ sphere_offset (sd_cfg (m_def m)) (sm_builder s') t coord ltac:(now rewrite Ecfg) Hu Hx Hy) as K.
  rewrite Hcon in K. destruct K as (pa & i' & j' & px & py & K1 & K2 & K3 & _ & K4). exists pa, i', j', px, py. auto.
Qed.

(*@ C86, non-vacuity: the default HEALPix settings with the TAN projection, and functions that give every pixel the
    centre and corners of pixel 0 of nside 1, meet the conditions; the coordinate looked up is the centre of the tract. *)
Example healpix_lookup_met_proof : forall order,
  let c := mkConfig (c_tb healpix_default) (c_overlap healpix_default) (c_scale healpix_default) (of_string "TAN") (c_rotation healpix_default) (c_class healpix_default) in
  let a2p := fun (_ : Z) (_ : bool) (_ : R * R) => 0 in
  let p2a := fun (_ : Z) (_ : bool) (_ : Z) => (acos (2 / 3), PI / 4)%R in
  let bnd := fun (_ : Z) (_ : bool) (_ : Z) => [(0, 0); (acos (2 / 3), PI / 2); (PI / 2, PI / 4); (acos (2 / 3), 0)]%R in
  exists m, construct sphere_offset (factory_wcs fits_projections) p2a bnd order c None = Ok m
    /\ knows fits_projections /\ cfg_ok (selected (c_tb c)) /\ c_class c = HealpixCfg 0 false
    /\ (forall x, 0 <= a2p (2 ^ 0) false x < 12 * 4 ^ 0)
    /\ (forall j, 0 <= j < 12 * 4 ^ 0 -> Forall (fun a => 0 <= fst a <= PI)%R (p2a (2 ^ 0) false j :: bnd (2 ^ 0) false j))
    /\ c_projection c = of_string "TAN" /\ (0 < f2r (c_scale c))%R /\ (0 <= f2r (c_overlap c) < 180)%R
    /\ exists s' t coord, map_findTract a2p sphere_offset order m coord (m_state m) = (s', Ok t)
         /\ (forall v, In v (t_verts t) -> separation v (t_ctr t) + deg (f2r (c_overlap c)) / 2 < PI / 2)%R /\ t_verts t <> []
         /\ region_contains (getInnerSkyPolygon t) coord /\ (separation coord coord <= inradius24 (deg (f2r (c_overlap c)) / 2))%R.
Proof.
  intros order c a2p p2a bnd. pose proof PI_RGT_0 as HP. pose proof (acos_bound (2 / 3)) as HA.
  assert (F1 : f2r f64_one = 1%R) by (vm_compute; lra). assert (F3 : (0 < f2r f64_0_333)%R) by (vm_compute; lra).
  assert (Hk : knows fits_projections) by (unfold knows, fits_projections; repeat split).
  assert (exists m, construct sphere_offset (factory_wcs fits_projections) p2a bnd order c None = Ok m) as (mm & C) by (eexists; reflexivity).
  exists mm. split; [exact C|]. split; [exact Hk|]. split; [cbn; lia|]. split; [reflexivity|].
  assert (Ha : forall x, 0 <= a2p (2 ^ 0) false x < 12 * 4 ^ 0) by (intros x; unfold a2p; cbn; lia). split; [exact Ha|].
  assert (Hb : forall j, 0 <= j < 12 * 4 ^ 0 -> Forall (fun a => 0 <= fst a <= PI)%R (p2a (2 ^ 0) false j :: bnd (2 ^ 0) false j)).
  { intros j _. unfold p2a, bnd. repeat (apply Forall_cons; [cbn [fst]; lra|]). constructor. }
  split; [exact Hb|]. split; [reflexivity|]. split; [exact F3|]. change (c_overlap c) with f64_one. rewrite F1. split; [lra|].
  set (co := spherePoint (PI / 4) (acos (2 / 3) - 1 / 2 * PI)%R).
  destruct (healpix_lookup_proof fits_projections p2a bnd a2p order (fun x => x) c None mm mm 0 false co Hk C
     (used_not sphere_offset (fun x => x) mm) ltac:(cbn; lia) eq_refl Ha Hb) as (s' & t & L & _ & _ & _ & Hctr & Hvl & _).
  exists s', t, co. split; [exact L|].
  assert (Hm : forall a, mirror (healpix_direction a) = (sin (fst a) * cos (snd a), sin (fst a) * sin (snd a), - cos (fst a))%R) by reflexivity.
  assert (S5 : (0 < sqrt 5)%R) by (apply sqrt_lt_R0; lra). assert (Q5 : (sqrt 5 * sqrt 5 = 5)%R) by (apply sqrt_sqrt; lra).
  assert (Sa : sin (acos (2 / 3)) = (sqrt 5 / 3)%R).
  { rewrite sin_acos by lra. rewrite <- (sqrt_square (sqrt 5 / 3)) by lra. f_equal. unfold Rsqr. nra. }
  assert (Ca : cos (acos (2 / 3)) = (2 / 3)%R) by (apply cos_acos; lra).
  assert (Cq : cos (PI / 4) = (1 / sqrt 2)%R) by apply cos_PI4. assert (Sq : sin (PI / 4) = (1 / sqrt 2)%R) by apply sin_PI4.
  assert (S2 : (0 < sqrt 2)%R) by (apply sqrt_lt_R0; lra). assert (Q2 : (sqrt 2 * sqrt 2 = 2)%R) by (apply sqrt_sqrt; lra).
  assert (K2 : (1 / sqrt 2 = sqrt 2 / 2)%R) by (apply (Rmult_eq_reg_r (sqrt 2)); [|lra]; field_simplify; [nra|lra]).
  assert (B2 : (1.41 < sqrt 2 < 1.42)%R) by nra. assert (B5 : (2.23 < sqrt 5 < 2.24)%R) by nra.
  rewrite K2 in Cq, Sq.
  assert (Hctr' : vec_of (t_ctr t) = (sqrt 5 / 3 * (sqrt 2 / 2), sqrt 5 / 3 * (sqrt 2 / 2), - (2 / 3))%R).
  { rewrite Hctr, Hm. cbn [p2a fst snd]. now rewrite Sa, Ca, Cq, Sq. }
  assert (Hvl' : map vec_of (t_verts t) = [(0, 0, -1); (0, sqrt 5 / 3, - (2 / 3)); (sqrt 2 / 2, sqrt 2 / 2, 0); (sqrt 5 / 3, 0, - (2 / 3))]%R).
  { rewrite Hvl. cbn [bnd map]. rewrite !Hm. cbn [fst snd]. rewrite Sa, Ca, Cq, Sq, sin_0, cos_0, sin_PI2, cos_PI2.
    repeat (apply f_equal2; [apply vec_eq; ring|]). reflexivity. }
  split.
  { intros v Hv. assert (Hd : (0.6 <= dot (vec_of v) (vec_of (t_ctr t)))%R).
    { apply (in_map vec_of) in Hv. rewrite Hvl' in Hv. rewrite Hctr'. unfold dot, vx, vy, vz.
      destruct Hv as [<- |[<- |[<- |[<- |[]]]]]; cbn [fst snd]; nra. }
    assert (separation v (t_ctr t) <= PI / 3)%R.
    { apply separation_cos; [lra|]. rewrite cos_PI3. lra. }
    unfold deg. lra. }
  split. { intros E0. rewrite E0 in Hvl'. discriminate. }
  split.
  { unfold getInnerSkyPolygon, region_contains. rewrite Hvl'. exists [2 / 3; 0; sqrt 5 / 3; 0]%R. split; [reflexivity|]. split.
    - repeat (apply Forall_cons; [lra|]). constructor.
    - change (vec_of co) with (vec_of (spherePoint (snd (acos (2 / 3), PI / 4)%R) (fst (acos (2 / 3), PI / 4)%R - 1 / 2 * PI)%R)). rewrite ang_vec, Hm. cbn [fst snd combination]. rewrite Sa, Ca, Cq, Sq. unfold vadd, vscale, vx, vy, vz. cbn [fst snd].
      apply vec_eq; ring. }
  apply Rle_trans with 0%R.
  - apply separation_cos; [lra|]. rewrite cos_0. right. symmetry. apply vec_of_unit.
  - unfold deg. apply (inradius24_range (1 * (PI / 180) / 2)). lra.
Qed.
