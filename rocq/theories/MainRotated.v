(** Explicit tracts (Rings, Discrete) with a rotated WCS (C85). *)
From Coq Require Import Reals Lra Lia String.
From Flocq Require Import Core.Raux IEEE754.Binary IEEE754.Bits.
Require Import Verif.Py Verif.Geom Verif.PatchInfo Verif.TractBuilder Verif.TractInfo Verif.Spec.
Require Import Verif.PatchProofs Verif.SkyMap Verif.SkySpec Verif.SkyProofs Verif.SkyProofs2 Verif.Uniform.
Require Import Verif.Rings Verif.RingsSpec Verif.RingsProofs Verif.RingsNum Verif.Sphere Verif.SphereProofs Verif.Maps Verif.Dodeca Verif.DodecaSpec.
Require Import Verif.RegionProofs Verif.RingsProofs2 Verif.RingsProofs3 Verif.MainRings Verif.MainRings2 Verif.MainRings4 Verif.MainMaps.
Require Import Verif.Config Verif.ConfigSpec Verif.ConfigProofs Verif.Wcs Verif.WcsSpec Verif.MainWcs Verif.RotatedProofs.
Open Scope list_scope.
Open Scope Z_scope.

Lemma kinds_onto name dist limit a : In (name, dist, limit) zenithal_kinds -> (0 <= a < limit)%R -> exists x, (0 <= x)%R /\ dist x = a.
Proof.
  cbn [zenithal_kinds In]. intros [H|[H|[]]] Ha; injection H as _ <- <-.
  - exists (tan a). split; [|apply atan_tan; lra]. destruct (Req_dec a 0) as [->|N]; [rewrite tan_0; lra|]. left. apply tan_gt_0; lra.
  - exists (2 * tan (a / 2))%R. replace (2 * tan (a / 2) / 2)%R with (tan (a / 2)) by lra. rewrite atan_tan by lra. split; [|lra].
    destruct (Req_dec a 0) as [->|N]; [replace (0 / 2)%R with 0%R by lra; rewrite tan_0; lra|]. pose proof (tan_gt_0 (a / 2) ltac:(lra) ltac:(lra)). lra.
Qed.

Lemma quarter_turns rotation : cos rotation = 0%R \/ sin rotation = 0%R -> axis_part rotation = 1%R.
Proof.
  intros H. unfold axis_part. pose proof (cs rotation) as C.
  assert (A : forall z, (z * z = 1)%R -> Rabs z = 1%R). { intros z Hz. assert (z = 1 \/ z = -1)%R as [-> | ->] by nra; [apply Rabs_R1|rewrite Rabs_left; lra]. }
  destruct H as [H|H]; rewrite H, Rabs_R0 in *.
  - rewrite (A (sin rotation)) by nra. apply Rmax_right. lra.
  - rewrite (A (cos rotation)) by nra. apply Rmax_left. lra.
Qed.

(*@ C85: a tract given by a radius and an overlap, with a TAN or STG WCS of any pixel scale, rotation and handedness about its centre: let h be the larger of
    |cos rotation| and |sin rotation| (1 exactly for multiples of a quarter turn, never below the square root of a half).  The tract contains all coordinates within h times
    the radius plus the overlap; more precisely, those whose distance in the plane is up to h times that of
    the radius plus the overlap, and, on the axes, no more than half a patch and two pixels beyond. *)
Lemma explicit_rotated_proof : forall name dist limit scale rotation flipX ctr w c b oid id radius overlap corners b' t,
  In (name, dist, limit) zenithal_kinds -> (0 < scale)%R -> zenithal_at dist limit scale rotation flipX ctr 0 0 w ->
  cfg_ok c -> builder_reachable c b -> (0 <= radius + overlap < limit)%R ->
  ExplicitTractInfo_init sphere_offset b oid id ctr radius overlap w corners = Ok (b', t) ->
  let h := axis_part rotation in
  (0 <= h <= 1 /\ 1 <= 2 * (h * h) /\ (cos rotation = 0 \/ sin rotation = 0 -> h = 1))%R
  /\ (forall coord, (separation coord ctr <= h * (radius + overlap))%R -> tract_contains t coord = Ok true)
  /\ exists r, (0 <= r)%R /\ dist (r * scale)%R = (radius + overlap)%R
    /\ (forall coord, (separation coord ctr <= dist (h * r * scale))%R -> tract_contains t coord = Ok true)
    /\ ((r < IZR (2 ^ 51))%R -> forall q, (h * r + IZR (fst (cfg_inner c)) / 2 + 2 <= q)%R ->
          exists coord, separation coord ctr = dist (q * scale)%R /\ tract_contains t coord = Ok false).
Proof.
  intros name dist limit scale rotation flipX ctr w c b oid id radius overlap corners b' t Hk Hs HW Hc Hb Hro H h.
  pose proof (kinds_law _ _ _ Hk) as L.
  destruct (kinds_onto _ _ _ _ Hk Hro) as (x & Hx & Ex).
  assert (Er : exists r, (0 <= r)%R /\ dist (r * scale)%R = (radius + overlap)%R).
  { exists (x / scale)%R. split; [apply Rmult_le_pos; [exact Hx|left; now apply Rinv_0_lt_compat]|].
    replace (x / scale * scale)%R with x by (field; lra). exact Ex. }
  split; [|split].
  - destruct (axis_part_bounds rotation) as [A B]. split; [exact A|]. split; [exact B|]. apply quarter_turns.
  - apply (explicit_rotated_angle dist limit scale rotation flipX ctr w L Hs HW c b oid id radius overlap corners b' t Hc Hb (proj1 Hro) Er H).
  - destruct Er as (r & Hr & Hd). exists r. split; [exact Hr|]. split; [exact Hd|].
    exact (explicit_rotated dist limit scale rotation flipX ctr w L Hs HW c b oid id radius overlap corners b' t r Hc Hb Hr Hd H).
Qed.

Lemma factory_zenithal named name dist limit s o ctr : knows named -> In (name, dist, limit) zenithal_kinds -> (0 < s)%R ->
  zenithal_at dist limit (s * (PI / 648000)) (o * (PI / 180)) false ctr 0 0 (factory_wcs named (of_string name) s o ctr).
Proof.
  intros Hk Hin Hs. unfold factory_wcs.
  assert (E : arcsec s = (s * (PI / 648000))%R) by (unfold arcsec, deg; field).
  assert (Hp : (0 < s * (PI / 648000))%R) by (rewrite <- E; now apply arcsec_pos).
  rewrite E. change (deg o) with (o * (PI / 180))%R.
  apply (zenithal_wcs_proof named name dist limit _ _ false _ 0 0 _ Hk Hin Hp).
  unfold WcsFactory_init. cbn [zenithal_kinds In] in Hin. destruct Hin as [H|[H|[]]]; injection H as <- <- <-; reflexivity.
Qed.

Lemma held_explicit named p2a bnd order sha1 c ver m0 m i t radius name :
  construct sphere_offset (factory_wcs named) p2a bnd order c ver = Ok m0 -> used sphere_offset sha1 m0 m ->
  (forall n ra, c_class c = RingsCfg n ra -> 1 <= n) -> c_projection c = of_string name ->
  holds sphere_offset (m_def m) i (m_state m) t -> tract_radius (c_class c) i radius ->
  exists b b' oid corners, builder_reachable (selected (c_tb c)) b
    /\ ExplicitTractInfo_init sphere_offset b oid i (t_ctr t) radius (deg (f2r (c_overlap c)))
         (factory_wcs named (of_string name) (f2r (c_scale c)) (f2r (c_rotation c)) (t_ctr t)) corners = Ok (b', t).
Proof.
  intros C U Hn Hname Hh Hrad. pose proof (used_reachable _ _ _ _ _ _ _ _ _ _ C U) as Hr.
  destruct (used_fields _ _ _ _ U) as (_ & _ & Ed & _). rewrite Ed in Hh.
  unfold construct in C. destruct (c_class c) as [n ra|ras decs radii|n [d0 d1]|b|n nest] eqn:Ec; try contradiction; cbn [tract_radius] in Hrad.
  - destruct (rings_init _ _ _) as [g|] eqn:G; cbn [bind] in C; [|discriminate].
    unfold wcsFactory in C. destruct (negb _); cbn [bind] in C; [discriminate|].
    destruct (finish_ok _ _ _ _ _ C) as (s & _ & ->). cbn [m_def] in *.
    destruct (holds_args _ _ _ _ _ Hr Hh) as (_ & a & b & b' & oid & Ea & Hb & M).
    cbn [sd_args rings_def] in Ea. destruct (rings_args_inv' _ _ _ _ _ Ea) as (ctr & a1 & a2 & d1 & d2 & _ & _ & ->). cbn [make_tract] in M.
    pose proof M as M'. apply explicit_keeps in M'. destruct M' as (_ & _ & Ectr & _). subst ctr.
    destruct (rings_init_wf _ _ _ _ (Hn n ra eq_refl) G) as (W & _ & EN & _).
    replace (1 / 2 * rg_size g)%R with radius in M by (rewrite (rw_size g W), EN, Hrad; lra).
    rewrite Hname in M. eauto 10.
  - unfold wcsFactory in C. destruct (negb _); cbn [bind] in C; [discriminate|].
    destruct (finish_ok _ _ _ _ _ C) as (s & _ & ->). cbn [m_def] in *.
    destruct (holds_args _ _ _ _ _ Hr Hh) as (_ & a & b & b' & oid & Ea & Hb & M).
    cbn [sd_args discrete_def] in Ea. unfold discrete_args in Ea.
    destruct (py_nth (dc_ra _) i) as [ra|]; cbn [bind] in Ea; [|discriminate].
    destruct (py_nth (dc_dec _) i) as [dec|]; cbn [bind] in Ea; [|discriminate].
    destruct (makeSpherePoint _ _) as [ctr|]; cbn [bind] in Ea; [|discriminate].
    destruct (py_nth (dc_radius _) i) as [x|] eqn:Ex; cbn [bind] in Ea; [|discriminate].
    assert (Ea' : a = ExplicitArgs ctr (deg x) (deg (f2r (c_overlap c))) (factory_wcs named (c_projection c) (f2r (c_scale c)) (f2r (c_rotation c)) ctr) None) by congruence.
    subst a. cbn [make_tract] in M.
    pose proof M as M'. apply explicit_keeps in M'. destruct M' as (_ & _ & Ectr & _). subst ctr.
    destruct Hrad as (y & Ey & ->). cbn [dc_radius] in Ex.
    replace (f2r y) with x; [rewrite Hname in M; eauto 10|].
    clear - Ex Ey. revert Ex Ey. unfold py_nth. rewrite map_length. cbv zeta.
    destruct (_ && _)%bool; [|discriminate]. rewrite nth_error_map. destruct (nth_error radii _); cbn [option_map]; congruence.
Qed.

(*@ C85: hence for Rings and Discrete sky maps with the TAN or STG projection, made from a configuration with any pixel scale and rotation, at any point of their life:
    every tract contains the coordinates within h times its radius (half the ring height, or the listed radius) plus the overlap of its
    centre, h as above for the configured rotation; with a rotation by a multiple of 90 degrees those within the radius plus the overlap. *)
Lemma rotated_maps_proof : forall named p2a bnd order sha1 c ver m0 m i t radius name dist limit, knows named ->
  construct sphere_offset (factory_wcs named) p2a bnd order c ver = Ok m0 -> used sphere_offset sha1 m0 m ->
  cfg_ok (selected (c_tb c)) -> (forall n ra, c_class c = RingsCfg n ra -> 1 <= n) -> (0 < f2r (c_scale c))%R ->
  c_projection c = of_string name -> In (name, dist, limit) zenithal_kinds ->
  holds sphere_offset (m_def m) i (m_state m) t -> tract_radius (c_class c) i radius ->
  let overlap := (f2r (c_overlap c) * (PI / 180))%R in
  let rotation := (f2r (c_rotation c) * (PI / 180))%R in
  (0 <= radius + overlap < limit)%R ->
  (forall coord, (separation coord (t_ctr t) <= axis_part rotation * (radius + overlap))%R -> tract_contains t coord = Ok true)
  /\ (cos rotation = 0%R \/ sin rotation = 0%R -> forall coord, (separation coord (t_ctr t) <= radius + overlap)%R -> tract_contains t coord = Ok true).
Proof.
  intros named p2a bnd order sha1 c ver m0 m i t radius name dist limit Hk C U Hc Hn Hs Hname Hin Hh Hrad overlap rotation Hro.
  destruct (held_explicit named p2a bnd order sha1 c ver m0 m i t radius name C U Hn Hname Hh Hrad) as (b & b' & oid & cor & Hb & M).
  change (deg (f2r (c_overlap c))) with overlap in M.
  assert (Hp : (0 < f2r (c_scale c) * (PI / 648000))%R) by (apply Rmult_lt_0_compat; [exact Hs|pose proof PI_RGT_0; lra]).
  pose proof (factory_zenithal named name dist limit (f2r (c_scale c)) (f2r (c_rotation c)) (t_ctr t) Hk Hin Hs) as Z. fold rotation in Z.
  destruct (explicit_rotated_proof name dist limit _ rotation false (t_ctr t) _ _ b oid i radius overlap cor b' t Hin Hp Z Hc Hb Hro M) as ((_ & _ & Q) & K & _).
  split; [exact K|]. intros Hq coord Hd. apply K. rewrite (Q Hq). lra.
Qed.

(*@ C85: with three rings or more and an overlap of 0.57 ring heights, findTract's tract contains the coordinate whatever the rotation (without
    rotation, a quarter is enough: C33). *)
Lemma rings_full_overlap_rotated_proof : forall name dist limit scale rotation flipX c mk ov numRings raStart version g coord s s' t,
  In (name, dist, limit) zenithal_kinds -> (0 < scale)%R -> (forall ctr, zenithal_at dist limit scale rotation flipX ctr 0 0 (mk ctr)) ->
  cfg_ok c -> 3 <= numRings -> rings_init numRings raStart version = Ok g ->
  (57 / 100 * rg_size g <= deg ov)%R -> (rg_size g / 2 + deg ov < limit)%R ->
  let d := rings_def c mk ov g in
  sm_reachable sphere_offset d s -> on_sphere coord ->
  rings_findTract sphere_offset d g coord s = (s', Ok t) ->
  version = 1 \/ t_id t <> rings_numTracts g - 1 \/ (- firstRingStart g <= snd coord)%R ->
  tract_contains t coord = Ok true.
Proof.
  intros name dist limit scale rotation flipX c mk ov N ra v g coord s s' t Hin Hs HW Hc HN Eg Hov Hlim d Hr Hsp H Hv.
  pose proof (rings_found_distance_proof sphere_offset c mk ov N ra v g coord s s' t HN Eg Hr Hsp H Hv) as Hd.
  destruct (rings_init_wf N ra v g ltac:(lia) Eg) as (W & _). pose proof (size_pos g W) as Hsz.
  destruct (rings_findTract_total_proof sphere_offset c mk ov g coord s W) as (i & Ei & Hi & E & _). fold d in E.
  rewrite E in H. destruct (getitem_holds sphere_offset d s i s' t Hr (proj1 Hi) H) as (Hr' & _ & Hh).
  destruct (holds_args sphere_offset d s' i t Hr' Hh) as (_ & a & b & b' & oid & Ea & Hb & M).
  cbn [sd_args d rings_def] in Ea. destruct (rings_args_inv _ _ _ _ _ Ea) as (ctr & cor & _ & ->). cbn [make_tract] in M.
  pose proof M as M'. apply explicit_keeps in M'. destruct M' as (_ & _ & Ectr & _). subst ctr.
  destruct (explicit_rotated_proof name dist limit scale rotation flipX (t_ctr t) _ c b oid i (1 / 2 * rg_size g)%R (deg ov) cor b' t Hin Hs (HW _) Hc Hb ltac:(split; lra) M)
    as ((H0 & H2 & _) & K & _).
  apply K. eapply Rle_trans; [exact Hd|]. set (h := axis_part rotation) in *. clearbody h.
  assert (H7 : (7071 / 10000 <= h)%R) by nra. nra.
Qed.

(** 4.0 *)
Definition f64_4 : binary64 := b64_of_bits 4616189618054758400.

Lemma tan_bounds x : (0 < x -> x < 1 -> x <= tan x <= x / (1 - x * x / 2))%R.
Proof.
  intros H0 H1. pose proof (cos_lower x) as C. assert (P : (0 < 1 - x * x / 2)%R) by nra. pose proof PI_lower as HP.
  assert (S : (sin x <= x)%R) by (left; apply sin_lt_x; lra). split.
  - unfold tan. apply Rmult_le_reg_r with (cos x); [lra|]. unfold Rdiv. rewrite Rmult_assoc, Rinv_l by lra.
    pose proof (sin_lower x ltac:(lra) ltac:(lra)) as S2. pose proof (cos_bound x 0) as K.
    destruct K as [_ K]; [lra|lra|]. unfold cos_approx, sum_f_R0, cos_term in K. cbn in K.
    assert (cos x <= 1 - x * x / 2 + x * x * x * x / 24)%R by lra. clear K.
    assert (x * cos x <= x * (1 - x * x / 2 + x * x * x * x / 24))%R by (apply Rmult_le_compat_l; lra).
    assert (0 < x * x * x)%R by (repeat apply Rmult_lt_0_compat; lra).
    assert (x * x * x * (x * x) <= x * x * x * 1)%R by (apply Rmult_le_compat_l; nra). lra.
  - unfold tan, Rdiv. apply Rmult_le_compat; [apply sin_ge_0; lra|left; apply Rinv_0_lt_compat; lra|exact S|].
    apply Rinv_le; lra.
Qed.

Lemma axis_45 : axis_part (45 * (PI / 180)) = (/ sqrt 2)%R.
Proof.
  unfold axis_part. replace (45 * (PI / 180))%R with (PI / 4)%R by field. rewrite cos_PI4, sin_PI4.
  assert (H : (0 < 1 / sqrt 2)%R) by (apply Rdiv_lt_0_compat; [lra|apply Rlt_sqrt2_0]).
  rewrite Rabs_pos_eq by lra. rewrite Rmax_left by lra. unfold Rdiv. ring.
Qed.

(*@ C85, refuted: that a tract contains the disc of its radius about its centre, let alone with the overlap (the overlap is documented as a minimum in all
    directions, and without rotation it is one: C21, C59).  In a Discrete map with the default settings but the rotation of 45 degrees and one tract of radius 4
    degrees (overlap of 1 degree), there is a coordinate 4 degrees from its centre that the tract does not contain.  The map also meets
    the assumptions of the above. *)
Lemma rotated_tract_refuted_proof : forall p2a bnd order sha1,
  let c := mkConfig tb_default f64_one f64_0_333 (of_string "STG") f64_45 (DiscreteCfg [f64_3_5] [f64_45] [f64_4]) in
  exists m0 m t coord, construct sphere_offset (factory_wcs fits_projections) p2a bnd order c None = Ok m0 /\ used sphere_offset sha1 m0 m
    /\ cfg_ok (selected (c_tb c)) /\ (0 < f2r (c_scale c))%R /\ holds sphere_offset (m_def m) 0 (m_state m) t
    /\ tract_radius (c_class c) 0 (deg 4) /\ (f2r (c_overlap c) * (PI / 180) = deg 1)%R /\ (0 <= deg 4 + deg 1 < PI)%R
    /\ separation coord (t_ctr t) = deg 4 /\ tract_contains t coord = Ok false.
Proof.
  intros p2a bnd order sha1 c. pose proof PI_RGT_0 as HP. pose proof PI_lower as PL. pose proof PI_upper as PU.
  assert (Hk : knows fits_projections) by (unfold knows, fits_projections; repeat split).
  assert (Hc : cfg_ok (selected (c_tb c))) by (cbn; lia).
  assert (F1 : f2r f64_one = 1%R) by (vm_compute; lra). assert (F2 : f2r f64_45 = 45%R) by (vm_compute; lra).
  assert (F3 : (333 / 1001 <= f2r f64_0_333 <= 334 / 1000)%R) by (vm_compute; lra). assert (F4 : f2r f64_4 = 4%R) by (vm_compute; lra).
  set (dc := mkDiscrete [f2r f64_3_5] [f2r f64_45] [f2r f64_4]).
  set (mk := factory_wcs fits_projections (of_string "STG") (f2r (c_scale c)) (f2r (c_rotation c))).
  set (d := discrete_def (selected (c_tb c)) mk (f2r f64_one) dc).
  assert (E0 : exists s0, sm_new sphere_offset d = Ok s0) by (eexists; reflexivity). destruct E0 as (s0 & E0).
  set (m0 := mkMap c (VerInt 0) d s0 None).
  assert (C0 : construct sphere_offset (factory_wcs fits_projections) p2a bnd order c None = Ok m0).
  { unfold construct. cbn [c_class c]. unfold wcsFactory. cbn [c_projection c].
    change (Nat.eqb (length (of_string "STG")) 3) with true. cbn [negb bind]. unfold finish.
    change (sm_new sphere_offset _) with (sm_new sphere_offset d). rewrite E0. reflexivity. }
  assert (Hr : sm_reachable sphere_offset d s0) by (exists s0; split; [exact E0|constructor]).
  destruct (discrete_access_proof sphere_offset (selected (c_tb c)) mk (f2r f64_one) dc s0 0 Hc Hr) as [A _].
  { intros k co e. unfold mk, factory_wcs, makeWcs. cbn [makeSkyWcs skyToPixel]. destruct (plane_of _ _ _); discriminate. }
  { cbn. lia. }
  destruct (A eq_refl) as (s & t & G).
  { cbn [dc dc_dec In]. rewrite F2. intros dec [<-|[]]; lra. }
  destruct (getitem_holds sphere_offset d s0 0 s t Hr ltac:(lia) G) as (Hr' & Ac & Hh).
  set (m := mkMap c (VerInt 0) d s None).
  assert (Hu : used sphere_offset sha1 m0 m) by (apply (used_access sphere_offset sha1 m0 m0 s (used_not _ _ _) Ac)).
  assert (Hs : (0 < f2r (c_scale c))%R) by (change (c_scale c) with f64_0_333; lra).
  assert (Hrad : tract_radius (c_class c) 0 (deg 4)) by (exists f64_4; split; [reflexivity|now rewrite F4]).
  assert (Hov : (f2r (c_overlap c) * (PI / 180) = deg 1)%R) by (change (c_overlap c) with f64_one; now rewrite F1).
  assert (H5 : (0 <= deg 4 + deg 1 < PI)%R) by (unfold deg; lra).
  destruct (held_explicit fits_projections p2a bnd order sha1 c None m0 m 0 t (deg 4) "STG" C0 Hu ltac:(intros; discriminate) eq_refl Hh Hrad) as (b & b' & oid & cor & Hb & M).
  change (deg (f2r (c_overlap c))) with (f2r (c_overlap c) * (PI / 180))%R in M. rewrite Hov in M.
  set (sc := (f2r (c_scale c) * (PI / 648000))%R).
  assert (Hsc : (11 / 10000000 <= sc <= 17 / 10000000)%R).
  { unfold sc. change (c_scale c) with f64_0_333. set (f := f2r f64_0_333) in *. clearbody f. split.
    - apply Rle_trans with (333 / 1001 * (314 / 100 / 648000))%R; [lra|]. apply Rmult_le_compat; lra.
    - apply Rle_trans with (334 / 1000 * (315 / 100 / 648000))%R; [|lra]. apply Rmult_le_compat; lra. }
  assert (Hin : In ("STG"%string, (fun x => 2 * atan (x / 2))%R, PI) zenithal_kinds) by (right; left; reflexivity).
  pose proof (factory_zenithal fits_projections "STG" _ PI (f2r (c_scale c)) (f2r (c_rotation c)) (t_ctr t) Hk Hin Hs) as Z. fold sc in Z.
  change (c_rotation c) with f64_45 in Z, M. rewrite F2 in Z, M.
  clearbody sc.
  set (r := (2 * tan (5 * PI / 360) / sc)%R).
  destruct (tan_bounds (5 * PI / 360) ltac:(lra) ltac:(lra)) as [T1 T2]. destruct (tan_bounds (4 * PI / 360) ltac:(lra) ltac:(lra)) as [T3 T4].
  assert (Ed : forall a, (0 < a < PI)%R -> (2 * atan (2 * tan (a / 2) / sc * sc / 2) = a)%R).
  { intros a Ha. replace (2 * tan (a / 2) / sc * sc / 2)%R with (tan (a / 2)) by (field; lra). rewrite atan_tan by lra. lra. }
  assert (E5 : (2 * atan (r * sc / 2) = deg 4 + deg 1)%R).
  { unfold r. replace (5 * PI / 360)%R with ((deg 4 + deg 1) / 2)%R by (unfold deg; field). apply Ed. unfold deg; lra. }
  assert (Hr0 : (0 <= r)%R) by (unfold r; apply Rmult_le_pos; [lra|left; apply Rinv_0_lt_compat; lra]).
  assert (B5 : (5 * PI / 360 / (1 - 5 * PI / 360 * (5 * PI / 360) / 2) <= 437 / 10000 * 1003 / 1000)%R).
  { apply Rmult_le_reg_r with (1 - 5 * PI / 360 * (5 * PI / 360) / 2)%R; [nra|]. unfold Rdiv at 1. rewrite Rmult_assoc, Rinv_l by nra.
    rewrite Rmult_1_r. nra. }
  assert (Hr1 : (r < IZR (2 ^ 51))%R).
  { apply Rlt_le_trans with 1000000%R; [|apply IZR_le; vm_compute; discriminate].
    unfold r. apply Rmult_lt_reg_r with sc; [lra|]. unfold Rdiv. rewrite Rmult_assoc, Rinv_l by lra. lra. }
  destruct (explicit_rotated _ PI sc _ false (t_ctr t) _ stg_law ltac:(lra) Z _ b oid 0 (deg 4) (deg 1) cor b' t r Hc Hb Hr0 E5 M) as [_ K].
  specialize (K Hr1 (2 * tan (deg 4 / 2) / sc)%R).
  destruct K as (coord & Es & Et).
  - change (fst (cfg_inner (selected (c_tb c)))) with 4000. rewrite axis_45.
    assert (Hq : (/ sqrt 2 <= 7072 / 10000)%R).
    { replace (7072 / 10000)%R with (/ (10000 / 7072))%R by (field). apply Rinv_le_contravar; [lra|].
      rewrite <- (sqrt_square (10000 / 7072)) by lra. apply sqrt_le_1; lra. }
    assert (Hq0 : (0 < / sqrt 2)%R) by (apply Rinv_0_lt_compat, Rlt_sqrt2_0).
    set (k := (/ sqrt 2)%R) in *. clearbody k.
    apply Rmult_le_reg_r with sc; [lra|]. replace (2 * tan (deg 4 / 2) / sc * sc)%R with (2 * tan (4 * PI / 360))%R
      by (replace (deg 4 / 2)%R with (4 * PI / 360)%R by (unfold deg; field); field; lra).
    replace ((k * r + 4000 / 2 + 2) * sc)%R with (k * (2 * tan (5 * PI / 360)) + 2002 * sc)%R by (unfold r; field; lra).
    assert (k * (2 * tan (5 * PI / 360)) <= 7072 / 10000 * (2 * (437 / 10000 * 1003 / 1000)))%R by (apply Rmult_le_compat; lra).
    lra.
  - exists m0, m, t, coord. split; [exact C0|]. split; [exact Hu|]. split; [exact Hc|]. split; [exact Hs|]. split; [exact Hh|].
    split; [exact Hrad|]. split; [exact Hov|]. split; [exact H5|]. split; [|exact Et]. rewrite Es. apply Ed. unfold deg; lra.
Qed.

(*@ C85, non-vacuity: the default Rings settings with 120 rings, with any rotation, have the overlap that is enough: findTract of any coordinate succeeds, and
    its tract contains the coordinate. *)
Example rings_rotated_default_proof : forall name dist limit rot coord, In (name, dist, limit) zenithal_kinds -> on_sphere coord ->
  exists g, rings_init 120 0 1 = Ok g /\ (57 / 100 * rg_size g <= deg 1)%R /\ (rg_size g / 2 + deg 1 < limit)%R
    /\ let mk := factory_wcs fits_projections (of_string name) (333 / 1000) rot in
       let d := rings_def legacy_default mk 1 g in
       (forall ctr, zenithal_at dist limit (333 / 1000 * (PI / 648000)) (rot * (PI / 180)) false ctr 0 0 (mk ctr))
       /\ exists s s' t, sm_reachable sphere_offset d s /\ rings_findTract sphere_offset d g coord s = (s', Ok t)
            /\ tract_contains t coord = Ok true.
Proof.
  intros name dist limit rot coord Hin Hsp.
  assert (Hk : knows fits_projections) by (unfold knows, fits_projections; repeat split).
  destruct (rings_init 120 0 1) as [g|] eqn:Eg; [|discriminate]. exists g. split; [reflexivity|].
  destruct (rings_init_wf 120 0 1 g ltac:(lia) Eg) as (W & _ & EN & _). pose proof PI_RGT_0 as HP.
  assert (H1 : (57 / 100 * rg_size g <= deg 1)%R) by (rewrite (rw_size g W), EN; unfold deg; lra). split; [exact H1|].
  assert (H2 : (rg_size g / 2 + deg 1 < limit)%R).
  { rewrite (rw_size g W), EN. unfold deg. cbn [zenithal_kinds In] in Hin. destruct Hin as [H|[H|[]]]; injection H as _ _ <-; lra. }
  split; [exact H2|]. intros mk d.
  assert (Z : forall ctr, zenithal_at dist limit (333 / 1000 * (PI / 648000)) (rot * (PI / 180)) false ctr 0 0 (mk ctr)).
  { intros ctr. apply factory_zenithal; [exact Hk|exact Hin|lra]. }
  split; [exact Z|].
  set (s := mkSM (repeat None (Z.to_nat (sd_num d))) (builder_init legacy_default) 0 [] : smstate sphere).
  assert (Hr : sm_reachable sphere_offset d s) by (exists s; split; [reflexivity|constructor]).
  assert (Hc : cfg_ok legacy_default) by (cbn; lia).
  destruct (rings_findTract_total_proof sphere_offset legacy_default mk 1 g coord s W) as (i & _ & Hi & E' & _). fold d in E'.
  destruct (getitem_total sphere_offset d s i) as (s' & t & G & _); [exact Hc| |exact Hr|exact Hi|].
  { intros j Hj. destruct (rings_args_total g mk 1 W j Hj) as (a & Ea). exists a. split; [exact Ea|].
    intros p e _. destruct (rings_args_inv _ _ _ _ _ Ea) as (ctr & cor & _ & ->). cbn.
    unfold mk, factory_wcs, makeWcs. cbn [makeSkyWcs skyToPixel]. destruct (plane_of _ _ _); discriminate. }
  rewrite <- E' in G. exists s, s', t. split; [exact Hr|]. split; [exact G|].
  apply (rings_full_overlap_rotated_proof name dist limit (333 / 1000 * (PI / 648000)) (rot * (PI / 180)) false legacy_default mk 1 120 0 1 g coord s s' t); auto; lia || lra.
Qed.
