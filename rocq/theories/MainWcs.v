(** The WCS objects of a sky map (C81). *)
From Coq Require Import Reals Lra Lia String.
From Flocq Require Import Core.Raux IEEE754.Binary IEEE754.Bits.
Require Import Verif.Py Verif.Geom Verif.PatchInfo Verif.TractBuilder Verif.TractInfo Verif.Spec.
Require Import Verif.SkyMap Verif.SkySpec Verif.SkyProofs Verif.SkyProofs2.
Require Import Verif.Rings Verif.RingsSpec Verif.RingsProofs Verif.Sphere Verif.SphereProofs Verif.Maps Verif.Dodeca Verif.DodecaSpec.
Require Import Verif.HullProofs Verif.ProjSpec Verif.TractBox Verif.MainHull Verif.MainPolygons Verif.MiscSpec Verif.MapsProofs.
Require Import Verif.Config Verif.ConfigSpec Verif.ConfigProofs Verif.MainConfig2 Verif.MainMaps Verif.MainSky Verif.Wcs Verif.WcsSpec Verif.MainEquat.
Open Scope list_scope.
Open Scope R_scope.

Lemma asDegrees_deg x : deg (asDegrees x) = x.
Proof. pose proof PI_RGT_0. unfold deg, asDegrees. field. lra. Qed.
Lemma deg_asDegrees x : asDegrees (deg x) = x.
Proof. pose proof PI_RGT_0. unfold deg, asDegrees. field. lra. Qed.
Lemma asDegrees_pos x : 0 < x -> 0 < asDegrees x.
Proof. intros H. pose proof PI_RGT_0. unfold asDegrees. apply Rmult_lt_0_compat; [exact H|]. apply Rdiv_lt_0_compat; lra. Qed.
Lemma arcsec_pos x : 0 < x -> 0 < arcsec x.
Proof. intros H. pose proof PI_RGT_0. unfold arcsec, deg. apply Rmult_lt_0_compat; [lra|]. apply Rdiv_lt_0_compat; lra. Qed.

(** The CD matrix and its inverse. *)
Definition flip_sign (flipX : bool) : R := if flipX then 1 else -1.
Lemma flip_sign_sqr f : flip_sign f * flip_sign f = 1.
Proof. destruct f; cbn; ring. Qed.
Lemma cd_apply s o f p : mat_apply (makeCdMatrix s o f) p =
  (asDegrees (s * (flip_sign f * cos o * fst p + sin o * snd p)), asDegrees (s * (- flip_sign f * sin o * fst p + cos o * snd p))).
Proof. unfold makeCdMatrix, mat_apply, asDegrees. fold (flip_sign f). cbn [fst snd]. apply f_equal2; ring. Qed.
Lemma cd_inverse_apply s o f p : 0 < s -> mat_apply (mat_inverse (makeCdMatrix s o f)) p =
  ((flip_sign f * (cos o * deg (fst p) - sin o * deg (snd p))) / s, (sin o * deg (fst p) + cos o * deg (snd p)) / s).
Proof.
  intros Hs. pose proof PI_RGT_0. pose proof (cs o) as C. pose proof (flip_sign_sqr f) as F.
  unfold mat_inverse, makeCdMatrix, mat_apply. fold (flip_sign f). cbn [fst snd]. set (m := flip_sign f) in *.
  set (S := asDegrees s). assert (HS : 0 < S) by (apply asDegrees_pos; exact Hs).
  assert (Hm : m <> 0) by (intros E; rewrite E in F; lra).
  assert (D : cos o * S * m * (cos o * S) - sin o * S * (- sin o * S * m) = m * (S * S)).
  { transitivity (m * (S * S) * (cos o * cos o + sin o * sin o)); [ring|rewrite C; ring]. }
  rewrite D. assert (ES : S = s * (180 / PI)) by reflexivity.
  assert (M : / m = m) by (apply (Rmult_eq_reg_l m); [rewrite Rinv_r by exact Hm; lra|exact Hm]).
  assert (G : forall z, z / S = deg z / s). { intros z. unfold deg. rewrite ES. field. split; lra. }
  apply f_equal2.
  - transitivity (m * ((cos o * fst p - sin o * snd p) / S)).
    + transitivity (/ m * ((cos o * fst p - sin o * snd p) / S)); [|now rewrite M]. field. split; lra || assumption.
    + rewrite G. unfold deg. field. lra.
  - transitivity ((sin o * fst p + cos o * snd p) / S); [field; split; lra || assumption|]. rewrite G. unfold deg. field. lra.
Qed.
Lemma cd_inverse_r s o f p : 0 < s -> mat_apply (makeCdMatrix s o f) (mat_apply (mat_inverse (makeCdMatrix s o f)) p) = p.
Proof.
  intros Hs. rewrite cd_inverse_apply by exact Hs. rewrite cd_apply. cbn [fst snd]. pose proof (cs o) as C. pose proof (flip_sign_sqr f) as F.
  set (m := flip_sign f) in *. destruct p as [p q]. cbn [fst snd].
  apply f_equal2; [transitivity (asDegrees (deg p)); [f_equal|apply deg_asDegrees]|transitivity (asDegrees (deg q)); [f_equal|apply deg_asDegrees]].
  - transitivity ((m * m * cos o * (cos o * deg p - sin o * deg q) + sin o * (sin o * deg p + cos o * deg q))); [field; lra|].
    rewrite F. transitivity (deg p * (cos o * cos o + sin o * sin o)); [ring|rewrite C; ring].
  - transitivity ((- (m * m) * sin o * (cos o * deg p - sin o * deg q) + cos o * (sin o * deg p + cos o * deg q))); [field; lra|].
    rewrite F. transitivity (deg q * (cos o * cos o + sin o * sin o)); [ring|rewrite C; ring].
Qed.
Lemma cd_inverse_l s o f p : 0 < s -> mat_apply (mat_inverse (makeCdMatrix s o f)) (mat_apply (makeCdMatrix s o f) p) = p.
Proof.
  intros Hs. rewrite cd_inverse_apply by exact Hs. rewrite cd_apply. cbn [fst snd]. rewrite !asDegrees_deg. pose proof (cs o) as C. pose proof (flip_sign_sqr f) as F.
  set (m := flip_sign f) in *. destruct p as [p q]. cbn [fst snd]. apply f_equal2.
  - transitivity (m * m * p * (cos o * cos o + sin o * sin o)); [field; lra|rewrite F, C; ring].
  - transitivity (q * (cos o * cos o + sin o * sin o)); [field; lra|rewrite C; ring].
Qed.

(** The planes of the zenithal projections. *)
Lemma frame_sum ctr v : vadd (vscale (dot v (vec_of ctr)) (vec_of ctr)) (vadd (vscale (dot v (east ctr)) (east ctr)) (vscale (dot v (north ctr)) (north ctr))) = v.
Proof.
  destruct (frame ctr) as (E1 & E2 & E3 & E4 & E5). pose proof (vec_of_unit ctr) as E0. unfold unit_vec in *.
  set (s := vadd _ _). destruct (frame_dots ctr _ _ _ s eq_refl) as (D1 & D2 & D3 & _).
  apply (basis_eq (vec_of ctr) (east ctr) (north ctr)).
  - intros H. pose proof (det_gram (vec_of ctr) (east ctr) (north ctr)) as G. rewrite H, E0, E1, E2, E3, E4, E5 in G. lra.
  - rewrite dot_comm, D1. apply dot_comm.
  - rewrite dot_comm, D2. apply dot_comm.
  - rewrite dot_comm, D3. apply dot_comm.
Qed.
Lemma tan_sky_plane ctr p : plane_of proj_TAN ctr (sky_of proj_TAN ctr p) = Some p.
Proof.
  cbn [proj_TAN plane_of sky_of]. pose proof (tan_roundtrip 1 ctr (- deg (fst p)) (deg (snd p)) ltac:(lra)) as H.
  cbn [tan_wcs skyToPixel pixelToSky fst snd] in H.
  replace (- (- deg (fst p) / 1)) with (deg (fst p)) in H by field. replace (deg (snd p) / 1) with (deg (snd p)) in H by field.
  unfold zenithal in H. unfold zenithal_plane. destruct (tan_factor _) as [f|]; [|discriminate]. injection H as H1 H2.
  destruct p as [a b]. cbn [fst snd] in *. f_equal. apply f_equal2; [transitivity (asDegrees (deg a)); [f_equal; lra|apply deg_asDegrees]|transitivity (asDegrees (deg b)); [f_equal; lra|apply deg_asDegrees]].
Qed.
Lemma stg_sky_plane ctr p : plane_of proj_STG ctr (sky_of proj_STG ctr p) = Some p.
Proof.
  cbn [proj_STG plane_of sky_of]. pose proof (stg_roundtrip 1 ctr (- deg (fst p)) (deg (snd p)) ltac:(lra)) as H.
  cbn [stg_wcs skyToPixel pixelToSky fst snd] in H.
  replace (- (- deg (fst p) / 1)) with (deg (fst p)) in H by field. replace (deg (snd p) / 1) with (deg (snd p)) in H by field.
  unfold zenithal in H. unfold zenithal_plane. destruct (stg_factor _) as [f|]; [|discriminate]. injection H as H1 H2.
  destruct p as [a b]. cbn [fst snd] in *. f_equal. apply f_equal2; [transitivity (asDegrees (deg a)); [f_equal; lra|apply deg_asDegrees]|transitivity (asDegrees (deg b)); [f_equal; lra|apply deg_asDegrees]].
Qed.
Lemma tan_plane_sky ctr c p : plane_of proj_TAN ctr c = Some p -> vec_of (sky_of proj_TAN ctr p) = vec_of c.
Proof.
  cbn [proj_TAN plane_of sky_of]. unfold zenithal_plane, tan_factor. set (v := vec_of c). set (d := dot v (vec_of ctr)).
  destruct (Rlt_bool_spec 0 d) as [Hd|Hd]; [|discriminate]. intros H. injection H as <-. cbn [fst snd]. rewrite !asDegrees_deg.
  pose proof (frame_norm ctr v (vec_of_unit c)) as N. fold d in N. set (e := dot v (east ctr)) in *. set (n := dot v (north ctr)) in *.
  assert (E : tan_inverse ctr (/ d * e) (/ d * n) = v).
  { unfold tan_inverse. replace (1 + / d * e * (/ d * e) + / d * n * (/ d * n)) with (Rsqr (/ d)).
    2: { unfold Rsqr. transitivity ((d * d + e * e + n * n) * (/ d * / d)); [rewrite N; ring|field; lra]. }
    rewrite sqrt_Rsqr by (apply Rlt_le, Rinv_0_lt_compat; exact Hd). rewrite Rinv_inv.
    transitivity (vadd (vscale d (vec_of ctr)) (vadd (vscale e (east ctr)) (vscale n (north ctr)))); [|apply frame_sum].
    unfold vadd, vscale, vx, vy, vz; cbn [fst snd]. apply vec_eq; field; lra. }
  rewrite E. apply vec_of_coord, vec_of_unit.
Qed.
Lemma stg_plane_sky ctr c p : plane_of proj_STG ctr c = Some p -> vec_of (sky_of proj_STG ctr p) = vec_of c.
Proof.
  cbn [proj_STG plane_of sky_of]. unfold zenithal_plane, stg_factor. set (v := vec_of c). set (d := dot v (vec_of ctr)).
  destruct (Rlt_bool_spec (-1) d) as [Hd|Hd]; [|discriminate]. intros H. injection H as <-. cbn [fst snd]. rewrite !asDegrees_deg.
  pose proof (frame_norm ctr v (vec_of_unit c)) as N. fold d in N. set (e := dot v (east ctr)) in *. set (n := dot v (north ctr)) in *.
  assert (E : stg_inverse ctr (2 / (1 + d) * e) (2 / (1 + d) * n) = v).
  { unfold stg_inverse. cbv zeta. set (r2 := 2 / (1 + d) * e * (2 / (1 + d) * e) + 2 / (1 + d) * n * (2 / (1 + d) * n)).
    assert (R2 : r2 = 4 * (1 - d) / (1 + d)).
    { unfold r2. transitivity (4 * (e * e + n * n) / ((1 + d) * (1 + d))); [field; lra|]. replace (e * e + n * n) with ((1 - d) * (1 + d)) by lra. field. lra. }
    assert (K1 : 4 + r2 = 8 / (1 + d)) by (rewrite R2; field; lra).
    assert (K2 : 4 - r2 = 8 * d / (1 + d)) by (rewrite R2; field; lra). clearbody r2.
    rewrite K1, K2.
    transitivity (vadd (vscale d (vec_of ctr)) (vadd (vscale e (east ctr)) (vscale n (north ctr)))); [|apply frame_sum].
    unfold vadd, vscale, vx, vy, vz; cbn [fst snd]. apply vec_eq; field; lra. }
  rewrite E. apply vec_of_coord, vec_of_unit.
Qed.

Lemma tan_polar ctr t beta : tan_inverse ctr (t * cos beta) (t * sin beta) = offset_vec ctr beta (atan t).
Proof.
  unfold tan_inverse, offset_vec. rewrite cos_atan, sin_atan. replace (1 + t * cos beta * (t * cos beta) + t * sin beta * (t * sin beta)) with (1 + t²).
  2: { unfold Rsqr. transitivity (1 + t * t * (cos beta * cos beta + sin beta * sin beta)); [rewrite cs; ring|ring]. }
  assert (H : 0 < sqrt (1 + t²)) by (apply sqrt_lt_R0; unfold Rsqr; nra). set (q := sqrt _) in *.
  unfold vadd, vscale, vx, vy, vz; cbn [fst snd]. apply vec_eq; field; lra.
Qed.
Lemma stg_polar ctr t beta : stg_inverse ctr (t * cos beta) (t * sin beta) = offset_vec ctr beta (2 * atan (t / 2)).
Proof.
  unfold stg_inverse, offset_vec. rewrite cos_2a, sin_2a, cos_atan, sin_atan.
  assert (H0 : 0 < 1 + (t / 2)²) by (unfold Rsqr; nra).
  assert (H : 0 < sqrt (1 + (t / 2)²)) by (apply sqrt_lt_R0; exact H0). assert (Q : sqrt (1 + (t / 2)²) * sqrt (1 + (t / 2)²) = 1 + (t / 2)²) by (apply sqrt_sqrt; lra).
  set (q := sqrt _) in *. cbv zeta. set (r2 := t * cos beta * (t * cos beta) + t * sin beta * (t * sin beta)).
  assert (R2 : r2 = t * t) by (unfold r2; transitivity (t * t * (cos beta * cos beta + sin beta * sin beta)); [ring|rewrite cs; ring]). clearbody r2. subst r2.
  assert (K1 : 4 + t * t = 4 * (q * q)) by (rewrite Q; unfold Rsqr; field). assert (K2 : 4 - t * t = 4 * (1 - (t / 2) * (t / 2))) by field.
  rewrite K2, K1.
  assert (C1 : 1 / q * (1 / q) - t / 2 / q * (t / 2 / q) = (1 - (t / 2) * (t / 2)) / (q * q)) by (field; lra).
  rewrite C1.
  unfold vadd, vscale, vx, vy, vz; cbn [fst snd]. apply vec_eq; field; lra.
Qed.

(*@ C81: a WcsFactory is made unless the projection name does not have three characters (RuntimeError); the
    sky maps make theirs from the configured pixel scale (arcseconds), projection and rotation (degrees), without flip. *)
Lemma wcs_factory_proof :
  (forall scale name rotation flipX,
     (length name = 3%nat -> exists f, WcsFactory_init scale name rotation flipX = Ok f /\ f_projection f = name)
     /\ (length name <> 3%nat -> WcsFactory_init scale name rotation flipX = Raise RuntimeError))
  /\ (forall c, config_factory c = WcsFactory_init (f2r (c_scale c) * (PI / 648000)) (c_projection c) (f2r (c_rotation c) * (PI / 180)) false)
  /\ (forall named c, wcsFactory (factory_wcs named) c = (f <- config_factory c ;; Ok (makeWcs named f (0, 0)))).
Proof.
  assert (E : forall c, config_factory c = WcsFactory_init (f2r (c_scale c) * (PI / 648000)) (c_projection c) (f2r (c_rotation c) * (PI / 180)) false).
  { intros c. unfold config_factory, arcsec, deg. replace (f2r (c_scale c) / 3600 * (PI / 180)) with (f2r (c_scale c) * (PI / 648000)) by field. reflexivity. }
  split; [|split; [exact E|]].
  - intros scale name rotation flipX. unfold WcsFactory_init. destruct (Nat.eqb_spec (length name) 3) as [H|H]; cbn [negb]; split; intros K; try contradiction.
    + eexists. split; reflexivity.
    + reflexivity.
  - intros named c. rewrite E. unfold wcsFactory, WcsFactory_init. destruct (negb _); [reflexivity|]. cbn [bind].
    unfold factory_wcs, arcsec, deg. replace (f2r (c_scale c) / 3600 * (PI / 180)) with (f2r (c_scale c) * (PI / 648000)) by field. reflexivity.
Qed.

(*@ C81: the WCS made by a factory with the TAN or STG projection, of any positive pixel scale, any rotation, flipped or not, for any
    reference pixel and coordinate: the pixel at distance r from the reference pixel in direction phi (from +x towards +y) is
    at distance atan (r scale) (STG: 2 atan (r scale / 2)) from the reference coordinate, in the direction
    (from east towards north) phi - rotation if flipped, else pi - phi - rotation, so that +y points to the position angle
    "rotation" (from north through east); the two directions of the WCS are inverse to each other; exactly the
    coordinates 90 degrees away or more (STG: only the antipode) have no position. *)
Lemma zenithal_wcs_proof : forall named name dist limit scale rotation flipX f cx cy crval,
  knows named -> In (name, dist, limit) zenithal_kinds -> 0 < scale ->
  WcsFactory_init scale (of_string name) rotation flipX = Ok f ->
  let w := makeWcs named f (cx, cy) crval in
  zenithal_at dist limit scale rotation flipX crval cx cy w.
Proof.
  intros named name dist limit s o flipX f cx cy crval (N1 & N2 & _) Hn Hs Hf w.
  assert (W : exists P invp factor, w = makeSkyWcs (cx, cy) crval (makeCdMatrix s o flipX) P
     /\ (forall p, plane_of P crval (sky_of P crval p) = Some p)
     /\ (forall c p, plane_of P crval c = Some p -> vec_of (sky_of P crval p) = vec_of c)
     /\ (forall p, sky_of P crval p = coord_of_unit (invp (deg (fst p)) (deg (snd p))))
     /\ (forall t beta, invp (t * cos beta) (t * sin beta) = offset_vec crval beta (dist t))
     /\ (forall c, plane_of P crval c = zenithal_plane factor crval c)
     /\ (forall c, factor (dot (vec_of c) (vec_of crval)) = None <-> limit <= separation c crval)).
  { assert (Sep : forall c, cos (separation c crval) = dot (vec_of c) (vec_of crval) /\ 0 <= separation c crval <= PI).
    { intros c. unfold separation. split; [apply cos_acos, dot_bound; apply vec_of_unit|apply acos_bound]. }
    cbn [zenithal_kinds In] in Hn. destruct Hn as [Hn|[Hn|[]]]; injection Hn as <- <- <-.
    - exists proj_TAN, (tan_inverse crval), tan_factor. unfold w, makeWcs. unfold WcsFactory_init in Hf. cbn [of_string length negb Nat.eqb] in Hf.
      injection Hf as <-. cbn [f_projection f_cdMatrix]. rewrite N1. split; [reflexivity|]. split; [apply tan_sky_plane|]. split; [apply tan_plane_sky|].
      split; [reflexivity|]. split; [apply tan_polar|]. split; [reflexivity|]. intros c. destruct (Sep c) as [E B]. rewrite <- E. unfold tan_factor.
      pose proof PI_RGT_0. destruct (Rlt_bool_spec 0 (cos (separation c crval))) as [H0|H0]; split; intros K; try discriminate.
      + exfalso. assert (cos (separation c crval) <= cos (PI / 2)) by (apply cos_decr_1; lra). rewrite cos_PI2 in *. lra.
      + destruct (Rle_lt_dec (PI / 2) (separation c crval)) as [L|L]; [exact L|]. exfalso. assert (0 < cos (separation c crval)) by (apply cos_gt_0; lra). lra.
      + reflexivity.
    - exists proj_STG, (stg_inverse crval), stg_factor. unfold w, makeWcs. unfold WcsFactory_init in Hf. cbn [of_string length negb Nat.eqb] in Hf.
      injection Hf as <-. cbn [f_projection f_cdMatrix]. rewrite N2. split; [reflexivity|]. split; [apply stg_sky_plane|]. split; [apply stg_plane_sky|].
      split; [reflexivity|]. split; [apply stg_polar|]. split; [reflexivity|]. intros c. destruct (Sep c) as [E B]. rewrite <- E. unfold stg_factor.
      pose proof PI_RGT_0. destruct (Rlt_bool_spec (-1) (cos (separation c crval))) as [H0|H0]; split; intros K; try discriminate.
      + exfalso. replace (separation c crval) with PI in H0 by lra. rewrite cos_PI in H0. lra.
      + destruct (Rle_lt_dec PI (separation c crval)) as [L|L]; [exact L|]. exfalso.
        assert (cos PI < cos (separation c crval)) by (apply cos_decreasing_1; lra). rewrite cos_PI in *. lra.
      + reflexivity. }
  destruct W as (P & invp & factor & -> & P1 & P2 & P3 & P4 & P5 & P6).
  unfold zenithal_at. cbn [makeSkyWcs skyToPixel pixelToSky fst snd].
  split; [|split; [|split; [|split]]].
  - intros r phi. replace (cx + r * cos phi - cx) with (r * cos phi) by ring. replace (cy + r * sin phi - cy) with (r * sin phi) by ring.
    rewrite cd_apply. cbn [fst snd]. rewrite P3. cbn [fst snd]. rewrite !asDegrees_deg. unfold sphere_offset. f_equal. rewrite <- P4. f_equal.
    + destruct flipX; cbn [flip_sign].
      * rewrite cos_minus. ring.
      * replace (PI - phi - o) with (PI - (phi + o)) by ring. rewrite Rtrigo_facts.cos_pi_minus, cos_plus. ring.
    + destruct flipX; cbn [flip_sign].
      * rewrite sin_minus. ring.
      * replace (PI - phi - o) with (PI - (phi + o)) by ring. rewrite Rtrigo_facts.sin_pi_minus, sin_plus. ring.
  - intros x y. rewrite P1, cd_inverse_l by exact Hs. cbn [fst snd]. f_equal; ring.
  - intros c x y H. destruct (plane_of P crval c) as [p|] eqn:E; [|discriminate]. cbv zeta in H.
    set (q := mat_apply (mat_inverse (makeCdMatrix s o flipX)) p) in H.
    assert (E2 : mat_apply (makeCdMatrix s o flipX) q = p) by (apply cd_inverse_r; exact Hs). clearbody q. injection H as <- <-.
    replace (cx + fst q - cx) with (fst q) by ring. replace (cy + snd q - cy) with (snd q) by ring.
    rewrite <- surjective_pairing, E2. now apply P2.
  - intros c. rewrite P5. unfold zenithal_plane. rewrite <- P6. destruct (factor _); split; intros K; try discriminate; reflexivity.
  - intros c. rewrite P5. unfold zenithal_plane. specialize (P6 c). destruct (factor _) as [k|].
    + split; [|eauto]. intros _. destruct (Rle_lt_dec limit (separation c crval)) as [L|L]; [|exact L]. apply P6 in L. discriminate.
    + split; [intros (x & y & K); discriminate|]. intros L. assert (limit <= separation c crval) by now apply P6. lra.
Qed.

(** The two axis vectors of a zenithal WCS of a factory. *)
Lemma factory_axes s o flipX ctr : 0 < s -> exists a b,
  dot a (vec_of ctr) = 0 /\ dot b (vec_of ctr) = 0 /\ dot a b = 0 /\ dot a a = dot b b /\ 0 < dot a a
  /\ forall k v, mat_apply (mat_inverse (makeCdMatrix s o flipX)) (asDegrees (k * dot v (east ctr)), asDegrees (k * dot v (north ctr)))
       = (k * dot v a, k * dot v b).
Proof.
  intros Hs. destruct (frame ctr) as (E1 & E2 & E3 & E4 & E5). unfold unit_vec in *. pose proof (cs o) as C. pose proof (flip_sign_sqr flipX) as F.
  set (m := flip_sign flipX) in *.
  exists (vadd (vscale (m * cos o / s) (east ctr)) (vscale (- m * sin o / s) (north ctr))), (vadd (vscale (sin o / s) (east ctr)) (vscale (cos o / s) (north ctr))).
  assert (Ee : dot (east ctr) (vec_of ctr) = 0) by (rewrite dot_comm; exact E3). assert (En : dot (north ctr) (vec_of ctr) = 0) by (rewrite dot_comm; exact E4).
  assert (E5' : dot (north ctr) (east ctr) = 0) by (rewrite dot_comm; exact E5).
  assert (Dr : forall v p q, dot v (vadd (vscale p (east ctr)) (vscale q (north ctr))) = p * dot v (east ctr) + q * dot v (north ctr)).
  { intros v p q. rewrite dot_comm, dot_vadd_l, !dot_vscale_l, (dot_comm (east ctr)), (dot_comm (north ctr)). reflexivity. }
  assert (Dl : forall v p q, dot (vadd (vscale p (east ctr)) (vscale q (north ctr))) v = p * dot (east ctr) v + q * dot (north ctr) v).
  { intros v p q. rewrite dot_vadd_l, !dot_vscale_l. reflexivity. }
  repeat rewrite Dr. repeat rewrite Dl. rewrite Ee, En, E1, E2, E5, E5'.
  assert (X : m * cos o / s * (m * cos o / s * 1 + - m * sin o / s * 0) + - m * sin o / s * (m * cos o / s * 0 + - m * sin o / s * 1) = / (s * s)).
  { transitivity ((m * m) * (cos o * cos o + sin o * sin o) / (s * s)); [field; lra|rewrite F, C; field; lra]. }
  split; [ring|]. split; [ring|]. split; [field; lra|]. rewrite X. split.
  - transitivity ((cos o * cos o + sin o * sin o) / (s * s)); [rewrite C; field; lra|field; lra].
  - split; [apply Rinv_0_lt_compat, Rmult_lt_0_compat; exact Hs|]. intros k v. rewrite cd_inverse_apply by exact Hs. cbn [fst snd]. rewrite !asDegrees_deg, !Dr.
    fold m. apply f_equal2; field; lra.
Qed.
Lemma factory_projects s o flipX ctr factor : 0 < s ->
  forall P, (forall c, plane_of P ctr c = zenithal_plane factor ctr c) -> projects factor ctr (makeSkyWcs (0, 0) ctr (makeCdMatrix s o flipX) P).
Proof.
  intros Hs P HP. destruct (factory_axes s o flipX ctr Hs) as (a & b & A1 & A2 & A3 & A4 & A5 & A6). exists a, b. do 5 (split; [assumption|]).
  intros c. cbn [makeSkyWcs skyToPixel fst snd]. rewrite HP. unfold zenithal_plane. destruct (factor _) as [k|]; [|reflexivity].
  rewrite A6. cbn [fst snd]. now rewrite !Rplus_0_l.
Qed.
Lemma factory_gnomonic s o flipX ctr cx cy : 0 < s -> gnomonic (makeSkyWcs (cx, cy) ctr (makeCdMatrix s o flipX) proj_TAN).
Proof.
  intros Hs. split.
  - destruct (factory_axes s o flipX ctr Hs) as (a & b & A1 & A2 & A3 & A4 & A5 & A6). exists ctr, a, b, cx, cy. do 5 (split; [assumption|]).
    intros c. cbn [makeSkyWcs skyToPixel fst snd proj_TAN plane_of]. unfold zenithal_plane, tan_factor. cbv zeta.
    destruct (Rlt_bool_spec 0 (dot (vec_of c) (vec_of ctr))) as [H|H]; [|reflexivity]. rewrite A6. cbn [fst snd]. f_equal; field; lra.
  - intros x y. cbn [makeSkyWcs skyToPixel pixelToSky fst snd]. rewrite tan_sky_plane, cd_inverse_l by exact Hs. cbn [fst snd]. f_equal; ring.
Qed.

(** The CEA projection about an equatorial point. *)
Lemma cea_sky mid p : sky_of proj_CEA (spherePoint mid 0) p = spherePoint (mid + deg (fst p)) (asin (deg (snd p))).
Proof. cbn [proj_CEA sky_of]. unfold spherePoint. cbn [fst]. now rewrite wrap_plus_wrap. Qed.
Lemma cea_plane mid lon lat : - PI < lon <= PI -> - (PI / 2) < lat < PI / 2 ->
  plane_of proj_CEA (spherePoint mid 0) (spherePoint (mid + lon) lat) = Some (asDegrees lon, asDegrees (sin lat)).
Proof.
  intros H1 H2. cbn [proj_CEA plane_of]. cbv zeta. destruct (cea_point mid lon lat H1 H2) as [A B]. unfold cea_lon in A. rewrite A, B. reflexivity.
Qed.

(*@ C81: the WCS made by a factory with the CEA projection for a reference coordinate on the equator, of any positive pixel scale, any rotation,
    flipped or not, and any reference pixel: the pixel (x, y) from the reference pixel is at the longitude and sine of latitude that
    (x, y), rotated and scaled, gives, and coordinates (other than the poles) lead to their pixel and back. *)
Lemma cea_factory_wcs_proof : forall named scale rotation flipX f cx cy mid,
  knows named -> 0 < scale -> WcsFactory_init scale (of_string "CEA") rotation flipX = Ok f ->
  cea_at scale rotation flipX mid cx cy (makeWcs named f (cx, cy) (spherePoint mid 0)).
Proof.
  intros named s o flipX f cx cy mid (_ & _ & N) Hs Hf. unfold WcsFactory_init in Hf. cbn [of_string length negb Nat.eqb] in Hf. injection Hf as <-.
  unfold makeWcs. cbn [f_projection f_cdMatrix]. change [67; 69; 65]%Z with (of_string "CEA"). rewrite N.
  unfold cea_at. fold (flip_sign flipX). cbv zeta. cbn [makeSkyWcs skyToPixel pixelToSky fst snd].
  assert (I : forall x y, sky_of proj_CEA (spherePoint mid 0) (mat_apply (makeCdMatrix s o flipX) (cx + x - cx, cy + y - cy))
     = spherePoint (mid + s * (flip_sign flipX * x * cos o + y * sin o)) (asin (s * (y * cos o - flip_sign flipX * x * sin o)))).
  { intros x y. rewrite cea_sky, cd_apply. cbn [fst snd]. rewrite !asDegrees_deg. f_equal; [|f_equal]; ring. }
  split; [exact I|].
  intros lon lat H1 H2. rewrite (cea_plane mid lon lat H1 H2), cd_inverse_apply by exact Hs. cbn [fst snd]. rewrite !asDegrees_deg.
  eexists. eexists. split; [reflexivity|]. split; [field; lra|]. split; [field; lra|].
  rewrite I. pose proof (cs o) as C. pose proof (flip_sign_sqr flipX) as F. set (m := flip_sign flipX) in *.
  assert (L1 : mid + s * (m * (m * (cos o * lon - sin o * sin lat) / s) * cos o + (sin o * lon + cos o * sin lat) / s * sin o) = mid + lon).
  { f_equal. transitivity ((m * m) * cos o * (cos o * lon - sin o * sin lat) + sin o * (sin o * lon + cos o * sin lat)); [field; lra|].
    rewrite F. transitivity (lon * (cos o * cos o + sin o * sin o)); [ring|rewrite C; ring]. }
  assert (L2 : s * ((sin o * lon + cos o * sin lat) / s * cos o - m * (m * (cos o * lon - sin o * sin lat) / s) * sin o) = sin lat).
  { transitivity (cos o * (sin o * lon + cos o * sin lat) - (m * m) * sin o * (cos o * lon - sin o * sin lat)); [field; lra|].
    rewrite F. transitivity (sin lat * (cos o * cos o + sin o * sin o)); [ring|rewrite C; ring]. }
  rewrite L1, L2, asin_sin by lra. reflexivity.
Qed.

(** Moving the pixel origin. *)
Lemma zenithal_at_shift dist limit s o fl ctr w w' : zenithal_at dist limit s o fl ctr 0 0 w -> same_projection w w' ->
  exists X Y : Z, zenithal_at dist limit s o fl ctr (IZR X) (IZR Y) w'.
Proof.
  intros (H1 & H2 & H3 & H4 & H5) (dx & dy & K1 & K2). exists dx, dy. unfold zenithal_at. split; [|split; [|split; [|split]]].
  - intros r phi. rewrite K2, <- H1. f_equal. apply f_equal2; ring.
  - intros x y. rewrite K2, K1, H2. f_equal; ring.
  - intros c x y H. rewrite K1 in H. destruct (skyToPixel w c) as [| |u v] eqn:E; try discriminate. injection H as <- <-.
    rewrite K2. rewrite <- (H3 c u v E). do 2 f_equal. apply f_equal2; ring.
  - intros c. rewrite K1, <- H4. destruct (skyToPixel w c) as [| |u v]; split; intros; try discriminate; assumption.
  - intros c. rewrite K1, <- H5. destruct (skyToPixel w c) as [| |u v]; split; intros (x & y & H); try discriminate; eauto.
Qed.
Lemma cea_at_shift s o fl mid w w' : cea_at s o fl mid 0 0 w -> same_projection w w' ->
  exists X Y : Z, cea_at s o fl mid (IZR X) (IZR Y) w'.
Proof.
  intros (H1 & H2) (dx & dy & K1 & K2). exists dx, dy. unfold cea_at. split.
  - intros x y. rewrite K2. rewrite <- H1. f_equal. apply f_equal2; ring.
  - intros lon lat L1 L2. destruct (H2 lon lat L1 L2) as (x & y & A & Ex & Ey & B). exists x, y. rewrite K1, A. split; [f_equal; ring|].
    split; [exact Ex|]. split; [exact Ey|]. rewrite K2, <- B. f_equal. apply f_equal2; ring.
Qed.
Lemma gnomonic_same w w' : gnomonic w -> same_projection w w' -> gnomonic w'.
Proof.
  intros [(ctr & a & b & x0 & y0 & A1 & A2 & A3 & A4 & A5 & H) Hi] (dx & dy & K1 & K2). split.
  - exists ctr, a, b, (x0 + IZR dx), (y0 + IZR dy). do 5 (split; [assumption|]). intros c. rewrite K1, H. cbv zeta. destruct (Rlt_bool _ _); [|reflexivity].
    f_equal; ring.
  - intros x y. rewrite K2, K1, Hi. f_equal; ring.
Qed.

Lemma reference_wcs offset skyWcs p2a bnd order sha1 c ver m0 m i t : any_order order ->
  construct offset skyWcs p2a bnd order c ver = Ok m0 -> used offset sha1 m0 m ->
  cfg_ok (selected (c_tb c)) -> (forall n ra, c_class c = RingsCfg n ra -> (1 <= n)%Z) -> holds offset (m_def m) i (m_state m) t ->
  same_projection (skyWcs (c_projection c) (f2r (c_scale c)) (f2r (c_rotation c)) (reference (c_class c) i (t_ctr t))) (t_wcs t).
Proof.
  intros Ho Hc Hu Hcfg Hn Hh. destruct (config_reaches_tracts_proof offset skyWcs p2a bnd order sha1 c ver m0 m i t Ho Hc Hu Hcfg Hh) as (_ & _ & K).
  unfold reference. destruct (c_class c) as [n ra|ras decs radii|n [d0 d1]|b|n nest].
  - apply (K (Hn n ra eq_refl)).
  - destruct K as (_ & ra & dec & radius & _ & _ & _ & _ & K & _). exact K.
  - apply K.
  - apply K.
  - apply K.
Qed.

(*@ C81: hence for a sky map of any class, at any point of its life: the WCS of every tract has the configured projection (TAN, STG; for Equat
    also CEA), pixel scale and rotation, is not flipped, and has a whole pixel as its reference, at the tract's
    centre (Equat: the point of the equator at the tract's middle); with TAN it is gnomonic (C71, C80), with CEA cylindrical (C79). *)
Lemma map_wcs_proof : forall named offset p2a bnd order sha1 c ver m0 m i t, knows named -> any_order order ->
  construct offset (factory_wcs named) p2a bnd order c ver = Ok m0 -> used offset sha1 m0 m ->
  cfg_ok (selected (c_tb c)) -> (forall n ra, c_class c = RingsCfg n ra -> (1 <= n)%Z) -> 0 < f2r (c_scale c) ->
  holds offset (m_def m) i (m_state m) t ->
  let scale := f2r (c_scale c) * (PI / 648000) in
  let rotation := f2r (c_rotation c) * (PI / 180) in
  (forall name dist limit, c_projection c = of_string name -> In (name, dist, limit) zenithal_kinds ->
     exists X Y : Z, zenithal_at dist limit scale rotation false (reference (c_class c) i (t_ctr t)) (IZR X) (IZR Y) (t_wcs t))
  /\ (c_projection c = of_string "TAN" -> gnomonic (t_wcs t))
  /\ (forall n decs, c_class c = EquatCfg n decs -> c_projection c = of_string "CEA" ->
        exists X Y : Z, cea_at scale rotation false (deg (360 * (IZR i + 1 / 2) / IZR n)) (IZR X) (IZR Y) (t_wcs t)).
Proof.
  intros named offset p2a bnd order sha1 c ver m0 m i t Hk Ho Hc Hu Hcfg Hn Hs Hh scale rotation.
  pose proof (reference_wcs offset (factory_wcs named) p2a bnd order sha1 c ver m0 m i t Ho Hc Hu Hcfg Hn Hh) as W.
  assert (E : arcsec (f2r (c_scale c)) = scale) by (unfold arcsec, scale, deg; field).
  assert (Hp : 0 < scale) by (rewrite <- E; now apply arcsec_pos).
  unfold factory_wcs in W. rewrite E in W. change (deg (f2r (c_rotation c))) with rotation in W. clearbody scale rotation.
  split; [|split].
  - intros name dist limit Hname Hin. rewrite Hname in W. refine (zenithal_at_shift _ _ _ _ _ _ _ _ _ W).
    apply (zenithal_wcs_proof named name dist limit scale rotation false _ 0 0 _ Hk Hin Hp).
    unfold WcsFactory_init. cbn [zenithal_kinds In] in Hin. destruct Hin as [H|[H|[]]]; injection H as <- <- <-; reflexivity.
  - intros Hname. rewrite Hname in W. refine (gnomonic_same _ _ _ W). unfold makeWcs. cbn [f_projection f_cdMatrix]. destruct Hk as (-> & _). now apply factory_gnomonic.
  - intros n decs Hcl Hname. rewrite Hname, Hcl in W. cbn [reference] in W. refine (cea_at_shift _ _ _ _ _ _ _ W).
    apply (cea_factory_wcs_proof named scale rotation false _ 0 0 _ Hk Hp). reflexivity.
Qed.

(*@ C81: the assumptions on projections of the coverage properties hold for the WCSs the factories of the maps make: TAN and STG are the zenithal
    projections of C71, TAN is gnomonic as in C80, CEA on the equator is cylindrical as in C79, and the (0, 0) pixel is the reference coordinate. *)
Lemma factory_projections_proof : forall named scale rotation, knows named -> 0 < scale ->
  (forall ctr, projects tan_factor ctr (factory_wcs named (of_string "TAN") scale rotation ctr)
     /\ gnomonic (factory_wcs named (of_string "TAN") scale rotation ctr))
  /\ (forall ctr, projects stg_factor ctr (factory_wcs named (of_string "STG") scale rotation ctr))
  /\ (forall ra, cylindrical (spherePoint ra 0) (factory_wcs named (of_string "CEA") scale rotation (spherePoint ra 0))).
Proof.
  intros named s o (N1 & N2 & N3) Hs. pose proof (arcsec_pos s Hs) as Ha. unfold factory_wcs, makeWcs. cbn [f_projection f_cdMatrix]. rewrite N1, N2, N3.
  split; [|split].
  - intros ctr. split; [now apply factory_projects|now apply factory_gnomonic].
  - intros ctr. now apply factory_projects.
  - intros ra. unfold cylindrical.
    exists (- cos (deg o) / arcsec s), (sin (deg o) / arcsec s), (sin (deg o) / arcsec s), (cos (deg o) / arcsec s).
    intros p. cbv zeta. cbn [makeSkyWcs skyToPixel fst snd proj_CEA plane_of]. cbv zeta. rewrite cd_inverse_apply by exact Ha. cbn [fst snd flip_sign].
    rewrite !asDegrees_deg. f_equal; field; lra.
Qed.

(*@ C81: without rotation these are, in both directions, the gnomonic, stereographic and cylindrical equal area WCSs (1/scale pixels per radian, x to the
    west, y to the north) for which other properties (C31, C59, C79, ...) are stated. *)
Lemma unrotated_wcs_proof : forall named scale, knows named -> 0 < scale ->
  let same (w w' : wcs sphere) := (forall c, skyToPixel w c = skyToPixel w' c) /\ (forall p, pixelToSky w p = pixelToSky w' p) in
  (forall ctr, same (factory_wcs named (of_string "TAN") scale 0 ctr) (tan_wcs (/ arcsec scale) ctr))
  /\ (forall ctr, same (factory_wcs named (of_string "STG") scale 0 ctr) (stg_wcs (/ arcsec scale) ctr))
  /\ (forall ctr, same (factory_wcs named (of_string "CEA") scale 0 ctr) (cea_wcs (/ arcsec scale) ctr)).
Proof.
  intros named s (N1 & N2 & N3) Hs same. pose proof (arcsec_pos s Hs) as Ha.
  assert (D0 : deg 0 = 0) by (unfold deg; lra).
  unfold same, factory_wcs, makeWcs. cbn [f_projection f_cdMatrix]. rewrite N1, N2, N3, D0.
  assert (A : forall x y : R, mat_apply (makeCdMatrix (arcsec s) 0 false) (x - 0, y - 0) = (asDegrees (- (x / (/ arcsec s))), asDegrees (y / (/ arcsec s)))).
  { intros x y. rewrite cd_apply, cos_0, sin_0. cbn [fst snd flip_sign]. apply f_equal2; f_equal; field; lra. }
  split; [|split]; intros ctr; (split; [intros c|intros [x y]]); cbn [makeSkyWcs skyToPixel pixelToSky tan_wcs stg_wcs cea_wcs fst snd];
    rewrite ?A; cbn [proj_TAN proj_STG proj_CEA plane_of sky_of fst snd]; unfold zenithal_plane, zenithal; cbv zeta; rewrite ?asDegrees_deg; try reflexivity.
  1,2: match goal with |- context [match ?f with Some _ => _ | None => _ end] => destruct f; [|reflexivity] end.
  1,2,3: rewrite cd_inverse_apply by exact Ha; cbn [fst snd flip_sign]; rewrite !asDegrees_deg, cos_0, sin_0; f_equal; field; lra.
Qed.

(*@ C81, non-vacuity: there is such a naming of projections; a Discrete map with the TAN or STG projection, the default pixel scale and rotated by 45 degrees is
    made, its tract 0 is used and meets the assumptions; one pixel up from the reference pixel is north-east of the tract's
    centre, one pixel to the right is north-west. *)
Example map_wcs_example_proof : forall p2a bnd order sha1 name dist limit, any_order order -> In (name, dist, limit) zenithal_kinds ->
  let c := mkConfig tb_default f64_one f64_0_333 (of_string name) f64_45 (DiscreteCfg [f64_3_5] [f64_45] [f64_one]) in
  knows fits_projections
  /\ exists m0 m t, construct sphere_offset (factory_wcs fits_projections) p2a bnd order c None = Ok m0 /\ used sphere_offset sha1 m0 m
    /\ cfg_ok (selected (c_tb c)) /\ 0 < f2r (c_scale c) /\ holds sphere_offset (m_def m) 0 (m_state m) t
    /\ (name = "TAN"%string -> gnomonic (t_wcs t))
    /\ exists X Y : Z,
         pixelToSky (t_wcs t) (IZR X, IZR Y + 1) = sphere_offset (t_ctr t) (PI / 4) (dist (f2r f64_0_333 * (PI / 648000)))
         /\ pixelToSky (t_wcs t) (IZR X + 1, IZR Y) = sphere_offset (t_ctr t) (3 * (PI / 4)) (dist (f2r f64_0_333 * (PI / 648000))).
Proof.
  intros p2a bnd order sha1 name dist limit Hord Hname c.
  assert (Hk : knows fits_projections) by (unfold knows, fits_projections; repeat split).
  split; [exact Hk|].
  assert (Hc : cfg_ok (selected (c_tb c))) by (cbn; lia).
  assert (F2 : f2r f64_45 = 45) by (vm_compute; lra).
  assert (F3 : 0 < f2r f64_0_333) by (vm_compute; lra).
  set (dc := mkDiscrete [f2r f64_3_5] [f2r f64_45] [f2r f64_one]).
  set (mk := factory_wcs fits_projections (of_string name) (f2r (c_scale c)) (f2r (c_rotation c))).
  set (d := discrete_def (selected (c_tb c)) mk (f2r f64_one) dc).
  assert (E0 : exists s0, sm_new sphere_offset d = Ok s0) by (eexists; reflexivity). destruct E0 as (s0 & E0).
  set (m0 := mkMap c (VerInt 0) d s0 None).
  assert (C0 : construct sphere_offset (factory_wcs fits_projections) p2a bnd order c None = Ok m0).
  { unfold construct. cbn [c_class c]. unfold wcsFactory. cbn [c_projection c].
    replace (Nat.eqb (length (of_string name)) 3) with true by (cbn [zenithal_kinds In] in Hname; destruct Hname as [H|[H|[]]]; injection H as <- _ _; reflexivity).
    cbn [negb bind]. unfold finish.
    change (sm_new sphere_offset _) with (sm_new sphere_offset d). rewrite E0. reflexivity. }
  assert (Hr : sm_reachable sphere_offset d s0) by (exists s0; split; [exact E0|constructor]).
  destruct (Verif.MainMaps.discrete_access_proof sphere_offset (selected (c_tb c)) mk (f2r f64_one) dc s0 0 Hc Hr) as [A _].
  { intros k co e. unfold mk, factory_wcs, makeWcs. cbn [makeSkyWcs skyToPixel]. destruct (plane_of _ _ _); discriminate. }
  { cbn. lia. }
  destruct (A eq_refl) as (s & t & G).
  { cbn [dc dc_dec In]. rewrite F2. intros dec [<-|[]]; lra. }
  destruct (getitem_holds sphere_offset d s0 0 s t Hr ltac:(lia) G) as (Hr' & Ac & Hh).
  set (m := mkMap c (VerInt 0) d s None).
  assert (Hu : used sphere_offset sha1 m0 m) by (apply (used_access sphere_offset sha1 m0 m0 s (used_not _ _ _) Ac)).
  assert (Hs : 0 < f2r (c_scale c)) by exact F3.
  destruct (map_wcs_proof fits_projections sphere_offset p2a bnd order sha1 c None m0 m 0 t Hk Hord C0 Hu Hc ltac:(intros; discriminate) Hs Hh) as (M1 & M2 & _).
  exists m0, m, t. split; [exact C0|]. split; [exact Hu|]. split; [exact Hc|]. split; [exact Hs|]. split; [exact Hh|].
  split; [intros E; apply M2; unfold c; cbn [c_projection]; now rewrite E|].
  destruct (M1 name dist limit eq_refl Hname) as (X & Y & P & _). exists X, Y.
  change (c_rotation c) with f64_45 in P. rewrite F2 in P. change (reference (c_class c) 0 (t_ctr t)) with (t_ctr t) in P. change (c_scale c) with f64_0_333 in P.
  split.
  - replace (IZR X, IZR Y + 1) with (IZR X + 1 * cos (PI / 2), IZR Y + 1 * sin (PI / 2)) by (rewrite cos_PI2, sin_PI2; apply f_equal2; ring).
    rewrite P. f_equal; [field|]. f_equal. ring.
  - replace (IZR X + 1, IZR Y) with (IZR X + 1 * cos 0, IZR Y + 1 * sin 0) by (rewrite cos_0, sin_0; apply f_equal2; ring).
    rewrite P. f_equal; [field|]. f_equal. ring.
Qed.

(*@ C81, non-vacuity: the default Equat map (4 tracts, CEA) is made, and findTract of RA 100, Dec 1 gives tract 1, which contains it; it meets the
    assumptions: the pixel 1000 to the left of its reference pixel is at RA 135 + 0.0925 degrees on the equator. *)
Example equat_wcs_example_proof : forall p2a bnd order sha1, any_order order ->
  exists m0 s t, let m := mkMap equat_default (m_version m0) (m_def m0) s None in
    construct sphere_offset (factory_wcs fits_projections) p2a bnd order equat_default None = Ok m0
    /\ equat_findTract sphere_offset (m_def m0) (spherePoint (deg 100) (deg 1)) (m_state m0) = (s, Ok t)
    /\ used sphere_offset sha1 m0 m /\ holds sphere_offset (m_def m) 1 (m_state m) t
    /\ tract_contains t (spherePoint (deg 100) (deg 1)) = Ok true
    /\ exists X Y : Z, pixelToSky (t_wcs t) (IZR X + -1000, IZR Y + 0) = spherePoint (deg (135 + f2r f64_0_333 * 1000 / 3600)) 0.
Proof.
  intros p2a bnd order sha1 Hord. pose proof PI_RGT_0 as HP.
  assert (Hk : knows fits_projections) by (unfold knows, fits_projections; repeat split).
  assert (F1 : f2r f64_m1_25 = - (5 / 4)) by (vm_compute; lra). assert (F2 : f2r f64_1_25 = 5 / 4) by (vm_compute; lra).
  assert (F3 : f2r f64_one = 1) by (vm_compute; lra). assert (F4 : 0 < f2r f64_0_333) by (vm_compute; lra). assert (F5 : f2r f64_zero = 0) by (vm_compute; lra).
  set (c := selected (c_tb equat_default)). assert (Hc : cfg_ok c) by (cbn; lia).
  set (mk := factory_wcs fits_projections (of_string "CEA") (f2r f64_0_333) (f2r f64_zero)).
  set (d := mkDef EagerMap c 4 (equat_args mk (f2r f64_one) 4 (f2r f64_m1_25, f2r f64_1_25))).
  assert (Hd : equat_def c mk (f2r f64_one) 4 (f2r f64_m1_25, f2r f64_1_25) = Ok d) by reflexivity.
  assert (Hcy : forall ra, cylindrical (spherePoint ra 0) (mk (spherePoint ra 0))).
  { destruct (factory_projections_proof fits_projections (f2r f64_0_333) (f2r f64_zero) Hk F4) as (_ & _ & H). exact H. }
  assert (E0 : exists s0, sm_new sphere_offset d = Ok s0).
  { apply (eager_new_ok sphere_offset d eq_refl Hc). intros i Hi.
    destruct (equat_args_ok mk (f2r f64_one) 4 (f2r f64_m1_25, f2r f64_1_25) i) as (a & Ea).
    1,2: cbn [fst snd]; unfold deg; apply Rabs_le; rewrite ?F1, ?F2; lra.
    exists a. split; [exact Ea|]. intros s e _. apply equat_args_inv in Ea. destruct Ea as (_ & _ & ->).
    intros E. destruct (Hcy (deg (360 / IZR 4) * IZR i + deg (360 / IZR 4) / 2)) as (k1 & k2 & k3 & k4 & H). specialize (H s). cbv zeta in H.
    match type of E with ?l = _ => change l with (skyToPixel (mk (spherePoint (deg (360 / IZR 4) * IZR i + deg (360 / IZR 4) / 2) 0)) s) in E end. rewrite H in E. discriminate. }
  destruct E0 as (s0 & E0).
  set (m0 := mkMap equat_default (VerTuple [1; 0]%Z) d s0 None).
  assert (C0 : construct sphere_offset (factory_wcs fits_projections) p2a bnd order equat_default None = Ok m0).
  { unfold construct. cbn [c_class equat_default base_default]. change (wcsFactory (factory_wcs fits_projections) equat_default) with (Ok mk). cbn [bind].
    change (c_overlap equat_default) with f64_one. change (selected (c_tb equat_default)) with c. rewrite Hd. cbn [bind]. unfold finish. rewrite E0. reflexivity. }
  assert (Hr : sm_reachable sphere_offset d s0) by (exists s0; split; [exact E0|constructor]).
  assert (W : spherePoint (deg 100) (deg 1) = (deg 100, deg 1)) by (unfold spherePoint; rewrite wrap_id; [reflexivity|unfold deg; lra]).
  destruct (equat_findTract_slices_proof sphere_offset c mk (f2r f64_one) 4 (f2r f64_m1_25, f2r f64_1_25) d s0 (spherePoint (deg 100) (deg 1)) 1)
      as (s & t & E & Hh & H & _); try assumption; try lia; try (cbn [fst snd]; rewrite ?F1, ?F2; lra); try (rewrite W; cbn [fst snd]; unfold deg; lra).
  assert (Hid : t_id t = 1%Z) by (apply H; rewrite W; cbn [fst]; unfold deg; lra).
  destruct (equat_cea_findTract_proof c mk (f2r f64_one) 4 (f2r f64_m1_25) (f2r f64_1_25) d s0 (spherePoint (deg 100) (deg 1)))
      as (s1 & t1 & E1 & K); try assumption; try lia; try (rewrite F3; lra).
  { rewrite F1, F3, Rabs_Ropp, Rabs_pos_eq; lra. }
  { rewrite F2, F3, Rabs_pos_eq; lra. }
  { rewrite W. unfold on_sphere, deg. cbn [fst snd]. lra. }
  { rewrite W, F1, F2. unfold deg. cbn [fst snd]. lra. }
  rewrite E in E1. injection E1 as <- <-. rewrite Hid in Hh.
  assert (Ac : accesses sphere_offset d s0 s).
  { unfold equat_findTract in E. destruct (base_findTract_nearest_proof _ sphere_offset separation d _ s0 s _ Hr E) as (Ha & _). exact Ha. }
  assert (Hu : used sphere_offset sha1 m0 (mkMap equat_default (VerTuple [1; 0]%Z) d s None)) by (apply (used_access sphere_offset sha1 m0 m0 s (used_not _ _ _) Ac)).
  exists m0, s, t. cbv zeta. cbn [m_version m_def m0 m_state].
  split; [exact C0|]. split; [exact E|]. split; [exact Hu|]. split; [exact Hh|]. split; [exact K|].
  destruct (map_wcs_proof fits_projections sphere_offset p2a bnd order sha1 equat_default None m0 _ 1 t Hk Hord C0 Hu Hc ltac:(intros; discriminate) F4 Hh) as (_ & _ & M).
  destruct (M 4%Z (f64_m1_25, f64_1_25) eq_refl eq_refl) as (X & Y & P & _). exists X, Y. rewrite P.
  change (c_rotation equat_default) with f64_zero. change (c_scale equat_default) with f64_0_333. rewrite F5.
  replace (0 * (PI / 180)) with 0 by ring. rewrite cos_0, sin_0. f_equal.
  - unfold deg. field.
  - transitivity (asin 0); [f_equal; ring|apply asin_0].
Qed.
