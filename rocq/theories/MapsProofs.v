(** Proofs about the Equat, Discrete and Healpix maps and [coordFromVec]. *)
From Coq Require Import Reals Lra Lia.
From Flocq Require Import Raux.
Require Import Verif.Py Verif.Geom Verif.PatchInfo Verif.TractBuilder Verif.TractInfo Verif.Spec.
Require Import Verif.PatchProofs Verif.TractProofs.
Require Import Verif.SkyMap Verif.SkySpec Verif.SkyProofs Verif.SkyProofs2 Verif.MainSky.
Require Import Verif.Rings Verif.RingsSpec Verif.RingsProofs Verif.Sphere Verif.SphereProofs Verif.TractBox Verif.Uniform Verif.Maps.
Open Scope Z_scope.

(** Fields of a tract made from given arguments. *)
Definition args_ctr {Sky} (a : tract_args Sky) : Sky :=
  match a with PlainArgs ctr _ _ _ _ => ctr | ExplicitArgs ctr _ _ _ _ => ctr end.
Definition args_overlap {Sky} (a : tract_args Sky) : R :=
  match a with PlainArgs _ _ ov _ _ => ov | ExplicitArgs _ _ ov _ _ => ov end.
Lemma make_tract_fields {Sky} (offset : Sky -> R -> R -> Sky) b oid id a b' t :
  make_tract offset b oid id a = Ok (b', t) ->
  t_id t = id /\ t_ctr t = args_ctr a /\ t_overlap t = args_overlap a
  /\ (forall ctr verts ov w cor, a = PlainArgs ctr verts ov w cor -> t_verts t = verts).
Proof.
  destruct a as [ctr verts ov w cor|ctr rad ov w cor]; cbn; intros H.
  - unfold TractInfo_init, tract_build in H. destruct (include_all _ _) as [m|]; [|discriminate]. cbn [bind] in H.
    destruct (setupPatches _ _) as [[b1 [bb np]]|]; [|discriminate]. cbn [bind] in H.
    destruct (finalOrientation _ _) as [x y]. injection H as <- <-. cbn. repeat (split; [reflexivity|]).
    intros ? ? ? ? ? E. now injection E.
  - unfold ExplicitTractInfo_init, tract_build in H. destruct (include_all _ _) as [m|]; [|discriminate]. cbn [bind] in H.
    destruct (setupPatches _ _) as [[b1 [bb np]]|]; [|discriminate]. cbn [bind] in H.
    destruct (finalOrientation _ _) as [x y]. injection H as <- <-. cbn. repeat (split; [reflexivity|]).
    intros ? ? ? ? ? E. discriminate.
Qed.

Lemma holds_ctr {Sky} (offset : Sky -> R -> R -> Sky) d s i t a :
  sm_reachable offset d s -> holds offset d i s t -> sd_args d i = Ok a -> t_ctr t = args_ctr a.
Proof.
  intros Hr Hh Ha. destruct (holds_args offset d s i t Hr Hh) as (_ & a' & b & b' & oid & Ea & _ & Hm).
  rewrite Ha in Ea. injection Ea as <-. apply (make_tract_fields _ _ _ _ _ _ _ Hm).
Qed.

Open Scope R_scope.

(** ** Trigonometry *)
Lemma dot_vec_of a b :
  dot (vec_of a) (vec_of b) = cos (snd a) * cos (snd b) * cos (fst a - fst b) + sin (snd a) * sin (snd b).
Proof. unfold dot, vec_of, vx, vy, vz; cbn. rewrite cos_minus. ring. Qed.

Lemma vec_of_spherePoint lon lat : vec_of (spherePoint lon lat) = vec_of (lon, lat).
Proof. unfold vec_of, spherePoint. cbn [fst snd]. now rewrite cos_wrap, sin_wrap. Qed.

Lemma acos_le_inv x y : -1 <= x <= 1 -> -1 <= y <= 1 -> acos x <= acos y -> y <= x.
Proof.
  intros Hx Hy H. destruct (Rle_lt_dec y x) as [L|L]; [exact L|].
  rewrite <- (cos_acos x) by lra. rewrite <- (cos_acos y) by lra.
  pose proof (acos_bound x). pose proof (acos_bound y). apply cos_decr_1; lra.
Qed.

Lemma separation_le_inv a b c : separation a b <= separation a c ->
  dot (vec_of a) (vec_of c) <= dot (vec_of a) (vec_of b).
Proof.
  unfold separation. apply acos_le_inv; apply dot_bound; apply vec_of_unit.
Qed.

Lemma cos_le_slice a y : 0 <= a <= PI -> a <= y <= 2 * PI - a -> cos y <= cos a.
Proof.
  intros Ha Hy. destruct (Rle_lt_dec y PI) as [L|L].
  - apply cos_decr_1; lra.
  - rewrite <- (cos_neg y). replace (- y) with ((2 * PI - y) - 2 * PI) by ring.
    replace (cos (2 * PI - y - 2 * PI)) with (cos (2 * PI - y)).
    + apply cos_decr_1; lra.
    + pose proof (cos_period (2 * PI - y - 2 * PI) 1) as E. cbn [INR] in E. rewrite <- E. f_equal. lra.
Qed.
Lemma cos_lt_slice a y : 0 <= a <= PI -> a < y < 2 * PI - a -> cos y < cos a.
Proof.
  intros Ha Hy. destruct (Rle_lt_dec y PI) as [L|L].
  - apply cos_decreasing_1; lra.
  - rewrite <- (cos_neg y). replace (- y) with ((2 * PI - y) - 2 * PI) by ring.
    replace (cos (2 * PI - y - 2 * PI)) with (cos (2 * PI - y)).
    + apply cos_decreasing_1; lra.
    + pose proof (cos_period (2 * PI - y - 2 * PI) 1) as E. cbn [INR] in E. rewrite <- E. f_equal. lra.
Qed.
Lemma cos_Rabs x : cos (Rabs x) = cos x.
Proof. unfold Rabs. destruct (Rcase_abs x); [apply cos_neg|reflexivity]. Qed.

(** Within its slice a longitude is nearer to the middle of the slice than to the
    middle of any other slice. *)
Lemma slice_cos n w x k : (0 < n)%Z -> w * IZR n = 2 * PI -> Rabs x < w / 2 ->
  (k <> 0 /\ - n < k < n)%Z -> cos (x + IZR k * w) < cos x.
Proof.
  intros Hn Hw Hx [Hk0 Hk].
  assert (Hn' : 1 <= IZR n) by (apply IZR_le; lia).
  pose proof PI_RGT_0 as HPI.
  assert (Hw0 : 0 < w) by nra.
  assert (Hwp : w <= 2 * PI) by nra.
  apply Rle_lt_trans with (cos (w / 2)).
  - rewrite <- cos_Rabs. apply cos_le_slice; [lra|].
    apply Rabs_def2 in Hx.
    assert (K : 1 <= IZR k <= IZR n - 1 \/ 1 <= - IZR k <= IZR n - 1).
    { destruct (Z_lt_le_dec k 0) as [L|L].
      - right. rewrite <- opp_IZR, <- minus_IZR. split; apply IZR_le; lia.
      - left. rewrite <- minus_IZR. split; apply IZR_le; lia. }
    destruct K as [K|K].
    + rewrite Rabs_pos_eq by nra. nra.
    + rewrite Rabs_left1 by nra. nra.
  - rewrite <- (cos_Rabs x). apply cos_decreasing_1; try lra; pose proof (Rabs_pos x); lra.
Qed.

(** At the start of a slice only the two adjacent slices are nearest. *)
Lemma slice_cos_edge n w k : (0 < n)%Z -> w * IZR n = 2 * PI ->
  (- n < k < n)%Z -> (k <> 0 /\ k <> 1 /\ k <> 1 - n)%Z -> cos (- (w / 2) + IZR k * w) < cos (w / 2).
Proof.
  intros Hn Hw Hk [Hk0 [Hk1 Hk2]].
  assert (Hn' : 1 <= IZR n) by (apply IZR_le; lia).
  pose proof PI_RGT_0 as HPI.
  assert (Hw0 : 0 < w) by nra.
  assert (Hwp : w <= 2 * PI) by nra.
  rewrite <- cos_Rabs. apply cos_lt_slice; [lra|].
  assert (K : 2 <= IZR k <= IZR n - 1 \/ 1 <= - IZR k <= IZR n - 2).
  { destruct (Z_lt_le_dec k 0) as [L|L].
    - right. rewrite <- opp_IZR, <- minus_IZR. split; apply IZR_le; lia.
    - left. rewrite <- minus_IZR. split; apply IZR_le; lia. }
  destruct K as [K|K].
  - rewrite Rabs_pos_eq by nra. nra.
  - rewrite Rabs_left1 by nra. nra.
Qed.

Lemma deg_360 n : (0 < n)%Z -> deg (360 / IZR n) * IZR n = 2 * PI.
Proof. intros Hn. unfold deg. apply IZR_lt in Hn. field. lra. Qed.

(** ** Rotations about the polar axis *)
Lemma vec_eq (a b c a' b' c' : R) : a = a' -> b = b' -> c = c' -> (a, b, c) = (a', b', c').
Proof. now intros -> -> ->. Qed.
Definition rotz (dl : R) (v : vec) : vec :=
  (cos dl * vx v - sin dl * vy v, sin dl * vx v + cos dl * vy v, vz v).
Lemma rotz_dot dl a b : dot (rotz dl a) (rotz dl b) = dot a b.
Proof.
  unfold dot, rotz, vx, vy, vz; cbn [fst snd]. pose proof (cs dl) as H.
  destruct a as [[a1 a2] a3], b as [[b1 b2] b3]; cbn [fst snd].
  replace (_ + _ + a3 * b3) with ((cos dl * cos dl + sin dl * sin dl) * (a1 * b1 + a2 * b2) + a3 * b3) by ring.
  rewrite H. ring.
Qed.
Lemma rotz_cross dl a b : cross (rotz dl a) (rotz dl b) = rotz dl (cross a b).
Proof.
  unfold cross, rotz, vx, vy, vz; cbn [fst snd]. pose proof (cs dl) as H.
  destruct a as [[a1 a2] a3], b as [[b1 b2] b3]; cbn [fst snd].
  apply vec_eq; [ring|ring|].
  replace (_ - _) with ((cos dl * cos dl + sin dl * sin dl) * (a1 * b2 - a2 * b1)) by ring. rewrite H. ring.
Qed.
Lemma rotz_vadd dl a b : rotz dl (vadd a b) = vadd (rotz dl a) (rotz dl b).
Proof. unfold rotz, vadd, vx, vy, vz; cbn [fst snd]. apply vec_eq; ring. Qed.
Lemma rotz_vscale dl k a : rotz dl (vscale k a) = vscale k (rotz dl a).
Proof. unfold rotz, vscale, vx, vy, vz; cbn [fst snd]. apply vec_eq; ring. Qed.

Lemma vec_of_shift lon lat dl : vec_of (spherePoint (lon + dl) lat) = rotz dl (vec_of (spherePoint lon lat)).
Proof.
  rewrite !vec_of_spherePoint. unfold vec_of, rotz, vx, vy, vz; cbn [fst snd].
  rewrite cos_plus, sin_plus. apply vec_eq; ring.
Qed.
Lemma east_shift lon lat dl : east (spherePoint (lon + dl) lat) = rotz dl (east (spherePoint lon lat)).
Proof.
  unfold east, spherePoint, rotz, vx, vy, vz; cbn [fst snd]. rewrite !cos_wrap, !sin_wrap, cos_plus, sin_plus.
  apply vec_eq; ring.
Qed.
Lemma north_shift lon lat dl : north (spherePoint (lon + dl) lat) = rotz dl (north (spherePoint lon lat)).
Proof. unfold north. rewrite vec_of_shift, east_shift. apply rotz_cross. Qed.

Lemma offset_shift lon lat dl b a :
  vec_of (sphere_offset (spherePoint (lon + dl) lat) b a)
  = rotz dl (vec_of (sphere_offset (spherePoint lon lat) b a)).
Proof.
  unfold sphere_offset. rewrite !vec_of_coord by apply offset_dots.
  unfold offset_vec. rewrite vec_of_shift, east_shift, north_shift.
  rewrite rotz_vadd, !rotz_vscale, rotz_vadd, !rotz_vscale. reflexivity.
Qed.

(** A WCS factory that treats all longitudes alike, for reference points on the
    equator: turning the reference point and the coordinate by the same angle
    about the polar axis gives the same pixel position. *)
Definition longitude_invariant (mk : sphere -> wcs sphere) : Prop :=
  forall a dl c c', vec_of c' = rotz dl (vec_of c) ->
    skyToPixel (mk (spherePoint (a + dl) 0)) c' = skyToPixel (mk (spherePoint a 0)) c.

Lemma standard_invariant scale mk : standard_wcs scale mk -> longitude_invariant mk.
Proof.
  intros H a dl c c' E. destruct (standard_zenithal scale mk H) as (factor & _ & Hz).
  rewrite !Hz. unfold zenithal. rewrite E, vec_of_shift, east_shift, north_shift, !rotz_dot. reflexivity.
Qed.

Lemma cea_invariant scale : longitude_invariant (cea_wcs scale).
Proof.
  intros a dl c c' E. cbn. rewrite E, vec_of_shift, east_shift, north_shift, !rotz_dot. reflexivity.
Qed.

Lemma makeSpherePoint_ok lon lat c : makeSpherePoint lon lat = Ok c -> c = spherePoint lon lat /\ Rabs lat <= PI / 2.
Proof.
  unfold makeSpherePoint. destruct (Rle_bool_spec (Rabs lat) (PI / 2)); [|discriminate].
  intros H0. injection H0 as <-. auto.
Qed.

(** The arguments of an Equat tract. *)
Lemma equat_args_inv mk ov n decs i a : equat_args mk ov n decs i = Ok a ->
  let w := deg (360 / IZR n) in
  let d0 := deg (fst decs) in let d1 := deg (snd decs) in
  Rabs d0 <= PI / 2 /\ Rabs d1 <= PI / 2 /\
  a = PlainArgs (spherePoint (w * IZR i + w / 2) ((d0 + d1) / 2))
        [spherePoint (w * IZR i) d0; spherePoint (w * IZR i + w) d0;
         spherePoint (w * IZR i + w) d1; spherePoint (w * IZR i) d1]
        (deg ov) (mk (spherePoint (w * IZR i + w / 2) 0)) None.
Proof.
  intros H w d0 d1. unfold equat_args in H. fold w d0 d1 in H.
  destruct (makeSpherePoint (w * IZR i) d0) as [v0|] eqn:E0; [|discriminate]. cbn [bind] in H.
  destruct (makeSpherePoint (w * IZR i + w) d0) as [v1|] eqn:E1; [|discriminate]. cbn [bind] in H.
  destruct (makeSpherePoint (w * IZR i + w) d1) as [v2|] eqn:E2; [|discriminate]. cbn [bind] in H.
  destruct (makeSpherePoint (w * IZR i) d1) as [v3|] eqn:E3; [|discriminate]. cbn [bind] in H.
  destruct (makeSpherePoint (w * IZR i + w / 2) ((d0 + d1) / 2)) as [v4|] eqn:E4; [|discriminate]. cbn [bind] in H.
  destruct (makeSpherePoint (w * IZR i + w / 2) 0) as [v5|] eqn:E5; [|discriminate]. cbn [bind] in H.
  apply makeSpherePoint_ok in E0, E1, E2, E3, E4, E5. destruct E0 as [-> H0], E1 as [-> _], E2 as [-> H2], E3 as [-> _], E4 as [-> _], E5 as [-> _].
  injection H as <-. auto.
Qed.
Lemma equat_args_ok mk ov n decs i : Rabs (deg (fst decs)) <= PI / 2 -> Rabs (deg (snd decs)) <= PI / 2 ->
  exists a, equat_args mk ov n decs i = Ok a.
Proof.
  intros H0 H1. unfold equat_args, makeSpherePoint.
  assert (T : forall x, Rabs x <= PI / 2 -> Rle_bool (Rabs x) (PI / 2) = true).
  { intros x Hx. destruct (Rle_bool_spec (Rabs x) (PI / 2)); [reflexivity|lra]. }
  rewrite (T _ H0), (T _ H1). cbn [bind]. rewrite T.
  2:{ apply Rabs_le. apply Rabs_le_inv in H0, H1. lra. }
  cbn [bind]. rewrite T by (rewrite Rabs_R0; pose proof PI_RGT_0; lra). cbn [bind]. eauto.
Qed.

(** The positions of the samples of the tracts are the same. *)
Lemma equat_samples mk ov n decs i j a a' : longitude_invariant mk ->
  equat_args mk ov n decs i = Ok a -> equat_args mk ov n decs j = Ok a' ->
  map (skyToPixel (args_wcs a)) (args_samples sphere_offset a)
  = map (skyToPixel (args_wcs a')) (args_samples sphere_offset a').
Proof.
  intros Hinv Ha Ha'. apply equat_args_inv in Ha, Ha'. destruct Ha as (_ & _ & ->), Ha' as (_ & _ & ->).
  cbn [args_wcs args_samples]. set (w := deg (360 / IZR n)). set (dl := w * (IZR i - IZR j)).
  replace (w * IZR i + w / 2) with (w * IZR j + w / 2 + dl) by (unfold dl; ring).
  replace (w * IZR i + w) with (w * IZR j + w + dl) by (unfold dl; ring).
  replace (w * IZR i) with (w * IZR j + dl) by (unfold dl; ring).
  unfold min_bbox_samples, overlap_samples. destruct (Req_bool_spec (deg ov) 0).
  - cbn [flat_map app map]. rewrite !(Hinv _ dl _ _ (vec_of_shift _ _ _)). reflexivity.
  - cbn [flat_map]. rewrite !map_app, !map_map. f_equal; [|f_equal; [|f_equal; [|f_equal]]].
    all: try (apply map_ext; intros k; apply Hinv, offset_shift).
Qed.

Open Scope Z_scope.
(** A map that builds its tracts in the constructor is constructed if every tract can be made. *)
Lemma eager_new_ok {Sky} (offset : Sky -> R -> R -> Sky) d :
  sd_kind d = EagerMap -> cfg_ok (sd_cfg d) -> always_ok offset d ->
  exists s, sm_new offset d = Ok s.
Proof.
  intros Hk Hc Ho. unfold sm_new. rewrite Hk.
  assert (K : forall ids s, (forall i, In i ids -> 0 <= i < sd_num d) -> builder_reachable (sd_cfg d) (sm_builder s) ->
     exists s', eager_fill offset d ids s = (s', Ok tt)).
  { induction ids as [|i ids IH]; intros s Hids Hb; cbn [eager_fill]; [eexists; reflexivity|].
    destruct (Ho i (Hids i (or_introl eq_refl))) as (a & Ea & Hp).
    destruct (include_all_ok (args_wcs a) (args_samples offset a) Hp) as (m & Em).
    destruct (make_tract_ok offset (sd_cfg d) (sm_builder s) (sm_next s) i a m Hc Hb Em) as (b' & t & E).
    unfold smbind at 1, generateTract at 1. rewrite Ea. cbn [bind]. rewrite E.
    unfold smbind at 1. cbn [sm_tracts sm_builder sm_next sm_log]. apply IH.
    - intros j Hj. apply Hids. now right.
    - cbn. apply (make_tract_static offset _ _ _ _ _ _ _ Hb E). }
  destruct (K (zrange 0 (sd_num d)) (mkSM [] (builder_init (sd_cfg d)) 0 [])) as (s' & E).
  - intros i Hi. now apply in_zrange.
  - constructor.
  - rewrite E. eauto.
Qed.
