(** EquatSkyMap with its default projection: coverage of the slices (C79). *)
From Coq Require Import Reals Lra Lia.
From Flocq Require Import Core.Raux.
Require Import Verif.Py Verif.Geom Verif.PatchInfo Verif.TractBuilder Verif.TractInfo Verif.Spec.
Require Import Verif.PatchProofs Verif.TractProofs.
Require Import Verif.SkyMap Verif.SkySpec Verif.SkyProofs Verif.SkyProofs2 Verif.MainSky.
Require Import Verif.Rings Verif.RingsSpec Verif.RingsProofs Verif.Sphere Verif.SphereProofs Verif.TractBox Verif.Uniform.
Require Import Verif.Maps Verif.MapsProofs Verif.MainMaps Verif.ProjSpec Verif.TractHull.
Open Scope R_scope.

Lemma atan2_range y x : - PI < atan2 y x <= PI.
Proof.
  unfold atan2. pose proof PI_RGT_0. 
  destruct (Rlt_bool_spec 0 x); [pose proof (atan_bound (y / x)); lra|].
  destruct (Rlt_bool_spec x 0).
  - destruct (Rle_bool_spec 0 y).
    + pose proof (atan_bound (y / x)). split; [lra|]. destruct (Req_dec y 0) as [->|Hy].
      * unfold Rdiv. rewrite Rmult_0_l, atan_0. lra.
      * assert (y / x < 0); [|assert (atan (y / x) < 0); [rewrite <- atan_0; now apply atan_increasing|lra]].
        unfold Rdiv. pose proof (Rinv_lt_0_compat x H1). nra.
    + pose proof (atan_bound (y / x)). split; [|lra].
      assert (0 < y / x); [|assert (0 < atan (y / x)); [rewrite <- atan_0; now apply atan_increasing|lra]].
      unfold Rdiv. pose proof (Rinv_lt_0_compat x H1). nra.
  - destruct (Rlt_bool_spec 0 y); [lra|]. destruct (Rlt_bool_spec y 0); lra.
Qed.

Lemma atan2_angle k t : 0 < k -> - PI < t <= PI -> atan2 (k * sin t) (k * cos t) = t.
Proof.
  intros Hk Ht. pose proof PI_RGT_0 as HP.
  destruct (atan2_polar (k * sin t) (k * cos t) k) as [A B]; [pose proof (cs t); nra|exact Hk|].
  pose proof (atan2_range (k * sin t) (k * cos t)) as R. set (u := atan2 _ _) in *. clearbody u.
  apply Rmult_eq_reg_l in A; [|lra]. apply Rmult_eq_reg_l in B; [|lra].
  (* sin ((u - t)/2)^2 = 0 *)
  assert (C : cos (u - t) = 1) by (rewrite cos_minus, A, B; apply cs).
  assert (D : -(2*PI) < u - t < 2 * PI) by lra.
  assert (E : sin ((u - t) / 2) = 0).
  { pose proof (cos_2a_sin ((u - t) / 2)) as X. replace (2 * ((u - t) / 2)) with (u - t) in X by field. rewrite C in X. nra. }
  destruct (Rtotal_order (u - t) 0) as [H|[H|H]].
  - assert (0 < sin (- ((u - t) / 2))) by (apply sin_gt_0; lra). rewrite sin_neg in *. lra.
  - lra.
  - assert (0 < sin ((u - t) / 2)) by (apply sin_gt_0; lra). lra.
Qed.

(** The two CEA coordinates relative to an equatorial point. *)
Definition cea_lon (mid : R) (v : vec) : R :=
  atan2 (dot v (east (spherePoint mid 0))) (dot v (vec_of (spherePoint mid 0))).
Lemma cea_dots mid lon lat : let v := vec_of (spherePoint (mid + lon) lat) in
  dot v (east (spherePoint mid 0)) = cos lat * sin lon /\ dot v (vec_of (spherePoint mid 0)) = cos lat * cos lon
  /\ dot v (north (spherePoint mid 0)) = sin lat.
Proof.
  unfold north, cross. rewrite vec_of_spherePoint. unfold east, spherePoint, vec_of, dot, vx, vy, vz; cbn [fst snd].
  rewrite cos_plus, sin_plus, cos_0, sin_0, !cos_wrap, !sin_wrap. pose proof (cs mid). repeat split.
  - transitivity (cos lat * sin lon * (cos mid * cos mid + sin mid * sin mid)); [ring|rewrite H; ring].
  - transitivity (cos lat * cos lon * (cos mid * cos mid + sin mid * sin mid)); [ring|rewrite H; ring].
  - transitivity (sin lat * (cos mid * cos mid + sin mid * sin mid)); [ring|rewrite H; ring].
Qed.
Lemma cea_point mid lon lat : - PI < lon <= PI -> - (PI / 2) < lat < PI / 2 ->
  let v := vec_of (spherePoint (mid + lon) lat) in cea_lon mid v = lon /\ dot v (north (spherePoint mid 0)) = sin lat.
Proof.
  intros H1 H2 v. destruct (cea_dots mid lon lat) as (A & B & C). fold v in A, B, C. split; [|exact C].
  unfold cea_lon. rewrite A, B. apply atan2_angle; [apply cos_gt_0; lra|exact H1].
Qed.

(** Moving along a meridian. *)
Lemma vec_meridian lon lat r :
  vadd (vscale (cos r) (vec_of (spherePoint lon lat))) (vscale (sin r) (north (spherePoint lon lat))) = vec_of (spherePoint lon (lat + r)).
Proof.
  unfold north, cross. rewrite !vec_of_spherePoint. unfold spherePoint, east, vec_of, vadd, vscale, vx, vy, vz; cbn [fst snd].
  rewrite !cos_wrap, !sin_wrap, cos_plus, sin_plus. apply vec_eq; [ring|ring|].
  pose proof (cs lon) as H. transitivity (cos r * sin lat + sin r * cos lat * (cos lon * cos lon + sin lon * sin lon)); [ring|rewrite H; ring].
Qed.
Lemma offset_meridian lon lat r b : cos b = 0 -> sin b = 1 \/ sin b = -1 ->
  vec_of (sphere_offset (spherePoint lon lat) b r) = vec_of (spherePoint lon (lat + sin b * r)).
Proof.
  intros Hc Hs. unfold sphere_offset. rewrite vec_of_coord by apply offset_dots. unfold offset_vec. rewrite Hc.
  rewrite <- vec_meridian.
  destruct Hs as [Hs|Hs]; rewrite Hs; [rewrite Rmult_1_l|replace (-1 * r) with (- r) by ring; rewrite cos_neg, sin_neg];
  unfold vadd, vscale, vx, vy, vz; cbn [fst snd]; apply vec_eq; ring.
Qed.

(** Moving east from a point at relative longitude [t]. *)
Lemma offset_parallel mid t lat r b : sin b = 0 -> cos b = 1 \/ cos b = -1 -> - PI < t <= PI -> - (PI / 2) < lat < PI / 2 -> 0 <= r < PI / 2 ->
  let al := atan (tan r / cos lat) in
  - PI < t + cos b * al <= PI ->
  cea_lon mid (vec_of (sphere_offset (spherePoint (mid + t) lat) b r)) = t + cos b * al.
Proof.
  intros Hs Hc Ht Hlat Hr al Hal. unfold sphere_offset. rewrite vec_of_coord by apply offset_dots. unfold offset_vec. rewrite Hs.
  assert (Cl : 0 < cos lat) by (apply cos_gt_0; lra). assert (Cr : 0 < cos r) by (apply cos_gt_0; lra).
  assert (Sr : 0 <= sin r) by (apply sin_ge_0; lra).
  set (v := vec_of (spherePoint (mid + t) lat)). set (e := east (spherePoint (mid + t) lat)).
  destruct (cea_dots mid t lat) as (A & B & _). fold v in A, B.
  assert (A' : dot e (east (spherePoint mid 0)) = cos t /\ dot e (vec_of (spherePoint mid 0)) = - sin t).
  { unfold e. rewrite vec_of_spherePoint. unfold east, spherePoint, vec_of, dot, vx, vy, vz; cbn [fst snd].
    rewrite !cos_wrap, !sin_wrap, cos_plus, sin_plus, cos_0. pose proof (cs mid). split.
    - transitivity (cos t * (cos mid * cos mid + sin mid * sin mid)); [ring|rewrite H; ring].
    - transitivity (- sin t * (cos mid * cos mid + sin mid * sin mid)); [ring|rewrite H; ring]. }
  destruct A' as [A1 A2].
  assert (K : exists k, 0 < k /\ k * cos al = cos r * cos lat /\ k * sin al = sin r).
  { exists (cos r * cos lat / cos al). unfold al. pose proof (atan_bound (tan r / cos lat)) as Hb.
    assert (Ca : 0 < cos (atan (tan r / cos lat))) by (apply cos_gt_0; lra).
    split; [|split].
    - apply Rdiv_lt_0_compat; [now apply Rmult_lt_0_compat|exact Ca].
    - field. lra.
    - transitivity (cos r * cos lat * tan (atan (tan r / cos lat))); [generalize dependent (atan (tan r / cos lat)); intros a _ _ _ Ca; unfold tan; field; lra|].
      rewrite tan_atan. unfold tan. field. split; lra. }
  destruct K as (k & K0 & K1 & K2). unfold cea_lon.
  rewrite !dot_vadd_l, !dot_vscale_l, !dot_vadd_l, !dot_vscale_l, A, B, A1, A2, !Rmult_0_l, !Rplus_0_r, <- K2.
  rewrite <- (atan2_angle k (t + cos b * al)) by (assumption || lra). f_equal.
  - rewrite sin_plus. destruct Hc as [-> | ->]; [rewrite !Rmult_1_l|replace (-1 * al) with (- al) by ring; rewrite cos_neg, sin_neg].
    + transitivity (cos r * cos lat * sin t + k * sin al * cos t); [ring|rewrite <- K1; ring].
    + transitivity (cos r * cos lat * sin t - k * sin al * cos t); [ring|rewrite <- K1; ring].
  - rewrite cos_plus. destruct Hc as [-> | ->]; [rewrite !Rmult_1_l|replace (-1 * al) with (- al) by ring; rewrite cos_neg, sin_neg].
    + transitivity (cos r * cos lat * cos t - k * sin al * sin t); [ring|rewrite <- K1; ring].
    + transitivity (cos r * cos lat * cos t + k * sin al * sin t); [ring|rewrite <- K1; ring].
Qed.

Lemma parallel_at_least r lat : 0 <= r < PI / 2 -> - (PI / 2) < lat < PI / 2 -> r <= atan (tan r / cos lat) < PI / 2.
Proof.
  intros Hr Hlat. split; [|apply atan_bound]. rewrite <- (atan_tan r) at 1 by lra.
  assert (Cl : 0 < cos lat) by (apply cos_gt_0; lra). pose proof (COS_bound lat) as [_ C1].
  assert (T : 0 <= tan r).
  { destruct (Req_dec r 0) as [->|]; [rewrite tan_0; lra|]. apply Rlt_le, tan_gt_0; lra. }
  assert (L : tan r <= tan r / cos lat).
  { apply (Rmult_le_reg_r (cos lat)); [exact Cl|]. unfold Rdiv. rewrite Rmult_assoc, Rinv_l by lra. nra. }
  destruct L as [L|L]; [apply Rlt_le, atan_increasing, L|rewrite <- L; lra].
Qed.

Lemma bearing24 i : (0 <= i < 4)%Z -> 2 * PI / 24 * IZR (6 * i) = IZR i * (PI / 2).
Proof. intros _. rewrite mult_IZR. field. Qed.

Lemma sample_dir ov verts v i : ov <> 0 -> In v verts -> (0 <= i < 4)%Z ->
  sample_of ov verts (sphere_offset v (IZR i * (PI / 2)) (ov / 2)).
Proof.
  intros Ho Hv Hi. apply in_flat_map. exists v. split; [exact Hv|]. unfold overlap_samples. rewrite Req_bool_false by exact Ho.
  rewrite <- bearing24 by exact Hi. apply (in_map (fun i => sphere_offset v (2 * PI / 24 * IZR i) (ov / 2))). apply in_zrange. lia.
Qed.

Lemma sample_self verts v : In v verts -> sample_of 0 verts v.
Proof.
  intros Hv. apply in_flat_map. exists v. split; [exact Hv|]. unfold overlap_samples. rewrite Req_bool_true by reflexivity. now left.
Qed.

(** A linear bound on the CEA coordinates of the samples holds at the vertices. *)
Lemma corner_bound mid t d ov verts a b M : In (spherePoint (mid + t) d) verts -> - PI < t <= PI -> 0 <= ov -> Rabs d + ov / 2 < PI / 2 ->
  (forall s, sample_of ov verts s -> a * cea_lon mid (vec_of s) + b * dot (vec_of s) (north (spherePoint mid 0)) <= M) ->
  a * t + b * sin d <= M.
Proof.
  intros Hv Ht Ho Hd H. assert (Hd1 : - (PI / 2) < d - ov / 2 /\ d + ov / 2 < PI / 2).
  { pose proof (Rle_abs d). pose proof (Rle_abs (- d)). rewrite Rabs_Ropp in *. lra. }
  destruct (Req_dec ov 0) as [->|Hne].
  - specialize (H _ (sample_self _ _ Hv)). destruct (cea_point mid t d Ht ltac:(lra)) as [E1 E2]. now rewrite E1, E2 in H.
  - destruct (cardinal 1 ltac:(lia)) as [C1 S1]. destruct (cardinal 3 ltac:(lia)) as [C3 S3]. change (nth (Z.to_nat 1) [1; 0; -1; 0] 0) with 0 in C1; change (nth (Z.to_nat 1) [0; 1; 0; -1] 0) with 1 in S1; change (nth (Z.to_nat 3) [1; 0; -1; 0] 0) with 0 in C3; change (nth (Z.to_nat 3) [0; 1; 0; -1] 0) with (-1) in S3.
    pose proof (H _ (sample_dir ov verts _ 1 Hne Hv ltac:(lia))) as H1. pose proof (H _ (sample_dir ov verts _ 3 Hne Hv ltac:(lia))) as H3.
    rewrite (offset_meridian _ _ _ _ C1 (or_introl S1)), S1 in H1. rewrite (offset_meridian _ _ _ _ C3 (or_intror S3)), S3 in H3.
    destruct (cea_point mid t (d + 1 * (ov / 2)) Ht ltac:(lra)) as [E1 E2]. rewrite E1, E2 in H1.
    destruct (cea_point mid t (d + -1 * (ov / 2)) Ht ltac:(lra)) as [F1 F2]. rewrite F1, F2 in H3.
    assert (sin d <= sin (d + 1 * (ov / 2))) by (apply sin_incr_1; lra).
    assert (sin (d + -1 * (ov / 2)) <= sin d) by (apply sin_incr_1; lra).
    destruct (Rle_or_lt 0 b); nra.
Qed.

(** ... and in the rectangle they span. *)
Lemma rect_bound a b M h z0 z1 t z : a * h + b * z0 <= M -> a * (- h) + b * z0 <= M -> a * h + b * z1 <= M -> a * (- h) + b * z1 <= M ->
  - h <= t <= h -> z0 <= z <= z1 \/ z1 <= z <= z0 -> a * t + b * z <= M.
Proof.
  intros H1 H2 H3 H4 Ht Hz.
  assert (Z : b * z <= b * z0 \/ b * z <= b * z1) by (destruct (Rle_or_lt 0 b), Hz; (left; nra) || (right; nra)).
  assert (T : a * t <= a * h \/ a * t <= a * (- h)) by (destruct (Rle_or_lt 0 a); [left; nra|right; nra]).
  lra.
Qed.

Definition slice_verts (mid h d0 d1 : R) : list sphere :=
  [spherePoint (mid + - h) d0; spherePoint (mid + h) d0; spherePoint (mid + h) d1; spherePoint (mid + - h) d1].

Lemma slice_inside c b oid id ctr mid h d0 d1 ov w corners b' t lon lat :
  cfg_ok c -> builder_reachable c b -> cylindrical (spherePoint mid 0) w -> 0 <= h < PI -> 0 <= ov ->
  Rabs d0 + ov / 2 < PI / 2 -> Rabs d1 + ov / 2 < PI / 2 ->
  TractInfo_init sphere_offset b oid id ctr (slice_verts mid h d0 d1) ov w corners = Ok (b', t) ->
  - h <= lon <= h -> d0 <= lat <= d1 \/ d1 <= lat <= d0 ->
  tract_contains t (spherePoint (mid + lon) lat) = Ok true.
Proof.
  intros Hc Hr (a1 & b1 & a2 & b2 & Hw) Hh Ho Hd0 Hd1 E Hlon Hlat. pose proof PI_RGT_0 as HP.
  assert (B0 : - (PI / 2) < d0 < PI / 2) by (pose proof (Rle_abs d0); pose proof (Rle_abs (- d0)); rewrite Rabs_Ropp in *; lra).
  assert (B1 : - (PI / 2) < d1 < PI / 2) by (pose proof (Rle_abs d1); pose proof (Rle_abs (- d1)); rewrite Rabs_Ropp in *; lra).
  assert (Z : sin d0 <= sin lat <= sin d1 \/ sin d1 <= sin lat <= sin d0).
  { destruct Hlat; [left|right]; split; apply sin_incr_1; lra. }
  assert (L : forall a b M, (forall s, sample_of ov (slice_verts mid h d0 d1) s -> a * cea_lon mid (vec_of s) + b * dot (vec_of s) (north (spherePoint mid 0)) <= M) -> a * lon + b * sin lat <= M).
  { intros p q M H. apply (rect_bound p q M h (sin d0) (sin d1)); try assumption; eapply corner_bound; try eassumption; try lra; unfold slice_verts; cbn; auto. }
  destruct (cea_point mid lon lat ltac:(lra) ltac:(lra)) as [E1 E2].
  pose proof (Hw (spherePoint (mid + lon) lat)) as Eq. cbv zeta in Eq. fold (cea_lon mid (vec_of (spherePoint (mid + lon) lat))) in Eq. rewrite E1, E2 in Eq.
  assert (Hs : forall s x y, skyToPixel w s = Pix x y ->
     x = a1 * cea_lon mid (vec_of s) + b1 * dot (vec_of s) (north (spherePoint mid 0)) /\ y = a2 * cea_lon mid (vec_of s) + b2 * dot (vec_of s) (north (spherePoint mid 0))).
  { intros s x y Es. rewrite Hw in Es. cbv zeta in Es. injection Es as <- <-. split; reflexivity. }
  assert (Hp : forall s, skyToPixel w s = Pix (a1 * cea_lon mid (vec_of s) + b1 * dot (vec_of s) (north (spherePoint mid 0))) (a2 * cea_lon mid (vec_of s) + b2 * dot (vec_of s) (north (spherePoint mid 0)))).
  { intros s. apply Hw. }
  apply (plain_inside c b oid id ctr (slice_verts mid h d0 d1) ov w corners b' t _ _ _ Hc Hr E Eq).
  - discriminate.
  - intros s _. eexists _, _. apply Hw.
  - intros M H. apply L. intros s Hss. exact (H s _ _ Hss (Hp s)).
  - intros M H. cut (- a1 * lon + - b1 * sin lat <= - M); [lra|]. apply L. intros s Hss. pose proof (H s _ _ Hss (Hp s)). lra.
  - intros M H. apply L. intros s Hss. exact (H s _ _ Hss (Hp s)).
  - intros M H. cut (- a2 * lon + - b2 * sin lat <= - M); [lra|]. apply L. intros s Hss. pose proof (H s _ _ Hss (Hp s)). lra.
Qed.

(** How a tract of an Equat map was made. *)
Lemma equat_made c mk ov n decs d s i t : (0 < n)%Z -> equat_def c mk ov n decs = Ok d -> sm_reachable sphere_offset d s -> holds sphere_offset d i s t ->
  let h := PI / IZR n in let mid := deg (360 * (IZR i + 1 / 2) / IZR n) in
  (0 <= i < n)%Z /\ exists b oid b' ctr, builder_reachable c b
    /\ TractInfo_init sphere_offset b oid i ctr (slice_verts mid h (deg (fst decs)) (deg (snd decs))) (deg ov) (mk (spherePoint mid 0)) None = Ok (b', t).
Proof.
  intros Hn Hd Hr Hh h mid. unfold equat_def in Hd. destruct (Z.eqb_spec n 0); [lia|]. injection Hd as Hd.
  destruct (holds_args sphere_offset d s i t Hr Hh) as (Hi & a & b & b' & oid & Ea & Hb & Hm).
  rewrite <- Hd in Hi, Ea, Hb. cbn [sd_num sd_args sd_cfg] in Hi, Ea, Hb. split; [exact Hi|].
  destruct (equat_args_inv _ _ _ _ _ _ Ea) as (_ & _ & ->). clear Ea. set (W := deg (360 / IZR n)) in *.
  assert (HnR : IZR n <> 0) by (apply IZR_neq; lia).
  assert (E1 : W * IZR i = mid + - h) by (unfold W, mid, h, deg; field; exact HnR).
  assert (E2 : W * IZR i + W = mid + h) by (unfold W, mid, h, deg; field; exact HnR).
  assert (E3 : W * IZR i + W / 2 = mid) by (unfold W, mid, h, deg; field; exact HnR).
  cbn [make_tract] in Hm. rewrite E2, E3, E1 in Hm. exists b, oid, b', (spherePoint mid ((deg (fst decs) + deg (snd decs)) / 2)).
  split; [exact Hb|exact Hm].
Qed.

Lemma deg_le x y : x <= y -> deg x <= deg y.
Proof. unfold deg. pose proof PI_RGT_0. intros. apply Rmult_le_compat_r; lra. Qed.
Lemma deg_abs x y : Rabs x + y / 2 < 90 -> Rabs (deg x) + deg y / 2 < PI / 2.
Proof.
  intros H. unfold deg. pose proof PI_RGT_0. rewrite Rabs_mult, (Rabs_pos_eq (PI / 180)) by lra.
  apply (Rmult_lt_compat_r (PI / 180)) in H; lra.
Qed.
Lemma half_width n : (2 <= n)%Z -> 0 < PI / IZR n <= PI / 2.
Proof.
  intros Hn. apply IZR_le in Hn. pose proof PI_RGT_0. split; [apply Rdiv_lt_0_compat; lra|].
  apply (Rmult_le_reg_r (IZR n)); [lra|]. unfold Rdiv at 1. rewrite Rmult_assoc, Rinv_l by lra.
  assert (PI / 2 * 2 <= PI / 2 * IZR n) by (apply Rmult_le_compat_l; lra). lra.
Qed.

(*@ C79: let an EquatSkyMap of at least two tracts use the cylindrical equal area projection (its default) with any
    pixel scale, rotation and handedness, a non-negative overlap, and a declination range that stays half
    the overlap away from the poles. In any state of the map tract i contains every coordinate whose RA is
    between 360*i/n and 360*(i+1)/n degrees and whose declination is in the configured range, edges included. *)
Lemma equat_cea_slices_proof : forall c mk ov n dec0 dec1 d s i t lon lat,
  cfg_ok c -> (2 <= n)%Z -> (forall ra, cylindrical (spherePoint ra 0) (mk (spherePoint ra 0))) ->
  0 <= ov -> Rabs dec0 + ov / 2 < 90 -> Rabs dec1 + ov / 2 < 90 ->
  equat_def c mk ov n (dec0, dec1) = Ok d -> sm_reachable sphere_offset d s -> holds sphere_offset d i s t ->
  360 * IZR i / IZR n <= lon <= 360 * (IZR i + 1) / IZR n -> dec0 <= lat <= dec1 \/ dec1 <= lat <= dec0 ->
  tract_contains t (spherePoint (deg lon) (deg lat)) = Ok true.
Proof.
  intros c mk ov n dec0 dec1 d s i t lon lat Hc Hn Hw Ho H0 H1 Hd Hr Hh Hlon Hlat. pose proof PI_RGT_0 as HP.
  destruct (equat_made c mk ov n (dec0, dec1) d s i t ltac:(lia) Hd Hr Hh) as (Hi & b & oid & b' & ctr & Hb & E). cbn [fst snd] in E.
  set (mid := deg (360 * (IZR i + 1 / 2) / IZR n)) in *. assert (HnR : 2 <= IZR n) by now apply IZR_le.
  pose proof (half_width n Hn) as Hh'.
  replace (deg lon) with (mid + (deg lon - mid)) by ring.
  apply (slice_inside c b oid i ctr mid (PI / IZR n) (deg dec0) (deg dec1) (deg ov) (mk (spherePoint mid 0)) None b' t _ _ Hc Hb (Hw mid)); try exact E; try lra.
  - unfold deg. apply Rmult_le_pos; lra.
  - now apply deg_abs.
  - now apply deg_abs.
  - destruct Hlon as [L1 L2]. apply deg_le in L1, L2.
    assert (X1 : deg (360 * IZR i / IZR n) = mid - PI / IZR n) by (unfold mid, deg; field; lra).
    assert (X2 : deg (360 * (IZR i + 1) / IZR n) = mid + PI / IZR n) by (unfold mid, deg; field; lra). lra.
  - destruct Hlat as [L|L]; [left|right]; split; apply deg_le; lra.
Qed.

(*@ C79: so findTract's tract contains the coordinate: for every coordinate whose declination is in the configured
    range, in any state of the map. *)
Lemma equat_cea_findTract_proof : forall c mk ov n dec0 dec1 d s coord,
  cfg_ok c -> (2 <= n)%Z -> (forall ra, cylindrical (spherePoint ra 0) (mk (spherePoint ra 0))) ->
  0 <= ov -> Rabs dec0 + ov / 2 < 90 -> Rabs dec1 + ov / 2 < 90 ->
  equat_def c mk ov n (dec0, dec1) = Ok d -> sm_reachable sphere_offset d s ->
  on_sphere coord -> deg dec0 <= snd coord <= deg dec1 \/ deg dec1 <= snd coord <= deg dec0 ->
  exists s' t, equat_findTract sphere_offset d coord s = (s', Ok t) /\ tract_contains t coord = Ok true.
Proof.
  intros c mk ov n dec0 dec1 d s coord Hc Hn Hw Ho H0 H1 Hd Hr Hs Hdec. pose proof PI_RGT_0 as HP.
  assert (HnR : 2 <= IZR n) by now apply IZR_le.
  destruct Hs as [Hlon Hlat].
  set (i := Zfloor (fst coord * IZR n / (2 * PI))).
  assert (Hi : IZR i * (2 * PI) / IZR n <= fst coord < (IZR i + 1) * (2 * PI) / IZR n).
  { pose proof (Zfloor_lb (fst coord * IZR n / (2 * PI))) as A. pose proof (Zfloor_ub (fst coord * IZR n / (2 * PI))) as B. fold i in A, B.
    assert (Ex : fst coord = fst coord * IZR n / (2 * PI) * (2 * PI / IZR n)) by (field; lra).
    assert (P : 0 < 2 * PI / IZR n) by (apply Rdiv_lt_0_compat; lra). set (q := fst coord * IZR n / (2 * PI)) in *. clearbody q.
    replace (IZR i * (2 * PI) / IZR n) with (IZR i * (2 * PI / IZR n)) by (field; lra).
    replace ((IZR i + 1) * (2 * PI) / IZR n) with ((IZR i + 1) * (2 * PI / IZR n)) by (field; lra). rewrite Ex. split; [apply Rmult_le_compat_r|apply Rmult_lt_compat_r]; lra. }
  assert (Hi' : (0 <= i < n)%Z).
  { split; [apply Zfloor_lub; change (IZR 0) with 0; unfold Rdiv; apply Rmult_le_pos; [apply Rmult_le_pos; lra|apply Rlt_le, Rinv_0_lt_compat; lra]|].
    apply lt_IZR. eapply Rle_lt_trans; [apply Zfloor_lb|]. apply (Rmult_lt_reg_r (2 * PI)); [lra|].
    unfold Rdiv. rewrite Rmult_assoc, Rinv_l by lra. nra. }
  assert (Hmid : -180 < dec0 + dec1 < 180).
  { pose proof (Rle_abs dec0). pose proof (Rle_abs (- dec0)). pose proof (Rle_abs dec1). pose proof (Rle_abs (- dec1)). rewrite !Rabs_Ropp in *. lra. }
  assert (Hl : - (PI / 2) < snd coord < PI / 2).
  { pose proof (deg_abs _ _ H0) as D0. pose proof (deg_abs _ _ H1) as D1. assert (0 <= deg ov) by (unfold deg; apply Rmult_le_pos; lra).
    pose proof (Rle_abs (deg dec0)). pose proof (Rle_abs (- deg dec0)). pose proof (Rle_abs (deg dec1)). pose proof (Rle_abs (- deg dec1)). rewrite !Rabs_Ropp in *. lra. }
  destruct (equat_findTract_slices_proof sphere_offset c mk ov n (dec0, dec1) d s coord i ltac:(lia) Hd Hr Hmid Hl Hi') as (s' & t & E & Hh & Hin & Hedge).
  exists s', t. split; [exact E|].
  assert (Hr' : sm_reachable sphere_offset d s').
  { unfold equat_findTract in E. destruct (base_findTract_nearest_proof _ sphere_offset separation d coord s s' _ Hr E) as (Ha & _). exact (reachable_accesses _ _ _ _ Hr Ha). }
  assert (Ec : coord = spherePoint (deg (fst coord * 180 / PI)) (deg (snd coord * 180 / PI))).
  { unfold spherePoint, deg. replace (fst coord * 180 / PI * (PI / 180)) with (fst coord) by (field; lra).
    replace (snd coord * 180 / PI * (PI / 180)) with (snd coord) by (field; lra). rewrite wrap_id by lra. now destruct coord. }
  assert (Dec : dec0 <= snd coord * 180 / PI <= dec1 \/ dec1 <= snd coord * 180 / PI <= dec0).
  { assert (U : forall x, x = deg x * 180 / PI) by (intros x; unfold deg; field; lra).
    assert (Mo : forall x y, x <= y -> x * 180 / PI <= y * 180 / PI).
    { intros x y Hxy. unfold Rdiv. apply Rmult_le_compat_r; [apply Rlt_le, Rinv_0_lt_compat; lra|lra]. }
    rewrite (U dec0), (U dec1). destruct Hdec as [[A B]|[A B]]; [left|right]; split; now apply Mo. }
  assert (Mo : forall k, (k <= fst coord -> k * 180 / PI <= fst coord * 180 / PI) /\ (fst coord <= k -> fst coord * 180 / PI <= k * 180 / PI)).
  { intros k. split; intros H; unfold Rdiv; (apply Rmult_le_compat_r; [apply Rlt_le, Rinv_0_lt_compat; lra|lra]). }
  rewrite Ec. eapply (equat_cea_slices_proof c mk ov n dec0 dec1 d s' (t_id t) t); try eassumption.
  destruct (proj1 Hi) as [Hlt|Heq].
  - rewrite Hin.
    + replace (360 * IZR i / IZR n) with (IZR i * (2 * PI) / IZR n * 180 / PI) by (field; lra).
      replace (360 * (IZR i + 1) / IZR n) with ((IZR i + 1) * (2 * PI) / IZR n * 180 / PI) by (field; lra).
      split; apply Mo; lra.
    + unfold deg. replace (360 * IZR i / IZR n * (PI / 180)) with (IZR i * (2 * PI) / IZR n) by (field; lra).
      replace (360 * (IZR i + 1) / IZR n * (PI / 180)) with ((IZR i + 1) * (2 * PI) / IZR n) by (field; lra). lra.
  - rewrite Hedge.
    2:{ unfold deg. rewrite <- Heq. field. lra. }
    rewrite <- Heq. replace (IZR i * (2 * PI) / IZR n * 180 / PI) with (360 * IZR i / IZR n) by (field; lra).
    assert (P : 0 < 360 / IZR n) by (apply Rdiv_lt_0_compat; lra).
    destruct (Z.eqb_spec i 0) as [->|].
    + unfold Rdiv in *. lra.
    + rewrite minus_IZR. unfold Rdiv in *. lra.
Qed.

Lemma cea_cylindrical scale ra : cylindrical (spherePoint ra 0) (cea_wcs scale (spherePoint ra 0)).
Proof.
  exists (- scale), 0, 0, scale. intros p. cbn [skyToPixel cea_wcs]. f_equal; ring.
Qed.

Lemma slice_margin c b oid id ctr mid h d0 d1 ov scale corners b' t lon lat :
  cfg_ok c -> builder_reachable c b -> 0 <= h <= PI / 2 -> 0 < ov ->
  Rabs d0 + ov / 2 < PI / 2 -> Rabs d1 + ov / 2 < PI / 2 ->
  TractInfo_init sphere_offset b oid id ctr (slice_verts mid h d0 d1) ov (cea_wcs scale (spherePoint mid 0)) corners = Ok (b', t) ->
  - h - ov / 2 <= lon <= h + ov / 2 -> d0 - ov / 2 <= lat <= d1 + ov / 2 ->
  tract_contains t (spherePoint (mid + lon) lat) = Ok true.
Proof.
  intros Hc Hr Hh Ho Hd0 Hd1 E Hlon Hlat. pose proof PI_RGT_0 as HP.
  assert (B0 : - (PI / 2) < d0 - ov / 2 /\ d0 + ov / 2 < PI / 2) by (pose proof (Rle_abs d0); pose proof (Rle_abs (- d0)); rewrite Rabs_Ropp in *; lra).
  assert (B1 : - (PI / 2) < d1 - ov / 2 /\ d1 + ov / 2 < PI / 2) by (pose proof (Rle_abs d1); pose proof (Rle_abs (- d1)); rewrite Rabs_Ropp in *; lra).
  assert (Hne : ov <> 0) by lra.
  destruct (cardinal 0 ltac:(lia)) as [C0 S0]; change (nth (Z.to_nat 0) [1; 0; -1; 0] 0) with 1 in C0; change (nth (Z.to_nat 0) [0; 1; 0; -1] 0) with 0 in S0.
  destruct (cardinal 1 ltac:(lia)) as [C1 S1]; change (nth (Z.to_nat 1) [1; 0; -1; 0] 0) with 0 in C1; change (nth (Z.to_nat 1) [0; 1; 0; -1] 0) with 1 in S1.
  destruct (cardinal 2 ltac:(lia)) as [C2 S2]; change (nth (Z.to_nat 2) [1; 0; -1; 0] 0) with (-1) in C2; change (nth (Z.to_nat 2) [0; 1; 0; -1] 0) with 0 in S2.
  destruct (cardinal 3 ltac:(lia)) as [C3 S3]; change (nth (Z.to_nat 3) [1; 0; -1; 0] 0) with 0 in C3; change (nth (Z.to_nat 3) [0; 1; 0; -1] 0) with (-1) in S3.
  set (V := slice_verts mid h d0 d1) in *.
  assert (I1 : In (spherePoint (mid + h) d0) V) by (unfold V, slice_verts; cbn; auto).
  assert (I2 : In (spherePoint (mid + - h) d0) V) by (unfold V, slice_verts; cbn; auto).
  assert (I3 : In (spherePoint (mid + h) d1) V) by (unfold V, slice_verts; cbn; auto).
  destruct (parallel_at_least (ov / 2) d0 ltac:(lra) ltac:(lra)) as [P1 P2].
  assert (LX : forall a M, (forall s, sample_of ov V s -> a * cea_lon mid (vec_of s) <= M) -> a * lon <= M).
  { intros a M H. pose proof (H _ (sample_dir ov V _ 0 Hne I1 ltac:(lia))) as H1. pose proof (H _ (sample_dir ov V _ 2 Hne I2 ltac:(lia))) as H2.
    rewrite offset_parallel in H1 by (assumption || lra || (now left) || (rewrite C0; lra)).
    rewrite offset_parallel in H2 by (assumption || lra || (now right) || (rewrite C2; lra)).
    rewrite C0 in H1. rewrite C2 in H2. set (al := atan (tan (ov / 2) / cos d0)) in *. clearbody al.
    destruct (Rle_or_lt 0 a); nra. }
  assert (LY : forall a M, (forall s, sample_of ov V s -> a * dot (vec_of s) (north (spherePoint mid 0)) <= M) -> a * sin lat <= M).
  { intros a M H. pose proof (H _ (sample_dir ov V _ 3 Hne I1 ltac:(lia))) as H1. pose proof (H _ (sample_dir ov V _ 1 Hne I3 ltac:(lia))) as H2.
    rewrite (offset_meridian _ _ _ _ C3 (or_intror S3)), S3 in H1. rewrite (offset_meridian _ _ _ _ C1 (or_introl S1)), S1 in H2.
    destruct (cea_dots mid h (d0 + -1 * (ov / 2))) as (_ & _ & E1). rewrite E1 in H1.
    destruct (cea_dots mid h (d1 + 1 * (ov / 2))) as (_ & _ & E2). rewrite E2 in H2.
    assert (sin (d0 + -1 * (ov / 2)) <= sin lat) by (apply sin_incr_1; lra).
    assert (sin lat <= sin (d1 + 1 * (ov / 2))) by (apply sin_incr_1; lra).
    destruct (Rle_or_lt 0 a); nra. }
  destruct (cea_point mid lon lat ltac:(lra) ltac:(lra)) as [E1 E2].
  set (w := cea_wcs scale (spherePoint mid 0)) in *.
  assert (Hp : forall s, skyToPixel w s = Pix (- scale * cea_lon mid (vec_of s)) (scale * dot (vec_of s) (north (spherePoint mid 0)))) by reflexivity.
  clearbody w.
  pose proof (Hp (spherePoint (mid + lon) lat)) as Eq. rewrite E1, E2 in Eq.
  apply (plain_inside c b oid id ctr V ov w corners b' t _ _ _ Hc Hr E Eq).
  - discriminate.
  - intros s _. eexists _, _. apply Hp.
  - intros M H. apply LX. intros s Hss. exact (H s _ _ Hss (Hp s)).
  - intros M H. cut (scale * lon <= - M); [lra|]. apply LX. intros s Hss. pose proof (H s _ _ Hss (Hp s)). lra.
  - intros M H. apply LY. intros s Hss. exact (H s _ _ Hss (Hp s)).
  - intros M H. cut (- scale * sin lat <= - M); [lra|]. apply LY. intros s Hss. pose proof (H s _ _ Hss (Hp s)). lra.
Qed.

(*@ C79: with the default orientation tract i contains moreover every coordinate up to half the overlap (in
    degrees of RA and of declination) outside its slice, so that neighbouring tracts overlap by at least the
    configured overlap. *)
Lemma equat_cea_overlap_proof : forall c scale ov n dec0 dec1 d s i t lon lat,
  cfg_ok c -> (2 <= n)%Z -> 0 <= ov -> Rabs dec0 + ov / 2 < 90 -> Rabs dec1 + ov / 2 < 90 ->
  equat_def c (cea_wcs scale) ov n (dec0, dec1) = Ok d -> sm_reachable sphere_offset d s -> holds sphere_offset d i s t ->
  360 * IZR i / IZR n - ov / 2 <= lon <= 360 * (IZR i + 1) / IZR n + ov / 2 -> dec0 - ov / 2 <= lat <= dec1 + ov / 2 ->
  tract_contains t (spherePoint (deg lon) (deg lat)) = Ok true.
Proof.
  intros c scale ov n dec0 dec1 d s i t lon lat Hc Hn [Ho|Ho] H0 H1 Hd Hr Hh Hlon Hlat.
  - pose proof PI_RGT_0 as HP.
    destruct (equat_made c (cea_wcs scale) ov n (dec0, dec1) d s i t ltac:(lia) Hd Hr Hh) as (Hi & b & oid & b' & ctr & Hb & E). cbn [fst snd] in E.
    set (mid := deg (360 * (IZR i + 1 / 2) / IZR n)) in *. assert (HnR : 2 <= IZR n) by now apply IZR_le.
    pose proof (half_width n Hn) as Hh'. replace (deg lon) with (mid + (deg lon - mid)) by ring.
    apply (slice_margin c b oid i ctr mid (PI / IZR n) (deg dec0) (deg dec1) (deg ov) scale None b' t _ _ Hc Hb); try exact E; try lra.
    + unfold deg. apply Rmult_lt_0_compat; lra.
    + now apply deg_abs.
    + now apply deg_abs.
    + destruct Hlon as [L1 L2]. apply deg_le in L1, L2.
      assert (X1 : deg (360 * IZR i / IZR n - ov / 2) = mid - PI / IZR n - deg ov / 2) by (unfold mid, deg; field; lra).
      assert (X2 : deg (360 * (IZR i + 1) / IZR n + ov / 2) = mid + PI / IZR n + deg ov / 2) by (unfold mid, deg; field; lra). lra.
    + destruct Hlat as [L1 L2]. apply deg_le in L1, L2.
      assert (X1 : deg (dec0 - ov / 2) = deg dec0 - deg ov / 2) by (unfold deg; field).
      assert (X2 : deg (dec1 + ov / 2) = deg dec1 + deg ov / 2) by (unfold deg; field). lra.
  - subst ov. apply (equat_cea_slices_proof c (cea_wcs scale) 0 n dec0 dec1 d s i t lon lat); try assumption; try lra.
    apply cea_cylindrical.
Qed.

(** A position more than half a patch (plus rounding) beyond the x of all samples is not in the tract. *)
Lemma tract_build_right c b oid id ctr verts overlap w corners samples b' t s x y M :
  cfg_ok c -> builder_reachable c b ->
  tract_build (Sky := sphere) b oid id ctr verts overlap w corners samples = Ok (b', t) ->
  samples <> [] -> Rabs M < IZR (2 ^ 51) ->
  (forall s, In s samples -> exists y, skyToPixel w s = Pix M y) ->
  skyToPixel w s = Pix x y -> M + IZR (fst (cfg_inner c)) / 2 + 4 <= x ->
  tract_contains t s = Ok false.
Proof.
  intros Hc Hr E Hne HM HS Es Hxb.
  destruct (tract_build_box sphere_offset c b oid id ctr verts overlap w corners samples b' t Hc Hr E)
    as (m & B & x0 & y0 & nx & ny & Em & EB & Hw & Ha & Hs & Hn & Hb & Hwcs & Hx & Hy & Hx0 & Hy0).
  unfold tract_contains. rewrite Hwcs, Es, Hb. f_equal. rewrite !round_pixel_shift.
  destruct (cfg_inner_pos c Hc) as [Hpw Hph].
  assert (K : (x0 + nx * fst (cfg_inner c) <= round_pixel x)%Z).
  { assert (K1 : (2 * (x0 + nx * fst (cfg_inner c)) <= 2 * (minx B + dimx B) + fst (cfg_inner c))%Z).
    { pose proof (Z.div_mod (nx * fst (cfg_inner c) - dimx B) 2 ltac:(lia)).
      pose proof (Z.mod_pos_bound (nx * fst (cfg_inner c) - dimx B) 2 ltac:(lia)). lia. }
    assert (K2 : IZR (minx B + dimx B) < M + 5 / 2).
    { rewrite EB. destruct m as [|a0 c0 a1 c1]; cbn.
      - exfalso. destruct samples as [|s1 l]; [now apply Hne|]. destruct (HS s1 (or_introl eq_refl)) as (y1 & E1).
        exact (Hs s1 _ _ (or_introl eq_refl) E1).
      - destruct Ha as (_ & _ & (s' & x' & y' & I' & E' & F') & _).
        destruct (HS s' I') as (y2 & E2). rewrite E2 in E'. injection E' as E' _. subst x'.
        replace (Zfloor (a0 + / 2) + (Zceil (a1 - / 2) + 1 - Zfloor (a0 + / 2)))%Z with (Zceil (a1 - / 2) + 1)%Z by lia.
        rewrite plus_IZR. pose proof (Zceil_lb (a1 - / 2)) as Hz.
        assert (Ht : tweak_max M <= M + 1).
        { pose proof box2d_eps_pos as He.
          assert (Me : Rabs M * box2d_eps <= 1).
          { unfold box2d_eps. apply Rmult_le_reg_r with (IZR (2 ^ 51)); [apply IZR_lt; reflexivity|].
            rewrite Rmult_assoc, Rinv_l by (apply IZR_neq; lia). lra. }
          assert (e1 : box2d_eps <= 1).
          { unfold box2d_eps. apply Rmult_le_reg_r with (IZR (2 ^ 51)); [apply IZR_lt; reflexivity|].
            rewrite Rinv_l by (apply IZR_neq; lia). rewrite Rmult_1_l. now apply (IZR_le 1 (2 ^ 51)). }
          unfold tweak_max. destruct (Rlt_bool_spec M 0); [rewrite Rabs_left in Me by lra; lra|].
          rewrite Rabs_pos_eq in Me by lra. destruct (Rlt_bool_spec 0 M); lra. }
        lra. }
    apply Zfloor_lub. apply IZR_le in K1.
    rewrite !plus_IZR, !mult_IZR, !plus_IZR in K1. rewrite plus_IZR in K2. rewrite plus_IZR.
    rewrite !mult_IZR in *. lra. }
  unfold box_contains_point, maxx, maxy. cbn [minx miny dimx dimy].
  destruct (Z.leb_spec (round_pixel x + - x0) (0 + nx * fst (cfg_inner c) - 1)); [lia|].
  now rewrite andb_false_r.
Qed.

(*@ C79, refuted for one tract without overlap: both sides of the only slice are at RA 0, so the tract is one column of
    patches there: findTract returns it for every coordinate, and it does not contain RA 180 (as soon as half a
    turn is longer than half a patch). *)
Lemma equat_cea_one_tract_refuted_proof : forall c scale dec0 dec1 d s lat,
  cfg_ok c -> Rabs dec0 < 90 -> Rabs dec1 < 90 -> Rabs lat < 90 ->
  IZR (fst (cfg_inner c)) / 2 + 4 <= scale * PI < IZR (2 ^ 51) ->
  equat_def c (cea_wcs scale) 0 1 (dec0, dec1) = Ok d -> sm_reachable sphere_offset d s ->
  exists s' t, equat_findTract sphere_offset d (spherePoint (deg 180) (deg lat)) s = (s', Ok t)
    /\ tract_contains t (spherePoint (deg 180) (deg lat)) = Ok false.
Proof.
  intros c scale dec0 dec1 d s lat Hc H0 H1 Hlat Hsc Hd Hr. pose proof PI_RGT_0 as HP.
  assert (D : forall x, Rabs x < 90 -> - (PI / 2) < deg x < PI / 2).
  { intros x Hx. assert (H : Rabs (deg x) + deg 0 / 2 < PI / 2) by (apply deg_abs; lra). assert (deg 0 = 0) by (unfold deg; ring).
    pose proof (Rle_abs (deg x)). pose proof (Rle_abs (- deg x)). rewrite Rabs_Ropp in *. lra. }
  destruct (equat_nearest sphere_offset c (cea_wcs scale) 0 1 (dec0, dec1) d s (spherePoint (deg 180) (deg lat)) ltac:(lia) Hd Hr)
    as (s' & t & k & E & Hh & Hid & Hk & _).
  exists s', t. split; [exact E|].
  assert (Hr' : sm_reachable sphere_offset d s').
  { unfold equat_findTract in E. destruct (base_findTract_nearest_proof _ sphere_offset separation d _ s s' _ Hr E) as (Ha & _). exact (reachable_accesses _ _ _ _ Hr Ha). }
  destruct (equat_made c (cea_wcs scale) 0 1 (dec0, dec1) d s' _ t ltac:(lia) Hd Hr' Hh) as (Hi & b & oid & b' & ctr & Hb & Ei). cbn [fst snd] in Ei.
  replace k with 0%Z in * by lia.
  set (mid := deg (360 * (0 + 1 / 2) / 1)) in *.
  assert (Em : mid = PI) by (unfold mid, deg; field).
  replace (deg 180) with (mid + 0) by (rewrite Em; unfold deg; field).
  set (w := cea_wcs scale (spherePoint mid 0)) in *.
  assert (Hp : forall s, skyToPixel w s = Pix (- scale * cea_lon mid (vec_of s)) (scale * dot (vec_of s) (north (spherePoint mid 0)))) by reflexivity.
  assert (Z0 : deg 0 = 0) by (unfold deg; ring).
  assert (V : forall a, spherePoint (mid + - (PI / 1)) a = spherePoint (mid + PI) a).
  { intros a. unfold spherePoint. f_equal. symmetry. apply (wrap_shift _ _ 1). rewrite Em. field. }
  eapply (tract_build_right c b oid 0 ctr _ _ w None _ b' t _ _ _ (- scale * PI) Hc Hb); [exact Ei| | | |apply Hp|].
  - unfold min_bbox_samples, slice_verts, overlap_samples. rewrite Req_bool_true by exact Z0. discriminate.
  - rewrite Ropp_mult_distr_l_reverse, Rabs_Ropp, Rabs_pos_eq; [lra|]. pose proof (IZR_lt _ _ (proj1 (cfg_inner_pos c Hc))). lra.
  - intros v Hv. rewrite Hp. eexists. f_equal. 
    assert (exists a, v = spherePoint (mid + PI) a /\ - (PI / 2) < a < PI / 2) as (a & -> & Ha).
    { apply in_flat_map in Hv. destruct Hv as (u & Hu & Hv). unfold overlap_samples in Hv. rewrite Req_bool_true in Hv by exact Z0.
      destruct Hv as [<- | []]. unfold slice_verts in Hu. replace (PI / 1) with PI in Hu by field.
      assert (V' : forall a, spherePoint (mid + - PI) a = spherePoint (mid + PI) a) by (intros a; rewrite <- V; do 2 f_equal; field).
      destruct Hu as [<- | [<- | [<- | [<- | []]]]]; [exists (deg dec0)|exists (deg dec0)|exists (deg dec1)|exists (deg dec1)]; rewrite ?V'; auto. }
    destruct (cea_point mid PI a ltac:(lra) Ha) as [-> _]. reflexivity.
  - destruct (cea_point mid 0 (deg lat) ltac:(lra) (D lat Hlat)) as [-> _]. lra.
Qed.

(*@ C79, non-vacuity: the default EquatSkyMap (4 tracts, declinations -1.25 to 1.25, overlap 1 degree, CEA) meets the
    hypotheses of the three theorems for every configuration of the tract builder; its findTract for RA 100,
    Dec 1 is tract 1, which contains it and, thanks to the overlap, RA 180.5, Dec 1.75; a single tract without
    overlap (0.2 arcsec pixels, default legacy builder) meets those of the refutation. *)
Example equat_cea_default_proof :
  (forall c scale, cfg_ok c ->
    exists d s0 s t, equat_def c (cea_wcs scale) 1 4 (- (5 / 4), 5 / 4) = Ok d /\ sm_new sphere_offset d = Ok s0
      /\ equat_findTract sphere_offset d (spherePoint (deg 100) (deg 1)) s0 = (s, Ok t) /\ t_id t = 1%Z
      /\ tract_contains t (spherePoint (deg 100) (deg 1)) = Ok true
      /\ tract_contains t (spherePoint (deg (361 / 2)) (deg (7 / 4))) = Ok true)
  /\ exists d s0, equat_def legacy_default (cea_wcs (arcsec_scale (1 / 5))) 0 1 (- (5 / 4), 5 / 4) = Ok d
      /\ sm_new sphere_offset d = Ok s0 /\ cfg_ok legacy_default
      /\ IZR (fst (cfg_inner legacy_default)) / 2 + 4 <= arcsec_scale (1 / 5) * PI < IZR (2 ^ 51).
Proof.
  pose proof PI_RGT_0 as HP.
  assert (N : forall c scale ov n, cfg_ok c -> (0 < n)%Z ->
    let d := mkDef EagerMap c n (equat_args (cea_wcs scale) ov n (- (5 / 4), 5 / 4)) in
    equat_def c (cea_wcs scale) ov n (- (5 / 4), 5 / 4) = Ok d /\ exists s0, sm_new sphere_offset d = Ok s0).
  { intros c scale ov n Hc Hn d. split; [unfold equat_def; destruct (Z.eqb_spec n 0); [lia|reflexivity]|].
    destruct (eager_new_ok sphere_offset d eq_refl Hc) as (s0 & E0); [|now exists s0].
    intros i Hi. destruct (equat_args_ok (cea_wcs scale) ov n (- (5 / 4), 5 / 4) i) as (a & Ea).
    1,2: cbn [fst snd]; unfold deg; apply Rabs_le; lra.
    exists a. split; [exact Ea|]. intros s e _. apply equat_args_inv in Ea. destruct Ea as (_ & _ & ->).
    apply cea_no_raise. }
  split.
  - intros c scale Hc. destruct (N c scale 1 4%Z Hc ltac:(lia)) as (Hd & s0 & E0).
    set (d := mkDef EagerMap c 4 (equat_args (cea_wcs scale) 1 4 (- (5 / 4), 5 / 4))) in *. clearbody d.
    assert (Hr : sm_reachable sphere_offset d s0) by (exists s0; split; [exact E0|constructor]).
    assert (B0 : Rabs (- (5 / 4)) + 1 / 2 < 90) by (rewrite Rabs_Ropp, Rabs_pos_eq; lra).
    assert (B1 : Rabs (5 / 4) + 1 / 2 < 90) by (rewrite Rabs_pos_eq; lra).
    assert (W : spherePoint (deg 100) (deg 1) = (deg 100, deg 1)) by (unfold spherePoint; rewrite wrap_id; [reflexivity|unfold deg; lra]).
    destruct (equat_findTract_slices_proof sphere_offset c (cea_wcs scale) 1 4 (- (5 / 4), 5 / 4) d s0 (spherePoint (deg 100) (deg 1)) 1)
      as (s & t & E & Hh & H & _); try assumption; try lia; try (cbn [fst snd]; lra); try (rewrite W; cbn [fst snd]; unfold deg; lra).
    assert (Hid : t_id t = 1%Z) by (apply H; rewrite W; cbn [fst]; unfold deg; lra).
    exists d, s0, s, t. split; [exact Hd|]. split; [exact E0|]. split; [exact E|]. split; [exact Hid|].
    destruct (equat_cea_findTract_proof c (cea_wcs scale) 1 4 (- (5 / 4)) (5 / 4) d s0 (spherePoint (deg 100) (deg 1)))
      as (s1 & t1 & E1 & K); try assumption; try lia; try lra.
    { intros ra. apply cea_cylindrical. }
    { rewrite W. unfold on_sphere, deg. cbn [fst snd]. lra. }
    { rewrite W. unfold deg. cbn [fst snd]. lra. }
    rewrite E in E1. injection E1 as <- <-. split; [exact K|]. rewrite Hid in Hh.
    assert (Hr' : sm_reachable sphere_offset d s).
    { unfold equat_findTract in E. destruct (base_findTract_nearest_proof _ sphere_offset separation d _ s0 s _ Hr E) as (Ha & _). exact (reachable_accesses _ _ _ _ Hr Ha). }
    eapply (equat_cea_overlap_proof c scale 1 4 (- (5 / 4)) (5 / 4) d s 1 t); try eassumption; try lia; lra.
  - assert (legacy_default_ok : cfg_ok legacy_default) by (cbn; lia).
    destruct (N legacy_default (arcsec_scale (1 / 5)) 0 1%Z legacy_default_ok ltac:(lia)) as (Hd & s0 & E0).
    eexists _, s0. split; [exact Hd|]. split; [exact E0|]. split; [exact legacy_default_ok|].
    change (IZR (fst (cfg_inner legacy_default))) with 4000.
    assert (X : arcsec_scale (1 / 5) * PI = 3240000) by (unfold arcsec_scale; field; lra). rewrite X. split; [lra|]. apply IZR_lt. reflexivity.
Qed.
