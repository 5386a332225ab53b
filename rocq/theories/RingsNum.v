(** Numeric facts for the concrete rings map with the default configuration. *)
From Coq Require Import Reals Lra Lia Machin.
From Flocq Require Import Raux.
Require Import Verif.Py Verif.Geom Verif.PatchInfo Verif.TractBuilder Verif.TractInfo Verif.Spec.
Require Import Verif.SkyMap Verif.Rings Verif.RingsSpec Verif.RingsProofs Verif.RingsProofs2.
Require Import Verif.Sphere Verif.SphereProofs.
Open Scope R_scope.

Lemma PI_upper : PI <= 315 / 100.
Proof.
  destruct (PI_2_3_7_ineq 1) as [_ H]; cbn in H; unfold tg_alt, PI_2_3_7_tg, Ratan_seq in H; cbn in H; lra.
Qed.
Lemma PI_lower : 314 / 100 <= PI.
Proof.
  destruct (PI_2_3_7_ineq 1) as [H _]; cbn in H; unfold tg_alt, PI_2_3_7_tg, Ratan_seq in H; cbn in H; lra.
Qed.

Lemma sqr_le_bound a x : 0 <= a -> 0 <= x -> a * a <= x * x -> a <= x.
Proof. intros. apply Rsqr_incr_0; auto. Qed.

Lemma lt_div a b c : 0 < c -> a * c < b -> a < b / c.
Proof. intros Hc H. apply Rmult_lt_reg_r with c; [exact Hc|]. replace (b / c * c) with b by (field; lra). exact H. Qed.
Lemma le_div a b c : 0 < c -> a * c <= b -> a <= b / c.
Proof. intros Hc H. apply Rmult_le_reg_r with c; [exact Hc|]. replace (b / c * c) with b by (field; lra). exact H. Qed.
Lemma div_lt a b c : 0 < c -> b < a * c -> b / c < a.
Proof. intros Hc H. apply Rmult_lt_reg_r with c; [exact Hc|]. replace (b / c * c) with b by (field; lra). exact H. Qed.
Lemma div_le a b c : 0 < c -> b <= a * c -> b / c <= a.
Proof. intros Hc H. apply Rmult_le_reg_r with c; [exact Hc|]. replace (b / c * c) with b by (field; lra). exact H. Qed.

Lemma k_bounds : 70710 / 100000 <= cos (PI / 4) <= 70711 / 100000
  /\ cos (PI / 4) * cos (PI / 4) = 1 / 2 /\ sin (PI / 4) = cos (PI / 4).
Proof.
  assert (E : sin (PI / 4) = cos (PI / 4)) by apply sin_cos_PI4.
  pose proof (cs (PI / 4)) as H. rewrite E in H.
  assert (0 < cos (PI / 4)) by (apply cos_gt_0; pose proof PI_RGT_0; lra).
  set (k := cos (PI / 4)) in *. split; [|split; [lra|exact E]]. split; apply sqr_le_bound; lra.
Qed.

Lemma eighth_bounds : 92387 / 100000 <= cos (PI / 8) <= 9239 / 10000
  /\ 38268 / 100000 <= sin (PI / 8) <= 38269 / 100000.
Proof.
  destruct k_bounds as (Hk & _ & _). pose proof PI_RGT_0.
  assert (E : cos (PI / 4) = 2 * (cos (PI / 8) * cos (PI / 8)) - 1).
  { replace (PI / 4) with (2 * (PI / 8)) by lra. rewrite cos_2a_cos. ring. }
  assert (E2 : cos (PI / 4) = 1 - 2 * (sin (PI / 8) * sin (PI / 8))).
  { replace (PI / 4) with (2 * (PI / 8)) by lra. rewrite cos_2a_sin. ring. }
  assert (0 < cos (PI / 8)) by (apply cos_gt_0; lra).
  assert (0 < sin (PI / 8)) by (apply sin_gt_0; lra).
  split; split; apply sqr_le_bound; lra.
Qed.

Lemma tan_eighth : 33 / 80 < tan (PI / 8) /\ 12 / 5 < tan (3 * PI / 8).
Proof.
  destruct eighth_bounds as (Hc & Hs). split.
  - unfold tan. apply lt_div; lra.
  - unfold tan. replace (3 * PI / 8) with (PI / 2 - PI / 8) by lra. rewrite sin_shift, cos_shift.
    apply lt_div; lra.
Qed.

Definition bad_coord : sphere := (atan (33 / 80), atan (12 / 5)).

Lemma bad_range : 0 < fst bad_coord < PI / 8 /\ PI / 8 < snd bad_coord < 3 * PI / 8.
Proof.
  unfold bad_coord; cbn [fst snd]. destruct tan_eighth as [T1 T2]. pose proof PI_RGT_0.
  assert (A : forall x y, x < tan y -> - PI / 2 < y < PI / 2 -> atan x < y).
  { intros x y Hx Hy. rewrite <- (atan_tan y) by lra. now apply atan_increasing. }
  assert (tan (PI / 8) < 12 / 5).
  { destruct eighth_bounds as (Hc & Hs). unfold tan. apply div_lt; lra. }
  split; split.
  - rewrite <- atan_0. apply atan_increasing. lra.
  - apply A; [exact T1|lra].
  - rewrite <- (atan_tan (PI / 8)) by lra. now apply atan_increasing.
  - apply A; [exact T2|lra].
Qed.

Lemma bad_trig : cos (snd bad_coord) = 5 / 13 /\ sin (snd bad_coord) = 12 / 13
  /\ 0 < cos (fst bad_coord) <= 9245 / 10000.
Proof.
  unfold bad_coord; cbn [fst snd].
  assert (E : sqrt (1 + (12 / 5)²) = 13 / 5).
  { replace (1 + (12 / 5)²) with (13 / 5 * (13 / 5)) by (unfold Rsqr; lra). apply sqrt_square. lra. }
  rewrite cos_atan, sin_atan, E, cos_atan. split; [field|]. split; [field|].
  assert (H : 10817 / 10000 <= sqrt (1 + (33 / 80)²)).
  { apply sqr_le_bound; [lra|apply sqrt_pos|]. rewrite sqrt_sqrt by (unfold Rsqr; lra). unfold Rsqr. lra. }
  set (q := sqrt _) in *. unfold Rdiv. rewrite Rmult_1_l. split; [apply Rinv_0_lt_compat; lra|].
  apply Rle_trans with (/ (10817 / 10000)); [apply Rinv_le_contravar; lra|lra].
Qed.

(** The height of the coordinate above the tract centre, and the half size of the tract, in radians. *)
Lemma bad_height : forall scale, 0 < scale ->
  exists x y, skyToPixel (stg_wcs scale (0, PI / 4)) bad_coord = Pix x y /\ scale * (4213 / 10000) <= y.
Proof.
  intros scale Hs. destruct bad_trig as (C2 & S2 & C1). destruct k_bounds as (Hk & Hkk & Hks).
  cbn [skyToPixel stg_wcs]. unfold zenithal.
  set (C := cos (fst bad_coord)) in *. set (k := cos (PI / 4)) in *.
  assert (Ed : dot (vec_of bad_coord) (vec_of (0, PI / 4)) = k * (12 + 5 * C) / 13).
  { unfold dot, vec_of, vx, vy, vz; cbn [fst snd]. fold C. rewrite C2, S2, Hks, cos_0, sin_0. fold k. field. }
  assert (En : dot (vec_of bad_coord) (north (0, PI / 4)) = k * (12 - 5 * C) / 13).
  { unfold north, cross, east, dot, vec_of, vx, vy, vz; cbn [fst snd]. fold C. rewrite C2, S2, Hks, cos_0, sin_0. fold k. field. }
  rewrite Ed, En. unfold stg_factor.
  assert (Hd : 0 < k * (12 + 5 * C) / 13 <= 9042 / 10000).
  { split; [apply Rmult_lt_0_compat; [apply Rmult_lt_0_compat; lra|lra]|].
    assert (k * (12 + 5 * C) <= 70711 / 100000 * (166225 / 10000)) by (apply Rmult_le_compat; lra). lra. }
  assert (Hy : 4012 / 10000 <= k * (12 - 5 * C) / 13).
  { assert (70710 / 100000 * (73775 / 10000) <= k * (12 - 5 * C)) by (apply Rmult_le_compat; lra). lra. }
  set (D := k * (12 + 5 * C) / 13) in *. set (Y := k * (12 - 5 * C) / 13) in *.
  destruct (Rlt_bool_spec (-1) D); [|lra].
  eexists _, _. split; [reflexivity|]. apply Rmult_le_compat_l; [lra|].
  apply Rmult_le_reg_l with (1 + D); [lra|].
  replace ((1 + D) * (2 / (1 + D) * Y)) with (2 * Y) by (field; lra). lra.
Qed.

Definition default_reach : R := PI / 8 + deg 1.
Lemma default_reach_bounds : 0 < default_reach < PI / 2
  /\ 2 / (1 + cos default_reach) * sin default_reach <= 4163 / 10000
  /\ 0 < cos default_reach /\ 0 < sin default_reach.
Proof.
  unfold default_reach, deg. pose proof PI_lower as HL. pose proof PI_upper as HU.
  set (e := 1 * (PI / 180)). assert (He : 0 < e <= 175 / 10000) by (unfold e; lra).
  assert (Ha : 0 < PI / 8 + e < PI / 2) by lra. split; [exact Ha|].
  destruct eighth_bounds as (Hc & Hs).
  assert (S1 : sin e <= e) by (left; apply sin_lt_x; lra).
  assert (S0 : 0 < sin e) by (apply sin_gt_0; lra).
  assert (C1 : 1 - e * e <= cos e <= 1).
  { pose proof (cs e) as H. assert (0 < cos e) by (apply cos_gt_0; lra). pose proof (COS_bound e). split; [nra|lra]. }
  assert (Es : sin (PI / 8 + e) <= 3989 / 10000) by (rewrite sin_plus; nra).
  assert (Ec : 9168 / 10000 <= cos (PI / 8 + e)) by (rewrite cos_plus; nra).
  assert (0 < sin (PI / 8 + e)) by (apply sin_gt_0; lra).
  set (s := sin (PI / 8 + e)) in *. set (c := cos (PI / 8 + e)) in *.
  split; [|split; lra]. apply Rmult_le_reg_l with (1 + c); [lra|].
  replace ((1 + c) * (2 / (1 + c) * s)) with (2 * s) by (field; lra). lra.
Qed.

Lemma default_scale : 610000 <= arcsec_scale (333 / 1000) <= 630000.
Proof.
  unfold arcsec_scale. pose proof PI_lower as HL. pose proof PI_upper as HU.
  split.
  - apply le_div; lra.
  - apply div_le; lra.
Qed.

(** The layout of three rings. *)
Open Scope Z_scope.
Lemma three_rings ra v g : rings_init 3 ra v = Ok g -> rg_nums g = [8; 8; 8] /\ rg_size g = (PI / 4)%R.
Proof.
  intros H. unfold rings_init in H. destruct (negb _) in H; [discriminate|]. injection H as <-.
  cbn [rg_nums rg_size]. assert (Es : ring_size 3 = (PI / 4)%R) by (unfold ring_size; f_equal; lra). rewrite Es.
  split; [|reflexivity]. pose proof PI_RGT_0 as HP. destruct eighth_bounds as (Hc & _).
  assert (K : forall d, Rmin (Rabs d) (Rabs (d + PI / 4)) = (PI / 8)%R ->
    py_int (2 * PI * cos (Rmin (Rabs d) (Rabs (d + PI / 4))) / (PI / 4)) + 1 = 8).
  { intros d ->. rewrite (py_int_imp _ 7); [lia| |lia].
    replace (2 * PI * cos (PI / 8) / (PI / 4))%R with (8 * cos (PI / 8))%R by (field; lra). lra. }
  change (zrange 0 3) with [0; 1; 2]. cbn [map]. unfold ring_count.
  f_equal; [|f_equal; [|f_equal]]; apply K.
  - rewrite Rmin_right; rewrite !Rabs_left1 by lra; lra.
  - rewrite Rmin_left; rewrite (Rabs_left1 (PI / 4 * (1 + 1 / 2) - 1 / 2 * PI)) by lra; [lra|rewrite Rabs_pos_eq by lra; lra].
  - rewrite Rmin_left; rewrite !Rabs_pos_eq by lra; lra.
Qed.
