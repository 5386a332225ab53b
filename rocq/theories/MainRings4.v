(** Rings sky maps: when findTract's tract contains the coordinate (C33). *)
From Coq Require Import Reals Lra Lia.
From Flocq Require Import Raux.
Require Import Verif.Py Verif.Geom Verif.PatchInfo Verif.TractBuilder Verif.TractInfo Verif.Spec.
Require Import Verif.PatchProofs Verif.TractProofs Verif.Examples.
Require Import Verif.SkyMap Verif.SkySpec Verif.SkyProofs Verif.SkyProofs2 Verif.MainSky.
Require Import Verif.Rings Verif.RingsSpec Verif.RingsProofs Verif.RingsProofs2 Verif.RingsProofs3 Verif.RingsNear.
Require Import Verif.MainRings Verif.Sphere Verif.SphereProofs Verif.TractBox Verif.Uniform Verif.RingsNum Verif.MainRings2.
Require Import Verif.Region Verif.RegionProofs Verif.MainRings3.
Open Scope R_scope.
Local Arguments Z.mul : simpl never.

Lemma one_minus_cos v : 0 <= 1 - cos v <= v * v / 2.
Proof.
  assert (E : 1 - cos v = 2 * (sin (v / 2) * sin (v / 2))).
  { replace v with (2 * (v / 2)) at 1 by lra. rewrite cos_2a_sin. lra. }
  rewrite E. split; [nra|].
  assert (S : forall y, 0 <= y -> sin y * sin y <= y * y).
  { intros y Hy. destruct (Rle_lt_dec y 1) as [L|L].
    - destruct (Req_dec y 0) as [-> |Hn]; [rewrite sin_0; lra|].
      pose proof (sin_lt_x y ltac:(lra)). pose proof (sin_ge_0 y ltac:(lra) ltac:(pose proof PI2_3_2; lra)). nra.
    - pose proof (SIN_bound y). nra. }
  destruct (Rle_lt_dec 0 v) as [L|L].
  - pose proof (S (v / 2) ltac:(lra)). lra.
  - pose proof (S (- (v / 2)) ltac:(lra)) as K. rewrite sin_neg in K. lra.
Qed.

Lemma cos_lower y : 1 - y * y / 2 <= cos y.
Proof. pose proof (one_minus_cos y). lra. Qed.

Lemma sin_lower y : 0 <= y -> y <= PI -> y - y * y * y / 6 <= sin y.
Proof.
  intros H H'. pose proof (sin_bound y 0 H H') as [K _]. unfold sin_approx, sum_f_R0, sin_term in K. cbn in K. nra.
Qed.

(** The key inequality: for ring heights up to 45 degrees. *)
Lemma overlap_inequality h : 0 < h <= PI / 4 ->
  0 < cos (h / 2) /\ h * h / 8 <= cos (h / 2) * cos (h / 2) * (cos (h / 2) - cos (3 / 4 * h)).
Proof.
  intros [H0 H1]. pose proof PI_upper as PU. pose proof PI_lower as PL.
  set (x := h / 4). assert (Hx : 0 < x <= 315 / 1600) by (unfold x; lra).
  replace (h / 2) with (2 * x) by (unfold x; lra). replace (3 / 4 * h) with (3 * x) by (unfold x; lra).
  replace (h * h / 8) with (2 * (x * x)) by (unfold x; lra). clearbody x. clear h H0 H1.
  set (u := x * x). assert (Hu : 0 < u <= 388 / 10000) by (unfold u; nra).
  assert (Cl : 1 - 2 * u <= cos (2 * x)) by (pose proof (cos_lower (2 * x)); unfold u; lra).
  split; [lra|].
  assert (Ed : cos (2 * x) - cos (3 * x) = 2 * (sin (5 / 2 * x) * sin (x / 2))).
  { rewrite form2. replace ((2 * x - 3 * x) / 2) with (- (x / 2)) by lra.
    replace ((2 * x + 3 * x) / 2) with (5 / 2 * x) by lra. rewrite sin_neg. ring. }
  rewrite Ed.
  assert (S1 : 5 / 2 * x * (1 - 25 / 24 * u) <= sin (5 / 2 * x)).
  { pose proof (sin_lower (5 / 2 * x) ltac:(lra) ltac:(lra)). unfold u. lra. }
  assert (S2 : x / 2 * (1 - u / 24) <= sin (x / 2)).
  { pose proof (sin_lower (x / 2) ltac:(lra) ltac:(lra)). unfold u. lra. }
  assert (P1 : 0 <= 5 / 2 * x * (1 - 25 / 24 * u)) by (apply Rmult_le_pos; lra).
  assert (P2 : 0 <= x / 2 * (1 - u / 24)) by (apply Rmult_le_pos; lra).
  assert (M : 5 / 2 * x * (1 - 25 / 24 * u) * (x / 2 * (1 - u / 24)) <= sin (5 / 2 * x) * sin (x / 2))
    by (apply Rmult_le_compat; lra).
  replace (5 / 2 * x * (1 - 25 / 24 * u) * (x / 2 * (1 - u / 24))) with (5 / 4 * u * ((1 - 25 / 24 * u) * (1 - u / 24))) in M
    by (unfold u; field).
  assert (Q1 : 1 - 26 / 24 * u <= (1 - 25 / 24 * u) * (1 - u / 24)) by nra.
  assert (Q2 : 1 - 4 * u <= cos (2 * x) * cos (2 * x)) by nra.
  assert (M2 : 5 / 4 * u * (1 - 26 / 24 * u) <= sin (5 / 2 * x) * sin (x / 2)).
  { apply Rle_trans with (2 := M). apply Rmult_le_compat_l; lra. }
  set (k := cos (2 * x) * cos (2 * x)) in *. set (m := sin (5 / 2 * x) * sin (x / 2)) in *.
  assert (M3 : (1 - 4 * u) * (5 / 4 * u * (1 - 26 / 24 * u)) <= k * m).
  { apply Rmult_le_compat; try lra. apply Rmult_le_pos; lra. }
  fold u. assert (u <= (1 - 4 * u) * (5 / 4 * u * (1 - 26 / 24 * u))).
  { replace ((1 - 4 * u) * (5 / 4 * u * (1 - 26 / 24 * u))) with (u * (5 / 4 * ((1 - 4 * u) * (1 - 26 / 24 * u)))) by ring.
    rewrite <- (Rmult_1_r u) at 1. apply Rmult_le_compat_l; [lra|]. nra. }
  lra.
Qed.

(** The scalar product of two directions in coordinates. *)
Lemma dot_coords (a b : sphere) :
  dot (vec_of a) (vec_of b)
  = cos (snd a - snd b) - cos (snd a) * cos (snd b) * (1 - cos (fst a - fst b)).
Proof.
  destruct a as [p x], b as [q y]. unfold vec_of, dot, vx, vy, vz. cbn [fst snd]. rewrite !cos_minus. ring.
Qed.

(** A position in the RA/Dec range of a tract is within 3/4 of the ring height of the centre. *)
Lemma cell_distance h w e d d0 da : 0 < h <= PI / 4 -> 0 <= w -> 
  - (PI / 2) <= d0 - h / 2 -> d0 + h / 2 <= PI / 2 ->
  (e = d0 - h / 2 \/ e = d0 + h / 2) -> Rabs e <= Rabs (d0 - h / 2) -> Rabs e <= Rabs (d0 + h / 2) ->
  w * cos e <= h -> d0 - h / 2 <= d <= d0 + h / 2 -> 1 - cos da <= w * w / 8 ->
  cos (3 / 4 * h) <= cos (d - d0) - cos d * cos d0 * (1 - cos da).
Proof.
  intros Hh Hw L1 L2 He He1 He2 Hwe Hd Hda. pose proof PI_RGT_0 as HP.
  destruct (overlap_inequality h Hh) as [Hc Hi]. set (c := cos (h / 2)) in *.
  assert (Ce : cos e = cos (Rabs e)) by (unfold Rabs; destruct (Rcase_abs e); [now rewrite cos_neg|reflexivity]).
  assert (Hc1 : c <= 1) by apply COS_bound.
  assert (K : forall y, d0 - h / 2 <= y <= d0 + h / 2 -> 0 <= cos y /\ w * (cos y * c) <= h).
  { intros y Hy. assert (C0 : 0 <= cos y) by (apply cos_ge_0; lra). split; [exact C0|].
    assert (cos y * c <= cos e).
    { destruct (Rle_lt_dec (Rabs e) (Rabs y)) as [L|L].
      - apply Rle_trans with (cos y); [rewrite <- (Rmult_1_r (cos y)) at 2; apply Rmult_le_compat_l; lra|].
        assert (Cy : cos y = cos (Rabs y)) by (unfold Rabs; destruct (Rcase_abs y); [now rewrite cos_neg|reflexivity]).
        rewrite Ce, Cy. apply cos_decr_1; try (pose proof (Rabs_pos e); pose proof (Rabs_pos y); lra); try exact L.
        + unfold Rabs; destruct (Rcase_abs e); lra.
        + unfold Rabs; destruct (Rcase_abs y); lra.
      - assert (Rabs e <= h / 2).
        { unfold Rabs in *. destruct (Rcase_abs e), (Rcase_abs y), (Rcase_abs (d0 - h / 2)), (Rcase_abs (d0 + h / 2)); lra. }
        apply Rle_trans with c; [rewrite <- (Rmult_1_l c) at 2; apply Rmult_le_compat_r; [lra|apply COS_bound]|].
        rewrite Ce. unfold c. apply cos_decr_1; try (pose proof (Rabs_pos e); lra). }
    apply Rle_trans with (w * cos e); [apply Rmult_le_compat_l; lra|exact Hwe]. }
  destruct (K d Hd) as [D1 D2]. destruct (K d0 ltac:(lra)) as [D3 D4].
  assert (B1 : c <= cos (d - d0)).
  { unfold c. assert (Ca : cos (d - d0) = cos (Rabs (d - d0))) by (unfold Rabs; destruct (Rcase_abs (d - d0)); [now rewrite cos_neg|reflexivity]).
    rewrite Ca. apply cos_decr_1; try (pose proof (Rabs_pos (d - d0)); unfold Rabs; destruct (Rcase_abs (d - d0)); lra). }
  set (a := cos d) in *. set (b := cos d0) in *. set (q := cos (3 / 4 * h)) in *.
  assert (B2 : c * c * (a * b * (1 - cos da)) <= h * h / 8).
  { apply Rle_trans with (c * c * (a * b * (w * w / 8))).
    - apply Rmult_le_compat_l; [nra|]. apply Rmult_le_compat_l; [nra|exact Hda].
    - replace (c * c * (a * b * (w * w / 8))) with ((w * (a * c)) * (w * (b * c)) / 8) by field.
      assert (w * (a * c) * (w * (b * c)) <= h * h).
      { apply Rmult_le_compat; try assumption; repeat apply Rmult_le_pos; lra. }
      lra. }
  assert (B3 : a * b * (1 - cos da) <= c - q).
  { apply Rmult_le_reg_l with (c * c); [nra|]. lra. }
  lra.
Qed.
Open Scope Z_scope.

(*@ C33: the centre of the tract that findTract returns is at most three quarters of a ring height away from the coordinate, with
    three rings or more, for every coordinate (but, with version 0, those of the last ring that are given the north cap), whatever the
    projection and the overlap. *)
Lemma rings_found_distance_proof : forall offset c mk ov numRings raStart version g coord s s' t,
  3 <= numRings -> rings_init numRings raStart version = Ok g ->
  let d := rings_def c mk ov g in
  sm_reachable offset d s -> on_sphere coord ->
  rings_findTract offset d g coord s = (s', Ok t) ->
  version = 1 \/ t_id t <> rings_numTracts g - 1 \/ (- firstRingStart g <= snd coord)%R ->
  (separation coord (t_ctr t) <= 3 / 4 * rg_size g)%R.
Proof.
  intros offset c mk ov N ra v g coord s s' t HN Eg d Hr [Hra Hdec] H Hv.
  destruct (rings_init_wf N ra v g ltac:(lia) Eg) as (W & A3 & EN & _ & EV).
  pose proof (size_pos g W) as Hs. pose proof (size_total g W) as HT. pose proof PI_RGT_0 as HP.
  assert (HNR : (3 <= IZR N)%R) by (apply IZR_le; lia).
  assert (Hlim : (0 <= 3 / 4 * rg_size g <= PI)%R).
  { rewrite EN in HT. nra. }
  destruct (rings_findTract_total_proof offset c mk ov g coord s W) as (i & Ei & Hi & E & _). fold d in E.
  rewrite E in H. destruct (getitem_holds offset d s i s' t Hr (proj1 Hi) H) as (Hr' & _ & Hh).
  destruct (rings_holds offset c mk ov g i s' t Hr' Hh) as (_ & Hid & Ec & _).
  apply separation_cos; [exact Hlim|]. rewrite dot_coords.
  assert (Hmon : forall y, (0 <= y <= 3 / 4 * rg_size g)%R -> (cos (3 / 4 * rg_size g) <= cos y)%R)
    by (intros y Hy; apply cos_decr_1; lra).
  destruct (find_cases g W coord) as [[Hx Ef]|[[Hx Ef]|(r & n & k & H1 & Hk & E1 & E2 & Hx & Ha & Ef)]];
    rewrite Ef in Ei; injection Ei as <-.
  - rewrite center_south in Ec. injection Ec as Ec. rewrite <- Ec. cbn [fst snd].
    replace (- (1 / 2) * PI)%R with (- (PI / 2))%R by lra. rewrite (cos_neg (PI / 2)), cos_PI2.
    replace (snd coord - - (PI / 2))%R with (snd coord + PI / 2)%R by lra.
    rewrite Rmult_0_r, Rmult_0_l, Rminus_0_r. apply Hmon. unfold firstRingStart in Hx. lra.
  - rewrite (center_north g W) in Ec. injection Ec as Ec. rewrite <- Ec. cbn [fst snd].
    replace (1 / 2 * PI)%R with (PI / 2)%R by lra. rewrite cos_PI2.
    rewrite Rmult_0_r, Rmult_0_l, Rminus_0_r. replace (snd coord - PI / 2)%R with (- (PI / 2 - snd coord))%R by lra. rewrite cos_neg. apply Hmon. unfold firstRingStart in Hx. lra.
  - fold (idx g r k) in *.
    assert (Hne : idx g r k <> rings_numTracts g - 1).
    { destruct Hv as [Hv|[Hv|Hv]]; [|congruence|].
      - rewrite idx_v1 by congruence. pose proof (nominal_inner g W r n k H1 Hk). lia.
      - destruct (ring_has_lt g W r n H1) as [Hrr _]. pose proof (ring_dec g W r Hrr) as HD. unfold firstRingStart in *.
        assert (IZR r + 1 <= IZR (rg_numRings g))%R by (rewrite <- plus_IZR; apply IZR_le; lia).
        assert ((IZR r + 1) * rg_size g <= IZR (rg_numRings g) * rg_size g)%R by (apply Rmult_le_compat_r; lra). lra. }
    destruct (idx_indices g r n k W H1 Hk Hne) as (k' & Ek & Ep).
    rewrite (center_of g W _ r k' n Ek H1), Ep in Ec. injection Ec as Ec. rewrite <- Ec. unfold position. cbn [fst snd].
    destruct (ring_has_lt g W r n H1) as [Hrr Hn]. rewrite EN in Hrr.
    destruct (rings_ring_count_proof N ra v g r n ltac:(lia) Eg H1) as (e & He & He1 & He2 & He3 & _).
    assert (Esz : rg_size g = (PI / (IZR N + 1))%R) by (rewrite (rw_size g W), EN; reflexivity).
    rewrite <- Esz in *. set (h := rg_size g) in *.
    assert (Hh4 : (0 < h <= PI / 4)%R).
    { split; [exact Hs|]. rewrite Esz. apply Rmult_le_compat_l; [lra|]. apply Rinv_le; lra. }
    assert (HnR : (1 <= IZR n)%R) by (apply IZR_le; lia).
    set (w := (2 * PI / IZR n)%R) in *.
    assert (Hw : (0 < w)%R) by (apply Rdiv_lt_0_compat; lra).
    set (d0 := (h * (IZR r + 1) - 1 / 2 * PI)%R).
    assert (Hr0 : (0 <= IZR r)%R) by (apply IZR_le; lia).
    assert (HrN : (IZR r + 1 <= IZR N)%R) by (rewrite <- plus_IZR; apply IZR_le; lia).
    assert (Hh0 : (0 <= IZR r * h)%R) by (apply Rmult_le_pos; lra).
    assert (HhN : ((IZR r + 1) * h <= IZR N * h)%R) by (apply Rmult_le_compat_r; lra).
    rewrite EN in HT. unfold firstRingStart in Hx. fold h in Hx.
    apply (cell_distance h w e); try lra.
    + unfold d0. lra.
    + unfold d0. lra.
    + unfold d0. destruct He as [-> | ->]; [left|right]; lra.
    + replace (d0 - h / 2)%R with (- (PI / 2) + (IZR r + 1 / 2) * h)%R by (unfold d0; lra). exact He1.
    + replace (d0 + h / 2)%R with (- (PI / 2) + (IZR r + 1 / 2) * h + h)%R by (unfold d0; lra). exact He2.
    + replace (w * cos e)%R with (2 * PI * cos e / IZR n)%R by (unfold w; field; lra). lra.
    + unfold d0. lra.
    + pose proof (wrap_range (fst coord - (rg_raStart g + (IZR k - 1 / 2) * w))) as Hu.
      destruct (wrap_decomp (fst coord - (rg_raStart g + (IZR k - 1 / 2) * w))) as (k1 & K1).
      destruct (wrap_decomp (2 * PI * IZR k / IZR n + rg_raStart g)) as (k2 & K2).
      set (u := wrap (fst coord - _)) in *. set (p := wrap (2 * PI * IZR k / IZR n + _)) in *.
      assert (Ek2 : (2 * PI * IZR k / IZR n = IZR k * w)%R) by (unfold w; field; lra).
      assert (Ed : exists m : Z, (fst coord - p = (u - w / 2) + IZR m * (2 * PI))%R).
      { rewrite Ek2 in K2. first [exists (k1 - k2); rewrite minus_IZR; lra | exists (k2 - k1); rewrite minus_IZR; lra
          | exists (k1 + k2); rewrite plus_IZR; lra | exists (- k1 - k2); rewrite minus_IZR, opp_IZR; lra]. }
      destruct Ed as (m & Em).
      assert (Ecos : cos (fst coord - p) = cos (u - w / 2)).
      { rewrite Em. rewrite <- (cos_wrap (u - w / 2 + IZR m * (2 * PI))), <- (cos_wrap (u - w / 2)). f_equal. apply (wrap_shift _ _ m). reflexivity. }
      rewrite Ecos. pose proof (one_minus_cos (u - w / 2)) as [_ B].
      assert ((u - w / 2) * (u - w / 2) <= w * w / 4)%R by nra. lra.
Qed.

(*@ C33: full overlap.  With three rings or more and an overlap of at least a quarter of the ring height (as in
    the default configuration, see below), the tract that findTract returns contains the coordinate, for
    every coordinate on the sky (TAN and STG, any pixel scale, patch layout and history of accesses).  For version 0 the
    coordinates in the last ring that are assigned to the north cap are excepted. *)
Lemma rings_full_overlap_proof : forall c S mk ov numRings raStart version g coord s s' t,
  cfg_ok c -> (0 < S)%R -> 3 <= numRings -> rings_init numRings raStart version = Ok g ->
  (rg_size g / 4 <= deg ov)%R ->
  mk = tan_wcs S /\ (rg_size g / 2 + deg ov < PI / 2)%R \/ mk = stg_wcs S /\ (rg_size g / 2 + deg ov < PI)%R ->
  let d := rings_def c mk ov g in
  sm_reachable sphere_offset d s -> on_sphere coord ->
  rings_findTract sphere_offset d g coord s = (s', Ok t) ->
  version = 1 \/ t_id t <> rings_numTracts g - 1 \/ (- firstRingStart g <= snd coord)%R ->
  tract_contains t coord = Ok true.
Proof.
  intros c S mk ov N ra v g coord s s' t Hc HS HN Eg Hov Hm d Hr Hsp H Hv.
  destruct (rings_init_wf N ra v g ltac:(lia) Eg) as (W & _).
  pose proof (size_pos g W) as Hs.
  eapply (rings_overlap_disc_proof c S mk ov g coord s s' t Hc W HS); [|exact Hr|exact H|].
  - destruct Hm as [[? ?]|[? ?]]; [left|right]; (split; [assumption|lra]).
  - pose proof (rings_found_distance_proof sphere_offset c mk ov N ra v g coord s s' t HN Eg Hr Hsp H Hv). lra.
Qed.

(*@ C33: the default configuration (120 rings, overlap of 1 degree, STG projection) meets the hypotheses. *)
Example rings_full_overlap_default_proof :
  exists g, rings_init 120 0 1 = Ok g /\ (rg_size g / 4 <= deg 1)%R /\ (rg_size g / 2 + deg 1 < PI)%R
    /\ (exists s, sm_reachable sphere_offset (rings_def legacy_default (stg_wcs (arcsec_scale (333 / 1000))) 1 g) s).
Proof.
  destruct (rings_init 120 0 1) as [g|e] eqn:Eg; [|discriminate].
  destruct (rings_init_wf 120 0 1 g ltac:(lia) Eg) as (W & _ & EN & _). exists g. split; [reflexivity|].
  pose proof PI_RGT_0. rewrite (rw_size g W), EN. unfold deg. split; [lra|]. split; [lra|].
  eexists. exists (mkSM (repeat None (Z.to_nat (sd_num (rings_def legacy_default (stg_wcs (arcsec_scale (333 / 1000))) 1 g)))) (builder_init legacy_default) 0 []).
  split; [reflexivity|constructor].
Qed.

(*@ C33, the excepted coordinates of version 0: in the last ring, within half a tract width of raStart, findTract
    returns the north cap although the coordinate is in the ring below it. *)
Lemma rings_v0_last_ring_proof : forall offset c mk ov g n coord s,
  rings_wf g -> rg_version g = 0 -> 2 <= rg_numRings g -> ring_has g (rg_numRings g - 1) n ->
  (- firstRingStart g - rg_size g <= snd coord < - firstRingStart g)%R ->
  (wrap (fst coord - rg_raStart g) < PI / IZR n)%R ->
  let d := rings_def c mk ov g in
  rings_findTract offset d g coord s = sm_getitem offset d (rings_numTracts g - 1) s.
Proof.
  intros offset c mk ov g n coord s W V HN Hn Hdec Hra d.
  destruct (rings_findTract_total_proof offset c mk ov g coord s W) as (i & Ei & Hi & E & _). fold d in E. rewrite E. f_equal.
  pose proof (size_pos g W) as Hs. pose proof (size_total g W) as HT.
  destruct (ring_has_lt g W _ n Hn) as [_ Hn1].
  assert (Hd : decToRingNum g (snd coord) = rg_numRings g - 1).
  { apply (decToRing_in g W); [lia|]. rewrite minus_IZR. unfold firstRingStart in *. lra. }
  destruct (find_cases g W coord) as [[Hx Ef]|[[Hx Ef]|(r & m & k & H1 & Hk & E1 & E2 & Hx & Ha & Ef)]].
  - exfalso. assert (2 <= IZR (rg_numRings g))%R by (apply IZR_le; lia).
    assert (2 * rg_size g <= IZR (rg_numRings g) * rg_size g)%R by (apply Rmult_le_compat_r; lra).
    unfold firstRingStart in *. lra.
  - lra.
  - rewrite Hd in E1. subst r. pose proof (ring_has_fun g _ n m Hn H1). subst m.
    assert (k = 0).
    { unfold raToTractNum in E2. destruct (Z.eqb_spec (rg_numRings g - 1) (-1)); [lia|].
      destruct (Z.eqb_spec (rg_numRings g - 1) (rg_numRings g)); [lia|]. cbn [orb] in E2.
      destruct (Z.leb_spec 0 (rg_numRings g - 1)); [|lia].
      destruct (Z.ltb_spec (rg_numRings g - 1) (rg_numRings g)); [|lia]. cbn [andb negb] in E2.
      rewrite (ring_has_nth g _ n Hn) in E2. cbn [bind] in E2. injection E2 as E2.
      assert (HnR : (1 <= IZR n)%R) by (apply IZR_le; lia). pose proof two_pi_pos as HP.
      set (q := (2 * PI / IZR n)%R) in *.
      assert (Hq : (0 < q)%R) by (apply Rmult_lt_0_compat; [lra|apply Rinv_0_lt_compat; lra]).
      pose proof (wrap_range (fst coord - rg_raStart g)) as Hw. set (u := wrap _) in *.
      assert (u < q / 2)%R by (unfold q; replace (2 * PI / IZR n / 2)%R with (PI / IZR n)%R by (field; lra); exact Hra).
      assert (0 <= u / q)%R by (apply Rmult_le_pos; [lra|left; now apply Rinv_0_lt_compat]).
      assert (u / q < 1 / 2)%R.
      { apply Rmult_lt_reg_r with q; [exact Hq|]. unfold Rdiv at 1. rewrite Rmult_assoc, Rinv_l by lra. lra. }
      destruct (py_int_bounds (u / q + 1 / 2)) as [B1 [B2 B3]]; [lra|].
      assert (py_int (u / q + 1 / 2) < 1) by (apply lt_IZR; lra).
      destruct (Z.eqb_spec (py_int (u / q + 1 / 2)) n); lia. }
    subst k. rewrite Ef in Ei. injection Ei as <-. rewrite V. cbn [Z.eqb andb].
    destruct (Z.eqb_spec (rg_numRings g - 1) 0); [lia|]. cbn [negb].
    unfold nominal_index. replace (rg_numRings g - 1 + 1) with (rg_numRings g) by lia. rewrite (before_all g W). lia.
Qed.
