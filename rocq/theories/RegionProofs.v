(** Facts about the contents of tracts and their inner regions. *)
From Coq Require Import Reals Lra Lia.
From Flocq Require Import Raux.
Require Import Verif.Py Verif.Geom Verif.PatchInfo Verif.TractBuilder Verif.TractInfo Verif.Spec.
Require Import Verif.PatchProofs Verif.TractProofs.
Require Import Verif.SkyMap Verif.SkySpec Verif.SkyProofs Verif.SkyProofs2.
Require Import Verif.Rings Verif.RingsSpec Verif.RingsProofs Verif.RingsProofs2 Verif.Sphere Verif.Uniform Verif.Region.
Open Scope Z_scope.
Local Arguments Z.mul : simpl never.

Lemma tract_build_keeps (Sky : Type) b oid id ctr verts overlap (w : wcs Sky) corners samples b' t :
  tract_build b oid id ctr verts overlap w corners samples = Ok (b', t) ->
  t_oid t = oid /\ t_id t = id /\ t_ctr t = ctr /\ t_verts t = verts /\ t_overlap t = overlap
  /\ t_innerBoxCorners t = corners.
Proof.
  unfold tract_build. destruct (include_all _ _); [|discriminate]. cbn [bind].
  destruct (setupPatches _ _) as [[? [? ?]]|]; [|discriminate]. cbn [bind].
  unfold finalOrientation. cbn [bind]. intros H. injection H as _ <-. cbn. auto 10.
Qed.

Lemma explicit_keeps (Sky : Type) (offset : Sky -> R -> R -> Sky) b oid id ctr radius overlap (w : wcs Sky) corners b' t :
  ExplicitTractInfo_init offset b oid id ctr radius overlap w corners = Ok (b', t) ->
  t_oid t = oid /\ t_id t = id /\ t_ctr t = ctr /\ t_overlap t = overlap /\ t_innerBoxCorners t = corners.
Proof.
  unfold ExplicitTractInfo_init. destruct (tract_build _ _ _ _ _ _ _ _ _) as [[b1 t1]|e] eqn:E; [|discriminate].
  cbn [bind]. intros H. injection H as _ <-. cbn. apply tract_build_keeps in E.
  destruct E as (A & B & C & _ & D & F). auto 10.
Qed.

(** The arguments of a rings tract. *)
Lemma rings_args_inv' mk ov g i a : rings_args mk ov g i = Ok a ->
  exists ctr raMin raMax decMin decMax, rings_center g i = Ok ctr
    /\ getRaDecRange g i = Ok (raMin, raMax, decMin, decMax)
    /\ a = ExplicitArgs ctr (1 / 2 * rg_size g)%R (deg ov) (mk ctr)
             (Some ((normalizedAngle raMin, decMin), (normalizedAngle raMax, decMax))).
Proof.
  unfold rings_args. destruct (rings_center g i) as [ctr|]; [|discriminate]. cbn [bind].
  destruct (getRaDecRange g i) as [[[[? ?] ?] ?]|]; [|discriminate]. cbn [bind].
  intros H. injection H as <-. eauto 10.
Qed.

Lemma normalizedAngle_id a : (0 <= a <= 2 * PI)%R -> normalizedAngle a = a.
Proof.
  intros H. unfold normalizedAngle. destruct (Rle_bool_spec 0 a), (Rle_bool_spec a (2 * PI)); cbn [andb]; lra || reflexivity.
Qed.
Lemma range_normalized g i a b c d : getRaDecRange g i = Ok (a, b, c, d) ->
  normalizedAngle a = a /\ normalizedAngle b = b.
Proof.
  unfold getRaDecRange. destruct (getRingIndices g i) as [[r t]|]; [|discriminate]. cbn [bind].
  pose proof two_pi_pos as HP.
  destruct (r =? -1); [|destruct (r =? rg_numRings g)].
  - intros H. injection H as <- <- _ _. split; apply normalizedAngle_id; lra.
  - intros H. injection H as <- <- _ _. split; apply normalizedAngle_id; lra.
  - destruct (py_nth _ _) as [n|]; [|discriminate]. cbn [bind]. intros H. injection H as <- <- _ _.
    split; apply normalizedAngle_id; match goal with |- context [wrap ?x] => pose proof (wrap_range x); lra end.
Qed.

Lemma rings_holds offset c mk ov g i s t :
  let d := rings_def c mk ov g in
  sm_reachable offset d s -> holds offset d i s t ->
  0 <= i < rings_numTracts g /\ t_id t = i
  /\ rings_center g i = Ok (t_ctr t)
  /\ t_overlap t = deg ov
  /\ exists raMin raMax decMin decMax, getRaDecRange g i = Ok (raMin, raMax, decMin, decMax)
     /\ t_innerBoxCorners t = Some ((raMin, decMin), (raMax, decMax)).
Proof.
  intros d Hr Hh. destruct (holds_args offset d s i t Hr Hh) as (Hi & a & b & b' & oid & Ea & Hb & M).
  cbn [sd_num d rings_def] in Hi. cbn [sd_args d rings_def] in Ea.
  destruct (rings_args_inv' _ _ _ _ _ Ea) as (ctr & a1 & a2 & d1 & d2 & Ec & Er & ->). cbn [make_tract] in M.
  apply explicit_keeps in M. destruct M as (_ & M1 & M2 & M3 & M4). subst ctr.
  split; [exact Hi|]. split; [exact M1|]. split; [exact Ec|]. split; [exact M3|]. exists a1, a2, d1, d2. split; [exact Er|].
  destruct (range_normalized _ _ _ _ _ _ Er) as [-> ->] in M4. exact M4.
Qed.

(** The range of an index that denotes tract [t] of ring [r]. *)
Lemma range_of g i r t n : rings_wf g -> getRingIndices g i = Ok (r, t) -> ring_has g r n ->
  getRaDecRange g i
  = Ok (wrap (rg_raStart g + (IZR t - 1 / 2) * (2 * PI / IZR n)),
        wrap (rg_raStart g + (IZR t - 1 / 2) * (2 * PI / IZR n) + 2 * PI / IZR n),
        firstRingStart g + IZR r * rg_size g, firstRingStart g + (IZR r + 1) * rg_size g)%R.
Proof.
  intros W E H. destruct (ring_has_lt g W r n H) as [Hr Hn].
  unfold getRaDecRange. rewrite E. cbn [bind].
  destruct (Z.eqb_spec r (-1)); [lia|]. destruct (Z.eqb_spec r (rg_numRings g)); [lia|].
  rewrite (ring_has_nth g r n H). cbn [bind]. assert (IZR n <> 0)%R by (apply IZR_neq; lia).
  unfold firstRingStart. f_equal. f_equal; [f_equal; [f_equal; f_equal|]|]; field; assumption.
Qed.

Lemma range_south g : getRaDecRange g 0 = Ok (0, 2 * PI, - PI / 2, firstRingStart g)%R.
Proof.
  unfold getRaDecRange. rewrite indices_south. cbn [bind]. rewrite Z.eqb_refl. unfold firstRingStart.
  f_equal. f_equal. lra.
Qed.
Lemma range_north g : rings_wf g ->
  getRaDecRange g (rings_numTracts g - 1) = Ok (0, 2 * PI, - firstRingStart g, PI / 2)%R.
Proof.
  intros W. unfold getRaDecRange. rewrite (indices_north g W). cbn [bind]. pose proof (rw_rings g W).
  destruct (Z.eqb_spec (rg_numRings g) (-1)); [lia|]. rewrite Z.eqb_refl.
  pose proof (size_total g W). unfold firstRingStart. f_equal. f_equal. f_equal. lra.
Qed.

Lemma lon_contains_in_ra a b x : lon_contains a b x = true <-> in_ra a b x.
Proof.
  unfold lon_contains, in_ra. destruct (Rle_bool_spec a b).
  - rewrite andb_true_iff. destruct (Rle_bool_spec a x), (Rle_bool_spec x b); split; intros K; try lra; try tauto.
    all: destruct K; congruence.
  - rewrite orb_true_iff. destruct (Rle_bool_spec a x), (Rle_bool_spec x b); split; intros K; try lra; try tauto.
    all: destruct K; congruence.
Qed.
(** Where the coordinates that [findTract] sends to a tract of a ring lie. *)
Lemma found_in_ring g coord i : rings_wf g -> at_least 2 g -> on_sphere coord ->
  rings_findIndex g coord = Ok i -> 0 < i < rings_numTracts g - 1 ->
  exists range, getRaDecRange g i = Ok range /\ in_range range coord.
Proof.
  intros W A [Hra Hdec] E Hi. pose proof (len_pos g W) as HL. pose proof PI_RGT_0 as HPI.
  destruct (find_cases g W coord) as [[Hd E1]|[[Hd E1]|(r & n & t & H & Ht & _ & _ & Hd & Ha & E1)]];
    [exfalso; rewrite E1 in E; injection E; lia|exfalso; rewrite E1 in E; injection E; lia|].
  destruct (ring_has_lt g W r n H) as [Hr Hn].
  assert (Hn2 : 2 <= n) by (destruct H as [_ H]; apply A; eapply nth_error_In; eauto).
  assert (Arc : (0 < 2 * PI / IZR n < 2 * PI)%R).
  { apply IZR_le in Hn2. split; [apply Rmult_lt_0_compat; [lra|apply Rinv_0_lt_compat; lra]|].
    apply Rmult_lt_reg_r with (IZR n); [lra|]. unfold Rdiv. rewrite Rmult_assoc, Rinv_l by lra. nra. }
  assert (Hin : forall t', (IZR t' = IZR t \/ IZR t' = IZR t + IZR n)%R ->
     in_range (wrap (rg_raStart g + (IZR t' - 1 / 2) * (2 * PI / IZR n)),
        wrap (rg_raStart g + (IZR t' - 1 / 2) * (2 * PI / IZR n) + 2 * PI / IZR n),
        firstRingStart g + IZR r * rg_size g, firstRingStart g + (IZR r + 1) * rg_size g)%R coord).
  { intros t' Et. split; [|lra]. apply arc_cases; [exact Arc|exact Hra|]. apply Rlt_le.
    refine (Rle_lt_trans _ _ _ _ Ha). apply Req_le.
    assert (IZR n <> 0)%R by (apply IZR_neq; lia).
    destruct Et as [-> | ->]; [reflexivity|]. apply (wrap_shift _ _ (-1)). field. assumption. }
  destruct (rw_version g W) as [V|V].
  - rewrite V in E1. cbn [Z.eqb andb] in E1.
    destruct (Z.eqb_spec t 0) as [->|Ht0].
    + destruct (Z.eqb_spec r 0) as [->|Hr0].
      * cbn [negb] in E1. rewrite E in E1. injection E1 as ->. eexists. split.
        -- apply (range_of g _ 0 0 n W); [|exact H]. apply (indices_v0 g W 0 n); [exact V|exact H|]. auto.
        -- apply Hin. now left.
      * cbn [negb] in E1. rewrite E in E1. injection E1 as ->. rewrite (nominal_next g r n H) in *.
        assert (Hlt : r < rg_numRings g - 1).
        { destruct (Z.eq_dec r (rg_numRings g - 1)) as [->|]; [|lia]. exfalso.
          pose proof (before_S g _ n H). pose proof (before_all g W). unfold nominal_index in Hi.
          replace (rg_numRings g - 1 + 1) with (rg_numRings g) in * by lia. lia. }
        eexists. split.
        -- apply (range_of g _ r n n W); [|exact H]. apply (indices_v0 g W r n); [exact V|exact H|]. auto.
        -- apply Hin. right. lra.
    + cbn [andb] in E1. rewrite E in E1. injection E1 as ->. eexists. split.
      * apply (range_of g _ r t n W); [|exact H]. apply (indices_v0 g W r n); [exact V|exact H|]. lia.
      * apply Hin. now left.
  - rewrite V in E1. cbn [Z.eqb andb] in E1. rewrite E in E1. injection E1 as ->. eexists. split.
    + apply (range_of g _ r t n W); [|exact H]. apply (indices_v1 g W r n); assumption.
    + apply Hin. now left.
Qed.

Lemma separation_same_lon (p q : sphere) h : fst p = fst q ->
  (snd q = snd p + h)%R /\ (0 <= h)%R /\ (h <= PI)%R -> separation p q = h.
Proof.
  destruct p as [a x], q as [a' y]. cbn [fst snd]. intros <- (-> & H0 & H1).
  unfold separation. assert (E : dot (vec_of (a, x)) (vec_of (a, x + h)%R) = cos h).
  { unfold vec_of, dot. cbn [fst snd].
    replace (cos h) with (cos ((x + h) - x)) by (f_equal; ring). rewrite cos_minus.
    pose proof (sin2_cos2 a) as T. unfold Rsqr in T.
    replace (cos (x + h) * cos x)%R with ((sin a * sin a + cos a * cos a) * (cos (x + h) * cos x))%R by (rewrite T; ring).
    unfold vx, vy, vz. cbn [fst snd]. ring. }
  rewrite E. now apply acos_cos.
Qed.
