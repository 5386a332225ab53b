(** The rings made by the constructor; centres, ranges and searches. *)
From Coq Require Import Reals Lra Sorted.
From Flocq Require Import Raux.
Require Import Verif.Py Verif.Geom Verif.PatchInfo Verif.TractBuilder Verif.TractInfo Verif.SkyMap.
Require Import Verif.Rings Verif.RingsSpec Verif.RingsProofs.
Open Scope Z_scope.
Local Arguments Z.mul : simpl never.

Lemma PI_gt_3 : (3 < PI)%R.
Proof. pose proof PI2_3_2. lra. Qed.

Lemma sin_lower h : (0 <= h <= 1)%R -> (5 / 6 * h <= sin h)%R.
Proof.
  intros Hh. pose proof PI_gt_3. destruct (sin_bound h 0) as [H1 _]; [lra|lra|].
  unfold sin_approx, sin_term in H1. cbn in H1.
  assert (h * h * h <= h)%R.
  { assert (h * h <= 1)%R by nra. nra. }
  lra.
Qed.

Lemma ring_count_ge3 N i : 1 <= N -> 0 <= i < N -> 3 <= ring_count (ring_size N) i.
Proof.
  intros HN Hi. unfold ring_count. pose proof PI_gt_3 as HP. pose proof PI_4 as HP4.
  apply IZR_le in HN as HNR.
  set (h := (ring_size N / 2)%R).
  assert (Hs : (ring_size N * (IZR N + 1) = PI)%R) by (unfold ring_size; field; lra).
  assert (Hs0 : (0 < ring_size N)%R).
  { unfold ring_size. apply Rmult_lt_0_compat; [lra|]. apply Rinv_0_lt_compat; lra. }
  assert (Hh : (0 < h <= 1)%R).
  { unfold h. split; [lra|]. assert (ring_size N * 2 <= ring_size N * (IZR N + 1))%R by (apply Rmult_le_compat_l; lra). lra. }
  set (S := (ring_size N * (IZR i + 1 / 2) - 1 / 2 * PI)%R).
  set (D := Rmin (Rabs S) (Rabs (S + ring_size N))).
  assert (Hi0 : (0 <= IZR i)%R) by (apply IZR_le; lia).
  assert (Hi1 : (IZR i + 1 <= IZR N)%R) by (rewrite <- plus_IZR; apply IZR_le; lia).
  assert (HS1 : (- (PI / 2) + h <= S)%R).
  { unfold S, h. assert (0 <= ring_size N * IZR i)%R by (apply Rmult_le_pos; lra). lra. }
  assert (HS2 : (S <= PI / 2 - h)%R).
  { unfold S, h. assert (ring_size N * (IZR i + 1) <= ring_size N * IZR N)%R by (apply Rmult_le_compat_l; lra). lra. }
  assert (HD : (0 <= D <= PI / 2 - h)%R).
  { unfold D. split.
    - apply Rmin_glb; apply Rabs_pos.
    - eapply Rle_trans; [apply Rmin_l|]. apply Rabs_le. lra. }
  assert (Hcos : (sin h <= cos D)%R).
  { rewrite <- (cos_shift h). apply cos_decr_1; lra. }
  pose proof (sin_lower h ltac:(lra)) as Hl.
  assert (Hx : (2 <= 2 * PI * cos D / ring_size N)%R).
  { apply Rmult_le_reg_r with (ring_size N); [exact Hs0|]. unfold Rdiv. rewrite Rmult_assoc, Rinv_l, Rmult_1_r by lra.
    replace (ring_size N) with (2 * h)%R by (unfold h; lra).
    assert (5 / 6 * h <= cos D)%R by lra.
    assert (3 * (5 / 6 * h) <= PI * cos D)%R by (apply Rmult_le_compat; lra). lra. }
  assert (2 <= py_int (2 * PI * cos D / ring_size N)); [|lia].
  unfold py_int. rewrite Ztrunc_floor by lra. apply Zfloor_lub. exact Hx.
Qed.

(** ** The constructor makes layouts *)
Lemma rings_init_wf N raStart v g : 1 <= N -> rings_init N raStart v = Ok g ->
  rings_wf g /\ at_least 3 g /\ rg_numRings g = N /\ rg_raStart g = deg raStart /\ rg_version g = v.
Proof.
  intros HN. unfold rings_init. destruct (Z.eqb_spec v 0), (Z.eqb_spec v 1); cbn [orb negb]; try lia; try discriminate;
    intros H; injection H as <-; cbn [rg_numRings rg_nums rg_size rg_raStart rg_version].
  all: assert (K : forall n, In n (map (ring_count (ring_size N)) (zrange 0 N)) -> 3 <= n)
         by (intros n2 Hn; apply in_map_iff in Hn; destruct Hn as (i & <- & Hi); apply in_zrange in Hi;
             apply ring_count_ge3; lia).
  all: split; [|split; [exact K|auto]].
  all: constructor; cbn; auto; try lia.
  all: try (rewrite map_length, zrange_length; lia).
  all: intros n2 Hn; apply K in Hn; lia.
Qed.

Section Layout.
Variable g : rings.
Hypothesis W : rings_wf g.
Notation N := (rg_numRings g).
Notation len := (rings_numTracts g).

(** Distinct nominal positions. *)
Lemma position_inj r n t r' n' t' :
  ring_has g r n -> 0 <= t < n -> ring_has g r' n' -> 0 <= t' < n' ->
  position g r t n = position g r' t' n' -> r = r' /\ t = t'.
Proof.
  intros H Ht H' Ht' E. unfold position in E. injection E as E1 E2.
  pose proof (size_pos g W). assert (r = r').
  { apply eq_IZR. apply Rmult_eq_reg_l with (rg_size g); lra. }
  subst r'. split; [reflexivity|]. assert (n = n') by (eapply ring_has_fun; eauto). subst n'.
  apply (arc_unique (wrap (2 * PI * IZR t / IZR n + rg_raStart g) - rg_raStart g) n t t'); try assumption.
  - assert (HnR : (1 <= IZR n)%R) by (apply IZR_le; lia). pose proof two_pi_pos.
    set (q := (2 * PI / IZR n)%R).
    assert (Hq : (0 < q)%R) by (apply Rmult_lt_0_compat; [lra|apply Rinv_0_lt_compat; lra]).
    assert (Eq : (q * IZR n = 2 * PI)%R) by (unfold q; field; lra).
    assert (q <= 2 * PI)%R by (rewrite <- Eq; rewrite <- (Rmult_1_r q) at 1; apply Rmult_le_compat_l; lra).
    unfold Rminus. rewrite !Rplus_assoc, wrap_plus_wrap.
    rewrite (wrap_id _); [|]; replace (2 * PI * IZR t / IZR n)%R with (IZR t * q)%R by (unfold q; field; lra); lra.
  - rewrite E1.
    assert (HnR : (1 <= IZR n)%R) by (apply IZR_le; lia). pose proof two_pi_pos.
    set (q := (2 * PI / IZR n)%R).
    assert (Hq : (0 < q)%R) by (apply Rmult_lt_0_compat; [lra|apply Rinv_0_lt_compat; lra]).
    assert (Eq : (q * IZR n = 2 * PI)%R) by (unfold q; field; lra).
    assert (q <= 2 * PI)%R by (rewrite <- Eq; rewrite <- (Rmult_1_r q) at 1; apply Rmult_le_compat_l; lra).
    unfold Rminus. rewrite !Rplus_assoc, wrap_plus_wrap.
    rewrite (wrap_id _); [|]; replace (2 * PI * IZR t' / IZR n)%R with (IZR t' * q)%R by (unfold q; field; lra); lra.
Qed.

Lemma position_not_cap r n t : ring_has g r n ->
  (- (1 / 2) * PI < snd (position g r t n) < 1 / 2 * PI)%R.
Proof.
  intros H. pose proof (ring_has_lt g W r n H) as [Hr _]. pose proof (size_pos g W) as HS. pose proof (size_total g W).
  cbn. assert (0 <= IZR r)%R by (apply IZR_le; lia).
  assert (IZR r + 1 <= IZR N)%R by (rewrite <- plus_IZR; apply IZR_le; lia).
  assert (0 < rg_size g * (IZR r + 1))%R by (apply Rmult_lt_0_compat; lra).
  assert (rg_size g * (IZR r + 1) <= rg_size g * IZR N)%R by (apply Rmult_le_compat_l; lra). lra.
Qed.

(** [findTract] of a nominal position. *)
Lemma find_position r n t : ring_has g r n -> 0 <= t < n ->
  rings_findIndex g (position g r t n)
  = Ok (nominal_index g (if (rg_version g =? 0) && (t =? 0) && negb (r =? 0) then r + 1 else r) t).
Proof.
  intros H Ht. pose proof (ring_has_lt g W r n H) as [Hr Hn]. pose proof (size_pos g W) as HS.
  assert (Ed : decToRingNum g (snd (position g r t n)) = r).
  { apply decToRing_in; [exact W|exact Hr|]. unfold firstRingStart. cbn [position snd]. lra. }
  destruct (find_cases g W (position g r t n)) as [[Hx _]|[[Hx _]|(r1 & n1 & t1 & H1 & Ht1 & E1 & E2 & _ & Ha & E)]].
  - exfalso. rewrite (decToRing_south g _ Hx) in Ed. lia.
  - exfalso. rewrite (decToRing_north g W _ Hx) in Ed. lia.
  - rewrite E. rewrite Ed in E1. subst r1. assert (n1 = n) by (eapply ring_has_fun; eauto). subst n1.
    assert (t1 = t); [|subst; reflexivity].
    cbn [position fst] in Ha.
    assert (HnR : (1 <= IZR n)%R) by (apply IZR_le; lia). pose proof two_pi_pos.
    set (q := (2 * PI / IZR n)%R) in *.
    assert (Hq : (0 < q)%R) by (apply Rmult_lt_0_compat; [lra|apply Rinv_0_lt_compat; lra]).
    assert (Eq : (q * IZR n = 2 * PI)%R) by (unfold q; field; lra).
    assert (q <= 2 * PI)%R by (rewrite <- Eq; rewrite <- (Rmult_1_r q) at 1; apply Rmult_le_compat_l; lra).
    apply (arc_unique (2 * PI * IZR t / IZR n) n t1 t); try assumption; fold q.
    + rewrite wrap_minus_wrap in Ha.
      replace (2 * PI * IZR t / IZR n - (IZR t1 - 1 / 2) * q)%R
        with (2 * PI * IZR t / IZR n + rg_raStart g - (rg_raStart g + (IZR t1 - 1 / 2) * q))%R by ring. exact Ha.
    + replace (2 * PI * IZR t / IZR n)%R with (IZR t * q)%R by (unfold q; field; lra).
      rewrite wrap_id; lra.
Qed.
Lemma find_cap_south : rings_findIndex g (0, - (1 / 2) * PI)%R = Ok 0.
Proof.
  unfold rings_findIndex. cbn [snd]. rewrite decToRing_south; [reflexivity|].
  unfold firstRingStart. pose proof (size_pos g W). lra.
Qed.
Lemma find_cap_north : rings_findIndex g (0, 1 / 2 * PI)%R = Ok (len - 1).
Proof.
  unfold rings_findIndex. cbn [snd]. rewrite (decToRing_north g W).
  - pose proof (rw_rings g W). destruct (Z.eqb_spec N (-1)); [lia|]. now rewrite Z.eqb_refl.
  - unfold firstRingStart. pose proof (size_pos g W). lra.
Qed.

(** Indices of rings in the two versions. *)
Lemma index_cases i : 0 <= i < len ->
  i = 0 \/ i = len - 1 \/ exists r n t, ring_has g r n /\ 0 <= t < n /\ i = nominal_index g r t.
Proof.
  intros Hi. destruct (Z.eq_dec i 0); [now left|]. destruct (Z.eq_dec i (len - 1)); [now right; left|].
  right; right. apply (nominal_surj g W). lia.
Qed.
Lemma center_v1 r n t : rg_version g = 1 -> ring_has g r n -> 0 <= t < n ->
  rings_center g (nominal_index g r t) = Ok (position g r t n).
Proof. intros V H Ht. eapply center_of; eauto. eapply indices_v1; eauto. Qed.
Lemma center_v0 r n t : rg_version g = 0 -> ring_has g r n -> 0 < t < n \/ t = 0 /\ r = 0 ->
  rings_center g (nominal_index g r t) = Ok (position g r t n).
Proof. intros V H Ht. eapply center_of; eauto. eapply indices_v0; eauto. tauto. Qed.
Lemma nominal_next r n : ring_has g r n -> nominal_index g (r + 1) 0 = nominal_index g r n.
Proof. intros H. unfold nominal_index. rewrite (before_S g r n H). lia. Qed.
Lemma center_v0_first r n : rg_version g = 0 -> ring_has g r n -> r < N - 1 ->
  rings_center g (nominal_index g (r + 1) 0) = Ok (position g r 0 n).
Proof.
  intros V H Hr. rewrite (nominal_next r n H). pose proof (ring_has_lt g W r n H) as [_ Hn].
  rewrite <- (position_wrap g r n Hn). eapply center_of; eauto. eapply indices_v0; eauto.
Qed.
End Layout.
