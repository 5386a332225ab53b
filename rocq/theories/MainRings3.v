(** Rings sky maps: the tract objects (C24, C28, C31, C63, C64). *)
From Coq Require Import Reals Lra Lia.
From Flocq Require Import Raux.
Require Import Verif.Py Verif.Geom Verif.PatchInfo Verif.TractBuilder Verif.TractInfo Verif.Spec.
Require Import Verif.PatchProofs Verif.TractProofs Verif.Examples.
Require Import Verif.SkyMap Verif.SkySpec Verif.SkyProofs Verif.SkyProofs2 Verif.MainSky.
Require Import Verif.Rings Verif.RingsSpec Verif.RingsProofs Verif.RingsProofs2 Verif.RingsProofs3 Verif.RingsNear.
Require Import Verif.MainRings Verif.Sphere Verif.SphereProofs Verif.TractBox Verif.Uniform Verif.RingsNum Verif.MainRings2.
Require Import Verif.Region Verif.RegionProofs.
Open Scope Z_scope.
Local Arguments Z.mul : simpl never.

(** The tract 0 of the last ring is tried for these coordinates. *)
Definition beside_last_ring_start (g : rings) (n : Z) (coord : sphere) : Prop :=
  (- firstRingStart g - 2 * rg_size g <= snd coord)%R
  /\ (let east := wrap (fst coord - rg_raStart g) in let width := 2 * PI / IZR n in
      east < 3 / 2 * width \/ 2 * PI - 3 / 2 * width <= east)%R.

Lemma last_ring_start_tried g n coord : rings_wf g -> at_least 3 g -> 2 <= rg_numRings g ->
  ring_has g (rg_numRings g - 1) n ->
  (In (rg_numRings g - 1, 0) (pairs g coord) <-> beside_last_ring_start g n coord).
Proof.
  intros W A HN Hn. rewrite (pairs_iff g). unfold beside_last_ring_start.
  assert (Hn3 : 3 <= n) by (apply A; destruct Hn; eapply nth_error_In; eauto).
  pose proof (size_pos g W) as HS. pose proof (size_total g W) as HT.
  assert (Hfirst : (firstRingStart g + IZR (rg_numRings g) * rg_size g = - firstRingStart g)%R) by (unfold firstRingStart; lra).
  assert (D : decToRingNum g (snd coord) - 1 <= rg_numRings g - 1 <= decToRingNum g (snd coord) + 1
              <-> (- firstRingStart g - 2 * rg_size g <= snd coord)%R).
  { assert (HNR : (2 <= IZR (rg_numRings g))%R) by (apply IZR_le; lia).
    destruct (dec_cases g W (snd coord)) as [[H E]|[[H E]|(r & Hr & E & H)]]; rewrite E.
    - split; [lia|]. intros L. exfalso.
      assert (2 * rg_size g <= IZR (rg_numRings g) * rg_size g)%R by (apply Rmult_le_compat_r; lra). lra.
    - split; [intros _; lra|lia].
    - split; intros L.
      + assert (IZR (rg_numRings g - 2) <= IZR r)%R by (apply IZR_le; lia). rewrite minus_IZR in H0.
        assert ((IZR (rg_numRings g) - 2) * rg_size g <= IZR r * rg_size g)%R by (apply Rmult_le_compat_r; lra). lra.
      + assert (rg_numRings g - 2 < r + 1); [|lia]. apply lt_IZR. rewrite minus_IZR, plus_IZR.
        apply Rmult_lt_reg_r with (rg_size g); [exact HS|]. lra. }
  rewrite D. apply and_iff_compat_l. cbn zeta.
  destruct (ring_pairs_spec g W coord (rg_numRings g - 1) ltac:(lia)) as (n' & t & Hn' & Et & Ht & ->).
  pose proof (ring_has_fun g _ n n' Hn Hn'). subst n'.
  assert (E : In (rg_numRings g - 1, 0) (map (pair (rg_numRings g - 1)) (around t n)) <-> In 0 (around t n)).
  { rewrite in_map_iff. split; [intros (x & E & Hx); injection E as ->; exact Hx|intros Hx; exists 0; auto]. }
  rewrite E, (in_around t n 0 Hn3 Ht ltac:(lia)). clear E D.
  assert (T : (exists m, -1 <= t - 0 + m * n <= 1) <-> t = 0 \/ t = 1 \/ t = n - 1).
  { split; [intros (m & Hm); assert (m = 0 \/ m = -1) as [-> | ->] by nia; lia|].
    intros [-> |[-> | ->]]; [exists 0; lia|exists 0; lia|exists (-1); lia]. }
  rewrite T. clear T.
  unfold raToTractNum in Et. destruct (Z.eqb_spec (rg_numRings g - 1) (-1)); [lia|].
  destruct (Z.eqb_spec (rg_numRings g - 1) (rg_numRings g)); [lia|]. cbn [orb] in Et.
  destruct (Z.leb_spec 0 (rg_numRings g - 1)); [|lia].
  destruct (Z.ltb_spec (rg_numRings g - 1) (rg_numRings g)); [|lia]. cbn [andb negb] in Et.
  rewrite (ring_has_nth g _ n Hn) in Et. cbn [bind] in Et. injection Et as Et.
  assert (HnR : (3 <= IZR n)%R) by (apply IZR_le; lia). pose proof two_pi_pos as HP.
  set (q := (2 * PI / IZR n)%R) in *.
  assert (Hq : (0 < q)%R) by (apply Rmult_lt_0_compat; [lra|apply Rinv_0_lt_compat; lra]).
  assert (Eq : (2 * PI = IZR n * q)%R) by (unfold q; field; lra).
  pose proof (wrap_range (fst coord - rg_raStart g)) as Hw. set (u := wrap _) in *.
  assert (H3 : (0 <= u / q)%R) by (apply Rmult_le_pos; [lra|left; now apply Rinv_0_lt_compat]).
  assert (Eu : (u / q * q = u)%R) by (field; lra).
  destruct (py_int_bounds (u / q + 1 / 2)) as [B1 [B2 B3]]; [lra|].
  set (z := py_int (u / q + 1 / 2)) in *.
  apply (Rmult_le_compat_r q) in B2; [|lra]. apply (Rmult_lt_compat_r q) in B3; [|lra].
  rewrite Rmult_plus_distr_r, Eu in B2, B3. rewrite Rmult_plus_distr_r in B3.
  assert (Z1 : z <= n).
  { apply Z.lt_succ_r. apply lt_IZR. rewrite succ_IZR. apply Rmult_lt_reg_r with q; [exact Hq|]. lra. }
  assert (K : (t = 0 \/ t = 1 \/ t = n - 1) <-> z <= 1 \/ n - 1 <= z).
  { destruct (Z.eqb_spec z n); lia. }
  rewrite K. split.
  - intros [L|L].
    + left. apply IZR_le in L. assert (IZR z * q <= 1 * q)%R by (apply Rmult_le_compat_r; lra). lra.
    + right. apply IZR_le in L. rewrite minus_IZR in L.
      assert ((IZR n - 1) * q <= IZR z * q)%R by (apply Rmult_le_compat_r; lra). lra.
  - intros [L|L].
    + left. apply Z.lt_succ_r, lt_IZR. rewrite succ_IZR. apply Rmult_lt_reg_r with q; [exact Hq|]. lra.
    + right. assert (n - 1 < z + 1); [|lia]. apply lt_IZR. rewrite minus_IZR, plus_IZR.
      apply Rmult_lt_reg_r with q; [exact Hq|]. lra.
Qed.

Lemma last_ring_index g : rings_wf g -> rg_version g = 0 -> 2 <= rg_numRings g -> idx g (rg_numRings g - 1) 0 = rings_numTracts g - 1.
Proof.
  intros W V HN. unfold idx. rewrite V. cbn [Z.eqb andb]. destruct (Z.eqb_spec (rg_numRings g - 1) 0); [lia|].
  cbn [negb]. unfold nominal_index. replace (rg_numRings g - 1 + 1) with (rg_numRings g) by lia.
  rewrite (before_all g W). lia.
Qed.

Lemma cap_count g n coord : rings_wf g -> at_least 3 g -> rg_version g = 0 ->
  ring_has g (rg_numRings g - 1) n ->
  (2 <= rg_numRings g /\ beside_last_ring_start g n coord -> count_occ Z.eq_dec (tried g coord) (rings_numTracts g - 1) = 2%nat)
  /\ (~ (2 <= rg_numRings g /\ beside_last_ring_start g n coord) -> count_occ Z.eq_dec (tried g coord) (rings_numTracts g - 1) = 1%nat).
Proof.
  intros W A V Hn. pose proof (len_pos g W) as HL. rewrite (tried_pairs g), count_occ_app. set (m := map _ _).
  assert (E2 : count_occ Z.eq_dec [0; rings_numTracts g - 1] (rings_numTracts g - 1) = 1%nat).
  { cbn [count_occ]. destruct (Z.eq_dec 0 (rings_numTracts g - 1)); [lia|]. destruct (Z.eq_dec (rings_numTracts g - 1) (rings_numTracts g - 1)); [reflexivity|lia]. }
  rewrite E2. clear E2.
  assert (P : forall rt, In rt (pairs g coord) -> exists n, ring_has g (fst rt) n /\ 0 <= snd rt < n)
    by (intros rt; apply (pairs_in g W); now apply at_least_2).
  assert (ND : NoDup m).
  { apply map_NoDup_in; [|now apply (pairs_NoDup g W)].
    intros [r t] [r' t'] Hx Hy Exy. cbn [fst snd] in Exy.
    destruct (P _ Hx) as (k & H1 & H2). destruct (P _ Hy) as (k' & H1' & H2'). cbn [fst snd] in *.
    apply (idx_inj g W r k t r' k' t') in Exy; auto. destruct Exy. congruence. }
  assert (I : In (rings_numTracts g - 1) m <-> 2 <= rg_numRings g /\ beside_last_ring_start g n coord).
  { unfold m. rewrite in_map_iff. split.
    - intros ([r t] & Ei & Hin). destruct (P _ Hin) as (k & H1 & H2). cbn [fst snd] in *.
      destruct (ring_has_lt g W r k H1) as [Hr _]. destruct (ring_has_lt g W _ n Hn) as [_ Hn1].
      assert (HN : 2 <= rg_numRings g).
      { destruct (Z_lt_ge_dec (rg_numRings g) 2) as [L|L]; [|lia]. exfalso. assert (r = 0) by lia. subst r.
        unfold idx in Ei. rewrite Z.eqb_refl in Ei. cbn [negb] in Ei. rewrite andb_false_r in Ei.
        pose proof (nominal_inner g W 0 k t H1 H2). lia. }
      split; [exact HN|]. apply (last_ring_start_tried g n coord W A HN Hn).
      rewrite <- (last_ring_index g W V HN) in Ei.
      apply (idx_inj g W r k t (rg_numRings g - 1) n 0) in Ei; auto; [|lia]. destruct Ei as [-> ->]. exact Hin.
    - intros [HN B]. apply (last_ring_start_tried g n coord W A HN Hn) in B.
      exists (rg_numRings g - 1, 0). split; [now apply last_ring_index|exact B]. }
  split; intros H.
  - apply I in H. rewrite (proj1 (NoDup_count_occ' Z.eq_dec m) ND _ H). reflexivity.
  - rewrite <- I in H. apply (count_occ_not_In Z.eq_dec) in H. rewrite H. reflexivity.
Qed.

(*@ C32: exactly, for version 0: findAllTracts never returns a tract other than the north cap twice; it returns
    the north cap twice exactly if the cap contains the coordinate, there are two rings or more, and the
    coordinate is north of the last but one ring's southern edge and within one and a half tract widths (of the last
    ring) in RA of raStart; otherwise at most once. *)
Lemma rings_v0_duplicates_exact_proof : forall offset c mk ov g n coord s s' l,
  rings_wf g -> at_least 3 g -> rg_version g = 0 -> ring_has g (rg_numRings g - 1) n ->
  let d := rings_def c mk ov g in
  sm_reachable offset d s -> rings_findAllTracts offset d g coord s = (s', Ok l) ->
  let north := rings_numTracts g - 1 in
  let beside := 2 <= rg_numRings g
       /\ (- firstRingStart g - 2 * rg_size g <= snd coord)%R
       /\ (let east := wrap (fst coord - rg_raStart g) in let width := 2 * PI / IZR n in
           east < 3 / 2 * width \/ 2 * PI - 3 / 2 * width <= east)%R in
  exists cap, holds offset d north s' cap
    /\ (tract_contains cap coord = Ok true -> beside -> filter (fun t => t_id t =? north) l = [cap; cap])
    /\ (tract_contains cap coord = Ok true -> ~ beside -> filter (fun t => t_id t =? north) l = [cap])
    /\ (tract_contains cap coord <> Ok true -> filter (fun t => t_id t =? north) l = [])
    /\ NoDup (filter (fun i => negb (i =? north)) (map t_id l))
    /\ (NoDup (map t_id l) <-> ~ (tract_contains cap coord = Ok true /\ beside)).
Proof.
  intros offset c mk ov g n coord s s' l W A V Hn d Hr H north beside.
  destruct (rings_findAllTracts_correct_proof offset c mk ov g coord s s' l W A Hr H) as (_ & _ & _ & _ & ND).
  fold d north in ND.
  rewrite (findAll_tried offset d g coord s W eq_refl) in H.
  assert (Hpos : forall i, In i (tried g coord) -> 0 <= i)
    by (intros i Hi; pose proof (tried_range g W coord i (at_least_2 g A) Hi); lia).
  destruct (try_tracts_spec offset d coord _ Hpos _ _ _ _ Hr H) as (Ha & ts & F & Hc & ->). cbn [app] in *.
  pose proof (reachable_accesses _ _ _ _ Hr Ha) as Hr'.
  destruct (Forall2_in_l _ _ _ north F (proj2 (tried_caps g coord))) as (cap & _ & Hcap).
  exists cap. split; [exact Hcap|].
  assert (Fl : forall is ts, Forall2 (fun i t => holds offset d i s' t) is ts ->
      filter (fun t => t_id t =? north) (filter (has_it coord) ts)
      = if has_it coord cap then repeat cap (count_occ Z.eq_dec is north) else []).
  { clear -Hr' Hcap. intros is ts F. induction F as [|i t is ts Hh F IH]; [now destruct (has_it coord cap)|].
    pose proof (holds_id _ _ _ _ _ Hr' Hh) as Hi. cbn [filter count_occ].
    destruct (Z.eq_dec i north) as [-> |Hne].
    - pose proof (holds_fun _ _ _ _ _ _ Hh Hcap) as ->.
      destruct (has_it coord cap); cbn [filter]; [|exact IH]. rewrite Hi, Z.eqb_refl, IH. reflexivity.
    - destruct (has_it coord t); cbn [filter]; [|exact IH]. destruct (Z.eqb_spec (t_id t) north); [lia|exact IH]. }
  specialize (Fl _ _ F).
  destruct (cap_count g n coord W A V Hn) as [C2 C1]. fold north in C1, C2.
  change (2 <= rg_numRings g /\ beside_last_ring_start g n coord) with beside in C1, C2.
  assert (R1 : tract_contains cap coord = Ok true -> beside -> filter (fun t => t_id t =? north) (filter (has_it coord) ts) = [cap; cap]).
  { intros E B. rewrite Fl, (C2 B). unfold has_it. rewrite E. reflexivity. }
  assert (R2 : tract_contains cap coord = Ok true -> ~ beside -> filter (fun t => t_id t =? north) (filter (has_it coord) ts) = [cap]).
  { intros E B. rewrite Fl, (C1 B). unfold has_it. rewrite E. reflexivity. }
  assert (R3 : tract_contains cap coord <> Ok true -> filter (fun t => t_id t =? north) (filter (has_it coord) ts) = []).
  { intros E. rewrite Fl. unfold has_it. destruct (tract_contains cap coord) as [[|]|]; try reflexivity. congruence. }
  split; [exact R1|]. split; [exact R2|]. split; [exact R3|]. split; [exact ND|].
  set (l := filter (has_it coord) ts) in *. clearbody l.
  assert (Fm : map t_id (filter (fun t => t_id t =? north) l) = filter (fun i => i =? north) (map t_id l)).
  { clear. induction l as [|t l IH]; [reflexivity|]. cbn. destruct (t_id t =? north); cbn; now rewrite IH. }
  assert (G : forall m : list Z, NoDup (filter (fun i => negb (i =? north)) m) -> (length (filter (fun i : Z => (i =? north)%Z) m) <= 1)%nat -> NoDup m).
  { clear. induction m as [|x m IH]; intros H1 H2; [constructor|]. cbn [filter] in *.
    destruct (Z.eqb_spec x north) as [-> |Hx]; cbn [negb] in *.
    - constructor.
      + intros Hin. assert (In north (filter (fun i => i =? north) m)) by (apply filter_In; split; [exact Hin|apply Z.eqb_refl]).
        destruct (filter (fun i => i =? north) m); [destruct H|]. cbn in H2. lia.
      + apply IH; [exact H1|]. cbn in H2. lia.
    - inversion H1; subst. constructor; [|now apply IH].
      intros Hin. apply H3. apply filter_In. split; [exact Hin|]. now destruct (Z.eqb_spec x north). }
  split.
  - intros Hnd [E B]. specialize (R1 E B). rewrite R1 in Fm. cbn [map] in Fm.
    apply (NoDup_filter (fun i => i =? north)) in Hnd. rewrite <- Fm in Hnd. inversion Hnd as [|x y K _]. apply K. now left.
  - intros Hnot. apply G; [exact ND|]. rewrite <- Fm, map_length.
    destruct (tract_contains cap coord) as [[|]|e] eqn:Ec.
    + rewrite R2; [cbn; lia|reflexivity|]. intros B. apply Hnot. auto.
    + rewrite R3; [cbn; lia|congruence].
    + rewrite R3; [cbn; lia|congruence].
Qed.

(*@ C24: the number n of tracts of a ring is the least number (at least 1) for which the width in RA
    of a tract, measured along the edge of the ring nearer the equator, is less than the height of the ring. *)
Lemma rings_ring_count_proof : forall numRings raStart version g r n,
  1 <= numRings -> rings_init numRings raStart version = Ok g -> ring_has g r n ->
  let height := (PI / (IZR numRings + 1))%R in
  let south := (- (PI / 2) + (IZR r + 1 / 2) * height)%R in
  let north := (south + height)%R in
  exists edge, (edge = south \/ edge = north)
    /\ (Rabs edge <= Rabs south)%R /\ (Rabs edge <= Rabs north)%R
    /\ (2 * PI * cos edge / IZR n < height)%R
    /\ forall m, 1 <= m < n -> (height <= 2 * PI * cos edge / IZR m)%R.
Proof.
  intros N ra v g r n HN E H height south north.
  destruct (rings_init_wf N ra v g HN E) as (W & A3 & EN & _ & _).
  destruct (ring_has_lt g W r n H) as [Hr Hn]. rewrite EN in Hr.
  assert (Hs : (0 < height)%R).
  { unfold height. apply Rdiv_lt_0_compat; [apply PI_RGT_0|]. apply IZR_le in HN. lra. }
  assert (Cnt : n = ring_count height r).
  { unfold rings_init in E. destruct (negb _); [discriminate|]. injection E as <-. destruct H as [_ H]. cbn in H.
    rewrite nth_error_map in H. destruct (nth_error (zrange 0 N) (Z.to_nat r)) as [x|] eqn:Ex; [|discriminate].
    cbn in H. injection H as <-. assert (x = r) as ->; [|reflexivity].
    rewrite zrange_nth_error in Ex by lia. injection Ex as <-. lia. }
  unfold ring_count in Cnt.
  assert (Es : (height * (IZR r + 1 / 2) - 1 / 2 * PI = south)%R) by (unfold south; lra).
  rewrite Es in Cnt. fold north in Cnt.
  set (e := if Rle_bool (Rabs south) (Rabs north) then south else north).
  assert (Ee : Rmin (Rabs south) (Rabs north) = Rabs e).
  { unfold e. destruct (Rle_bool_spec (Rabs south) (Rabs north)); [apply Rmin_left|apply Rmin_right]; lra. }
  assert (Ec : cos (Rmin (Rabs south) (Rabs north)) = cos e).
  { rewrite Ee. unfold Rabs. destruct (Rcase_abs e); [apply cos_neg|reflexivity]. }
  rewrite Ec in Cnt. exists e.
  split; [unfold e; destruct (Rle_bool _ _); auto|].
  split; [rewrite <- Ee; apply Rmin_l|]. split; [rewrite <- Ee; apply Rmin_r|].
  assert (Hcos : (0 <= cos e)%R).
  { pose proof (size_total g W) as HT. rewrite EN, (rw_size g W), EN in HT. fold height in HT.
    assert (0 <= IZR r)%R by (apply IZR_le; lia).
    assert (IZR r + 1 <= IZR N)%R by (rewrite <- plus_IZR; apply IZR_le; lia).
    assert (0 <= IZR r * height)%R by (apply Rmult_le_pos; lra).
    assert ((IZR r + 1) * height <= IZR N * height)%R by (apply Rmult_le_compat_r; lra).
    apply cos_ge_0; unfold e; destruct (Rle_bool _ _); unfold north, south; lra. }
  set (x := (2 * PI * cos e / height)%R) in *. pose proof PI_RGT_0 as HP.
  assert (Hx : (0 <= x)%R).
  { unfold x. apply Rmult_le_pos; [apply Rmult_le_pos; lra|]. left. now apply Rinv_0_lt_compat. }
  assert (Exh : (2 * PI * cos e = x * height)%R) by (unfold x; field; lra).
  destruct (py_int_bounds x Hx) as [B1 [B2 B3]]. set (k := py_int x) in *. rewrite Exh. split.
  - assert (HnR : (1 <= IZR n)%R) by (apply IZR_le; lia).
    apply Rmult_lt_reg_r with (IZR n); [lra|]. unfold Rdiv. rewrite Rmult_assoc, Rinv_l by lra.
    rewrite Cnt, plus_IZR. rewrite Rmult_1_r, (Rmult_comm height). apply Rmult_lt_compat_r; lra.
  - intros m Hm. assert (HmR : (1 <= IZR m)%R) by (apply IZR_le; lia).
    apply Rmult_le_reg_r with (IZR m); [lra|]. unfold Rdiv. rewrite (Rmult_assoc _ (/ IZR m)), Rinv_l by lra.
    rewrite Rmult_1_r, (Rmult_comm height). apply Rmult_le_compat_r; [lra|].
    apply Rle_trans with (IZR k); [apply IZR_le; lia|exact B2].
Qed.

(*@ C28: findTract of the centre of a tract of the map is this very tract: for every tract with
    version 1; with version 0 for every tract but the duplicate of index ringNums[0]+1 (if there are
    two rings or more), whose centre is found in tract 1. *)
Lemma rings_tract_centre_found_proof : forall offset c mk ov g s i t n0, rings_wf g -> ring_has g 0 n0 ->
  let d := rings_def c mk ov g in
  sm_reachable offset d s -> holds offset d i s t ->
  t_id t = i
  /\ (rg_version g = 1 \/ rg_numRings g = 1 \/ i <> n0 + 1 ->
      rings_findTract offset d g (t_ctr t) s = (s, Ok t))
  /\ (rg_version g = 0 -> 2 <= rg_numRings g -> i = n0 + 1 ->
      rings_findTract offset d g (t_ctr t) s = sm_getitem offset d 1 s).
Proof.
  intros offset c mk ov g s i t n0 W H0 d Hr Hh.
  destruct (rings_holds offset c mk ov g i s t Hr Hh) as (Hi & Hid & Ec & _).
  split; [exact Hid|].
  destruct (rings_centre_found_proof g i (t_ctr t) W Hi Ec) as [K1 K0].
  split.
  - intros Hcase. assert (E : rings_findIndex g (t_ctr t) = Ok i).
    { destruct (rw_version g W) as [V|V]; [|now apply K1]. destruct (K0 V n0 H0) as [_ K]. apply K.
      destruct Hcase as [Hc|Hc]; [lia|exact Hc]. }
    unfold rings_findTract, smbind, smlift. rewrite E. apply Hh.
  - intros V H2 Ei. destruct (K0 V n0 H0) as [K _]. unfold rings_findTract, smbind, smlift. rewrite K by auto. reflexivity.
Qed.

(** The position of a tract of a ring. *)
Lemma ring_position g i r k n : rings_wf g -> getRingIndices g i = Ok (r, k) -> ring_has g r n ->
  0 < i < rings_numTracts g - 1 ->
  exists t, 0 <= t < n /\ rings_center g i = Ok (position g r t n)
    /\ (rg_version g = 1 \/ rg_numRings g = 1 \/ (forall n0, ring_has g 0 n0 -> i <> n0 + 1) -> idx g r t = i).
Proof.
  intros W E H Hi. pose proof (center_of g W i r k n E H) as Ec.
  destruct (nominal_surj g W i Hi) as (r' & n' & t' & H' & Ht' & Ei).
  destruct (ring_has_lt g W r' n' H') as [Hr' Hn'].
  destruct (rw_version g W) as [V|V].
  - destruct (Z.eq_dec t' 0) as [Et|Et].
    + subst t'. destruct (Z.eq_dec r' 0) as [Er|Er].
      * subst r'. pose proof (indices_v0 g W 0 n' 0 V H' ltac:(auto)) as E'. rewrite <- Ei, E in E'.
        injection E' as -> ->. pose proof (ring_has_fun g 0 n n' H H'). subst n'. exists 0. split; [lia|]. split; [exact Ec|].
        intros _. unfold idx. rewrite V. cbn [Z.eqb negb andb]. exact (eq_sym Ei).
      * destruct (ring_has_ex g W (r' - 1) ltac:(lia)) as (m & Hm).
        destruct (ring_has_lt g W _ m Hm) as [_ Hm1].
        replace (nominal_index g r' 0) with (nominal_index g (r' - 1 + 1) 0) in Ei by (f_equal; lia).
        rewrite (nominal_next g (r' - 1) m Hm) in Ei.
        assert (E' : getRingIndices g i = Ok (r' - 1, m)).
        { rewrite Ei. apply (indices_v0 g W _ m m V Hm). right; left. lia. }
        rewrite E in E'. injection E' as -> ->. pose proof (ring_has_fun g _ n m H Hm). subst m. exists 0.
        split; [lia|]. split; [rewrite Ec; f_equal; apply position_wrap; lia|].
        intros Hc. unfold idx. rewrite V. cbn [Z.eqb andb]. destruct (Z.eqb_spec (r' - 1) 0) as [E0|E0]; cbn [negb].
        -- exfalso. rewrite E0 in *. assert (r' = 1) by lia. subst r'.
           destruct Hc as [Hc|[Hc|Hc]]; [lia|lia|]. apply (Hc n H). rewrite Ei. unfold nominal_index. rewrite before_0. lia.
        -- rewrite (nominal_next g (r' - 1) n H). exact (eq_sym Ei).
    + assert (E' : getRingIndices g i = Ok (r', t')).
      { rewrite Ei. apply (indices_v0 g W _ n' t' V H'). left. lia. }
      rewrite E in E'. injection E' as -> ->. pose proof (ring_has_fun g _ n n' H H'). subst n'.
      exists t'. split; [lia|]. split; [exact Ec|]. intros _. unfold idx. destruct (Z.eqb_spec t' 0); [lia|].
      rewrite andb_false_r. cbn [andb]. exact (eq_sym Ei).
  - assert (E' : getRingIndices g i = Ok (r', t')) by (rewrite Ei; apply (indices_v1 g W _ n' t' V H'); lia).
    rewrite E in E'. injection E' as -> ->. pose proof (ring_has_fun g _ n n' H H'). subst n'.
    exists t'. split; [lia|]. split; [exact Ec|]. intros _. rewrite idx_v1 by exact V. exact (eq_sym Ei).
Qed.

(** The pair of an index tried. *)
Lemma idx_indices g r n t : rings_wf g -> ring_has g r n -> 0 <= t < n ->
  idx g r t <> rings_numTracts g - 1 ->
  exists k, getRingIndices g (idx g r t) = Ok (r, k) /\ position g r k n = position g r t n.
Proof.
  intros W H Ht Hne. destruct (ring_has_lt g W r n H) as [Hr Hn].
  destruct (rw_version g W) as [V|V].
  - unfold idx in *. rewrite V in *. cbn [Z.eqb andb] in *. destruct (Z.eqb_spec t 0) as [->|]; cbn [andb] in *.
    + destruct (Z.eqb_spec r 0) as [->|]; cbn [negb] in *.
      * exists 0. split; [|reflexivity]. apply (indices_v0 g W 0 n 0 V H). auto.
      * rewrite (nominal_next g r n H) in *. exists n. split; [|apply position_wrap; lia].
        apply (indices_v0 g W r n n V H). right; left. split; [reflexivity|].
        destruct (Z.eq_dec r (rg_numRings g - 1)) as [->|]; [|lia]. exfalso. apply Hne.
        pose proof (before_S g _ n H) as E. replace (rg_numRings g - 1 + 1) with (rg_numRings g) in E by lia.
        rewrite (before_all g W) in E. unfold nominal_index. lia.
    + exists t. split; [|reflexivity]. apply (indices_v0 g W r n t V H). left. lia.
  - rewrite idx_v1 in * by exact V. exists t. split; [|reflexivity]. now apply (indices_v1 g W r n t).
Qed.

(*@ C31, C64: which tracts findAllTracts considers.  It finds every tract of a ring that contains the
    coordinate, and whose centre is less than 1.5 ring heights away in declination and less than 1.5
    tract widths (of the tract's ring) away in RA; with version 0, except the duplicate tract of index
    ringNums[0]+1.  It finds no tract of a ring further away than that, whether or not it contains the
    coordinate. *)
Lemma rings_findAllTracts_near_proof : forall offset c mk ov g coord s s' l,
  rings_wf g -> at_least 3 g -> on_sphere coord ->
  let d := rings_def c mk ov g in
  sm_reachable offset d s -> rings_findAllTracts offset d g coord s = (s', Ok l) ->
  (forall s2 i t r k n, accesses offset d s' s2 -> holds offset d i s2 t ->
     getRingIndices g i = Ok (r, k) -> ring_has g r n ->
     rg_version g = 1 \/ rg_numRings g = 1 \/ (forall n0, ring_has g 0 n0 -> i <> n0 + 1) ->
     near (3 / 2 * rg_size g) (3 / 2 * (2 * PI / IZR n)) (t_ctr t) coord ->
     tract_contains t coord = Ok true -> In t l)
  /\ (forall t r k n, In t l -> 0 < t_id t < rings_numTracts g - 1 ->
     getRingIndices g (t_id t) = Ok (r, k) -> ring_has g r n ->
     near_or_at (3 / 2 * rg_size g) (3 / 2 * (2 * PI / IZR n)) (t_ctr t) coord).
Proof.
  intros offset c mk ov g coord s s' l W A Hsp d Hr H.
  rewrite (findAll_tried offset d g coord s W eq_refl) in H.
  assert (Hpos : forall i, In i (tried g coord) -> 0 <= i)
    by (intros i Hi; pose proof (tried_range g W coord i (at_least_2 g A) Hi); lia).
  destruct (try_tracts_spec offset d coord _ Hpos _ _ _ _ Hr H) as (Ha & ts & F & Hc & ->). cbn [app].
  pose proof (reachable_accesses _ _ _ _ Hr Ha) as Hr'. pose proof (len_pos g W) as HL.
  split.
  - intros s2 i t r k n Ha2 Hh E Hn Hcase (Hd & Hra) Hcon.
    pose proof (reachable_accesses _ _ _ _ Hr' Ha2) as Hr2.
    destruct (rings_holds offset c mk ov g i s2 t Hr2 Hh) as (Hi & Hid & Ec & _).
    destruct (ring_has_lt g W r n Hn) as [Hrr Hn1].
    assert (Hii : 0 < i < rings_numTracts g - 1).
    { destruct (Z.eq_dec i 0) as [->|]; [rewrite indices_south in E; injection E as <- _; lia|].
      destruct (Z.eq_dec i (rings_numTracts g - 1)) as [->|]; [rewrite (indices_north g W) in E; injection E as <- _; lia|lia]. }
    destruct (ring_position g i r k n W E Hn Hii) as (t' & Ht' & Ec' & Eidx).
    rewrite Ec in Ec'. injection Ec' as Ec'. rewrite Ec' in Hd, Hra.
    assert (Hn3 : 3 <= n) by (apply A; destruct Hn; eapply nth_error_In; eauto).
    assert (Hin : In i (tried g coord)).
    { rewrite tried_pairs, in_app_iff. left. apply in_map_iff. exists (r, t'). cbn [fst snd]. split; [now apply Eidx|].
      apply pairs_iff. split.
      - apply (proj2 (decs_near g W (snd coord) r Hrr)). exact Hd.
      - apply (proj2 (ring_near g W coord r n t' Hn Hn3 Ht')). exact Hra. }
    destruct (Forall2_in_l _ _ _ i F Hin) as (t2 & Hin2 & Ht2).
    pose proof (holds_accesses offset d s' s2 i t2 Hr' Ha2 Ht2) as Ht3.
    pose proof (holds_fun _ _ _ _ _ _ Hh Ht3) as <-.
    apply filter_In. split; [apply in_combine_r in Hin2; exact Hin2|]. unfold has_it. now rewrite Hcon.
  - intros t r k n Ht Hii E Hn. apply filter_In in Ht. destruct Ht as [Hin _].
    assert (exists i, In i (tried g coord) /\ holds offset d i s' t) as (i & Hi & Hh).
    { clear -F Hin. induction F as [|i t' l' ts' Hh F IH]; [destruct Hin|]. destruct Hin as [->|Hin].
      - exists i. split; [now left|exact Hh].
      - destruct (IH Hin) as (j & H1 & H2). exists j. split; [now right|exact H2]. }
    destruct (rings_holds offset c mk ov g i s' t Hr' Hh) as (Hir & Hid & Ec & _). rewrite Hid in *.
    rewrite tried_pairs, in_app_iff in Hi. destruct Hi as [Hi|Hi]; [|exfalso; cbn in Hi; lia].
    apply in_map_iff in Hi. destruct Hi as ([r' t'] & Ei & Hi). cbn [fst snd] in Ei.
    destruct (pairs_in g W coord (r', t') (at_least_2 g A) Hi) as (n' & Hn' & Ht'). cbn [fst snd] in *.
    destruct (idx_indices g r' n' t' W Hn' Ht' ltac:(lia)) as (k' & E' & Ep). rewrite Ei, E in E'.
    injection E' as <- <-. pose proof (ring_has_fun g r n n' Hn Hn'). subst n'.
    rewrite (center_of g W i r k n E Hn) in Ec. injection Ec as Ec. rewrite Ep in Ec. rewrite <- Ec.
    assert (Hn3 : 3 <= n) by (apply A; destruct Hn; eapply nth_error_In; eauto).
    destruct (ring_has_lt g W r n Hn) as [Hrr _].
    apply pairs_iff in Hi. destruct Hi as [Hd Hi]. split.
    + apply (proj1 (decs_near g W (snd coord) r Hrr)); [exact Hd|apply Hsp].
    + exact (proj1 (ring_near g W coord r n t' Hn Hn3 Ht') Hi).
Qed.

(*@ C63: the inner sky region of a rings tract.  A coordinate lies in the inner region of the tract
    that findTract returns for it: always with version 1; with version 0 if that tract is not a polar cap. *)
Lemma rings_inner_region_found_proof : forall offset c mk ov g coord s s' t,
  rings_wf g -> at_least 2 g -> on_sphere coord ->
  let d := rings_def c mk ov g in
  sm_reachable offset d s -> rings_findTract offset d g coord s = (s', Ok t) ->
  rg_version g = 1 \/ 0 < t_id t < rings_numTracts g - 1 ->
  region_contains (getInnerSkyRegion t) coord.
Proof.
  intros offset c mk ov g coord s s' t W A Hsp d Hr H Hcase.
  destruct (rings_findTract_total_proof offset c mk ov g coord s W) as (i & Ei & Hi & E & _). fold d in E.
  rewrite E in H. destruct (getitem_holds offset d s i s' t Hr (proj1 Hi) H) as (Hr' & _ & Hh).
  destruct (rings_holds offset c mk ov g i s' t Hr' Hh) as (_ & Hid & _ & _ & a & b & d1 & d2 & Er & Hb).
  rewrite Hid in Hcase. unfold getInnerSkyRegion. rewrite Hb. cbn [region_contains fst snd].
  assert (K : exists range, getRaDecRange g i = Ok range /\ in_range range coord).
  { destruct Hcase as [V|Hc].
    - destruct (rings_ranges_proof g coord W A V Hsp) as ((i' & range & E1 & E2 & E3) & _).
      rewrite Ei in E1. injection E1 as <-. eauto.
    - exact (found_in_ring g coord i W A Hsp Ei Hc). }
  destruct K as (range & E2 & Hin). rewrite Er in E2. injection E2 as <-. destruct Hin as [Hra Hdec].
  split; [now apply lon_contains_in_ra|exact Hdec].
Qed.

(*@ C63: conversely (version 1) a coordinate in the inner region of a tract and not on the region's
    border is assigned this tract by findTract; hence inner regions overlap only along borders. *)
Lemma rings_inner_region_unique_proof : forall offset c mk ov g coord s i t lon1 lat1 lon2 lat2,
  rings_wf g -> at_least 2 g -> rg_version g = 1 -> on_sphere coord ->
  let d := rings_def c mk ov g in
  sm_reachable offset d s -> holds offset d i s t ->
  getInnerSkyRegion t = RegBox (lon1, lat1) (lon2, lat2) ->
  region_contains (getInnerSkyRegion t) coord ->
  (lat1 < snd coord < lat2)%R ->
  (lon1 = 0 /\ lon2 = 2 * PI \/ fst coord <> lon1 /\ fst coord <> lon2)%R ->
  rings_findTract offset d g coord s = (s, Ok t).
Proof.
  intros offset c mk ov g coord s i t a d1 b d2 W A V Hsp d Hr Hh Ereg Hin Hdec Hlon.
  destruct (rings_holds offset c mk ov g i s t Hr Hh) as (Hi & _ & _ & _ & a' & b' & d1' & d2' & Er & Hb).
  unfold getInnerSkyRegion in *. rewrite Hb in *. injection Ereg as -> -> -> ->.
  cbn [region_contains fst snd] in Hin. destruct Hin as [Hra _]. apply lon_contains_in_ra in Hra.
  destruct (rings_ranges_proof g coord W A V Hsp) as (_ & K).
  assert (E : rings_findIndex g coord = Ok i).
  { pose proof (len_pos g W) as HL. pose proof PI_RGT_0 as HP.
    destruct Hlon as [[-> ->]|[N1 N2]].
    - destruct (Req_dec (fst coord) 0) as [E0|N0].
      + destruct (index_cases g W i Hi) as [->|[->|(r & n & k & H & Hk & ->)]].
        * rewrite range_south in Er. injection Er as <- <-. unfold rings_findIndex.
          rewrite decToRing_south; [reflexivity|]. lra.
        * rewrite (range_north g W) in Er. injection Er as <- <-. unfold rings_findIndex.
          pose proof (rw_rings g W). rewrite (decToRing_north g W) by lra.
          destruct (Z.eqb_spec (rg_numRings g) (-1)); [lia|]. now rewrite Z.eqb_refl.
        * exfalso. rewrite (range_of g _ r k n W) in Er; [|now apply (indices_v1 g W r n k)|exact H].
          injection Er as _ E2 _ _. 
          match type of E2 with wrap ?x = _ => pose proof (wrap_range x) end. lra.
      + eapply K; [exact Hi|exact Er|]. split; [|exact Hdec]. destruct Hsp. left. lra.
    - eapply K; [exact Hi|exact Er|]. split; [|exact Hdec].
      unfold strictly_in_ra, in_ra in *. destruct Hra as [[? ?]|[? [?|?]]]; [left; lra|right; lra|right; lra]. }
  unfold rings_findTract, smbind, smlift. rewrite E. apply Hh.
Qed.

(*@ C63, version 0: a coordinate of the last ring (of two or more) in the first tract's range is
    assigned the north cap, whose inner region does not contain it. *)
Lemma rings_v0_inner_region_refuted_proof : forall offset c mk ov g n coord s s' t,
  rings_wf g -> rg_version g = 0 -> 2 <= rg_numRings g -> ring_has g (rg_numRings g - 1) n ->
  on_sphere coord ->
  (- firstRingStart g - rg_size g <= snd coord < - firstRingStart g)%R ->
  (wrap (fst coord - rg_raStart g) < 1 / 2 * (2 * PI / IZR n))%R ->
  let d := rings_def c mk ov g in
  sm_reachable offset d s -> rings_findTract offset d g coord s = (s', Ok t) ->
  t_id t = rings_numTracts g - 1 /\ ~ region_contains (getInnerSkyRegion t) coord.
Proof.
  intros offset c mk ov g n coord s s' t W V HN Hn Hsp Hdec Hra d Hr H.
  destruct (rings_findTract_total_proof offset c mk ov g coord s W) as (i & Ei & Hi & E & _). fold d in E.
  rewrite E in H. destruct (getitem_holds offset d s i s' t Hr (proj1 Hi) H) as (Hr' & _ & Hh).
  destruct (rings_holds offset c mk ov g i s' t Hr' Hh) as (_ & Hid & _ & _ & a & b & d1 & d2 & Er & Hb).
  destruct (ring_has_lt g W _ n Hn) as [Hrr Hn1].
  pose proof (size_total g W) as HT. pose proof (size_pos g W) as HS. 
  assert (Hd : decToRingNum g (snd coord) = rg_numRings g - 1).
  { apply (decToRing_in g W); [lia|]. rewrite minus_IZR. unfold firstRingStart in *. lra. }
  assert (Ei' : rings_findIndex g coord = Ok (rings_numTracts g - 1)).
  { unfold rings_findIndex. rewrite Hd. destruct (Z.eqb_spec (rg_numRings g - 1) (-1)); [lia|].
    destruct (Z.eqb_spec (rg_numRings g - 1) (rg_numRings g)); [lia|].
    unfold raToTractNum. destruct (Z.eqb_spec (rg_numRings g - 1) (-1)); [lia|].
    destruct (Z.eqb_spec (rg_numRings g - 1) (rg_numRings g)); [lia|]. cbn [orb].
    destruct (Z.leb_spec 0 (rg_numRings g - 1)); [|lia]. destruct (Z.ltb_spec (rg_numRings g - 1) (rg_numRings g)); [|lia].
    cbn [andb negb]. rewrite (ring_has_nth g _ n Hn). cbn [bind].
    pose proof (wrap_range (fst coord - rg_raStart g)) as Hw. set (u := wrap _) in *.
    assert (HnR : (1 <= IZR n)%R) by (apply IZR_le; lia). pose proof two_pi_pos as HP.
    set (q := (2 * PI / IZR n)%R) in *.
    assert (Hq : (0 < q)%R) by (apply Rmult_lt_0_compat; [lra|apply Rinv_0_lt_compat; lra]).
    assert (0 <= u / q)%R by (apply Rmult_le_pos; [lra|left; now apply Rinv_0_lt_compat]).
    assert (u / q < 1 / 2)%R.
    { apply Rmult_lt_reg_r with q; [exact Hq|]. unfold Rdiv. rewrite Rmult_assoc, Rinv_l by lra. lra. }
    rewrite (py_int_imp _ 0) by (lra || lia). destruct (Z.eqb_spec 0 n); [lia|]. rewrite V.
    cbn [Z.eqb andb]. destruct (Z.eqb_spec (rg_numRings g - 1) 0); [lia|]. cbn [negb].
    unfold ring_index, py_prefix. replace (rg_numRings g - 1 + 1) with (rg_numRings g) by lia.
    pose proof (before_all g W) as Hb'. unfold before in Hb'. rewrite Hb'. f_equal. lia. }
  rewrite Ei in Ei'. injection Ei' as ->. split; [exact Hid|].
  rewrite (range_north g W) in Er. injection Er as <- <- <- <-.
  unfold getInnerSkyRegion. rewrite Hb. cbn [region_contains fst snd]. intros [_ K]. lra.
Qed.

(*@ C64 REFUTED: findAllTracts does not return all tracts that contain the coordinate: with three rings
    or more and an overlap of 1.5 ring heights or more (and a radius below 90 degrees for TAN, 180 for
    STG), the centre of the first tract of ring r lies in the first tract of ring r+2, which
    findAllTracts does not return. *)
Lemma rings_findAllTracts_misses_refuted_proof : forall c S mk ov g r n n2 s s' l t t2,
  cfg_ok c -> (0 < S)%R -> rings_wf g -> at_least 3 g -> rg_version g = 1 ->
  (3 / 2 * rg_size g <= deg ov)%R ->
  mk = tan_wcs S /\ (rg_size g / 2 + deg ov < PI / 2)%R \/ mk = stg_wcs S /\ (rg_size g / 2 + deg ov < PI)%R ->
  ring_has g r n -> ring_has g (r + 2) n2 ->
  let d := rings_def c mk ov g in
  sm_reachable sphere_offset d s ->
  holds sphere_offset d (1 + before g r) s t -> holds sphere_offset d (1 + before g (r + 2)) s t2 ->
  rings_findAllTracts sphere_offset d g (t_ctr t) s = (s', Ok l) ->
  tract_contains t2 (t_ctr t) = Ok true /\ ~ In t2 l.
Proof.
  intros c S mk ov g r n n2 s s' l t t2 Hc HS W A V Hov Hmk Hn Hn2 d Hr Hh Hh2 H.
  pose proof PI_RGT_0 as HP. pose proof (size_pos g W) as Hs.
  destruct (rings_holds sphere_offset c mk ov g _ s t Hr Hh) as (_ & Hid & Ec & _).
  destruct (rings_holds sphere_offset c mk ov g _ s t2 Hr Hh2) as (_ & Hid2 & Ec2 & _).
  destruct (ring_has_lt g W r n Hn) as [Hrr Hn1]. destruct (ring_has_lt g W _ n2 Hn2) as [Hrr2 Hn21].
  replace (1 + before g r) with (nominal_index g r 0) in Ec by (unfold nominal_index; lia).
  replace (1 + before g (r + 2)) with (nominal_index g (r + 2) 0) in Ec2 by (unfold nominal_index; lia).
  rewrite (center_v1 g W r n 0 V Hn ltac:(lia)) in Ec. rewrite (center_v1 g W _ n2 0 V Hn2 ltac:(lia)) in Ec2.
  injection Ec as Ec. injection Ec2 as Ec2.
  assert (Ep : fst (position g r 0 n) = fst (position g (r + 2) 0 n2)).
  { unfold position. cbn [fst]. f_equal. assert (IZR n <> 0)%R by (apply IZR_neq; lia).
    assert (IZR n2 <> 0)%R by (apply IZR_neq; lia). field. auto. }
  assert (Hdd : (snd (position g (r + 2) 0 n2) = snd (position g r 0 n) + 2 * rg_size g)%R).
  { unfold position. cbn [snd]. rewrite plus_IZR. lra. }
  assert (Hsp : on_sphere (t_ctr t)).
  { rewrite <- Ec. unfold on_sphere, position. cbn [fst snd]. split; [apply wrap_range|].
    pose proof (ring_dec g W r Hrr) as HD. unfold firstRingStart in HD. pose proof (size_total g W). lra. }
  split.
  - destruct (holds_args sphere_offset d s _ t2 Hr Hh2) as (_ & a & b & b' & oid & Ea & Hb & M).
    destruct (rings_args_inv _ _ _ _ _ Ea) as (ctr & cor & Ec' & ->). cbn [make_tract] in M.
    pose proof (explicit_keeps _ _ _ _ _ _ _ _ _ _ _ _ M) as (_ & _ & Ectr & _). rewrite <- Ectr, <- Ec2 in M.
    replace (1 / 2 * rg_size g)%R with (rg_size g / 2)%R in M by lra.
    eapply (explicit_disc_proof c S); [exact Hc|exact Hb|exact HS| |exact M|].
    + destruct Hmk as [[-> ?]|[-> ?]]; [left|right]; (split; [reflexivity|lra]).
    + rewrite <- Ec.
      assert (Esep : separation (position g r 0 n) (position g (r + 2) 0 n2) = (2 * rg_size g)%R); [|rewrite Esep; lra].
      apply separation_same_lon; [exact Ep|]. rewrite Hdd. split; [lra|]. split; [lra|].
      pose proof (rw_rings g W). assert (3 <= IZR (rg_numRings g))%R by (apply IZR_le; lia).
      pose proof (size_total g W) as HT.
      assert (4 * rg_size g <= (IZR (rg_numRings g) + 1) * rg_size g)%R by (apply Rmult_le_compat_r; lra). lra.
  - intros Hin.
    destruct (rings_findAllTracts_near_proof sphere_offset c mk ov g (t_ctr t) s s' l W A Hsp Hr H) as (_ & K).
    destruct (K t2 (r + 2) 0 n2 Hin) as [Hd _].
    + rewrite Hid2. pose proof (nominal_inner g W (r + 2) n2 0 Hn2 ltac:(lia)). unfold nominal_index in *. lia.
    + rewrite Hid2. replace (1 + before g (r + 2)) with (nominal_index g (r + 2) 0) by (unfold nominal_index; lia).
      apply (indices_v1 g W _ n2 0 V Hn2). lia.
    + exact Hn2.
    + rewrite <- Ec, <- Ec2, Hdd in Hd. apply Rabs_le_inv in Hd. lra.
Qed.

(*@ C64 REFUTED with the default overlap of 1 degree: every version 1 map with 269 rings or more, TAN or
    STG, has after any history a coordinate and a tract that contains it and that findAllTracts does
    not return for it. *)
Lemma rings_findAllTracts_default_overlap_refuted_proof : forall c S mk numRings raStart g s,
  cfg_ok c -> (0 < S)%R -> standard_wcs S mk -> 269 <= numRings ->
  rings_init numRings raStart 1 = Ok g ->
  let d := rings_def c mk 1 g in
  sm_reachable sphere_offset d s ->
  exists coord s1 s2 l t, accesses sphere_offset d s s1
    /\ rings_findAllTracts sphere_offset d g coord s1 = (s2, Ok l)
    /\ (exists i, holds sphere_offset d i s2 t)
    /\ tract_contains t coord = Ok true /\ ~ In t l.
Proof.
  intros c S mk N ra g s Hc HS Hm HN E d Hr.
  destruct (rings_init_wf N ra 1 g ltac:(lia) E) as (W & A & EN & _ & V).
  destruct (rings_uniform_proof c S mk 1 g Hc W Hm) as (_ & K). fold d in K.
  destruct (ring_has_ex g W 0 ltac:(lia)) as (n & Hn). destruct (ring_has_ex g W (0 + 2) ltac:(lia)) as (n2 & Hn2).
  destruct (ring_has_lt g W _ n Hn) as [_ Hn1]. destruct (ring_has_lt g W _ n2 Hn2) as [_ Hn21].
  pose proof (nominal_inner g W 0 n 0 Hn ltac:(lia)) as I1. pose proof (nominal_inner g W (0 + 2) n2 0 Hn2 ltac:(lia)) as I2.
  unfold nominal_index in *.
  destruct (proj1 (proj2 (K s Hr)) (1 + before g 0) ltac:(lia)) as (s1 & t & E1).
  destruct (getitem_holds sphere_offset d s (1 + before g 0) s1 t Hr ltac:(lia) E1) as (Hr1 & Ha1 & Hh1).
  destruct (proj1 (proj2 (K s1 Hr1)) (1 + before g (0 + 2)) ltac:(lia)) as (s2 & t2 & E2).
  destruct (getitem_holds sphere_offset d s1 (1 + before g (0 + 2)) s2 t2 Hr1 ltac:(lia) E2) as (Hr2 & Ha2 & Hh2).
  pose proof (holds_accesses sphere_offset d s1 s2 _ t Hr1 Ha2 Hh1) as Hh1'.
  destruct (rings_findAllTracts_succeeds_proof c S mk 1 g (t_ctr t) s2 Hc W A Hm Hr2) as (s3 & l & E3). fold d in E3.
  assert (Hsz : (3 / 2 * rg_size g <= deg 1)%R).
  { rewrite (rw_size g W), EN. unfold deg. pose proof PI_RGT_0. apply IZR_le in HN.
    assert (PI / (IZR N + 1) <= PI / 270)%R.
    { apply Rmult_le_compat_l; [lra|]. apply Rinv_le_contravar; lra. } lra. }
  pose proof (size_pos g W). pose proof PI_RGT_0.
  assert (Hdeg : (rg_size g / 2 + deg 1 < PI / 2)%R) by (unfold deg in *; lra).
  destruct (rings_findAllTracts_misses_refuted_proof c S mk 1 g 0 n n2 s2 s3 l t t2 Hc HS W A V Hsz) as (C1 & C2);
    [|exact Hn|exact Hn2|exact Hr2|exact Hh1'|exact Hh2|exact E3|].
  - destruct Hm as [-> | ->]; [left|right]; (split; [reflexivity|lra]).
  - assert (Hfa : accesses sphere_offset d s2 s3).
    { apply (rings_findAllTracts_correct_proof sphere_offset c mk 1 g (t_ctr t) s2 s3 l W A Hr2 E3). }
    exists (t_ctr t), s2, s3, l, t2. split; [exact (accesses_trans _ _ _ _ _ Ha1 Ha2)|]. split; [exact E3|].
    split; [|auto]. exists (1 + before g (0 + 2)). exact (holds_accesses sphere_offset d s2 s3 _ t2 Hr2 Hfa Hh2).
Qed.

(*@ C24, C28, C31, C63, C64: the hypotheses can be met: the default configuration with three rings. *)
Example rings3_default_proof :
  exists g, rings_init 3 0 1 = Ok g /\ rings_wf g /\ at_least 3 g /\ ring_has g 0 8 /\ ring_has g 2 8
    /\ let d := rings_def legacy_default (stg_wcs (arcsec_scale (333 / 1000))) 1 g in
       exists s s' t s'' l, sm_reachable sphere_offset d s /\ rings_findTract sphere_offset d g (0, 0)%R s = (s', Ok t)
         /\ holds sphere_offset d (t_id t) s' t
         /\ rings_findAllTracts sphere_offset d g (0, 0)%R s' = (s'', Ok l).
Proof.
  destruct (rings_init 3 0 1) as [g|] eqn:Eg; [|discriminate].
  exists g. split; [reflexivity|].
  destruct (rings_init_wf 3 0 1 g ltac:(lia) Eg) as (W & A & HN & Hra & V).
  destruct (three_rings 0 1 g Eg) as (Hnums & Hsize).
  split; [exact W|]. split; [exact A|].
  split; [split; [lia|rewrite Hnums; reflexivity]|]. split; [split; [lia|rewrite Hnums; reflexivity]|]. intros d.
  set (s := mkSM (repeat None (Z.to_nat (sd_num d))) (builder_init legacy_default) 0 [] : smstate sphere).
  assert (Hr : sm_reachable sphere_offset d s) by (exists s; split; [reflexivity|constructor]).
  assert (Hc : cfg_ok legacy_default) by (cbn; lia).
  assert (Hm : standard_wcs (arcsec_scale (333 / 1000)) (stg_wcs (arcsec_scale (333 / 1000)))) by now right.
  destruct (rings_uniform_proof legacy_default _ _ 1 g Hc W Hm) as (_ & K). fold d in K.
  destruct (proj2 (proj2 (K s Hr)) (0, 0)%R) as (s' & t & E).
  destruct (rings_findTract_total_proof sphere_offset legacy_default (stg_wcs (arcsec_scale (333 / 1000))) 1 g (0, 0)%R s W) as (i & _ & Hi & E' & _). fold d in E'.
  rewrite E in E'. symmetry in E'. destruct (getitem_holds sphere_offset d s i s' t Hr (proj1 Hi) E') as (Hr' & _ & Hh).
  destruct (rings_findAllTracts_succeeds_proof legacy_default _ _ 1 g (0, 0)%R s' Hc W A Hm Hr') as (s'' & l & E2).
  exists s, s', t, s'', l. split; [exact Hr|]. split; [exact E|]. split; [|exact E2].
  rewrite (holds_id sphere_offset d s' i t Hr' Hh). exact Hh.
Qed.
