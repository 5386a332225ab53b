(** Rings sky maps on the real sphere, with the gnomonic and stereographic WCS
    (C20, C27, C31-C34 without hypotheses about tracts; C33; C59). *)
From Coq Require Import Reals Lra Lia.
From Flocq Require Import Raux.
Require Import Verif.Py Verif.Geom Verif.PatchInfo Verif.TractBuilder Verif.TractInfo Verif.Spec.
Require Import Verif.PatchProofs Verif.TractProofs Verif.Examples.
Require Import Verif.SkyMap Verif.SkySpec Verif.SkyProofs Verif.SkyProofs2 Verif.MainSky.
Require Import Verif.Rings Verif.RingsSpec Verif.RingsProofs Verif.RingsProofs2 Verif.RingsProofs3 Verif.MainRings.
Require Import Verif.Sphere Verif.SphereProofs Verif.TractBox Verif.Uniform Verif.RingsNum.
Open Scope Z_scope.
Local Arguments Z.mul : simpl never.

Lemma rings_args_inv mk ov g i a : rings_args mk ov g i = Ok a ->
  exists ctr cor, rings_center g i = Ok ctr
    /\ a = ExplicitArgs ctr (1 / 2 * rg_size g)%R (deg ov) (mk ctr) cor.
Proof.
  unfold rings_args. destruct (rings_center g i) as [ctr|]; [|discriminate]. cbn [bind].
  destruct (getRaDecRange g i) as [[[[? ?] ?] ?]|]; [|discriminate]. cbn [bind].
  intros H. injection H as <-. eauto.
Qed.

Lemma rings_always_ok c S mk ov g : rings_wf g -> standard_wcs S mk ->
  always_ok sphere_offset (rings_def c mk ov g).
Proof.
  intros W Hm i Hi. cbn in Hi. destruct (rings_args_total g mk ov W i Hi) as (a & Ea). exists a. split; [exact Ea|].
  destruct (rings_args_inv _ _ _ _ _ Ea) as (ctr & cor & _ & ->). intros s e _. cbn [args_wcs].
  destruct (standard_zenithal S mk Hm) as (f & _ & Hf). rewrite Hf. apply zenithal_no_raise.
Qed.

(*@ C20, C27: on the sphere, with the TAN or STG projection, all tracts of a rings map have the same
    patch counts; hence the map is always settled, and every access and every findTract succeeds. *)
Lemma rings_uniform_proof : forall c S mk ov g, cfg_ok c -> rings_wf g -> standard_wcs S mk ->
  let d := rings_def c mk ov g in
  (exists n, uniform_counts sphere_offset d n)
  /\ forall s, sm_reachable sphere_offset d s ->
     settled sphere_offset d s
     /\ (forall i, 0 <= i < rings_numTracts g -> exists s' t, sm_getitem sphere_offset d i s = (s', Ok t))
     /\ (forall coord, exists s' t, rings_findTract sphere_offset d g coord s = (s', Ok t)).
Proof.
  intros c S mk ov g Hc W Hm d. destruct (standard_zenithal S mk Hm) as (f & _ & Hf).
  assert (Hu : exists n, uniform_counts sphere_offset d n).
  { assert (Hw : exists a0, sd_args d 0 = Ok a0).
    { apply (rings_args_total g mk ov W 0). pose proof (len_pos g W). lia. }
    destruct Hw as (a0 & Ea0). destruct (rings_args_inv _ _ _ _ _ Ea0) as (ctr0 & cor0 & _ & E0).
    destruct (include_all_ok (args_wcs a0) (args_samples sphere_offset a0)) as (m & Em).
    { intros s e _. rewrite E0. cbn [args_wcs]. rewrite Hf. apply zenithal_no_raise. }
    destruct (make_tract_ok sphere_offset c (builder_init c) 0%nat 0 a0 m Hc (br_init c) Em) as (b0 & t0 & M0).
    exists (t_numPatches t0). intros i a b oid b' t Hi Ea Hr M.
    eapply (make_tract_counts sphere_offset c _ _ _ _ _ _ a a0); [exact Hc|exact Hr|exact (br_init c)|exact M|exact M0|].
    destruct (rings_args_inv _ _ _ _ _ Ea) as (ctr & cor & _ & E). rewrite E, E0.
    cbn [args_wcs args_samples]. apply (zenithal_samples_indep f S). exact Hf. }
  split; [exact Hu|]. intros s Hr. destruct Hu as (n & Hu).
  assert (Ht : forall i, 0 <= i < rings_numTracts g -> exists s' t, sm_getitem sphere_offset d i s = (s', Ok t)).
  { intros i Hi. destruct (getitem_total sphere_offset d s i Hc (rings_always_ok c S mk ov g W Hm) Hr Hi) as (s' & t & E & _). eauto. }
  split; [|split; [exact Ht|]].
  - destruct (settled_maps_proof _ sphere_offset d s Hr) as (K & _). exact (K n Hc Hu).
  - intros coord. destruct (rings_findTract_total_proof sphere_offset c mk ov g coord s W) as (i & _ & Hi & E & _).
    fold d in E. rewrite E. now apply Ht.
Qed.

(*@ C20: hence every tract of such a rings map answers in the same way after any further accesses. *)
Lemma rings_answers_stable_proof : forall c S mk ov g s i t s', cfg_ok c -> rings_wf g -> standard_wcs S mk ->
  let d := rings_def c mk ov g in
  sm_reachable sphere_offset d s -> holds sphere_offset d i s t -> accesses sphere_offset d s s' ->
  same_answers t (sm_builder s) (sm_builder s') /\ in_use sphere_offset c (sm_builder s') t.
Proof.
  intros c S mk ov g s i t s' Hc W Hm d Hr Hh Ha.
  destruct (rings_uniform_proof c S mk ov g Hc W Hm) as ((n & Hu) & _).
  exact (tract_answers_stable_proof _ sphere_offset d n s i t s' Hc Hu Hr Hh Ha).
Qed.

(*@ C31: and findAllTracts always succeeds. *)
Lemma rings_findAllTracts_succeeds_proof : forall c S mk ov g coord s, cfg_ok c -> rings_wf g -> at_least 3 g ->
  standard_wcs S mk -> let d := rings_def c mk ov g in
  sm_reachable sphere_offset d s ->
  exists s' l, rings_findAllTracts sphere_offset d g coord s = (s', Ok l).
Proof.
  intros c S mk ov g coord s Hc W A Hm d Hr.
  destruct (rings_findAllTracts sphere_offset d g coord s) as [s' [l|e]] eqn:E; [eauto|]. exfalso.
  destruct (rings_findAllTracts_total_proof sphere_offset c mk ov g coord s s' e W A Hr E) as (i & s1 & Hi & Ha & H).
  destruct (rings_uniform_proof c S mk ov g Hc W Hm) as (_ & K). fold d in K, H.
  destruct (K s1 (reachable_accesses _ _ _ _ Hr Ha)) as (_ & K1 & _). destruct (K1 i Hi) as (s2 & t & E2).
  destruct H as [H|(t' & H & Hcon)]; rewrite E2 in H; [discriminate|]. injection H as -> ->.
  pose proof (reachable_accesses _ _ _ _ Hr Ha) as Hr1.
  destruct (getitem_holds sphere_offset d s1 i s' t' Hr1 (proj1 Hi) E2) as (Hr2 & _ & Hh).
  destruct (holds_args sphere_offset d s' i t' Hr2 Hh) as (_ & a & b & b' & oid & Ea & Hb & M).
  destruct (rings_args_inv _ _ _ _ _ Ea) as (ctr & cor & _ & ->). cbn [make_tract] in M.
  destruct (explicit_init_inv _ _ _ _ _ _ _ _ _ _ _ _ M) as (t0 & M0 & Ew & _).
  destruct (tract_build_box sphere_offset c _ _ _ _ _ _ _ _ _ _ _ Hc Hb M0)
    as (m & B & x0 & y0 & nx & ny & _ & _ & _ & _ & _ & _ & _ & Hwcs & _).
  unfold tract_contains in Hcon. rewrite Ew, Hwcs in Hcon.
  destruct (standard_zenithal S mk Hm) as (f & _ & Hf). rewrite Hf in Hcon.
  unfold zenithal in Hcon. destruct (f _); discriminate.
Qed.

(*@ C59: a tract of a rings or discrete map (made from a centre, a radius and an overlap) contains
    every coordinate at most radius + overlap away from its centre, provided this is below 90
    degrees (TAN) or 180 degrees (STG). *)
Lemma explicit_disc_proof : forall c S b oid id ctr radius overlap mk corners b' t coord,
  cfg_ok c -> builder_reachable c b -> (0 < S)%R ->
  mk = tan_wcs S /\ (0 <= radius + overlap < PI / 2)%R \/ mk = stg_wcs S /\ (0 <= radius + overlap < PI)%R ->
  ExplicitTractInfo_init sphere_offset b oid id ctr radius overlap (mk ctr) corners = Ok (b', t) ->
  (separation coord ctr <= radius + overlap)%R ->
  tract_contains t coord = Ok true.
Proof.
  intros c S b oid id ctr radius overlap mk corners b' t coord Hc Hr HS Hm H Hsep. pose proof PI_RGT_0.
  destruct Hm as [[-> Ha]|[-> Ha]].
  - apply (explicit_disc tan_factor S c b oid id ctr radius overlap (tan_wcs S ctr) corners b' t coord); auto; [lra|now apply tan_factor_good].
  - apply (explicit_disc stg_factor S c b oid id ctr radius overlap (stg_wcs S ctr) corners b' t coord); auto; [lra|now apply stg_factor_good].
Qed.

(*@ C33, what does hold: findTract's tract contains every coordinate within half a ring height plus
    the overlap of the tract's centre. *)
Lemma rings_overlap_disc_proof : forall c S mk ov g coord s s' t,
  cfg_ok c -> rings_wf g -> (0 < S)%R ->
  mk = tan_wcs S /\ (0 <= rg_size g / 2 + deg ov < PI / 2)%R \/ mk = stg_wcs S /\ (0 <= rg_size g / 2 + deg ov < PI)%R ->
  let d := rings_def c mk ov g in
  sm_reachable sphere_offset d s -> rings_findTract sphere_offset d g coord s = (s', Ok t) ->
  (separation coord (t_ctr t) <= rg_size g / 2 + deg ov)%R ->
  tract_contains t coord = Ok true.
Proof.
  intros c S mk ov g coord s s' t Hc W HS Hm d Hr H Hsep.
  destruct (rings_findTract_total_proof sphere_offset c mk ov g coord s W) as (i & _ & Hi & E & _). fold d in E.
  rewrite E in H. destruct (getitem_holds sphere_offset d s i s' t Hr (proj1 Hi) H) as (Hr' & _ & Hh).
  destruct (holds_args sphere_offset d s' i t Hr' Hh) as (_ & a & b & b' & oid & Ea & Hb & M).
  destruct (rings_args_inv _ _ _ _ _ Ea) as (ctr & cor & _ & ->). cbn [make_tract] in M.
  assert (Ec : t_ctr t = ctr).
  { unfold ExplicitTractInfo_init, tract_build in M. destruct (include_all _ _); [|discriminate]. cbn [bind] in M.
    destruct (setupPatches _ _) as [[? [? ?]]|]; [|discriminate]. cbn [bind] in M.
    unfold finalOrientation in M. cbn [bind] in M. injection M as _ <-. reflexivity. }
  rewrite Ec in Hsep.
  replace (1 / 2 * rg_size g)%R with (rg_size g / 2)%R in M by lra.
  eapply explicit_disc_proof; eauto.
Qed.

(*@ C33 REFUTED: with the default configuration of RingsSkyMap's parents (STG, 0.333 arcsec pixels,
    1 degree overlap, 4000 pixel patches) and three rings there is a coordinate whose findTract tract
    does not contain it, whatever was accessed before. *)
Lemma rings_full_overlap_refuted_proof :
  exists g coord, rings_init 3 0 1 = Ok g /\ rings_wf g /\ on_sphere coord
    /\ let d := rings_def legacy_default (stg_wcs (arcsec_scale (333 / 1000))) 1 g in
       (exists s, sm_reachable sphere_offset d s)
       /\ forall s, sm_reachable sphere_offset d s ->
          exists s' t, rings_findTract sphere_offset d g coord s = (s', Ok t)
            /\ tract_contains t coord = Ok false.
Proof.
  destruct (rings_init 3 0 1) as [g|] eqn:Eg; [|discriminate].
  exists g, bad_coord. split; [reflexivity|].
  destruct (rings_init_wf 3 0 1 g ltac:(lia) Eg) as (W & A & HN & Hra & V).
  destruct (three_rings 0 1 g Eg) as (Hnums & Hsize).
  split; [exact W|]. destruct bad_range as (R1 & R2). pose proof PI_RGT_0 as HP.
  split; [unfold on_sphere; lra|]. intros d.
  split; [eexists; exists (mkSM (repeat None (Z.to_nat (sd_num d))) (builder_init legacy_default) 0 []); split; [reflexivity|constructor]|].
  assert (Hra0 : rg_raStart g = 0%R) by (rewrite Hra; unfold deg; lra).
  assert (H2 : ring_has g 2 8) by (split; [lia|rewrite Hnums; reflexivity]).
  assert (Hfirst : firstRingStart g = (- (3 * PI / 8))%R) by (unfold firstRingStart; rewrite Hsize; lra).
  assert (Hdec : decToRingNum g (snd bad_coord) = 2).
  { apply (decToRing_in g W); [lia|]. rewrite Hfirst, Hsize. lra. }
  assert (Hidx : rings_findIndex g bad_coord = Ok 17).
  { unfold rings_findIndex. rewrite Hdec, HN. cbn [Z.eqb Pos.eqb]. unfold raToTractNum.
    rewrite HN. cbn [Z.eqb Pos.eqb orb andb negb Z.leb Z.ltb Z.compare Pos.compare Pos.compare_cont].
    rewrite (ring_has_nth g 2 8 H2). cbn [bind]. rewrite Hra0.
    rewrite (wrap_id (fst bad_coord - 0)) by lra.
    rewrite (py_int_imp _ 0); [|split|lia].
    - cbn [Z.eqb]. rewrite V. cbn [Z.eqb andb]. unfold ring_index, py_prefix. rewrite Hnums. reflexivity.
    - apply Rplus_le_le_0_compat; [|lra]. apply Rmult_le_pos; [lra|]. apply Rlt_le, Rinv_0_lt_compat; lra.
    - assert ((fst bad_coord - 0) / (2 * PI / 8) < 1 / 2)%R by (apply div_lt; lra). lra. }
  assert (Hctr : rings_center g 17 = Ok (0, PI / 4)%R).
  { change 17 with (1 + 16 + 0). assert (16 = before g 2) as -> by (unfold before; rewrite Hnums; reflexivity).
    change (1 + before g 2 + 0) with (nominal_index g 2 0).
    rewrite (center_v1 g W 2 8 0 V H2) by lia. unfold position. rewrite Hra0, Hsize. f_equal. f_equal.
    - replace (2 * PI * 0 / 8 + 0)%R with 0%R by lra. apply wrap_id. lra.
    - lra. }
  assert (Hc : cfg_ok legacy_default) by (cbn; lia).
  intros s Hr.
  assert (Hm : standard_wcs (arcsec_scale (333 / 1000)) (stg_wcs (arcsec_scale (333 / 1000)))) by now right.
  destruct (rings_uniform_proof legacy_default _ _ 1 g Hc W Hm) as (_ & K). fold d in K.
  destruct (K s Hr) as (_ & _ & K3). destruct (K3 bad_coord) as (s' & t & E).
  exists s', t. split; [exact E|].
  assert (E' : sm_getitem sphere_offset d 17 s = (s', Ok t)).
  { unfold rings_findTract, smbind, smlift in E. rewrite Hidx in E. exact E. }
  destruct (getitem_holds sphere_offset d s 17 s' t Hr ltac:(lia) E') as (Hr' & _ & Hh).
  destruct (holds_args sphere_offset d s' 17 t Hr' Hh) as (_ & a & b & b' & oid & Ea & Hb & M).
  destruct (rings_args_inv _ _ _ _ _ Ea) as (ctr & cor & Ec & ->). rewrite Hctr in Ec. injection Ec as <-.
  cbn [make_tract] in M.
  destruct (explicit_init_inv _ _ _ _ _ _ _ _ _ _ _ _ M) as (t0 & M0 & Ew & Eb & _).
  set (S := arcsec_scale (333 / 1000)) in *. pose proof default_scale as HS. fold S in HS.
  destruct (bad_height S ltac:(lra)) as (x & y & Epix & Hy).
  destruct default_reach_bounds as (D1 & D2 & D3 & D4).
  assert (Er : (1 / 2 * rg_size g + deg 1)%R = default_reach) by (rewrite Hsize; unfold default_reach; lra).
  assert (Hf : stg_factor (cos default_reach) = Some (2 / (1 + cos default_reach))%R).
  { unfold stg_factor. destruct (Rlt_bool_spec (-1) (cos default_reach)); [reflexivity|lra]. }
  assert (Hpos : (0 < 2 / (1 + cos default_reach) * sin default_reach)%R).
  { apply Rmult_lt_0_compat; [|lra]. apply Rdiv_lt_0_compat; lra. }
  set (Q := (2 / (1 + cos default_reach) * sin default_reach)%R) in *.
  pose proof (zenithal_samples stg_factor S (stg_wcs S (0, PI / 4)%R) (0, PI / 4)%R (1 / 2 * rg_size g) (deg 1)
                (2 / (1 + cos default_reach)) (fun c => eq_refl)) as Z.
  rewrite Er in Z. specialize (Z Hf). cbv zeta in Z. fold Q in Z.
  assert (SQ : (0 < S * Q <= S * (4163 / 10000))%R).
  { split; [apply Rmult_lt_0_compat; lra|apply Rmult_le_compat_l; lra]. }
  assert (C0 : tract_contains t0 bad_coord = Ok false).
  { eapply (tract_build_above sphere_offset legacy_default) with (M := (S * Q)%R); [exact Hc|exact Hb|exact M0| | |exact Epix|].
    - split; [lra|]. apply Rle_lt_trans with (IZR 630000); [lra|apply IZR_lt; reflexivity].
    - intros s0 x0 y0 Hin E0. pose proof (in_map_pix _ _ _ _ _ _ Z Hin E0) as Hp. cbn [In] in Hp.
      destruct Hp as [Hp|[Hp|[Hp|[Hp|[]]]]]; injection Hp as _ <-; lra.
    - cbn [cfg_inner legacy_default snd]. lra. }
  unfold tract_contains in *. rewrite Ew, Eb. exact C0.
Qed.

(*@ C32 REFUTED, a concrete map: three rings, version 0, default configuration: findAllTracts of the
    north pole lists the north cap twice, whatever was accessed before.  (Also shows that the
    hypotheses of the theorems about rings maps can be met.) *)
Lemma rings_v0_cap_twice_example_refuted_proof :
  exists g, rings_init 3 0 0 = Ok g /\ rings_wf g /\ at_least 3 g
    /\ let d := rings_def legacy_default (stg_wcs (arcsec_scale (333 / 1000))) 1 g in
       (exists s, sm_reachable sphere_offset d s)
       /\ forall s, sm_reachable sphere_offset d s ->
          exists s' t l1 l2, rings_findAllTracts sphere_offset d g (0, PI / 2)%R s = (s', Ok (l1 ++ t :: l2 ++ [t]))
            /\ holds sphere_offset d (rings_numTracts g - 1) s' t.
Proof.
  destruct (rings_init 3 0 0) as [g|] eqn:Eg; [|discriminate].
  exists g. split; [reflexivity|].
  destruct (rings_init_wf 3 0 0 g ltac:(lia) Eg) as (W & A & HN & Hra & V).
  destruct (three_rings 0 0 g Eg) as (Hnums & Hsize).
  split; [exact W|]. split; [exact A|]. intros d. pose proof PI_RGT_0 as HP.
  split; [eexists; exists (mkSM (repeat None (Z.to_nat (sd_num d))) (builder_init legacy_default) 0 []); split; [reflexivity|constructor]|].
  intros s Hr. assert (Hc : cfg_ok legacy_default) by (cbn; lia).
  assert (Hm : standard_wcs (arcsec_scale (333 / 1000)) (stg_wcs (arcsec_scale (333 / 1000)))) by now right.
  destruct (rings_findAllTracts_succeeds_proof legacy_default _ _ 1 g (0, PI / 2)%R s Hc W A Hm Hr) as (s' & l & E).
  fold d in E.
  assert (H2 : ring_has g (rg_numRings g - 1) 8) by (rewrite HN; split; [lia|rewrite Hnums; reflexivity]).
  assert (Hra0 : rg_raStart g = 0%R) by (rewrite Hra; unfold deg; lra).
  destruct (rings_v0_cap_twice_refuted_proof sphere_offset legacy_default _ 1 g 8 (0, PI / 2)%R s s' l W A V
              ltac:(lia) H2 Hr) as (t & Hh & Hl).
  - unfold firstRingStart. rewrite Hsize. cbn [snd]. lra.
  - cbn [fst]. rewrite Hra0, wrap_id by lra. lra.
  - exact E.
  - fold d in Hh.
    destruct (rings_findAllTracts_correct_proof sphere_offset legacy_default _ 1 g (0, PI / 2)%R s s' l W A Hr E) as (Ha & _).
    fold d in Ha. pose proof (reachable_accesses _ _ _ _ Hr Ha) as Hr'.
    destruct (holds_args sphere_offset d s' _ t Hr' Hh) as (_ & a & b & b' & oid & Ea & Hb & M).
    destruct (rings_args_inv _ _ _ _ _ Ea) as (ctr & cor & Ec & ->). rewrite (center_north g W) in Ec. injection Ec as <-.
    cbn [make_tract] in M.
    destruct Hl as (l1 & l2 & ->).
    + pose proof default_scale. destruct default_reach_bounds as (D1 & _).
      assert (Er : (1 / 2 * rg_size g + deg 1)%R = default_reach) by (rewrite Hsize; unfold default_reach; lra).
      eapply (explicit_disc_proof legacy_default (arcsec_scale (333 / 1000))); [exact Hc|exact Hb|lra| |exact M|].
      * right. split; [reflexivity|]. rewrite Er. lra.
      * rewrite Er. replace (1 / 2 * PI)%R with (PI / 2)%R by lra.
        unfold separation. pose proof (vec_of_unit (0, PI / 2)%R) as U. unfold unit_vec in U. rewrite U.
        rewrite acos_1. lra.
    + exists s', t, l1, l2. split; [exact E|exact Hh].
Qed.
