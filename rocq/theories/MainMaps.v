(** The Equat, Discrete and Healpix maps, and [coordFromVec] (C37, C41, C42, C57, C60). *)
From Coq Require Import Reals Lra Lia.
From Flocq Require Import Raux.
Require Import Verif.Py Verif.Geom Verif.PatchInfo Verif.TractBuilder Verif.TractInfo Verif.Spec.
Require Import Verif.PatchProofs Verif.TractProofs.
Require Import Verif.SkyMap Verif.SkySpec Verif.SkyProofs Verif.SkyProofs2 Verif.MainSky.
Require Import Verif.Rings Verif.RingsSpec Verif.RingsProofs Verif.Sphere Verif.SphereProofs Verif.TractBox Verif.Uniform.
Require Import Verif.Maps Verif.MapsProofs.
Open Scope Z_scope.

(** What [findTract] of an Equat map returns, in terms of cosines of longitude differences. *)
Lemma equat_nearest offset c mk ov n decs d s coord :
  0 < n -> equat_def c mk ov n decs = Ok d -> sm_reachable offset d s ->
  let w := deg (360 / IZR n) in
  let cosd j := (cos (snd coord) * cos ((deg (fst decs) + deg (snd decs)) / 2)
                 * cos (fst coord - (w * IZR j + w / 2)))%R in
  exists s' t i, equat_findTract offset d coord s = (s', Ok t) /\ holds offset d i s' t /\ t_id t = i /\ 0 <= i < n
    /\ forall j, 0 <= j < n -> (cosd j <= cosd i)%R /\ (cosd j = cosd i -> i <= j).
Proof.
  intros Hn Hd Hr w cosd. unfold equat_def in Hd. destruct (Z.eqb_spec n 0); [lia|]. injection Hd as Hd.
  assert (Hk : sd_kind d = EagerMap) by now rewrite <- Hd.
  assert (Hnum : sd_num d = n) by now rewrite <- Hd.
  destruct (eager_index_range_proof _ offset d s 0 Hk Hr ltac:(lia)) as (Hlen & _ & _ & _).
  unfold equat_findTract. destruct (base_findTract offset separation d coord s) as [s' r] eqn:E.
  destruct (base_findTract_nearest_proof _ offset separation d coord s s' r Hr E) as (Ha & _ & Hok & Hbad).
  pose proof (reachable_accesses _ _ _ _ Hr Ha) as Hr'.
  destruct r as [t|e].
  2:{ exfalso. destruct (Hbad e eq_refl ltac:(lia)) as (i & s1 & Hi & Ha1 & Hg).
      pose proof (reachable_accesses _ _ _ _ Hr Ha1) as Hr1.
      destruct (eager_index_range_proof _ offset d s1 i Hk Hr1 ltac:(lia)) as (Hl & _ & G & _).
      rewrite Hl in G. destruct (G Hi) as (t & Gt & _). rewrite Gt in Hg. discriminate. }
  destruct (Hok t eq_refl) as (i & Hi & Hh & Hmin). exists s', t, i. split; [reflexivity|]. split; [exact Hh|].
  split; [eapply holds_id; eauto|]. split; [lia|].
  assert (C : forall j u, holds offset d j s' u ->
     dot (vec_of coord) (vec_of (t_ctr u)) = (cosd j + sin (snd coord) * sin ((deg (fst decs) + deg (snd decs)) / 2))%R).
  { intros j u Hu. destruct (holds_args offset d s' j u Hr' Hu) as (Hj & a & b & b' & oid & Ea & _ & Hm).
    destruct (make_tract_fields _ _ _ _ _ _ _ Hm) as (_ & -> & _).
    rewrite <- Hd in Ea. cbn [sd_args] in Ea. unfold equat_args in Ea. fold w in Ea.
    unfold makeSpherePoint in Ea. repeat (destruct (Rle_bool _ _) in Ea; [|discriminate]; cbn [bind] in Ea).
    injection Ea as <-. cbn [args_ctr]. rewrite vec_of_spherePoint, dot_vec_of. reflexivity. }
  intros j Hj. destruct (Hmin j ltac:(lia)) as (u & Hu & Hle & Htie).
  apply separation_le_inv in Hle. rewrite (C _ _ Hu), (C _ _ Hh) in Hle. split; [lra|].
  intros Heq. apply Htie. unfold separation. rewrite (C _ _ Hu), (C _ _ Hh). f_equal. lra.
Qed.

(*@ C37: for an EquatSkyMap of n tracts whose declination range is not centred on a pole, and a coordinate not
    at a pole, in any state of the map: if its RA lies strictly inside the slice from 360*i/n to 360*(i+1)/n
    degrees, findTract returns tract i; if the RA is exactly 360*i/n it returns one of the two adjacent tracts
    (in exact arithmetic, the one of lower index). *)
Lemma equat_findTract_slices_proof :
  forall offset c mk ov n decs d s coord i,
  0 < n -> equat_def c mk ov n decs = Ok d -> sm_reachable offset d s ->
  (-180 < fst decs + snd decs < 180)%R -> (- (PI / 2) < snd coord < PI / 2)%R -> 0 <= i < n ->
  exists s' t, equat_findTract offset d coord s = (s', Ok t) /\ holds offset d (t_id t) s' t
  /\ ((deg (360 * IZR i / IZR n) < fst coord < deg (360 * (IZR i + 1) / IZR n))%R -> t_id t = i)
  /\ (fst coord = deg (360 * IZR i / IZR n) -> t_id t = (if i =? 0 then 0 else i - 1)).
Proof.
  intros offset c mk ov n decs d s coord i Hn Hd Hr Hmid Hlat Hi.
  destruct (equat_nearest offset c mk ov n decs d s coord Hn Hd Hr) as (s' & t & k & E & Hh & Hid & Hk & Hmin).
  exists s', t. split; [exact E|]. rewrite Hid. split; [exact Hh|].
  set (w := deg (360 / IZR n)) in *. pose proof (deg_360 n Hn) as Hw. fold w in Hw.
  assert (Hn' : (1 <= IZR n)%R) by (apply IZR_le; lia).
  pose proof PI_RGT_0 as HPI.
  assert (Hm : (0 < cos ((deg (fst decs) + deg (snd decs)) / 2))%R).
  { apply cos_gt_0; unfold deg; nra. }
  assert (Hl : (0 < cos (snd coord))%R) by (apply cos_gt_0; lra).
  assert (Hp := Rmult_lt_0_compat _ _ Hl Hm). set (P := (cos (snd coord) * cos ((deg (fst decs) + deg (snd decs)) / 2))%R) in *.
  assert (E1 : deg (360 * IZR i / IZR n) = (w * IZR i)%R) by (unfold w, deg; field; lra).
  assert (E2 : deg (360 * (IZR i + 1) / IZR n) = (w * IZR i + w)%R) by (unfold w, deg; field; lra).
  rewrite E1, E2. split.
  - intros Hin. destruct (Z.eq_dec k i) as [->|Hne]; [reflexivity|]. exfalso.
    destruct (Hmin i Hi) as [Hle _].
    pose proof (slice_cos n w (fst coord - (w * IZR i + w / 2)) (i - k) Hn Hw) as Hs.
    rewrite minus_IZR in Hs.
    replace (fst coord - (w * IZR i + w / 2) + (IZR i - IZR k) * w)%R with (fst coord - (w * IZR k + w / 2))%R in Hs by ring.
    assert (Hs' := Hs ltac:(apply Rabs_def1; lra) ltac:(lia)). clear Hs.
    apply (Rmult_lt_compat_l P _ _ Hp) in Hs'. lra.
  - intros Heq.
    assert (Ex : forall j, (fst coord - (w * IZR j + w / 2) = - (w / 2) + IZR (i - j) * w)%R).
    { intros j. rewrite Heq, minus_IZR. ring. }
    assert (Hc0 : (cos (fst coord - (w * IZR i + w / 2)) = cos (w / 2))%R).
    { rewrite Ex, Z.sub_diag. replace (- (w / 2) + 0 * w)%R with (- (w / 2))%R by ring. apply cos_neg. }
    assert (Hadj : i - k = 0 \/ i - k = 1 \/ i - k = 1 - n).
    { destruct (Z.eq_dec (i - k) 0); [auto|]. destruct (Z.eq_dec (i - k) 1); [auto|]. destruct (Z.eq_dec (i - k) (1 - n)); [auto|].
      exfalso. destruct (Hmin i Hi) as [Hle _]. rewrite Hc0, Ex in Hle.
      pose proof (slice_cos_edge n w (i - k) Hn Hw ltac:(lia) ltac:(lia)) as Hs.
      apply (Rmult_lt_compat_l P _ _ Hp) in Hs. lra. }
    destruct (Z.eqb_spec i 0) as [->|Hi0].
    + destruct (Z.eq_dec k 0) as [|Hk0]; [assumption|].
      assert (k = n - 1) as -> by lia. exfalso.
      destruct (Hmin 0 Hi) as [_ Htie]. assert (0 < n - 1) by lia.
      cut (n - 1 <= 0); [lia|]. apply Htie. f_equal. rewrite Hc0, Ex.
      replace (- (w / 2) + IZR (0 - (n - 1)) * w)%R with (w / 2 - IZR n * w)%R by (rewrite !minus_IZR; lra).
      rewrite (Rmult_comm (IZR n)), Hw.
      rewrite <- (cos_period (w / 2 - 2 * PI) 1). cbn [INR]. f_equal. lra.
    + assert (k = i \/ k = i - 1) as [-> | ->] by lia; [|reflexivity]. exfalso.
      destruct (Hmin (i - 1) ltac:(lia)) as [_ Htie]. cut (i <= i - 1); [lia|]. apply Htie. f_equal. rewrite Hc0, Ex.
      replace (- (w / 2) + IZR (i - (i - 1)) * w)%R with (w / 2)%R by (replace (i - (i - 1)) with 1 by lia; lra). reflexivity.
Qed.

(*@ C37, the excluded cases: for a coordinate at a pole, or a declination range centred on a pole, findTract
    returns tract 0 whatever the RA (in exact arithmetic). *)
Lemma equat_findTract_poles_proof :
  forall offset c mk ov n decs d s coord,
  0 < n -> equat_def c mk ov n decs = Ok d -> sm_reachable offset d s ->
  (cos (snd coord) = 0 \/ cos ((deg (fst decs) + deg (snd decs)) / 2) = 0)%R ->
  exists s' t, equat_findTract offset d coord s = (s', Ok t) /\ t_id t = 0.
Proof.
  intros offset c mk ov n decs d s coord Hn Hd Hr H0.
  destruct (equat_nearest offset c mk ov n decs d s coord Hn Hd Hr) as (s' & t & k & E & Hh & Hid & Hk & Hmin).
  exists s', t. split; [exact E|]. destruct (Hmin 0 ltac:(lia)) as [_ Htie].
  cut (k <= 0); [lia|]. apply Htie. destruct H0 as [-> | ->]; ring.
Qed.

(*@ C20, C55 for EquatSkyMap: when the projection treats all longitudes alike (as TAN, STG and the default CEA
    do), all tracts have the same patch counts, so all the theorems on uniform maps apply. *)
Lemma equat_uniform_proof : forall c mk ov n decs d s,
  cfg_ok c -> longitude_invariant mk -> equat_def c mk ov n decs = Ok d -> sm_reachable sphere_offset d s ->
  exists counts, uniform_counts sphere_offset d counts.
Proof.
  intros c mk ov n decs d s Hc Hinv Hd Hr. unfold equat_def in Hd. destruct (Z.eqb_spec n 0); [discriminate|]. injection Hd as Hd.
  destruct (Z_lt_le_dec 0 n) as [Hn|Hn].
  2:{ exists (0, 0). intros i a b oid b' t Hi. rewrite <- Hd in Hi. cbn in Hi. lia. }
  assert (Hk : sd_kind d = EagerMap) by now rewrite <- Hd.
  assert (Hnum : sd_num d = n) by now rewrite <- Hd.
  destruct (eager_index_range_proof _ sphere_offset d s 0 Hk Hr ltac:(lia)) as (Hlen & _ & G & _).
  rewrite Hlen, Hnum in G. destruct (G ltac:(lia)) as (t0 & G0 & _).
  destruct (holds_args sphere_offset d s 0 t0 Hr (conj (Z.le_refl 0) G0)) as (_ & a0 & b0 & b0' & oid0 & Ea0 & Hb0 & Hm0).
  exists (t_numPatches t0). intros i a b oid b' t Hi Ha Hb Hm.
  assert (Hc' : cfg_ok (sd_cfg d)) by now rewrite <- Hd.
  apply (make_tract_counts sphere_offset (sd_cfg d) b b0 oid oid0 i 0 a a0 b' b0' t t0 Hc' Hb Hb0 Hm Hm0).
  rewrite <- Hd in Ha, Ea0. cbn in Ha, Ea0. eapply equat_samples; eauto.
Qed.

(*@ C20, C55: the projections named in the previous theorem. *)
Lemma longitude_invariant_projections_proof : forall scale,
  longitude_invariant (tan_wcs scale) /\ longitude_invariant (stg_wcs scale) /\ longitude_invariant (cea_wcs scale).
Proof.
  intros scale. split; [|split]; [apply (standard_invariant scale); now left|apply (standard_invariant scale); now right|apply cea_invariant].
Qed.

Lemma cea_no_raise scale k c e : skyToPixel (cea_wcs scale k) c <> PixRaise e.
Proof. discriminate. Qed.

(*@ C37, C20, non-vacuity: the default EquatSkyMap (4 tracts, declinations -1.25 to 1.25, overlap 1 degree, CEA) can
    be constructed with any configuration of the tract builder and its findTract gives tract 1 for RA 100, Dec 20. *)
Example equat_default_proof : forall c scale, cfg_ok c ->
  exists d s0 s t, equat_def c (cea_wcs scale) 1 4 (- (5 / 4), 5 / 4)%R = Ok d /\ sm_new sphere_offset d = Ok s0
    /\ equat_findTract sphere_offset d (deg 100, deg 20) s0 = (s, Ok t) /\ t_id t = 1.
Proof.
  intros c scale Hc. pose proof PI_RGT_0 as HPI.
  set (d := mkDef EagerMap c 4 (equat_args (cea_wcs scale) 1 4 (- (5 / 4), 5 / 4)%R)).
  assert (Hd : equat_def c (cea_wcs scale) 1 4 (- (5 / 4), 5 / 4)%R = Ok d) by reflexivity.
  destruct (eager_new_ok sphere_offset d eq_refl Hc) as (s0 & E0).
  { intros i Hi. destruct (equat_args_ok (cea_wcs scale) 1 4 (- (5 / 4), 5 / 4)%R i) as (a & Ea).
    1,2: cbn [fst snd]; unfold deg; apply Rabs_le; lra.
    exists a. split; [exact Ea|]. intros s e _. apply equat_args_inv in Ea. destruct Ea as (_ & _ & ->).
    apply cea_no_raise. }
  destruct (equat_findTract_slices_proof sphere_offset c (cea_wcs scale) 1 4 (- (5 / 4), 5 / 4)%R d s0 (deg 100, deg 20) 1)
    as (s & t & E & _ & H & _); try assumption; try lia.
  - exists s0. split; [exact E0|constructor].
  - cbn [fst snd]. lra.
  - cbn [snd]. unfold deg. lra.
  - exists d, s0, s, t. split; [exact Hd|]. split; [exact E0|]. split; [exact E|]. apply H. cbn [fst]. unfold deg. lra.
Qed.

(** ** Discrete *)

(*@ C42: validation accepts exactly the configurations whose three lists have equal length, and
    raises ValueError for all others. *)
Lemma discrete_validate_exact_proof : forall dc,
  let equal := length (dc_ra dc) = length (dc_radius dc) /\ length (dc_dec dc) = length (dc_radius dc) in
  (discrete_validate dc = Ok tt <-> equal) /\ (discrete_validate dc = Raise ValueError <-> ~ equal).
Proof.
  intros dc equal. unfold discrete_validate, equal.
  destruct (Nat.eqb_spec (length (dc_radius dc)) (length (dc_ra dc))) as [E1|E1]; cbn [negb].
  - destruct (Nat.eqb_spec (length (dc_radius dc)) (length (dc_dec dc))) as [E2|E2]; cbn [negb].
    + split; split; intros H; [split; congruence|reflexivity|discriminate|exfalso; apply H; split; congruence].
    + split; split; intros H; [discriminate|destruct H; congruence|intros [? ?]; congruence|reflexivity].
  - split; split; intros H; [discriminate|destruct H; congruence|intros [? ?]; congruence|reflexivity].
Qed.

(*@ C42: the map has len(radiusList) tracts; every tract i obtained from it has id i, is centred on
    (raList[i], decList[i]), and contains the points at distance radiusList[i] + overlap from the
    centre in the four cardinal directions (where they can be projected). *)
Lemma discrete_tracts_proof : forall offset c mk ov dc s,
  let d := discrete_def c mk ov dc in
  cfg_ok c -> sm_reachable offset d s ->
  sm_len d s = Z.of_nat (length (dc_radius dc))
  /\ forall i t, holds offset d i s t -> exists ra dec radius,
       py_nth (dc_ra dc) i = Ok ra /\ py_nth (dc_dec dc) i = Ok dec /\ py_nth (dc_radius dc) i = Ok radius
       /\ t_id t = i /\ t_ctr t = spherePoint (deg ra) (deg dec) /\ t_overlap t = deg ov
       /\ forall k x y, 0 <= k < 4 ->
            let p := offset (t_ctr t) (IZR k * (PI / 2))%R (deg radius + deg ov)%R in
            skyToPixel (mk (t_ctr t)) p = Pix x y -> tract_contains t p = Ok true.
Proof.
  intros offset c mk ov dc s d Hc Hr. split; [reflexivity|]. intros i t Hh.
  destruct (holds_args offset d s i t Hr Hh) as (Hi & a & b & b' & oid & Ea & Hb & Hm).
  cbn in Ea. unfold discrete_args in Ea.
  destruct (py_nth (dc_ra dc) i) as [ra|]; [|discriminate]. cbn [bind] in Ea.
  destruct (py_nth (dc_dec dc) i) as [dec|]; [|discriminate]. cbn [bind] in Ea.
  destruct (makeSpherePoint (deg ra) (deg dec)) as [ctr|] eqn:Ec; [|discriminate]. cbn [bind] in Ea.
  destruct (py_nth (dc_radius dc) i) as [radius|]; [|discriminate]. cbn [bind] in Ea.
  injection Ea as <-. apply makeSpherePoint_ok in Ec. destruct Ec as [-> _].
  destruct (make_tract_fields _ _ _ _ _ _ _ Hm) as (F1 & F2 & F3 & _). cbn [args_ctr args_overlap] in F2, F3.
  exists ra, dec, radius. repeat (split; [auto; fail|]). rewrite F2. intros k x y Hk p Hp.
  cbn [make_tract] in Hm. unfold p. eapply explicit_samples_lemma; eauto.
Qed.

(*@ C42: with a valid configuration, declinations in range and a projection that does not raise, every tract
    can be obtained; without validation, an index beyond raList (or decList) raises IndexError. *)
Lemma discrete_access_proof : forall offset c mk ov dc s i,
  let d := discrete_def c mk ov dc in
  cfg_ok c -> sm_reachable offset d s -> (forall k co e, skyToPixel (mk k) co <> PixRaise e) ->
  0 <= i < Z.of_nat (length (dc_radius dc)) ->
  (discrete_validate dc = Ok tt -> (forall dec, In dec (dc_dec dc) -> (-90 <= dec <= 90)%R) ->
     exists s' t, sm_getitem offset d i s = (s', Ok t))
  /\ (Z.of_nat (length (dc_ra dc)) <= i -> sm_getitem offset d i s = (s, Raise IndexError)).
Proof.
  intros offset c mk ov dc s i d Hc Hr Hw Hi. split.
  - intros Hv Hdec. apply (discrete_validate_exact_proof dc) in Hv. destruct Hv as [L1 L2].
    destruct (getitem_total offset d s i) as (s' & t & G & _); [exact Hc| |exact Hr|exact Hi|eauto].
    intros j Hj. cbn in Hj.
    destruct (nth_error (dc_ra dc) (Z.to_nat j)) as [ra|] eqn:E1; [|apply nth_error_None in E1; lia].
    destruct (nth_error (dc_dec dc) (Z.to_nat j)) as [dec|] eqn:E2; [|apply nth_error_None in E2; lia].
    destruct (nth_error (dc_radius dc) (Z.to_nat j)) as [rad|] eqn:E3; [|apply nth_error_None in E3; lia].
    eexists. split.
    + cbn. unfold discrete_args. rewrite (py_nth_in _ _ _ (proj1 Hj) E1), (py_nth_in _ _ _ (proj1 Hj) E2), (py_nth_in _ _ _ (proj1 Hj) E3).
      cbn [bind]. unfold makeSpherePoint. destruct (Rle_bool_spec (Rabs (deg dec)) (PI / 2)) as [H|H]; [reflexivity|exfalso].
      apply nth_error_In, Hdec in E2. pose proof PI_RGT_0.
      assert (Rabs (deg dec) <= PI / 2)%R by (apply Rabs_le; unfold deg; nra). lra.
    + intros p e _. apply Hw.
  - intros Hlt. assert (H0 : 0 <= i) by lia.
    destruct (caching_index_range_proof _ offset d s i eq_refl Hr) as [_ K].
    assert (Hl : 0 <= i < sm_len d s) by exact Hi. specialize (K Hl).
    destruct (sm_getitem offset d i s) as [s' [t|e]] eqn:G.
    + exfalso. destruct (getitem_holds offset d s i s' t Hr H0 G) as (Hr' & _ & Hh).
      destruct (holds_args offset d s' i t Hr' Hh) as (_ & a & b & b' & oid & Ea & _).
      cbn in Ea. unfold discrete_args in Ea. rewrite py_nth_ge in Ea by exact Hlt. discriminate.
    + destruct K as [-> K]. cbn in K. unfold discrete_args in K. rewrite py_nth_ge in K by exact Hlt. cbn in K.
      injection K as <-. reflexivity.
Qed.

(*@ C42, non-vacuity: two tracts at (10, 20) and (350, -85) degrees. *)
Example discrete_example_proof : forall c scale, cfg_ok c ->
  let dc := mkDiscrete [10; 350]%R [20; -85]%R [1; 2]%R in
  let d := discrete_def c (stg_wcs scale) (1 / 10) dc in
  exists s0 s t, discrete_validate dc = Ok tt /\ sm_new sphere_offset d = Ok s0
    /\ sm_getitem sphere_offset d 1 s0 = (s, Ok t) /\ t_ctr t = spherePoint (deg 350) (deg (-85)).
Proof.
  intros c scale Hc dc d.
  assert (E0 : sm_new sphere_offset d = Ok (mkSM [None; None] (builder_init c) 0 [])) by reflexivity.
  set (s0 := mkSM [None; None] (builder_init c) 0 []) in E0.
  assert (Hr : sm_reachable sphere_offset d s0) by (exists s0; split; [exact E0|constructor]).
  destruct (discrete_access_proof sphere_offset c (stg_wcs scale) (1 / 10) dc s0 1 Hc Hr) as [A _].
  - intros k co e. cbn. unfold zenithal. now destruct (stg_factor _).
  - cbn. lia.
  - destruct (A eq_refl) as (s & t & G).
    { cbn. intros dec [<-|[<-|[]]]; lra. }
    exists s0, s, t. split; [reflexivity|]. split; [exact E0|]. split; [exact G|].
    destruct (getitem_holds sphere_offset d s0 1 s t Hr ltac:(lia) G) as (Hr' & _ & Hh).
    destruct (discrete_tracts_proof sphere_offset c (stg_wcs scale) (1 / 10) dc s Hc Hr') as [_ K].
    destruct (K 1 t Hh) as (ra & dec & rad & E1 & E2 & _ & _ & Ec & _).
    injection E1 as <-. injection E2 as <-. exact Ec.
Qed.

(** ** Healpix *)

(*@ C41: coordToAng followed by angToCoord gives back every coordinate. *)
Lemma ang_coord_roundtrip_proof : forall coord, on_sphere coord -> angToCoord (coordToAng coord) = Ok coord.
Proof.
  intros [lon lat] [H1 H2]. cbn [fst snd] in *. unfold angToCoord, coordToAng, makeSpherePoint. cbn [fst snd].
  replace (lat + 1 / 2 * PI - 1 / 2 * PI)%R with lat by ring.
  destruct (Rle_bool_spec (Rabs lat) (PI / 2)) as [H|H].
  - unfold spherePoint. now rewrite wrap_id.
  - exfalso. assert (Rabs lat <= PI / 2)%R by (apply Rabs_le; lra). lra.
Qed.

(*@ C41: angToCoord followed by coordToAng gives back every pair with 0 <= theta <= pi, 0 <= phi < 2 pi. *)
Lemma coord_ang_roundtrip_proof : forall theta phi, (0 <= theta <= PI)%R -> (0 <= phi < 2 * PI)%R ->
  exists coord, angToCoord (theta, phi) = Ok coord /\ on_sphere coord /\ coordToAng coord = (theta, phi).
Proof.
  intros theta phi Ht Hp. unfold angToCoord, makeSpherePoint. cbn [fst snd].
  destruct (Rle_bool_spec (Rabs (theta - 1 / 2 * PI)) (PI / 2)) as [H|H].
  - eexists. split; [reflexivity|]. unfold spherePoint. rewrite wrap_id by exact Hp. split.
    + split; cbn [fst snd]; lra.
    + unfold coordToAng. cbn [fst snd]. f_equal. ring.
  - exfalso. assert (Rabs (theta - 1 / 2 * PI) <= PI / 2)%R by (apply Rabs_le; lra). lra.
Qed.

(*@ C41: a Healpix map has 12 * 4^log2NSide tracts; a negative log2NSide raises ValueError. *)
Lemma healpix_length_proof : forall p2a bnd offset c mk ov k nest,
  (0 <= k -> exists d, healpix_def p2a bnd c mk ov k nest = Ok d
     /\ forall s, sm_reachable offset d s -> sm_len d s = 12 * 4 ^ k)
  /\ (k < 0 -> healpix_def p2a bnd c mk ov k nest = Raise ValueError).
Proof.
  intros p2a bnd offset c mk ov k nest. unfold healpix_def, healpix_nside. split; intros Hk.
  - destruct (Z.ltb_spec k 0); [lia|]. cbn [bind]. eexists. split; [reflexivity|]. intros s _. cbn [sm_len sd_kind sd_num].
    rewrite Z.shiftl_mul_pow2, Z.mul_1_l by lia. change 4 with (2 * 2). rewrite Z.pow_mul_l. ring.
  - destruct (Z.ltb_spec k 0); [reflexivity|lia].
Qed.

(*@ C41: if hpgeom maps the centre of each pixel back to the pixel (with theta in [0, pi], phi in [0, 2 pi)),
    findTract of the centre of any tract of the map gives that tract (the same object), in any state. *)
Lemma healpix_findTract_centre_proof : forall a2p p2a bnd offset c mk ov k nest d s i t,
  healpix_def p2a bnd c mk ov k nest = Ok d -> sm_reachable offset d s ->
  (forall j, 0 <= j < 12 * 4 ^ k ->
     a2p (2 ^ k) nest (p2a (2 ^ k) nest j) = j
     /\ (0 <= fst (p2a (2 ^ k)%Z nest j) <= PI)%R /\ (0 <= snd (p2a (2 ^ k)%Z nest j) < 2 * PI)%R) ->
  holds offset d i s t ->
  healpix_findTract a2p offset d (2 ^ k) nest (t_ctr t) s = (s, Ok t).
Proof.
  intros a2p p2a bnd offset c mk ov k nest d s i t Hd Hr Hhp Hh.
  destruct (Z_lt_le_dec k 0) as [Hk|Hk].
  { rewrite (proj2 (healpix_length_proof p2a bnd offset c mk ov k nest) Hk) in Hd. discriminate. }
  destruct (proj1 (healpix_length_proof p2a bnd offset c mk ov k nest) Hk) as (d' & Hd' & Hlen).
  assert (d' = d) as -> by congruence.
  destruct (holds_args offset d s i t Hr Hh) as (Hi & a & b & b' & oid & Ea & Hb & Hm).
  assert (En : sd_num d = 12 * 4 ^ k /\ sd_args d = healpix_args p2a bnd mk ov (2 ^ k) nest).
  { specialize (Hlen s Hr). unfold healpix_def, healpix_nside in Hd. destruct (Z.ltb_spec k 0); [lia|]. cbn [bind] in Hd.
    injection Hd as <-. split; [exact Hlen|]. cbn [sd_args]. now rewrite Z.shiftl_mul_pow2, Z.mul_1_l by lia. }
  destruct En as [En Ed]. rewrite En in Hi. destruct (Hhp i Hi) as (Hback & Hth & Hph).
  rewrite Ed in Ea. unfold healpix_args in Ea.
  destruct (p2a (2 ^ k) nest i) as [theta phi] eqn:Ep. cbn [fst snd] in Hth, Hph.
  destruct (coord_ang_roundtrip_proof theta phi Hth Hph) as (coord & E1 & _ & E2).
  rewrite E1 in Ea. cbn [bind] in Ea. destruct (mapM _ _) as [vl|]; [|discriminate]. cbn [bind] in Ea. injection Ea as <-.
  destruct (make_tract_fields _ _ _ _ _ _ _ Hm) as (_ & Hc & _). cbn [args_ctr] in Hc.
  unfold healpix_findTract. rewrite Hc, E2, Hback. apply Hh.
Qed.

(*@ C36, C41: the Healpix findTract is a search in the sense used by findClosestTractPatchList, when hpgeom
    returns non-negative pixel numbers. *)
Lemma healpix_findTract_search_proof : forall a2p p2a bnd offset c mk ov k nest d,
  healpix_def p2a bnd c mk ov k nest = Ok d -> (forall x, 0 <= a2p (2 ^ k) nest x) ->
  search offset d (healpix_findTract a2p offset d (2 ^ k) nest).
Proof.
  intros a2p p2a bnd offset c mk ov k nest d Hd Hp. constructor.
  - intros coord s s' r Hr H. econstructor; [constructor|exact H].
  - intros coord s s' t Hr H. exists (a2p (2 ^ k) nest (coordToAng coord)).
    apply (getitem_holds offset d s _ s' t Hr (Hp _) H).
  - intros coord s s' t s1 Hr H Ha. unfold healpix_findTract in *.
    destruct (getitem_holds offset d s _ s' t Hr (Hp _) H) as (Hr1 & Ha1 & Hh1).
    apply (holds_accesses offset d s' s1 _ t Hr1 Ha Hh1).
Qed.

(** The direction that the HEALPix convention (colatitude theta, longitude phi) gives to a pair. *)
Definition healpix_direction (thetaphi : R * R) : vec :=
  (sin (fst thetaphi) * cos (snd thetaphi), sin (fst thetaphi) * sin (snd thetaphi), cos (fst thetaphi))%R.
Definition mirror (v : vec) : vec := (vx v, vy v, - vz v)%R.

(*@ C60, refuted: the tract of a HEALPixel is not at the position of the HEALPixel, but at its mirror image in
    the equator (theta is a colatitude, the code takes it as latitude + pi/2); the two agree only
    for pixels on the equator. *)
Lemma healpix_position_refuted_proof : forall p2a bnd offset c mk ov k nest d s i t,
  healpix_def p2a bnd c mk ov k nest = Ok d -> sm_reachable offset d s -> holds offset d i s t ->
  let pix := p2a (2 ^ k) nest i in
  vec_of (t_ctr t) = mirror (healpix_direction pix)
  /\ (vec_of (t_ctr t) = healpix_direction pix <-> cos (fst pix) = 0%R).
Proof.
  intros p2a bnd offset c mk ov k nest d s i t Hd Hr Hh pix.
  assert (E : vec_of (t_ctr t) = mirror (healpix_direction pix)).
  { destruct (holds_args offset d s i t Hr Hh) as (Hi & a & b & b' & oid & Ea & Hb & Hm).
    unfold healpix_def, healpix_nside in Hd. destruct (Z.ltb_spec k 0); [discriminate|]. cbn [bind] in Hd.
    injection Hd as <-. cbn [sd_args] in Ea. rewrite Z.shiftl_mul_pow2, Z.mul_1_l in Ea by lia.
    unfold healpix_args in Ea. fold pix in Ea. unfold angToCoord in Ea.
    destruct (makeSpherePoint _ _) as [ctr|] eqn:Ec; [|discriminate]. apply makeSpherePoint_ok in Ec. destruct Ec as [-> _].
    cbn [bind] in Ea. destruct (mapM _ _) as [vl|]; [|discriminate]. cbn [bind] in Ea. injection Ea as <-.
    destruct (make_tract_fields _ _ _ _ _ _ _ Hm) as (_ & -> & _). cbn [args_ctr].
    rewrite vec_of_spherePoint. unfold vec_of, mirror, healpix_direction, vx, vy, vz. cbn [fst snd].
    replace (fst pix - 1 / 2 * PI)%R with (- (PI / 2 - fst pix))%R by field.
    rewrite cos_neg, sin_neg, cos_shift, sin_shift. apply vec_eq; ring. }
  split; [exact E|]. rewrite E. unfold mirror, healpix_direction, vx, vy, vz. cbn [fst snd]. split.
  - intros H. injection H as H. lra.
  - intros ->. apply vec_eq; ring.
Qed.

(*@ C41, C60, non-vacuity: with the pixels of nside 1 in the polar caps at theta = arccos(2/3), the tract of pixel 0
    exists and has declination arcsin(-2/3), not arcsin(2/3). *)
Example healpix_example_proof : forall c scale, cfg_ok c ->
  let p2a := fun (_ : Z) (_ : bool) (_ : Z) => (acos (2 / 3), PI / 4)%R in
  let bnd := fun (_ : Z) (_ : bool) (_ : Z) => [(0, 0); (acos (2 / 3), PI / 2); (PI / 2, PI / 4); (acos (2 / 3), 0)]%R in
  exists d s0 s t, healpix_def p2a bnd c (stg_wcs scale) 0 0 false = Ok d /\ sm_new sphere_offset d = Ok s0
    /\ sm_getitem sphere_offset d 0 s0 = (s, Ok t) /\ vz (vec_of (t_ctr t)) = (- (2 / 3))%R
    /\ vz (healpix_direction (p2a 1 false 0)) = (2 / 3)%R.
Proof.
  intros c scale Hc p2a bnd. destruct (proj1 (healpix_length_proof p2a bnd sphere_offset c (stg_wcs scale) 0 0 false)) as (d & Hd & _); [lia|].
  pose proof Hd as Hd2. unfold healpix_def, healpix_nside in Hd2. change (0 <? 0) with false in Hd2. cbn [bind] in Hd2. injection Hd2 as Hd2.
  pose proof PI_RGT_0 as HP. pose proof (acos_bound (2 / 3)) as HA.
  assert (E0 : exists s0, sm_new sphere_offset d = Ok s0) by (rewrite <- Hd2; eexists; reflexivity).
  destruct E0 as (s0 & E0).
  assert (Hr : sm_reachable sphere_offset d s0) by (exists s0; split; [exact E0|constructor]).
  assert (B : forall x y, (0 <= x <= PI)%R -> angToCoord (x, y) = Ok (spherePoint y (x - 1 / 2 * PI))).
  { intros x y Hx. unfold angToCoord, makeSpherePoint. cbn [fst snd].
    destruct (Rle_bool_spec (Rabs (x - 1 / 2 * PI)) (PI / 2)) as [H|H]; [reflexivity|exfalso].
    assert (Rabs (x - 1 / 2 * PI) <= PI / 2)%R by (apply Rabs_le; lra). lra. }
  destruct (getitem_total sphere_offset d s0 0) as (s & t & G & _).
  - rewrite <- Hd2. exact Hc.
  - intros j Hj. rewrite <- Hd2. cbn [sd_args]. unfold healpix_args, p2a, bnd. cbn [mapM].
    rewrite !B by lra. cbn [bind]. eexists. split; [reflexivity|]. intros p e _. cbn. unfold zenithal. now destruct (stg_factor _).
  - exact Hr.
  - rewrite <- Hd2. cbn. lia.
  - exists d, s0, s, t. split; [exact Hd|]. split; [exact E0|]. split; [exact G|].
    destruct (getitem_holds sphere_offset d s0 0 s t Hr ltac:(lia) G) as (Hr' & _ & Hh).
    destruct (healpix_position_refuted_proof p2a bnd sphere_offset c (stg_wcs scale) 0 0 false d s 0 t Hd Hr' Hh) as [E _].
    cbn zeta in E. change (2 ^ 0) with 1 in E. rewrite E. unfold mirror, healpix_direction, p2a, vz. cbn [fst snd].
    rewrite cos_acos by lra. split; reflexivity.
Qed.

(** ** coordFromVec *)

(*@ C57: for a vector whose x and y are both smaller in absolute value than the smallest normal double:
    RuntimeError without a default RA; otherwise the default RA, declination +90 if z > 0, -90 if z <= 0. *)
Lemma coordFromVec_pole_proof : forall x y z defRA,
  (Rabs x < / 2 ^ 1022 -> Rabs y < / 2 ^ 1022 ->
  coordFromVec (x, y, z) None = Raise RuntimeError
  /\ coordFromVec (x, y, z) (Some defRA)
     = Ok (wrap defRA, if Rlt_dec 0 z then PI / 2 else - (PI / 2)))%R.
Proof.
  intros x y z defRA Hx Hy. unfold coordFromVec, vx, vy, vz. cbn [fst snd].
  assert (T : tinyFloat = (/ 2 ^ 1022)%R) by (unfold tinyFloat; now rewrite (pow_IZR 2 1022)).
  rewrite T. rewrite (Rlt_bool_true _ _ Hx), (Rlt_bool_true _ _ Hy). cbn [andb]. split; [reflexivity|].
  unfold spherePoint, deg. do 2 f_equal. destruct (Rlt_dec 0 z) as [H|H].
  - rewrite Rlt_bool_true by exact H. field.
  - rewrite Rlt_bool_false by lra. field.
Qed.

(*@ C57: for every other vector it returns (whatever the default RA) the coordinate whose direction is
    that of the vector. *)
Lemma coordFromVec_direction_proof : forall x y z defRA,
  (/ 2 ^ 1022 <= Rabs x \/ / 2 ^ 1022 <= Rabs y)%R ->
  exists c, coordFromVec (x, y, z) defRA = Ok c /\ on_sphere c
    /\ (exists r, 0 < r /\ x = r * (cos (snd c) * cos (fst c)) /\ y = r * (cos (snd c) * sin (fst c)) /\ z = r * sin (snd c))%R.
Proof.
  intros x y z defRA H. unfold coordFromVec, vx, vy, vz. cbn [fst snd].
  assert (T : tinyFloat = (/ 2 ^ 1022)%R) by (unfold tinyFloat; now rewrite (pow_IZR 2 1022)).
  assert (T0 : (0 < / 2 ^ 1022)%R) by (apply Rinv_0_lt_compat, pow_lt; lra).
  rewrite T. set (tf := (/ 2 ^ 1022)%R) in *. clearbody tf.
  assert ((Rlt_bool (Rabs x) tf && Rlt_bool (Rabs y) tf)%bool = false) as ->.
  { destruct H as [H|H]; rewrite (Rlt_bool_false _ _ H); [reflexivity|apply andb_false_r]. }
  assert (P : (0 < dot (x, y, z) (x, y, z))%R).
  { unfold dot, vx, vy, vz. cbn [fst snd]. pose proof (Rle_0_sqr x) as A. pose proof (Rle_0_sqr y) as B. pose proof (Rle_0_sqr z) as C.
    unfold Rsqr in *. destruct H as [H|H]; [assert (0 < x * x)%R|assert (0 < y * y)%R]; try lra; apply Rsqr_pos_lt;
    intros E; rewrite E, Rabs_R0 in H; lra. }
  unfold coord_of_vec. assert (N : (0 < norm (x, y, z))%R) by (unfold norm; now apply sqrt_lt_R0).
  rewrite Rle_bool_false by exact N.
  eexists. split; [reflexivity|]. split; [apply coord_on_sphere|].
  assert (U : unit_vec (vscale (/ norm (x, y, z)) (x, y, z))).
  { unfold unit_vec. rewrite dot_vscale_l, dot_comm, dot_vscale_l.
    assert (E : (norm (x, y, z) * norm (x, y, z) = dot (x, y, z) (x, y, z))%R) by (unfold norm; apply sqrt_sqrt; lra).
    rewrite <- E. field. lra. }
  pose proof (vec_of_coord _ U) as E. set (cc := coord_of_unit _) in *. clearbody cc.
  unfold vec_of, vscale, vx, vy, vz in E. cbn [fst snd] in E. injection E as E1 E2 E3.
  exists (norm (x, y, z)). split; [exact N|].
  rewrite (Rmult_comm (cos (snd cc))), (Rmult_comm (cos (snd cc))), E1, E2, E3. repeat split; field; lra.
Qed.

(*@ C57, non-vacuity: (1, 1, 0) gives RA 45, Dec 0 degrees, whatever the default RA. *)
Example coordFromVec_example_proof : forall defRA, exists c, coordFromVec (1, 1, 0)%R defRA = Ok c
  /\ on_sphere c /\ snd c = 0%R /\ cos (fst c) = sin (fst c).
Proof.
  intros defRA. destruct (coordFromVec_direction_proof 1 1 0 defRA) as (c & E & Hs & r & Hr & E1 & E2 & E3).
  - left. rewrite Rabs_R1. rewrite <- Rinv_1. apply Rinv_le_contravar; [lra|]. apply pow_R1_Rle. lra.
  - exists c. split; [exact E|]. split; [exact Hs|]. assert (S : sin (snd c) = 0%R) by nra.
    destruct Hs as [_ Hl]. pose proof PI_RGT_0.
    assert (Z0 : snd c = 0%R).
    { destruct (Rtotal_order (snd c) 0) as [L|[L|L]]; [|exact L|].
      - assert (0 < sin (- snd c))%R by (apply sin_gt_0; lra). rewrite sin_neg in *. lra.
      - assert (0 < sin (snd c))%R by (apply sin_gt_0; lra). lra. }
    split; [exact Z0|]. rewrite Z0, cos_0 in E1, E2. apply (Rmult_eq_reg_l r); lra.
Qed.
