(** Contents of tracts, patches and cells; equality; findTractIdArray and
    logSkyMapInfo of the base class (C65 - C69). *)
From Coq Require Import Reals Lra Lia.
From Flocq Require Import Raux.
Require Import Verif.Py Verif.Geom Verif.PatchInfo Verif.TractBuilder Verif.TractInfo Verif.Spec.
Require Import Verif.PatchProofs Verif.CellProofs Verif.TractProofs Verif.Examples.
Require Import Verif.SkyMap Verif.SkySpec Verif.SkyProofs Verif.SkyProofs2 Verif.MainSky.
Require Import Verif.Rings Verif.RingsSpec Verif.RingsProofs Verif.RingsProofs2 Verif.Sphere Verif.SphereProofs Verif.TractBox Verif.Uniform.
Require Import Verif.Maps Verif.MapsProofs Verif.MainMaps Verif.Region Verif.RegionProofs.
Require Import Verif.Dodeca Verif.DodecaSpec Verif.DodecaProofs3 Verif.DodecaProofs4 Verif.MainDodeca.
Require Import Verif.RingsNum Verif.MainRings Verif.MainRings2 Verif.SkyMapLog Verif.MiscSpec.
Open Scope Z_scope.
Local Arguments Z.mul : simpl never.

(*@ C65: the attributes of a patch: tract[index], for an Index2D, a pair or a number, has the position (x, y)
    that the index denotes, sequential index y*nx + x, the projection of the tract, and the cell
    geometry of the configuration (none for the legacy builder). *)
Lemma patch_attributes_proof :
  forall (Sky : Type) (offset : Sky -> R -> R -> Sky) c b t ix p nx ny,
  cfg_ok c -> in_use offset c b t -> t_numPatches t = (nx, ny) -> tract_getPatchInfo b t ix = Ok p ->
  exists x y, 0 <= x < nx /\ 0 <= y < ny
    /\ (ix = IxIndex2D x y \/ ix = IxSeq [x; y] \/ ix = IxNum (y * nx + x))
    /\ p_index p = (x, y) /\ p_seq p = y * nx + x /\ p_wcs p = t_wcs t
    /\ match c with
       | LegacyCfg _ _ => p_numCells p = (0, 0) /\ p_cellInner p = (0, 0) /\ p_cellBorder p = 0
       | CellCfg dims cb n nb => p_numCells p = (n + 2 * nb, n + 2 * nb) /\ p_cellInner p = dims /\ p_cellBorder p = cb
       end.
Proof.
  intros Sky offset c b t ix p nx ny Hc Hu Ht H.
  destruct (in_use_spec offset c b t Hc Hu) as (nx' & ny' & Hi & Hinit & Hnb & Hnt & Hnx & Hny & Hz & HB).
  rewrite Ht in Hnt. injection Hnt as <- <-. unfold tract_getPatchInfo in H.
  assert (G : forall x y, getPatchInfo b (IxIndex2D x y) (t_wcs t) = Ok p ->
     0 <= x < nx /\ 0 <= y < ny /\ p_index p = (x, y) /\ p_seq p = y * nx + x /\ p_wcs p = t_wcs t
    /\ match c with
       | LegacyCfg _ _ => p_numCells p = (0, 0) /\ p_cellInner p = (0, 0) /\ p_cellBorder p = 0
       | CellCfg dims cb n nb => p_numCells p = (n + 2 * nb, n + 2 * nb) /\ p_cellInner p = dims /\ p_cellBorder p = cb
       end).
  { intros x y K. destruct (getPatchInfo_pair_inv c b nx ny _ x y p Hc Hi Hinit Hnb K) as (Hx & Hy & ->).
    split; [exact Hx|]. split; [exact Hy|]. unfold the_patch. cbn [p_index p_seq p_wcs p_numCells p_cellInner p_cellBorder].
    split; [reflexivity|]. split; [ring|]. split; [reflexivity|]. destruct c; auto. }
  destruct ix as [x y|n|l|].
  - destruct (G x y H) as (A & B & C & D & E & F). exists x, y. auto 10.
  - destruct (Z.eq_dec nx 0) as [->|Hn0].
    { exfalso. unfold getPatchInfo in H. rewrite Hinit in H. unfold getPatchIndexPair in H. rewrite Hnb in H. discriminate. }
    rewrite (getPatchInfo_num b nx ny _ n) in H by (assumption || lia).
    destruct (G _ _ H) as (A & B & C & D & E & F). exists (n mod nx), (n / nx).
    split; [exact A|]. split; [exact B|]. split; [|auto]. right; right. f_equal.
    pose proof (Z.div_mod n nx). lia.
  - destruct l as [|x [|y [|? ?]]].
    1,2,4: exfalso; unfold getPatchInfo in H; rewrite Hinit in H; discriminate.
    rewrite getPatchInfo_seq in H. destruct (G x y H) as (A & B & C & D & E & F). exists x, y. auto 10.
  - exfalso. unfold getPatchInfo in H. rewrite Hinit in H. discriminate.
Qed.

(*@ C65: the attributes of a cell: patch[index] has the position (x, y) that the index denotes, sequential
    index y*n + x where n is the number of cells along a side, and the projection of the tract. *)
Lemma cell_attributes_proof :
  forall (Sky : Type) (offset : Sky -> R -> R -> Sky) cw ch cb nI nB b t X Y p ix cl,
  let c := CellCfg (cw, ch) cb nI nB in
  cfg_ok c -> in_use offset c b t -> tract_getPatchInfo b t (IxIndex2D X Y) = Ok p -> getCellInfo p ix = Ok cl ->
  let n := nI + 2 * nB in
  exists x y, 0 <= x < n /\ 0 <= y < n
    /\ (ix = IxIndex2D x y \/ ix = IxSeq [x; y] \/ ix = IxNum (y * n + x))
    /\ c_index cl = (x, y) /\ c_seq cl = y * n + x /\ c_wcs cl = t_wcs t.
Proof.
  intros Sky offset cw ch cb nI nB b t X Y p ix cl c Hc Hu Hp H n.
  destruct (cells_of_tract offset cw ch cb nI nB b t X Y p Hc Hu Hp) as (Hci & _ & _).
  pose proof (cells_N_pos _ _ _ _ _ _ _ _ Hci) as HN.
  assert (Hw : p_wcs p = t_wcs t).
  { destruct (t_numPatches t) as [nx ny] eqn:En.
    destruct (patch_attributes_proof _ _ _ _ _ _ _ _ _ Hc Hu En Hp) as (x & y & _ & _ & _ & _ & _ & E & _). exact E. }
  assert (G : forall x y, getCellInfo p (IxIndex2D x y) = Ok cl ->
     0 <= x < n /\ 0 <= y < n /\ c_index cl = (x, y) /\ c_seq cl = y * n + x /\ c_wcs cl = t_wcs t).
  { intros x y K. destruct (getCellInfo_pair_inv _ _ _ _ _ _ _ _ Hci _ _ _ K) as (Hx & Hy & ->).
    split; [exact Hx|]. split; [exact Hy|]. unfold the_cell. cbn [c_index c_seq c_wcs].
    split; [reflexivity|]. split; [unfold n; ring|exact Hw]. }
  destruct ix as [x y|k|l|].
  - destruct (G x y H) as (A & B & C & D & E). exists x, y. auto 10.
  - rewrite (getCellInfo_num _ _ _ _ _ _ _ _ Hci) in H. destruct (G _ _ H) as (A & B & C & D & E).
    eexists _, _. split; [exact A|]. split; [exact B|]. split; [|auto]. right; right. f_equal.
    pose proof (Z.div_mod k n). fold n. lia.
  - destruct l as [|x [|y [|? ?]]].
    1,2,4: exfalso; unfold getCellInfo in H; rewrite (ci_num _ _ _ _ _ _ _ _ Hci) in H; fold n in H;
      destruct (Z.eqb_spec n 0); discriminate.
    change (getCellInfo p (IxSeq [x; y])) with (getCellInfo p (IxIndex2D x y)) in H.
    destruct (G x y H) as (A & B & C & D & E). exists x, y. auto 10.
  - exfalso. unfold getCellInfo in H. rewrite (ci_num _ _ _ _ _ _ _ _ Hci) in H. fold n in H.
    destruct (Z.eqb_spec n 0); discriminate.
Qed.

(*@ C65: cells and patches are independent of how they are reached: equal positions give the identical
    patch, so index, sequential number and pair are interchangeable names of it. *)
Lemma patch_names_proof :
  forall (Sky : Type) (offset : Sky -> R -> R -> Sky) c b t x y nx ny,
  cfg_ok c -> in_use offset c b t -> t_numPatches t = (nx, ny) -> 0 <= x < nx -> 0 <= y < ny ->
  exists p, tract_getPatchInfo b t (IxIndex2D x y) = Ok p
    /\ tract_getPatchInfo b t (IxSeq [x; y]) = Ok p /\ tract_getPatchInfo b t (IxNum (y * nx + x)) = Ok p.
Proof.
  intros Sky offset c b t x y nx ny Hc Hu Ht Hx Hy.
  destruct (in_use_spec offset c b t Hc Hu) as (nx' & ny' & Hi & Hinit & Hnb & Hnt & Hnx & Hny & Hz & HB).
  rewrite Ht in Hnt. injection Hnt as <- <-.
  exists (the_patch c nx ny (t_wcs t) x y). unfold tract_getPatchInfo. rewrite getPatchInfo_seq.
  rewrite (getPatchInfo_num b nx ny) by (assumption || lia).
  replace ((y * nx + x) mod nx) with x by (rewrite Z.add_comm, Z_mod_plus_full; symmetry; apply Z.mod_small; lia).
  replace ((y * nx + x) / nx) with y.
  - rewrite (getPatchInfo_pair c b nx ny) by assumption. auto.
  - rewrite Z.add_comm, Z.div_add by lia. rewrite Z.div_small by lia. lia.
Qed.

Lemma box_eqb_true a b : box_eqb a b = true <-> a = b.
Proof.
  unfold box_eqb. rewrite !andb_true_iff, !Z.eqb_eq. destruct a, b; cbn. split.
  - intros [[[-> ->] ->] ->]. reflexivity.
  - intros E. injection E as -> -> -> ->. auto.
Qed.

(*@ C66: two cells compare equal exactly if they have the same index and the same inner and outer boxes
    (the projection is not compared). *)
Lemma cell_equality_proof : forall (W : Type) (a b : cell W),
  cell_eqb a b = true <-> c_index a = c_index b /\ c_inner a = c_inner b /\ c_outer a = c_outer b.
Proof.
  intros W a b. unfold cell_eqb. rewrite !andb_true_iff, !Z.eqb_eq, !box_eqb_true.
  destruct (c_index a), (c_index b). cbn. split.
  - intros [[[-> ->] ->] ->]. auto.
  - intros (E & -> & ->). injection E as -> ->. auto.
Qed.

(*@ C66: two patches compare equal exactly if they have the same index, inner and outer boxes, number of
    cells and cell border (the projection and the size of the cells are not compared). *)
Lemma patch_equality_proof : forall (W : Type) (a b : patch W),
  patch_eqb a b = true <->
  p_index a = p_index b /\ p_inner a = p_inner b /\ p_outer a = p_outer b
  /\ p_numCells a = p_numCells b /\ p_cellBorder a = p_cellBorder b.
Proof.
  intros W a b. unfold patch_eqb. rewrite !andb_true_iff, !Z.eqb_eq, !box_eqb_true.
  destruct (p_index a), (p_index b), (p_numCells a), (p_numCells b). cbn. split.
  - intros [[[[[-> ->] ->] ->] [-> ->]] ->]. auto.
  - intros (E & -> & -> & F & ->). injection E as -> ->. injection F as -> ->. auto 10.
Qed.

(*@ C66: both are equivalence relations. *)
Lemma equality_equivalence_proof : forall (W : Type),
  (forall a : cell W, cell_eqb a a = true)
  /\ (forall a b : cell W, cell_eqb a b = cell_eqb b a)
  /\ (forall a b c : cell W, cell_eqb a b = true -> cell_eqb b c = true -> cell_eqb a c = true)
  /\ (forall p : patch W, patch_eqb p p = true)
  /\ (forall p q : patch W, patch_eqb p q = patch_eqb q p)
  /\ (forall p q r : patch W, patch_eqb p q = true -> patch_eqb q r = true -> patch_eqb p r = true).
Proof.
  intros W.
  assert (S : forall (A : Type) (f : A -> A -> bool), (forall a b, f a b = true -> f b a = true) -> forall a b, f a b = f b a).
  { intros A f K a b. destruct (f a b) eqn:E; [symmetry; auto|]. destruct (f b a) eqn:E'; [|reflexivity].
    apply K in E'. congruence. }
  split; [intros a; apply cell_equality_proof; auto|].
  split. { apply S. intros a b K. apply cell_equality_proof in K. destruct K as (A & B & C). apply cell_equality_proof. auto. }
  split. { intros a b c K L. apply cell_equality_proof in K, L. apply cell_equality_proof.
           destruct K as (-> & -> & ->). exact L. }
  split; [intros a; apply patch_equality_proof; auto 10|].
  split. { apply S. intros a b K. apply patch_equality_proof in K. destruct K as (A & B & C & D & E). apply patch_equality_proof. auto 10. }
  intros a b c K L. apply patch_equality_proof in K, L. apply patch_equality_proof.
  destruct K as (-> & -> & -> & -> & ->). exact L.
Qed.

(*@ C66: within a tract, and between two tracts in use of the same configuration, patches compare equal exactly
    if they have the same index and the same outer box; in one tract exactly if they have the same index. *)
Lemma patch_equality_tract_proof :
  forall (Sky : Type) (offset : Sky -> R -> R -> Sky) c b t b' t' ix p ix' p',
  cfg_ok c -> in_use offset c b t -> in_use offset c b' t' ->
  tract_getPatchInfo b t ix = Ok p -> tract_getPatchInfo b' t' ix' = Ok p' ->
  (patch_eqb p p' = true <-> p_index p = p_index p' /\ p_outer p = p_outer p')
  /\ (b = b' -> t = t' -> (patch_eqb p p' = true <-> p = p') /\ (p = p' <-> p_index p = p_index p')).
Proof.
  intros Sky offset c b t b' t' ix p ix' p' Hc Hu Hu' H H'.
  assert (K : forall b t ix p, in_use offset c b t -> tract_getPatchInfo b t ix = Ok p ->
     exists x y nx ny, t_numPatches t = (nx, ny) /\ p = the_patch c nx ny (t_wcs t) x y).
  { clear - Hc. intros b t ix p Hu H. destruct (t_numPatches t) as [nx ny] eqn:Ht.
    destruct (patch_attributes_proof _ _ _ _ _ _ _ _ _ Hc Hu Ht H) as (x & y & Hx & Hy & Hix & _).
    destruct (patch_names_proof _ _ _ _ _ _ _ _ _ Hc Hu Ht Hx Hy) as (q & Q1 & Q2 & Q3).
    assert (q = p) by (destruct Hix as [-> | [-> | ->]]; congruence). subst q.
    destruct (in_use_spec offset c b t Hc Hu) as (nx' & ny' & Hi & Hinit & Hnb & Hnt & _).
    rewrite Ht in Hnt. injection Hnt as <- <-.
    destruct (getPatchInfo_pair_inv c b nx ny _ x y p Hc Hi Hinit Hnb Q1) as (_ & _ & E).
    exists x, y, nx, ny. auto. }
  destruct (K _ _ _ _ Hu H) as (x & y & nx & ny & Hn & Ep). destruct (K _ _ _ _ Hu' H') as (x' & y' & nx' & ny' & Hn' & Ep').
  assert (E1 : patch_eqb p p' = true <-> p_index p = p_index p' /\ p_outer p = p_outer p').
  { rewrite patch_equality_proof. split; [tauto|]. intros [Hi Ho]. rewrite Ep, Ep' in Hi |- *. rewrite Ep, Ep' in Ho.
    unfold the_patch in *. cbn [p_index p_inner p_outer p_numCells p_cellBorder] in *. injection Hi as -> ->. auto. }
  split; [exact E1|]. intros -> ->.
  assert (E2 : p = p' <-> p_index p = p_index p').
  { split; [congruence|]. intros Hi. rewrite Hn in Hn'. injection Hn' as <- <-. rewrite Ep, Ep' in Hi. cbn in Hi.
    injection Hi as <- <-. congruence. }
  split; [|exact E2]. rewrite E1, E2. split; [tauto|]. intros Hi. split; [exact Hi|]. apply E2 in Hi. congruence.
Qed.

(** ** The tracts of each kind of map *)
Lemma same_projection_shift {Sky} (w : wcs Sky) dx dy :
  same_projection w (copyAtShiftedPixelOrigin w (IZR dx) (IZR dy)).
Proof. exists dx, dy. split; reflexivity. Qed.

Lemma plain_contents {Sky} (offset : Sky -> R -> R -> Sky) d s i t ctr verts ov w cor :
  cfg_ok (sd_cfg d) -> sm_reachable offset d s -> holds offset d i s t ->
  sd_args d i = Ok (PlainArgs ctr verts ov w cor) ->
  tract_with i ctr verts ov w t /\ t_innerBoxCorners t = cor
  /\ forall v, In v verts -> contains_around offset w ov t v.
Proof.
  intros Hc Hr Hh Ha. destruct (holds_args offset d s i t Hr Hh) as (_ & a & b & b' & oid & Ea & Hb & M).
  rewrite Ha in Ea. injection Ea as <-. cbn [make_tract] in M.
  pose proof M as M0. unfold TractInfo_init in M0. eapply tract_build_spec in M0; eauto.
  destruct M0 as (_ & _ & _ & _ & _ & _ & H1 & H2 & H3 & H4 & H5 & (dx & dy & Hw) & _).
  destruct (tract_samples_lemma _ offset _ _ _ _ _ _ _ _ _ _ _ Hc Hb M) as (S1 & S2 & _).
  split; [|split; [exact H5|]].
  - split; [exact H1|]. split; [exact H2|]. split; [exact H3|]. split; [exact H4|]. rewrite Hw. apply same_projection_shift.
  - intros v Hv. split.
    + intros Ho x y Hp. eapply S2; eauto.
    + intros Ho k Hk x y Hp. eapply S1; eauto.
Qed.

Lemma explicit_contents {Sky} (offset : Sky -> R -> R -> Sky) d s i t ctr radius ov w cor :
  cfg_ok (sd_cfg d) -> sm_reachable offset d s -> holds offset d i s t ->
  sd_args d i = Ok (ExplicitArgs ctr radius ov w cor) ->
  tract_with i ctr (map (pixelToSky (t_wcs t)) (box2d_corners (box2d_grow (box2d_of_box (t_bbox t)) (- (1 / 1000))))) ov w t
  /\ t_innerBoxCorners t = cor
  /\ forall k, 0 <= k < 4 -> contains_projected w t (offset ctr (IZR k * (PI / 2))%R (radius + ov)%R).
Proof.
  intros Hc Hr Hh Ha. destruct (holds_args offset d s i t Hr Hh) as (_ & a & b & b' & oid & Ea & Hb & M).
  rewrite Ha in Ea. injection Ea as <-. cbn [make_tract] in M.
  destruct (explicit_keeps _ _ _ _ _ _ _ _ _ _ _ _ M) as (_ & H1 & H2 & H4 & H5).
  destruct (explicit_init_inv _ _ _ _ _ _ _ _ _ _ _ _ M) as (t0 & T & Ew & _ & _ & _ & _ & _ & Ev).
  eapply tract_build_spec in T; eauto. destruct T as (_ & _ & _ & _ & _ & _ & _ & _ & _ & _ & _ & (dx & dy & Hw) & _).
  split; [|split; [exact H5|]].
  - split; [exact H1|]. split; [exact H2|]. split; [exact Ev|]. split; [exact H4|]. rewrite Ew, Hw. apply same_projection_shift.
  - intros k Hk x y Hp. eapply explicit_samples_lemma; eauto.
Qed.

Lemma mapM_Forall2 {A B} (f : A -> res B) l ys : mapM f l = Ok ys -> Forall2 (fun x y => f x = Ok y) l ys.
Proof.
  revert ys. induction l as [|x l IH]; cbn; intros ys E.
  - injection E as <-. constructor.
  - destruct (f x) as [y|] eqn:E1; [|discriminate]. cbn [bind] in E.
    destruct (mapM f l) as [zs|]; [|discriminate]. cbn [bind] in E. injection E as <-.
    constructor; [exact E1|]. now apply IH.
Qed.

(*@ C67, EquatSkyMap: tract i of n has as vertices the corners of the slice from RA 360*i/n to 360*(i+1)/n degrees
    and the configured declinations, in counterclockwise order starting at the south west, its centre in the
    middle of the slice, the projection of the equatorial point at that RA, and contains every point half
    the overlap away from a vertex in any of 24 directions (where they can be projected). *)
Lemma equat_tracts_proof : forall offset c mk ov n dec0 dec1 d s i t,
  cfg_ok c -> 0 < n -> equat_def c mk ov n (dec0, dec1) = Ok d -> sm_reachable offset d s -> holds offset d i s t ->
  let lon k := deg (360 * k / IZR n) in
  0 <= i < n /\ sm_len d s = n
  /\ let w := mk (spherePoint (lon (IZR i + 1 / 2)) 0)%R in
     let verts := [spherePoint (lon (IZR i)) (deg dec0); spherePoint (lon (IZR i + 1)) (deg dec0);
                   spherePoint (lon (IZR i + 1)) (deg dec1); spherePoint (lon (IZR i)) (deg dec1)]%R in
     tract_with i (spherePoint (lon (IZR i + 1 / 2)) (deg ((dec0 + dec1) / 2)))%R verts (deg ov) w t
     /\ forall v, In v verts -> contains_around offset w (deg ov) t v.
Proof.
  intros offset c mk ov n dec0 dec1 d s i t Hc Hn Hd Hr Hh lon. pose proof Hd as Hd0.
  unfold equat_def in Hd. destruct (Z.eqb_spec n 0); [lia|]. injection Hd as Hd.
  assert (Hcfg : cfg_ok (sd_cfg d)) by now rewrite <- Hd.
  destruct (holds_args offset d s i t Hr Hh) as (Hi & a & _ & _ & _ & Ea & _).
  assert (Hnum : sd_num d = n) by now rewrite <- Hd. rewrite Hnum in Hi.
  split; [exact Hi|]. split.
  { destruct (eager_index_range_proof _ offset d s 0) as (L & _); [now rewrite <- Hd|exact Hr|lia|]. now rewrite L. }
  assert (HnR : IZR n <> 0%R) by (apply IZR_neq; lia).
  rewrite <- Hd in Ea. cbn [sd_args] in Ea.
  destruct (equat_args_inv _ _ _ _ _ _ Ea) as (_ & _ & ->). cbn [fst snd] in Ea.
  assert (L : forall k, lon k = (deg (360 / IZR n) * k)%R) by (intros k; unfold lon, deg; field; exact HnR).
  set (W := deg (360 / IZR n)) in *.
  assert (E0 : (W * IZR i)%R = lon (IZR i)) by (rewrite L; ring).
  assert (E1 : (W * IZR i + W)%R = lon (IZR i + 1)%R) by (rewrite L; ring).
  assert (E2 : (W * IZR i + W / 2)%R = lon (IZR i + 1 / 2)%R) by (rewrite L; field).
  assert (E3 : ((deg dec0 + deg dec1) / 2)%R = deg ((dec0 + dec1) / 2)) by (unfold deg; field).
  rewrite E1, E2, E0, E3 in Ea. intros w verts. rewrite <- Hd in Hcfg, Hr, Hh.
  destruct (plain_contents offset _ s i t _ _ _ _ _ Hcfg Hr Hh Ea) as (A & _ & B). exact (conj A B).
Qed.

(*@ C67, DiscreteSkyMap: tract i has the centre, overlap and projection of the configuration (its vertices and
    the points it contains: discrete_tracts, C18). *)
Lemma discrete_contents_proof : forall offset c mk ov dc s i t,
  let d := discrete_def c mk ov dc in
  cfg_ok c -> sm_reachable offset d s -> holds offset d i s t ->
  exists ra dec radius, py_nth (dc_ra dc) i = Ok ra /\ py_nth (dc_dec dc) i = Ok dec /\ py_nth (dc_radius dc) i = Ok radius
    /\ let ctr := spherePoint (deg ra) (deg dec) in
       t_id t = i /\ t_ctr t = ctr /\ t_overlap t = deg ov /\ same_projection (mk ctr) (t_wcs t)
       /\ forall k, 0 <= k < 4 -> contains_projected (mk ctr) t (offset ctr (IZR k * (PI / 2))%R (deg radius + deg ov)%R).
Proof.
  intros offset c mk ov dc s i t d Hc Hr Hh.
  destruct (holds_args offset d s i t Hr Hh) as (Hi & a & b & b' & oid & Ea & Hb & Hm).
  cbn in Ea. unfold discrete_args in Ea.
  destruct (py_nth (dc_ra dc) i) as [ra|] eqn:E1; [|discriminate]. cbn [bind] in Ea.
  destruct (py_nth (dc_dec dc) i) as [dec|] eqn:E2; [|discriminate]. cbn [bind] in Ea.
  destruct (makeSpherePoint (deg ra) (deg dec)) as [ctr|] eqn:Ec; [|discriminate]. cbn [bind] in Ea.
  destruct (py_nth (dc_radius dc) i) as [radius|] eqn:E3; [|discriminate]. cbn [bind] in Ea.
  injection Ea as <-. pose proof Ec as Ec'. apply makeSpherePoint_ok in Ec'. destruct Ec' as [-> _].
  exists ra, dec, radius. do 3 (split; [reflexivity|]). intros ctr.
  destruct (explicit_contents offset d s i t ctr (deg radius) (deg ov) (mk ctr) None Hc Hr Hh) as (A & _ & B).
  { cbn. unfold discrete_args. rewrite E1, E2, E3. cbn [bind]. rewrite Ec. reflexivity. }
  destruct A as (A1 & A2 & A3 & A4 & A5). auto 10.
Qed.

(*@ C67, HealpixSkyMap: tract i has the centre and the vertices that angToCoord gives for HEALPixel i, the
    configured overlap, the projection of its centre, and contains the points half the overlap away from
    each vertex. *)
Lemma healpix_contents_proof : forall p2a bnd offset c mk ov k nest d s i t,
  cfg_ok c -> healpix_def p2a bnd c mk ov k nest = Ok d -> sm_reachable offset d s -> holds offset d i s t ->
  exists ctr verts, angToCoord (p2a (2 ^ k) nest i) = Ok ctr
    /\ Forall2 (fun ang v => angToCoord ang = Ok v) (bnd (2 ^ k) nest i) verts
    /\ tract_with i ctr verts (deg ov) (mk ctr) t
    /\ forall v, In v verts -> contains_around offset (mk ctr) (deg ov) t v.
Proof.
  intros p2a bnd offset c mk ov k nest d s i t Hc Hd Hr Hh.
  unfold healpix_def, healpix_nside in Hd. destruct (Z.ltb_spec k 0); [discriminate|]. cbn [bind] in Hd.
  rewrite Z.shiftl_mul_pow2, Z.mul_1_l in Hd by lia. injection Hd as Hd.
  destruct (holds_args offset d s i t Hr Hh) as (Hi & a & b & b' & oid & Ea & Hb & Hm).
  pose proof Ea as Ea0. rewrite <- Hd in Ea. cbn [sd_args] in Ea. unfold healpix_args in Ea.
  destruct (angToCoord (p2a (2 ^ k) nest i)) as [ctr|] eqn:E1; [|discriminate]. cbn [bind] in Ea.
  destruct (mapM angToCoord (bnd (2 ^ k) nest i)) as [verts|] eqn:E2; [|discriminate]. cbn [bind] in Ea. injection Ea as <-.
  exists ctr, verts. split; [reflexivity|]. split.
  { exact (mapM_Forall2 _ _ _ E2). }
  destruct (plain_contents offset d s i t ctr verts (deg ov) (mk ctr) None) as (A & _ & B); auto.
  now rewrite <- Hd.
Qed.

(*@ C67, RingsSkyMap: tract i, which is tract k of n of ring r, is centred at RA raStart + 360*k/n degrees and
    declination -90 + 180*(r+1)/(numRings+1) degrees, the caps at the poles; it has the configured overlap and
    the projection of its centre, and contains the points at half a ring height plus the overlap from its centre
    in the four cardinal directions. *)
Lemma rings_contents_proof : forall offset c mk ov numRings raStart version g s i t,
  1 <= numRings -> rings_init numRings raStart version = Ok g ->
  let d := rings_def c mk ov g in
  cfg_ok c -> sm_reachable offset d s -> holds offset d i s t ->
  t_id t = i /\ t_overlap t = deg ov /\ same_projection (mk (t_ctr t)) (t_wcs t)
  /\ (forall k, 0 <= k < 4 ->
        contains_projected (mk (t_ctr t)) t (offset (t_ctr t) (IZR k * (PI / 2)) (deg (180 / (IZR numRings + 1)) / 2 + deg ov))%R)
  /\ (i = 0 -> t_ctr t = (0, - (PI / 2))%R)
  /\ (i = rings_numTracts g - 1 -> t_ctr t = (0, PI / 2)%R)
  /\ (forall r k n, getRingIndices g i = Ok (r, k) -> ring_has g r n ->
        t_ctr t = spherePoint (deg (raStart + 360 * IZR k / IZR n)) (deg (-90 + 180 * (IZR r + 1) / (IZR numRings + 1)))%R).
Proof.
  intros offset c mk ov numRings raStart version g s i t HN Hg d Hc Hr Hh.
  destruct (rings_init_wf numRings raStart version g HN Hg) as (W & _ & HNg & _).
  assert (Hra : rg_raStart g = deg raStart /\ rg_size g = (PI / (IZR numRings + 1))%R).
  { unfold rings_init in Hg. destruct (negb _); [discriminate|]. injection Hg as <-. auto. }
  destruct Hra as [Hra Hsz].
  destruct (holds_args offset d s i t Hr Hh) as (Hi & a & b & b' & oid & Ea & Hb & M).
  pose proof Ea as Ea0. cbn [sd_args d rings_def] in Ea.
  destruct (rings_args_inv' _ _ _ _ _ Ea) as (ctr & a1 & a2 & d1 & d2 & Ec & Er & ->).
  destruct (explicit_contents offset d s i t _ _ _ _ _ Hc Hr Hh Ea0) as ((A1 & A2 & A3 & A4 & A5) & _ & B).
  assert (HN1 : (IZR numRings + 1 <> 0)%R) by (rewrite <- plus_IZR; apply IZR_neq; lia).
  pose proof two_pi_pos as HP.
  subst ctr. split; [exact A1|]. split; [exact A4|]. split; [exact A5|]. split.
  { intros k Hk. replace (deg (180 / (IZR numRings + 1)) / 2)%R with (1 / 2 * rg_size g)%R; [now apply B|].
    rewrite Hsz. unfold deg. field. exact HN1. }
  unfold rings_center in Ec. split; [|split].
  - intros ->. rewrite indices_south in Ec. cbn [bind] in Ec. rewrite Z.eqb_refl in Ec. injection Ec as <-.
    unfold spherePoint. rewrite wrap_id by lra. f_equal. lra.
  - intros ->. rewrite (indices_north g W) in Ec. cbn [bind] in Ec. pose proof (rw_rings g W).
    destruct (Z.eqb_spec (rg_numRings g) (-1)); [lia|]. rewrite Z.eqb_refl in Ec. injection Ec as <-.
    unfold spherePoint. rewrite wrap_id by lra. f_equal. lra.
  - intros r k n E Hn. rewrite E in Ec. cbn [bind] in Ec. destruct (ring_has_lt g W r n Hn) as [Hrr Hnn].
    destruct (Z.eqb_spec r (-1)); [lia|]. destruct (Z.eqb_spec r (rg_numRings g)); [lia|].
    rewrite (ring_has_nth g r n Hn) in Ec. cbn [bind] in Ec. injection Ec as <-.
    assert (IZR n <> 0)%R by (apply IZR_neq; lia).
    unfold spherePoint. rewrite wrap_wrap. rewrite Hra, Hsz. f_equal.
    + f_equal. unfold deg. field. assumption.
    + unfold deg. field. exact HN1.
Qed.

(*@ C67, DodecaSkyMap: tract i is centred on face i of the dodecahedron; its vertices are those of the face; it has
    the configured overlap and the projection of its centre, and contains the points half the overlap away
    from each vertex. *)
Lemma dodeca_contents_proof : forall order offset c mk ov b D s0 s i t, any_order order -> cfg_ok c ->
  dodeca_new order offset c mk ov b = Ok (D, s0) -> accesses offset (dodeca_def c mk ov D) s0 s ->
  holds offset (dodeca_def c mk ov D) i s t ->
  exists f vs, getFaceCtr D i = Ok f /\ getVertices D i = Ok vs
    /\ vec_of (t_ctr t) = f /\ map vec_of (t_verts t) = vs
    /\ t_id t = i /\ t_overlap t = deg ov /\ same_projection (mk (t_ctr t)) (t_wcs t)
    /\ forall v, In v (t_verts t) -> contains_around offset (mk (t_ctr t)) (deg ov) t v.
Proof.
  intros order offset c mk ov b D s0 s i t Ho Hc En Ha Hh. unfold dodeca_new in En.
  destruct (Dodecahedron_init order b) as [D'|] eqn:E; [|discriminate]. cbn [bind] in En.
  destruct (sm_new offset (dodeca_def c mk ov D')) as [s'|] eqn:Es; [|discriminate]. cbn [bind] in En. injection En as -> ->.
  destruct (shape_of order b D Ho E) as (_ & m & ts & fs & Sh). set (d := dodeca_def c mk ov D) in *.
  assert (Hr : sm_reachable offset d s) by (exists s0; split; assumption).
  destruct (holds_args offset d s i t Hr Hh) as (Hi & _). change (sd_num d) with 12 in Hi.
  destruct (dodeca_args_ok D m ts fs Sh mk ov i Hi) as (f & ctr & vcs & Hf & Hf12 & Ea & Ec & Ev).
  destruct (plain_contents offset d s i t _ _ _ _ _ Hc Hr Hh Ea) as ((A1 & A2 & A3 & A4 & A5) & _ & B).
  subst ctr vcs.
  destruct (face_at _ _ _ _ Sh i Hi) as (f' & Hf' & _ & EF). rewrite Hf in Hf'. injection Hf' as <-.
  destruct (verts_at _ _ _ _ Sh i f EF Hf12) as (EV & _).
  eexists _, _. split; [exact EF|]. split; [exact EV|]. auto 10.
Qed.

(** ** findTractIdArray and logSkyMapInfo *)
Lemma search_ids (offset : sphere -> R -> R -> sphere) (d : skydef sphere) (ft : sphere -> SM sphere (tract sphere)) coords : search offset d ft -> forall (s s' : smstate sphere) r,
  sm_reachable offset d s -> base_findTractIdArray ft coords s = (s', r) ->
  accesses offset d s s'
  /\ (forall ids, r = Ok ids -> Forall2 (fun c id => exists t, ft c s' = (s', Ok t) /\ t_id t = id) coords ids)
  /\ (forall e, r = Raise e -> exists c s1, In c coords /\ accesses offset d s s1 /\ ft c s1 = (s', Raise e)).
Proof.
  intros Hs. unfold base_findTractIdArray. induction coords as [|c cs IH]; cbn [smmap]; intros s s' r Hr E.
  - injection E as <- <-. split; [constructor|]. split; [|discriminate]. intros ids H. injection H as <-. constructor.
  - unfold smbind at 1 2 in E. destruct (ft c s) as [s1 [t|e]] eqn:E1.
    2:{ injection E as <- <-. split; [exact (se_acc _ _ _ Hs c s s1 _ Hr E1)|]. split; [discriminate|]. intros e' H. injection H as <-.
        exists c, s. split; [now left|]. split; [constructor|exact E1]. }
    assert (Ha1 : accesses offset d s s1) by exact (se_acc _ _ _ Hs c s s1 _ Hr E1).
    assert (Hr1 : sm_reachable offset d s1) by exact (reachable_accesses _ _ _ _ Hr Ha1).
    unfold smret in E at 1. unfold smbind in E at 1.
    destruct (smmap _ cs s1) as [s2 r2] eqn:E2. destruct (IH _ _ _ Hr1 E2) as (Ha2 & Hok & Hbad).
    assert (Ha : accesses offset d s s2) by (exact (accesses_trans _ _ _ _ _ Ha1 Ha2)).
    destruct r2 as [ids|e]; injection E as <- <-.
    + split; [exact Ha|]. split; [|discriminate]. intros ids' H. injection H as <-. constructor; [|exact (Hok ids eq_refl)].
      exists t. split; [|reflexivity]. exact (se_stable _ _ _ Hs c s s1 t s2 Hr E1 Ha2).
    + split; [exact Ha|]. split; [discriminate|]. intros e' H. injection H as <-.
      destruct (Hbad e eq_refl) as (c' & s3 & Hin & Ha3 & Hf). exists c', s3. split; [now right|].
      split; [exact (accesses_trans _ _ _ _ _ Ha1 Ha3)|exact Hf].
Qed.

(*@ C68: findTractIdArray of the base class, for any findTract (search) of the map, in any state: with a declination
    outside [-90, 90] degrees among the elements it raises InvalidParameterError and leaves the map alone;
    otherwise the result has, for each element, the id of the tract that findTract returns for the
    coordinate (in radians or degrees); extra elements of the longer argument are ignored; it fails only
    if findTract fails for one of the elements. *)
Lemma base_findTractIdArray_correct_proof : forall (offset : sphere -> R -> R -> sphere) (d : skydef sphere) (ft : sphere -> SM sphere (tract sphere))
  ra dec (degrees : bool) (s s' : smstate sphere) r,
  search offset d ft -> sm_reachable offset d s -> base_idArray ft ra dec degrees s = (s', r) ->
  let unit x := if degrees then deg x else x in
  let valid := forall x y, In (x, y) (combine ra dec) -> (Rabs (unit y) <= PI / 2)%R in
  accesses offset d s s'
  /\ (~ valid -> r = Raise InvalidParameterError /\ s' = s)
  /\ (forall ids, r = Ok ids -> valid /\
        Forall2 (fun rd id => exists t, ft (spherePoint (unit (fst rd)) (unit (snd rd))) s' = (s', Ok t) /\ t_id t = id)
                (combine ra dec) ids)
  /\ (forall e, valid -> r = Raise e -> exists x y s1, In (x, y) (combine ra dec) /\ accesses offset d s s1
        /\ ft (spherePoint (unit x) (unit y)) s1 = (s', Raise e)).
Proof.
  intros offset d ft ra dec degrees s s' r Hs Hr E unit valid. unfold base_idArray in E. fold unit in E.
  set (l := combine ra dec) in *. unfold smbind, smlift in E.
  destruct (mapM _ l) as [coords|e0] eqn:Em.
  - assert (Hcs : Forall2 (fun rd c => c = spherePoint (unit (fst rd)) (unit (snd rd)) /\ (Rabs (unit (snd rd)) <= PI / 2)%R) l coords).
    { apply mapM_Forall2 in Em. revert Em. apply Forall2_impl. intros a b H. now apply makeSpherePoint_ok in H. }
    assert (V : valid).
    { intros x y Hin. destruct (Forall2_in_l _ _ _ _ Hcs Hin) as (c & _ & _ & H). exact H. }
    destruct (search_ids offset d ft coords Hs s s' r Hr E) as (Ha & Hok & Hbad).
    split; [exact Ha|]. split; [contradiction|]. split.
    + intros ids H. split; [exact V|]. specialize (Hok ids H). clear - Hok Hcs. revert ids Hok.
      induction Hcs as [|rd c l cs [-> _] Hcs IH]; intros ids Hok; inversion Hok; subst; constructor; auto.
    + intros e _ H. destruct (Hbad e H) as (c & s1 & Hin & Ha1 & Hf).
      assert (X : exists rd, In rd l /\ c = spherePoint (unit (fst rd)) (unit (snd rd))).
      { clear - Hcs Hin. induction Hcs as [|rd c' l cs [-> _] Hcs IH]; [destruct Hin|]. destruct Hin as [<-|Hin].
        - exists rd. split; [now left|reflexivity].
        - destruct (IH Hin) as (rd' & ? & ?). exists rd'. split; [now right|assumption]. }
      destruct X as ([x y] & Hin' & ->). exists x, y, s1. auto.
  - injection E as <- <-.
    assert (X : e0 = InvalidParameterError /\ exists x y, In (x, y) l /\ ~ (Rabs (unit y) <= PI / 2)%R).
    { change (mapM (fun rd => makeSpherePoint (unit (fst rd)) (unit (snd rd))) l = Raise e0) in Em.
      clear - Em. clearbody l unit. revert Em. induction l as [|[x y] l IH]; cbn [mapM fst snd]; [discriminate|].
      unfold makeSpherePoint at 1. destruct (Rle_bool_spec (Rabs (unit y)) (PI / 2)) as [H|H]; cbn [bind].
      - destruct (mapM _ l) as [cs|e]; cbn [bind]; [discriminate|]. intros E. injection E as <-.
        destruct (IH eq_refl) as (-> & x' & y' & H1 & H2). split; [reflexivity|]. exists x', y'. split; [now right|exact H2].
      - intros E. injection E as <-. split; [reflexivity|]. exists x, y. split; [now left|lra]. }
    destruct X as (-> & x & y & Hin & Hno). split; [constructor|]. split; [auto|]. split; [intros ids H; discriminate H|].
    intros e V. exfalso. exact (Hno (V _ _ Hin)).
Qed.

(** ** logSkyMapInfo *)
Lemma nth_error_ext_len {A} (l l' : list A) : length l = length l' ->
  (forall k, (k < length l)%nat -> nth_error l k = nth_error l' k) -> l = l'.
Proof.
  revert l'. induction l as [|x l IH]; intros [|y l']; cbn; intros H K; try discriminate; [reflexivity|].
  f_equal; [|apply IH; [lia|]].
  - specialize (K 0%nat ltac:(lia)). cbn in K. now injection K.
  - intros k Hk. apply (K (S k)). lia.
Qed.
Lemma message_polygon t : tract_message t
  = MsgTract (t_id t) (tract_getOuterSkyPolygon t) (fst (t_numPatches t)) (snd (t_numPatches t)).
Proof.
  unfold tract_message, tract_getOuterSkyPolygon, makeSkyPolygonFromBBox, box2d_corners. reflexivity.
Qed.

Lemma log_tracts_spec offset d : forall ids s l s' l' r, (forall i, In i ids -> 0 <= i) ->
  sm_reachable offset d s -> log_tracts offset d ids (s, l) = ((s', l'), r) ->
  accesses offset d s s'
  /\ exists done rest ts, ids = done ++ rest /\ Forall2 (fun i t => holds offset d i s' t) done ts
     /\ l' = l ++ map tract_message ts
     /\ (r = Ok tt -> rest = [])
     /\ (forall e, r = Raise e -> exists i rest' s1, rest = i :: rest' /\ accesses offset d s s1
            /\ sm_getitem offset d i s1 = (s', Raise e)).
Proof.
  induction ids as [|i ids IH]; intros s l s' l' r Hi Hr; cbn [log_tracts fst snd].
  - intros E. injection E as <- <- <-. split; [constructor|]. exists [], [], []. split; [reflexivity|].
    split; [constructor|]. split; [symmetry; apply app_nil_r|]. split; [reflexivity|discriminate].
  - destruct (sm_getitem offset d i s) as [s1 [t|e]] eqn:E1.
    + intros E. assert (Ha1 : accesses offset d s s1) by (eapply acc_get; [constructor|exact E1]).
      assert (Hr1 : sm_reachable offset d s1) by exact (reachable_accesses _ _ _ _ Hr Ha1).
      destruct (IH s1 _ s' l' r ltac:(intros; apply Hi; now right) Hr1 E) as (Ha2 & dn & rest & ts & -> & HF & -> & Hok & Hbad).
      split; [exact (accesses_trans _ _ _ _ _ Ha1 Ha2)|]. exists (i :: dn), rest, (t :: ts). split; [reflexivity|].
      split; [constructor; [|exact HF]|].
      { apply (holds_accesses offset d s1 s' i t Hr1 Ha2).
        apply (getitem_holds offset d s i s1 t Hr (Hi i (or_introl eq_refl)) E1). }
      split; [cbn [map]; now rewrite <- app_assoc|]. split; [exact Hok|].
      intros e He. destruct (Hbad e He) as (i' & rest' & s2 & -> & Ha3 & Hg). exists i', rest', s2.
      split; [reflexivity|]. split; [exact (accesses_trans _ _ _ _ _ Ha1 Ha3)|exact Hg].
    + intros E. injection E as <- <- <-. split; [eapply acc_get; [constructor|exact E1]|].
      exists [], (i :: ids), []. split; [reflexivity|]. split; [constructor|]. split; [symmetry; apply app_nil_r|].
      split; [discriminate|]. intros e' H. injection H as <-. exists i, ids, s. split; [reflexivity|].
      split; [constructor|exact E1].
Qed.

(*@ C69: logSkyMapInfo writes len(skymap) and then, for the tracts in order of their ids, the id, the corners of
    the tract's outer sky polygon and its patch counts; the messages already in the log stay; it changes the
    map only by accesses, and fails only if some tract cannot be generated, having logged the ones before. *)
Lemma logSkyMapInfo_correct_proof : forall offset d s log s' log' r,
  sm_reachable offset d s -> logSkyMapInfo offset d (s, log) = ((s', log'), r) ->
  accesses offset d s s'
  /\ exists k ts, 0 <= k /\ Forall2 (fun i t => t_id t = i /\ holds offset d i s' t) (zrange 0 k) ts
     /\ log' = log ++ MsgCount (sm_len d s)
               :: map (fun t => MsgTract (t_id t) (tract_getOuterSkyPolygon t) (fst (t_numPatches t)) (snd (t_numPatches t))) ts
     /\ (r = Ok tt -> k = Z.max 0 (sd_num d))
     /\ (forall e, r = Raise e -> k < sd_num d /\ exists s1, accesses offset d s s1 /\ sm_getitem offset d k s1 = (s', Raise e)).
Proof.
  intros offset d s log s' log' r Hr E. unfold logSkyMapInfo in E. cbn [fst snd] in E.
  destruct (log_tracts_spec offset d _ _ _ _ _ _ (fun i H => proj1 (proj1 (in_zrange 0 (sd_num d) i) H)) Hr E)
    as (Ha & dn & rest & ts & Hl & HF & -> & Hok & Hbad).
  split; [exact Ha|]. assert (Hr' : sm_reachable offset d s') by (eapply reachable_accesses; eauto).
  assert (P : dn = zrange 0 (Z.of_nat (length dn)) /\ (forall i r', rest = i :: r' -> i = Z.of_nat (length dn) /\ i < sd_num d)).
  { assert (K : forall k, (k < length (dn ++ rest))%nat -> nth_error (dn ++ rest) k = Some (Z.of_nat k)).
    { intros k Hk. rewrite <- Hl in *. rewrite zrange_length in Hk. rewrite zrange_nth_error by exact Hk. f_equal. }
    split.
    - apply nth_error_ext_len; [now rewrite zrange_length, Z.sub_0_r, Nat2Z.id|]. intros k Hk.
      rewrite zrange_nth_error by lia. rewrite <- (nth_error_app1 dn rest) by exact Hk. rewrite K by (rewrite app_length; lia).
      reflexivity.
    - intros i r' ->. assert (H : (length dn < length (dn ++ i :: r'))%nat) by (rewrite app_length; cbn; lia).
      specialize (K _ H). rewrite nth_error_app2, Nat.sub_diag in K by lia. cbn in K. injection K as ->. split; [reflexivity|].
      rewrite <- Hl, zrange_length in H. lia. }
  destruct P as [P1 P2]. exists (Z.of_nat (length dn)), ts. split; [lia|]. rewrite <- P1. split.
  { revert HF. apply Forall2_impl. intros i t H. split; [|exact H]. eapply holds_id; eauto. }
  split. { rewrite <- app_assoc. cbn [app]. do 2 f_equal. }
  split.
  - intros H. specialize (Hok H). subst rest. rewrite app_nil_r in Hl. rewrite <- Hl, zrange_length. lia.
  - intros e H. destruct (Hbad e H) as (i & r' & s1 & Er & Ha1 & Hg). destruct (P2 i r' Er) as [-> Hlt]. split; [exact Hlt|]. eauto.
Qed.

(*@ C65, C66, non-vacuity: patch (1, 0) of a tract with the default cells, and cell (2, 3) of it, which is not equal
    to cell (3, 2). *)
Example cell_of_patch_example_proof :
  exists b t p c1 c2, cfg_ok cell_default /\ in_use flat_offset cell_default b t
    /\ tract_getPatchInfo b t (IxIndex2D 1 0) = Ok p /\ t_numPatches t = (4, 2)
    /\ getCellInfo p (IxIndex2D 2 3) = Ok c1 /\ getCellInfo p (IxNum 47) = Ok c2
    /\ cell_eqb c1 c1 = true /\ cell_eqb c1 c2 = false /\ patch_eqb p p = true.
Proof.
  assert (H2 : cfg_ok cell_default) by (cbn; lia).
  destruct (ex_tract cell_default 0 0 9999 4999 (builder_init _) H2 (br_init _))
      as (b & t & _ & Hu & Hn); [lia|lia|].
  destruct (in_use_spec _ _ b t H2 Hu) as (nx & ny & Hi & Hinit & Hnb & Hnt & _).
  assert (En : nx = 4 /\ ny = 2) by (rewrite Hn in Hnt; vm_compute in Hnt; split; congruence).
  destruct En as [-> ->].
  exists b, t, (the_patch cell_default 4 2 (t_wcs t) 1 0). do 2 eexists.
  split; [exact H2|]. split; [exact Hu|].
  split; [apply (getPatchInfo_pair cell_default b 4 2 (t_wcs t) 1 0); auto; lia|].
  split; [exact Hnt|]. split; [reflexivity|]. split; [reflexivity|]. split; [reflexivity|]. split; reflexivity.
Qed.

(*@ C67 - C69, non-vacuity: on the default rings map with three rings, findTractIdArray of (0, 0) and (10, 95)
    degrees is refused, of (0, 0) succeeds, and logSkyMapInfo logs all tracts. *)
Example rings_log_example_proof : forall g log, rings_init 3 0 1 = Ok g ->
  let d := rings_def legacy_default (stg_wcs (arcsec_scale (333 / 1000))) 1 g in
  let ft := rings_findTract sphere_offset d g in
  exists s, sm_reachable sphere_offset d s /\ search sphere_offset d ft
    /\ base_idArray ft [0; 10]%R [0; 95]%R true s = (s, Raise InvalidParameterError)
    /\ (exists s' id, base_idArray ft [0; 10]%R [0]%R true s = (s', Ok [id]))
    /\ exists s' log', logSkyMapInfo sphere_offset d (s, log) = ((s', log'), Ok tt) /\ length log' = (length log + 27)%nat.
Proof.
  intros g log Eg d ft.
  destruct (rings_init_wf 3 0 1 g ltac:(lia) Eg) as (W & A & HN & Hra & V).
  destruct (three_rings 0 1 g Eg) as (Hnums & Hsize).
  set (s := mkSM (repeat None (Z.to_nat (sd_num d))) (builder_init legacy_default) 0 [] : smstate sphere).
  assert (Hr : sm_reachable sphere_offset d s) by (exists s; split; [reflexivity|constructor]).
  assert (Hc : cfg_ok legacy_default) by (cbn; lia).
  assert (Hm : standard_wcs (arcsec_scale (333 / 1000)) (stg_wcs (arcsec_scale (333 / 1000)))) by now right.
  destruct (rings_uniform_proof legacy_default _ _ 1 g Hc W Hm) as (_ & K). fold d in K.
  assert (Hs : search sphere_offset d ft) by exact (rings_findTract_search_proof sphere_offset _ _ _ g W).
  exists s. split; [exact Hr|]. split; [exact Hs|]. clearbody s.
  pose proof PI_RGT_0 as HPI. split; [|split].
  - destruct (base_idArray ft [0; 10]%R [0; 95]%R true s) as [s' r] eqn:E.
    destruct (base_findTractIdArray_correct_proof _ d ft _ _ _ s s' r Hs Hr E) as (_ & H & _).
    destruct H as [-> ->]; [|reflexivity]. intros H. specialize (H 10%R 95%R (or_intror (or_introl eq_refl))).
    cbn in H. unfold deg in H. rewrite Rabs_right in H; lra.
  - destruct (proj2 (proj2 (K s Hr)) (spherePoint (deg 0) (deg 0))) as (s' & t & E). fold ft in E.
    exists s', (t_id t). unfold base_idArray, smbind, smlift. cbn [combine mapM fst snd].
    unfold makeSpherePoint. destruct (Rle_bool_spec (Rabs (deg 0)) (PI / 2)) as [_|H].
    2:{ exfalso. unfold deg in H. rewrite Rabs_right in H; lra. }
    cbn [bind]. unfold base_findTractIdArray. cbn [smmap]. unfold smbind, smret. now rewrite E.
  - destruct (logSkyMapInfo sphere_offset d (s, log)) as [[s' log'] r] eqn:E.
    destruct (logSkyMapInfo_correct_proof _ _ _ _ _ _ _ Hr E) as (Ha & k & ts & Hk & HF & -> & Hok & Hbad).
    assert (Er : r = Ok tt).
    { destruct r as [[]|e]; [reflexivity|]. exfalso. destruct (Hbad e eq_refl) as (Hlt & s1 & Ha1 & Hg).
      destruct (proj1 (proj2 (K s1 (reachable_accesses _ _ _ _ Hr Ha1))) k) as (s2 & t & G); [split; [exact Hk|exact Hlt]|].
      rewrite G in Hg. discriminate. }
    subst r. exists s', (log ++ MsgCount (sm_len d s) ::
       map (fun t => MsgTract (t_id t) (tract_getOuterSkyPolygon t) (fst (t_numPatches t)) (snd (t_numPatches t))) ts).
    split; [reflexivity|]. rewrite app_length. cbn [length]. rewrite map_length.
    assert (EL : length ts = length (zrange 0 k)) by (clear - HF; induction HF; cbn; congruence).
    rewrite EL, zrange_length, Hok by reflexivity.
    change (sd_num d) with (rings_numTracts g). unfold rings_numTracts. rewrite Hnums. cbn. lia.
Qed.
