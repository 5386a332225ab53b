(** How large tracts get, and that pixel coordinates fit into the integers of the C++ classes (C100). *)
From Coq Require Import Reals Lra Lia String.
From Flocq Require Import Core.Raux IEEE754.Binary IEEE754.Bits.
Require Import Verif.Py Verif.Geom Verif.PatchInfo Verif.TractBuilder Verif.TractInfo Verif.Spec.
Require Import Verif.PatchProofs Verif.TractProofs Verif.CellProofs Verif.SkyMap Verif.SkySpec Verif.SkyProofs Verif.SkyProofs2 Verif.Uniform.
Require Import Verif.Rings Verif.RingsSpec Verif.RingsProofs Verif.RingsNum Verif.Sphere Verif.SphereProofs Verif.Maps Verif.Dodeca Verif.DodecaSpec.
Require Import Verif.RegionProofs Verif.RingsProofs2 Verif.RingsProofs3 Verif.MainRings Verif.MainRings2 Verif.MainRings4 Verif.MainMaps.
Require Import Verif.Config Verif.ConfigSpec Verif.ConfigProofs Verif.Wcs Verif.WcsSpec Verif.MainWcs Verif.TractBox Verif.RotatedProofs Verif.MainRotated.
Require Import Verif.BoundsSpec Verif.BoundsProofs.
From Coq Require Import ZifyBool.
Open Scope list_scope.
Open Scope Z_scope.
Local Arguments Z.mul : simpl never.

(*@ C100: with either builder, the inner box of every patch handed out is non-empty and within the tract, and its outer box is non-empty and goes
    beyond the tract by at most the patch border (legacy: not at all). *)
Lemma patch_boxes_near_proof : forall (Sky : Type) (offset : Sky -> R -> R -> Sky) c b t ix p,
  cfg_ok c -> in_use offset c b t -> tract_getPatchInfo b t ix = Ok p ->
  near_box 0 0 (t_bbox t) (p_inner p)
  /\ (is_cells c -> near_box (cfg_border c) (cfg_border c) (t_bbox t) (p_outer p))
  /\ (~ is_cells c -> near_box 0 0 (t_bbox t) (p_outer p)).
Proof.
  intros Sky offset c b t ix p Hc Hu H.
  destruct (in_use_spec offset c b t Hc Hu) as (nx & ny & Hi & Hinit & Hnb & Hnt & Hnx & Hny & Hz & HB).
  destruct (cfg_inner_pos c Hc) as [Hw Hh]. pose proof (cfg_border_nonneg c Hc) as Hg. unfold tract_getPatchInfo in H.
  assert (exists x y, getPatchInfo b (IxIndex2D x y) (t_wcs t) = Ok p) as (x & y & H').
  { destruct ix as [x y|n|l|].
    - eauto.
    - destruct (Z.eq_dec nx 0) as [->|Hne].
      + unfold getPatchInfo, getPatchIndexPair in H. rewrite Hinit, Hnb in H. discriminate.
      + rewrite (getPatchInfo_num b nx ny) in H by assumption. eauto.
    - unfold getPatchInfo in H. rewrite Hinit in H.
      destruct l as [|x [|y [|z l]]]; try discriminate. exists x, y.
      unfold getPatchInfo. rewrite Hinit. exact H.
    - unfold getPatchInfo in H. rewrite Hinit in H. discriminate. }
  destruct (getPatchInfo_pair_inv c b nx ny _ x y p Hc Hi Hinit Hnb H') as (Hx & Hy & ->). rewrite HB. clear H H' HB.
  set (g := cfg_border c) in *. unfold near_box, the_patch. cbn [p_inner p_outer minx miny dimx dimy].
  assert (Xx : 0 <= x * fst (cfg_inner c) /\ x * fst (cfg_inner c) + fst (cfg_inner c) <= nx * fst (cfg_inner c)) by nia.
  assert (Yy : 0 <= y * snd (cfg_inner c) /\ y * snd (cfg_inner c) + snd (cfg_inner c) <= ny * snd (cfg_inner c)) by nia.
  split; [lia|]. unfold outer_of. fold g. destruct c as [[w h] bd|[cw ch] cb nI nB]; cbn [is_cells]; (split; intros K; [try contradiction|try tauto]);
    cbn [minx miny dimx dimy fst snd] in *; lia.
Qed.

(*@ C100: the inner and outer boxes of the cells are non-empty and go beyond the tract by at most the border cells plus the cell border, for cells of
    any width and height. *)
Lemma cell_boxes_near_proof : forall (Sky : Type) (offset : Sky -> R -> R -> Sky) cw ch cb nI nB b t X Y p x y e,
  cfg_ok (CellCfg (cw, ch) cb nI nB) -> in_use offset (CellCfg (cw, ch) cb nI nB) b t ->
  tract_getPatchInfo b t (IxIndex2D X Y) = Ok p -> getCellInfo p (IxIndex2D x y) = Ok e ->
  near_box (nB * cw) (nB * ch) (t_bbox t) (c_inner e)
  /\ near_box (nB * cw + cb) (nB * ch + cb) (t_bbox t) (c_outer e).
Proof.
  intros Sky offset cw ch cb nI nB b t X Y p x y e Hc Hu Hp He.
  destruct (cells_of_tract offset cw ch cb nI nB b t X Y p Hc Hu Hp) as (Hi & _).
  destruct (in_use_spec offset _ b t Hc Hu) as (nx & ny & Hi' & Hinit & Hnb & Hnt & Hnx & Hny & Hz & HB).
  destruct (getPatchInfo_pair_inv _ b nx ny _ X Y p Hc Hi' Hinit Hnb Hp) as (HX & HY & _).
  eapply getCellInfo_pair_inv in He; [|eassumption]. destruct He as (Hx & Hy & ->). rewrite HB.
  cbn in Hc. unfold near_box, the_cell. cbn [c_inner c_outer minx miny dimx dimy cfg_inner fst snd].
  destruct Hc as (Hw & Hh & Hb & Hn & HnB).
  assert (A1 : 0 <= X * (cw * nI) /\ X * (cw * nI) + cw * nI <= nx * (cw * nI)) by nia.
  assert (A2 : 0 <= Y * (ch * nI) /\ Y * (ch * nI) + ch * nI <= ny * (ch * nI)) by nia.
  assert (A3 : - (nB * cw) <= (x - nB) * cw /\ (x - nB) * cw + cw <= cw * nI + nB * cw) by nia.
  assert (A4 : - (nB * ch) <= (y - nB) * ch /\ (y - nB) * ch + ch <= ch * nI + nB * ch) by nia.
  split; lia.
Qed.

(*@ C100: a tract given by vertices is less than a patch and 3 pixels wider and higher than the smallest square about the reference pixel that holds the positions of its vertices,
    moved by half the overlap in all directions; if that is representable so are the boxes made on the way: the one around
    these positions and the one grown from it to whole patches. *)
Lemma vertex_tract_size_proof : forall (Sky : Type) (offset : Sky -> R -> R -> Sky) c b oid id ctr verts overlap w corners b' t M,
  cfg_ok c -> builder_reachable c b -> TractInfo_init offset b oid id ctr verts overlap w corners = Ok (b', t) ->
  (0 <= M < IZR (2 ^ 51))%R ->
  (forall v s x y, In v verts -> s = v \/ (exists beta, s = offset v beta (overlap / 2)%R) -> skyToPixel w s = Pix x y -> - M <= x <= M /\ - M <= y <= M)%R ->
  minx (t_bbox t) = 0 /\ miny (t_bbox t) = 0
  /\ (0 <= IZR (dimx (t_bbox t)) < 2 * M + IZR (fst (cfg_inner c)) + 3)%R
  /\ (0 <= IZR (dimy (t_bbox t)) < 2 * M + IZR (snd (cfg_inner c)) + 3)%R
  /\ ((2 * M + IZR (fst (cfg_inner c)) + 3 <= IZR (2 ^ 31))%R -> (2 * M + IZR (snd (cfg_inner c)) + 3 <= IZR (2 ^ 31))%R ->
      fits32 (t_bbox t)
      /\ exists m bbox n, include_all w (min_bbox_samples offset verts overlap) = Ok m
           /\ setupPatches b (box_of_box2d m) = Ok (b', (bbox, n)) /\ fits32 (box_of_box2d m) /\ fits32 bbox).
Proof.
  intros Sky offset c b oid id ctr verts overlap w corners b' t M Hc Hr H HM HS. unfold TractInfo_init in H.
  assert (HS' : forall s x y, In s (min_bbox_samples offset verts overlap) -> skyToPixel w s = Pix x y -> (- M <= x <= M /\ - M <= y <= M)%R).
  { intros s x y Hin. unfold min_bbox_samples in Hin. apply in_flat_map in Hin. destruct Hin as (v & Hv & Hin). apply (HS v s x y Hv).
    unfold overlap_samples in Hin. destruct (Req_bool overlap 0).
    - destruct Hin as [<-|[]]. now left.
    - apply in_map_iff in Hin. destruct Hin as (i & <- & _). right. eauto. }
  destruct (tract_build_size offset c b oid id ctr verts overlap w corners _ b' t M Hc Hr H HM HS')
    as (m & bbox & n & Em & Es & Wd & Hd & (X1 & X2) & (Y1 & Y2) & D1 & D2 & Eb & Gx & Gy & Ex & Ey).
  assert (P1 : 0 <= dimx (t_bbox t)) by (rewrite Eb; cbn; lia). assert (P2 : 0 <= dimy (t_bbox t)) by (rewrite Eb; cbn; lia).
  pose proof (IZR_le _ _ P1). pose proof (IZR_le _ _ P2).
  split; [rewrite Eb; reflexivity|]. split; [rewrite Eb; reflexivity|]. split; [lra|]. split; [lra|]. intros F1 F2.
  destruct (cfg_inner_pos c Hc) as [Hpw Hph]. pose proof (IZR_lt _ _ Hpw). pose proof (IZR_lt _ _ Hph).
  assert (S1 : dimx (t_bbox t) < 2 ^ 31) by (apply lt_IZR; lra). assert (S2 : dimy (t_bbox t) < 2 ^ 31) by (apply lt_IZR; lra).
  set (B := box_of_box2d m) in *. set (pw := fst (cfg_inner c)) in *. set (ph := snd (cfg_inner c)) in *.
  assert (K : forall lo dim g p, 0 <= dim -> dim <= g < dim + p -> 0 < p -> (0 < IZR p)%R -> (- M - / 2 < IZR lo /\ IZR lo + IZR dim < M + 5 / 2)%R ->
             (2 * M + IZR p + 3 <= IZR (2 ^ 31))%R ->
             int32 lo /\ int32 dim /\ int32 (lo + dim) /\ int32 (lo - (g - dim) / 2) /\ int32 (lo - (g - dim) / 2 + g)).
  { intros lo dim g p Hd0 Hg Hp HpR [L1 L2] HF.
    assert (Q : (- IZR (2 ^ 31) < 2 * IZR lo - IZR p /\ 2 * (IZR lo + IZR dim) + IZR p < 2 * IZR (2 ^ 31))%R) by lra.
    assert (Q1 : - 2 ^ 31 < 2 * lo - p). { apply lt_IZR. rewrite minus_IZR, mult_IZR, opp_IZR. lra. }
    assert (Q2 : 2 * (lo + dim) + p < 2 * 2 ^ 31). { apply lt_IZR. rewrite plus_IZR, !mult_IZR, plus_IZR. lra. }
    assert (Q3 : (IZR dim < 2 * M + 3)%R) by lra. assert (Q4 : dim < 2 ^ 31) by (apply lt_IZR; lra).
    pose proof (Z.div_mod (g - dim) 2 ltac:(lia)). pose proof (Z.mod_pos_bound (g - dim) 2 ltac:(lia)).
    assert (Q5 : 2 * (lo - (g - dim) / 2 + g) <= 2 * (lo + dim) + p + 1) by lia.
    assert (Q6 : (IZR (lo + dim) < M + 5 / 2)%R) by (rewrite plus_IZR; lra).
    unfold int32. repeat split; try lia. }
  destruct (K (minx B) (dimx B) (dimx bbox) pw D1 Gx Hpw ltac:(lra) (conj X1 X2) F1) as (A1 & A2 & A3 & A4 & A5). rewrite <- Ex in A4, A5.
  destruct (K (miny B) (dimy B) (dimy bbox) ph D2 Gy Hph ltac:(lra) (conj Y1 Y2) F2) as (B1 & B2 & B3 & B4 & B5). rewrite <- Ey in B4, B5.
  rewrite Eb in S1, S2. cbn [dimx dimy] in S1, S2.
  assert (I0 : int32 0) by (unfold int32; lia).
  assert (I1 : int32 (dimx bbox)) by (unfold int32; lia). assert (I2 : int32 (dimy bbox)) by (unfold int32; lia).
  split; [rewrite Eb; unfold fits32; cbn [minx miny dimx dimy]; rewrite !Z.add_0_l; auto 10|].
  exists m, bbox, n. split; [exact Em|]. split; [exact Es|]. unfold fits32. auto 15.
Qed.

Lemma near_fits gx gy a b : minx a = 0 -> miny a = 0 -> 0 <= dimx a -> 0 <= dimy a -> 0 <= gx -> 0 <= gy -> near_box gx gy a b ->
  dimx a + 2 * gx < 2 ^ 31 -> dimy a + 2 * gy < 2 ^ 31 -> fits32 b.
Proof. unfold near_box, fits32, int32. lia. Qed.

(*@ C100: so when the tract's width and height plus twice the extent of the border cells (larger side) and cell border (legacy: plus twice the patch border) are below 2^31, all coordinates of the
    tract, of its patches and of their cells, are values of 32 bit integers. *)
Lemma boxes_fit_proof : forall (Sky : Type) (offset : Sky -> R -> R -> Sky) c b t,
  cfg_ok c -> in_use offset c b t ->
  let gy := match c with CellCfg (cw, ch) cb nI nB => Z.max cw ch * nB + cb | LegacyCfg _ border => border end in
  dimx (t_bbox t) + 2 * gy < 2 ^ 31 -> dimy (t_bbox t) + 2 * gy < 2 ^ 31 ->
  fits32 (t_bbox t)
  /\ forall ix p, tract_getPatchInfo b t ix = Ok p -> fits32 (p_inner p) /\ fits32 (p_outer p)
       /\ forall x y e, getCellInfo p (IxIndex2D x y) = Ok e -> fits32 (c_inner e) /\ fits32 (c_outer e).
Proof.
  intros Sky offset c b t Hc Hu gy Fx Fy.
  destruct (in_use_spec offset c b t Hc Hu) as (nx & ny & Hi & Hinit & Hnb & Hnt & Hnx & Hny & Hz & HB).
  destruct (cfg_inner_pos c Hc) as [Hw Hh].
  assert (D : minx (t_bbox t) = 0 /\ miny (t_bbox t) = 0 /\ 0 <= dimx (t_bbox t) /\ 0 <= dimy (t_bbox t)).
  { rewrite HB. cbn [minx miny dimx dimy]. nia. }
  destruct D as (D1 & D2 & D3 & D4).
  assert (Hg : 0 <= gy /\ cfg_border c <= gy).
  { unfold gy, cfg_border. destruct c as [[w h] bd|[cw ch] cb nI nB]; cbn in Hc; nia. }
  split; [unfold fits32, int32; lia|]. intros ix p Hp.
  destruct (patch_boxes_near_proof Sky offset c b t ix p Hc Hu Hp) as (N1 & N2 & N3).
  assert (N4 : near_box gy gy (t_bbox t) (p_outer p)).
  { pose proof (cfg_border_nonneg c Hc). assert (is_cells c \/ ~ is_cells c) as [K|K] by (destruct c; cbn; auto).
    - specialize (N2 K). unfold near_box in *. lia.
    - specialize (N3 K). unfold near_box in *. lia. }
  split; [eapply (near_fits 0 0); eauto; lia|]. split; [eapply (near_fits gy gy); eauto; lia|].
  intros x y e He. destruct c as [inner bd|[cw ch] cb nI nB].
  - exfalso. unfold tract_getPatchInfo in Hp.
    assert (E0 : p_numCells p = (0, 0)).
    { destruct Hi as [Hcfg _ _ _]. unfold getPatchInfo in Hp. rewrite Hcfg in Hp. destruct (negb (b_initialized b)); [discriminate|].
      destruct (match ix with IxIndex2D x y => Ok (x, y) | IxNum n => getPatchIndexPair b n | _ => index2D_of_star ix end) as [[i j]|]; cbn [bind] in Hp; [|discriminate].
      rewrite Hnb in Hp. destruct (_ || _)%bool; [discriminate|]. destruct (negb (box_contains_box _ _)); [discriminate|].
      unfold getSequentialPatchIndexFromPair in Hp. rewrite Hnb in Hp. cbn [bind] in Hp. unfold PatchInfo_init in Hp. destruct (negb _); cbn [bind] in Hp; [discriminate|].
      injection Hp as <-. reflexivity. }
    unfold getCellInfo in He. rewrite E0 in He. discriminate.
  - assert (Hp' : exists X Y, tract_getPatchInfo b t (IxIndex2D X Y) = Ok p).
    { unfold tract_getPatchInfo in *. destruct ix as [i j|n|l|].
      - eauto.
      - destruct (Z.eq_dec nx 0) as [->|Hne].
        + unfold getPatchInfo, getPatchIndexPair in Hp. rewrite Hinit, Hnb in Hp. discriminate.
        + rewrite (getPatchInfo_num b nx ny) in Hp by assumption. eauto.
      - unfold getPatchInfo in Hp. rewrite Hinit in Hp. destruct l as [|i [|j [|z l]]]; try discriminate. exists i, j.
        unfold getPatchInfo. rewrite Hinit. exact Hp.
      - unfold getPatchInfo in Hp. rewrite Hinit in Hp. discriminate. }
    destruct Hp' as (X & Y & Hp').
    destruct (cell_boxes_near_proof Sky offset cw ch cb nI nB b t X Y p x y e Hc Hu Hp' He) as [C1 C2].
    cbn in Hc. assert (G : nB * cw <= Z.max cw ch * nB /\ nB * ch <= Z.max cw ch * nB) by nia. unfold gy in *.
    split.
    + eapply (near_fits (nB * cw) (nB * ch)); eauto; nia.
    + eapply (near_fits (nB * cw + cb) (nB * ch + cb)); eauto; nia.
Qed.

(*@ C100: a tract given by a radius and an overlap, with a TAN or STG WCS of any pixel scale, rotation and handedness about its centre: let r be the distance in the plane, in pixels, that corresponds to
    radius plus overlap and h the larger of |cos rotation| and |sin rotation|.  The tract is at least 2 h r wide and high, and less than a patch and 3 pixels more. *)
Lemma explicit_size_proof : forall name dist limit scale rotation flipX ctr w c b oid id radius overlap corners b' t r,
  In (name, dist, limit) zenithal_kinds -> (0 < scale)%R -> zenithal_at dist limit scale rotation flipX ctr 0 0 w ->
  cfg_ok c -> builder_reachable c b -> (0 <= r < IZR (2 ^ 51))%R -> dist (r * scale)%R = (radius + overlap)%R ->
  ExplicitTractInfo_init sphere_offset b oid id ctr radius overlap w corners = Ok (b', t) ->
  let M := (axis_part rotation * r)%R in
  (2 * M <= IZR (dimx (t_bbox t)) < 2 * M + IZR (fst (cfg_inner c)) + 3)%R
  /\ (2 * M <= IZR (dimy (t_bbox t)) < 2 * M + IZR (snd (cfg_inner c)) + 3)%R.
Proof.
  intros name dist limit scale rotation flipX ctr w c b oid id radius overlap corners b' t r Hk Hs HW Hc Hb Hr Hd H M.
  destruct (explicit_init_inv _ _ _ _ _ _ _ _ _ _ _ _ H) as (t0 & H0 & _ & -> & _).
  pose proof (rotated_samples dist limit scale rotation flipX ctr w HW radius overlap r (proj1 Hr) Hd) as Hsam. cbv zeta in Hsam.
  set (m := if flipX then 1%R else (-1)%R) in *.
  assert (Hm : m = 1%R \/ m = (-1)%R) by (unfold m; destruct flipX; auto). clearbody m.
  destruct (axis_part_bounds rotation) as [HA _].
  assert (HM : (0 <= M < IZR (2 ^ 51))%R) by (unfold M; split; nra).
  destruct (tract_build_size sphere_offset c b oid id ctr _ overlap w corners _ b' t0 M Hc Hb H0 HM) as (_ & _ & _ & _ & _ & Wd & Hd' & _).
  { intros s x y Hin E. apply (sample_bounds rotation r m (proj1 Hr) Hm). eapply in_map_pix; eauto. }
  assert (P : forall x y, In (Pix x y) [Pix (r * (m * cos rotation)) (r * sin rotation); Pix (r * (- m * sin rotation)) (r * cos rotation);
     Pix (r * (- m * cos rotation)) (r * - sin rotation); Pix (r * (m * sin rotation)) (r * - cos rotation)] ->
     exists s, In s (explicit_samples sphere_offset ctr radius overlap) /\ skyToPixel w s = Pix x y).
  { intros x y Hin. exact (in_pix_map _ _ _ _ Hsam Hin). }
  destruct (P _ _ (or_introl eq_refl)) as (s1 & I1 & E1). destruct (P _ _ (or_intror (or_introl eq_refl))) as (s2 & I2 & E2).
  destruct (P _ _ (or_intror (or_intror (or_introl eq_refl)))) as (s3 & I3 & E3). destruct (P _ _ (or_intror (or_intror (or_intror (or_introl eq_refl))))) as (s4 & I4 & E4).
  assert (HX : (axis_part rotation = Rabs (cos rotation) \/ axis_part rotation = Rabs (sin rotation))%R).
  { unfold axis_part. apply Rmax_case_strong; intros _; auto. }
  destruct (tract_build_reach sphere_offset c b oid id ctr _ overlap w corners _ b' t0 M Hc Hb H0) as [Rx Ry].
  set (c1 := cos rotation) in *. set (d1 := sin rotation) in *. unfold M in *. clearbody c1 d1.
  assert (K : ((exists s x y, In s (explicit_samples sphere_offset ctr radius overlap) /\ skyToPixel w s = Pix x y /\ x = - (axis_part rotation * r))
      /\ (exists s x y, In s (explicit_samples sphere_offset ctr radius overlap) /\ skyToPixel w s = Pix x y /\ x = axis_part rotation * r)
      /\ (exists s x y, In s (explicit_samples sphere_offset ctr radius overlap) /\ skyToPixel w s = Pix x y /\ y = - (axis_part rotation * r))
      /\ (exists s x y, In s (explicit_samples sphere_offset ctr radius overlap) /\ skyToPixel w s = Pix x y /\ y = axis_part rotation * r))%R).
  { unfold Rabs in HX. destruct (Rcase_abs c1), (Rcase_abs d1), Hm as [-> | ->], HX as [-> | ->];
      repeat split;
      solve [ exists s1; do 2 eexists; split; [exact I1|]; split; [exact E1|]; ring
            | exists s2; do 2 eexists; split; [exact I2|]; split; [exact E2|]; ring
            | exists s3; do 2 eexists; split; [exact I3|]; split; [exact E3|]; ring
            | exists s4; do 2 eexists; split; [exact I4|]; split; [exact E4|]; ring ]. }
  destruct K as (K1 & K2 & K3 & K4). split; [split; [exact (Rx (conj K1 K2))|exact Wd]|split; [exact (Ry (conj K3 K4))|exact Hd']].
Qed.

(*@ C100: hence for Rings and Discrete sky maps with the TAN or STG projection, made from a configuration with any pixel scale and rotation, at any point of their life: every tract is from
    2 h r up to 2 h r plus a patch and 3 pixels wide and high, where r is the distance in the plane, in pixels, of its radius (half the ring height, or the listed radius) plus the overlap. *)
Lemma map_tract_size_proof : forall named p2a bnd order sha1 c ver m0 m i t radius name dist limit r, knows named ->
  construct sphere_offset (factory_wcs named) p2a bnd order c ver = Ok m0 -> used sphere_offset sha1 m0 m ->
  cfg_ok (selected (c_tb c)) -> (forall n ra, c_class c = RingsCfg n ra -> 1 <= n) -> (0 < f2r (c_scale c))%R ->
  c_projection c = of_string name -> In (name, dist, limit) zenithal_kinds ->
  holds sphere_offset (m_def m) i (m_state m) t -> tract_radius (c_class c) i radius ->
  (0 <= r < IZR (2 ^ 51))%R -> dist (r * (f2r (c_scale c) * (PI / 648000)))%R = (radius + f2r (c_overlap c) * (PI / 180))%R ->
  let M := (axis_part (f2r (c_rotation c) * (PI / 180)) * r)%R in
  (2 * M <= IZR (dimx (t_bbox t)) < 2 * M + IZR (fst (cfg_inner (selected (c_tb c)))) + 3)%R
  /\ (2 * M <= IZR (dimy (t_bbox t)) < 2 * M + IZR (snd (cfg_inner (selected (c_tb c)))) + 3)%R.
Proof.
  intros named p2a bnd order sha1 c ver m0 m i t radius name dist limit r Hk C U Hc Hn Hs Hname Hin Hh Hrad Hr Hd.
  destruct (held_explicit named p2a bnd order sha1 c ver m0 m i t radius name C U Hn Hname Hh Hrad) as (b & b' & oid & cor & Hb & E).
  assert (Hp : (0 < f2r (c_scale c) * (PI / 648000))%R) by (apply Rmult_lt_0_compat; [exact Hs|pose proof PI_RGT_0; lra]).
  pose proof (factory_zenithal named name dist limit (f2r (c_scale c)) (f2r (c_rotation c)) (t_ctr t) Hk Hin Hs) as Z.
  exact (explicit_size_proof name dist limit _ _ false (t_ctr t) _ _ b oid i radius _ cor b' t r Hin Hp Z Hc Hb Hr Hd E).
Qed.

(*@ C100: the tracts of an Equat map with the CEA projection (its default) fit whenever the pixel scale is such that the sphere does: their width and height are below
    (2 pi + 2) / scale plus a patch and 3 pixels, whatever the rotation, the number of tracts, the declinations and the overlap. *)
Lemma equat_tract_size_proof : forall named c scale rotation ov n decs d s i t, knows named -> (0 < scale)%R ->
  cfg_ok c -> 0 < n -> equat_def c (factory_wcs named (of_string "CEA") scale rotation) ov n decs = Ok d ->
  sm_reachable sphere_offset d s -> holds sphere_offset d i s t ->
  let M := ((PI + 1) / (scale * (PI / 648000)))%R in (M < IZR (2 ^ 51))%R ->
  (0 <= IZR (dimx (t_bbox t)) < 2 * M + IZR (fst (cfg_inner c)) + 3)%R
  /\ (0 <= IZR (dimy (t_bbox t)) < 2 * M + IZR (snd (cfg_inner c)) + 3)%R.
Proof.
  intros named c scale rotation ov n decs d s i t (_ & _ & N3) Hs Hc Hn Hd Hr Hh M HM. pose proof PI_RGT_0 as HP.
  destruct (MainEquat.equat_made _ _ _ _ _ _ _ _ _ Hn Hd Hr Hh) as (_ & b & oid & b' & ctr & Hb & E).
  assert (Ea : arcsec scale = (scale * (PI / 648000))%R) by (unfold arcsec, deg; field).
  pose proof (arcsec_pos scale Hs) as Hp.
  assert (HM0 : (0 <= M)%R) by (unfold M; rewrite <- Ea; apply Rmult_le_pos; [lra|left; now apply Rinv_0_lt_compat]).
  destruct (vertex_tract_size_proof _ sphere_offset c b oid i ctr _ _ _ None b' t M Hc Hb E (conj HM0 HM)) as (_ & _ & A & B & _); [|auto].
  intros _ p x y _ _ Hxy. unfold factory_wcs, makeWcs in Hxy. cbn [f_projection f_cdMatrix] in Hxy. rewrite N3 in Hxy.
  cbn [makeSkyWcs skyToPixel fst snd proj_CEA plane_of] in Hxy. cbv zeta in Hxy. rewrite cd_inverse_apply in Hxy by exact Hp. cbn [fst snd flip_sign] in Hxy.
  match type of Hxy with context [atan2 ?a ?b'] => pose proof (MainEquat.atan2_range a b') as L; set (lon := atan2 a b') in * end.
  set (z := dot (vec_of p) (north _)) in *.
  assert (Z1 : (-1 <= z <= 1)%R).
  { unfold z. match goal with |- context [north ?q] => pose proof (frame_norm q (vec_of p) (vec_of_unit p)) as Hf end.
    clear - Hf. match goal with |- (_ <= ?u <= _)%R => set (v := u) in * end. clearbody v. split; nra. }
  rewrite !asDegrees_deg in Hxy. clearbody lon z. injection Hxy as <- <-. rewrite !Rplus_0_l.
  unfold M. rewrite <- Ea. clear - Hp L Z1 HP. pose proof (COS_bound (deg rotation)). pose proof (SIN_bound (deg rotation)).
  set (k := cos (deg rotation)) in *. set (q := sin (deg rotation)) in *. clearbody k q.
  assert (I : (0 < / arcsec scale)%R) by now apply Rinv_0_lt_compat. unfold Rdiv.
  assert (W : forall e, (- (PI + 1) <= e <= PI + 1 -> - ((PI + 1) * / arcsec scale) <= e * / arcsec scale <= (PI + 1) * / arcsec scale)%R).
  { intros e He. split; [rewrite Ropp_mult_distr_l|]; apply Rmult_le_compat_r; lra. }
  assert (Q1 : (- PI <= lon * k <= PI)%R) by (split; nra). assert (Q2 : (- PI <= lon * q <= PI)%R) by (split; nra).
  assert (Q3 : (-1 <= z * k <= 1)%R) by (split; nra). assert (Q4 : (-1 <= z * q <= 1)%R) by (split; nra).
  split; apply W; lra.
Qed.

(** A Discrete map of one tract of radius 4 degrees with the STG projection and the default settings but for the pixel scale. *)
Lemma one_tract_map p2a bnd order sha1 fs r : (0 < f2r fs)%R -> (0 <= r < IZR (2 ^ 51))%R ->
  (r * (f2r fs * (PI / 648000)) = 2 * tan (deg 5 / 2))%R ->
  let c := mkConfig tb_default f64_one fs (of_string "STG") f64_zero (DiscreteCfg [f64_3_5] [f64_45] [f64_4]) in
  exists m0 m t, construct sphere_offset (factory_wcs fits_projections) p2a bnd order c None = Ok m0 /\ used sphere_offset sha1 m0 m
    /\ cfg_ok (selected (c_tb c)) /\ holds sphere_offset (m_def m) 0 (m_state m) t
    /\ in_use sphere_offset (selected (c_tb c)) (sm_builder (m_state m)) t
    /\ tract_radius (c_class c) 0 (deg 4) /\ axis_part (f2r (c_rotation c) * (PI / 180)) = 1%R
    /\ (2 * atan (r * (f2r (c_scale c) * (PI / 648000)) / 2) = deg 4 + f2r (c_overlap c) * (PI / 180))%R
    /\ (2 * r <= IZR (dimx (t_bbox t)) < 2 * r + 4003)%R /\ (2 * r <= IZR (dimy (t_bbox t)) < 2 * r + 4003)%R.
Proof.
  intros Hs Hr Er c. pose proof PI_RGT_0 as HP.
  assert (Hk : knows fits_projections) by (unfold knows, fits_projections; repeat split).
  assert (Hc : cfg_ok (selected (c_tb c))) by (cbn; lia).
  assert (F1 : f2r f64_one = 1%R) by (vm_compute; lra). assert (F2 : f2r f64_45 = 45%R) by (vm_compute; lra).
  assert (F4 : f2r f64_4 = 4%R) by (vm_compute; lra). assert (F5 : f2r f64_zero = 0%R) by (vm_compute; lra).
  set (dc := mkDiscrete [f2r f64_3_5] [f2r f64_45] [f2r f64_4]).
  set (mk := factory_wcs fits_projections (of_string "STG") (f2r (c_scale c)) (f2r (c_rotation c))).
  set (d := discrete_def (selected (c_tb c)) mk (f2r f64_one) dc).
  assert (E0 : exists s0, sm_new sphere_offset d = Ok s0) by (eexists; reflexivity). destruct E0 as (s0 & E0).
  set (m0 := mkMap c (VerInt 0) d s0 None).
  assert (C0 : construct sphere_offset (factory_wcs fits_projections) p2a bnd order c None = Ok m0).
  { unfold construct. cbn [c_class c]. unfold wcsFactory. cbn [c_projection c].
    change (Nat.eqb (length (of_string "STG")) 3) with true. cbn [negb bind]. unfold finish.
    change (sm_new sphere_offset _) with (sm_new sphere_offset d). rewrite E0. reflexivity. }
  assert (Hr0 : sm_reachable sphere_offset d s0) by (exists s0; split; [exact E0|constructor]).
  destruct (discrete_access_proof sphere_offset (selected (c_tb c)) mk (f2r f64_one) dc s0 0 Hc Hr0) as [A _].
  { intros k co e. unfold mk, factory_wcs, makeWcs. cbn [makeSkyWcs skyToPixel]. destruct (plane_of _ _ _); discriminate. }
  { cbn. lia. }
  destruct (A eq_refl) as (s & t & G).
  { cbn [dc dc_dec In]. rewrite F2. intros dec [<-|[]]; lra. }
  destruct (getitem_holds sphere_offset d s0 0 s t Hr0 ltac:(lia) G) as (Hr' & Ac & Hh).
  set (m := mkMap c (VerInt 0) d s None).
  assert (Hu : used sphere_offset sha1 m0 m) by (apply (used_access sphere_offset sha1 m0 m0 s (used_not _ _ _) Ac)).
  assert (Hrad : tract_radius (c_class c) 0 (deg 4)) by (exists f64_4; split; [reflexivity|now rewrite F4]).
  assert (Ht : (0 < deg 5 / 2 < PI / 2)%R) by (unfold deg; lra).
  assert (Ed : (2 * atan (r * (f2r (c_scale c) * (PI / 648000)) / 2) = deg 4 + f2r (c_overlap c) * (PI / 180))%R).
  { change (c_scale c) with fs. rewrite Er. change (c_overlap c) with f64_one. rewrite F1.
    replace (2 * tan (deg 5 / 2) / 2)%R with (tan (deg 5 / 2)) by lra. rewrite atan_tan by lra. unfold deg. lra. }
  assert (Hax : axis_part (f2r (c_rotation c) * (PI / 180)) = 1%R).
  { change (c_rotation c) with f64_zero. rewrite F5, Rmult_0_l. unfold axis_part. rewrite cos_0, sin_0, Rabs_R1, Rabs_R0. apply Rmax_left. lra. }
  assert (Hin : In ("STG"%string, (fun x => 2 * atan (x / 2))%R, PI) zenithal_kinds) by (right; left; reflexivity).
  pose proof (map_tract_size_proof fits_projections p2a bnd order sha1 c None m0 m 0 t (deg 4) "STG" _ PI r Hk C0 Hu Hc ltac:(intros; discriminate) Hs eq_refl Hin Hh Hrad Hr Ed) as S.
  cbv zeta in S. rewrite Hax, Rmult_1_l in S. change (fst (cfg_inner (selected (c_tb c)))) with 4000 in S. change (snd (cfg_inner (selected (c_tb c)))) with 4000 in S.
  exists m0, m, t. split; [exact C0|]. split; [exact Hu|]. split; [exact Hc|]. split; [exact Hh|].
  split; [|split; [exact Hrad|]; split; [exact Hax|]; split; [exact Ed|lra]].
  destruct (builder_last sphere_offset d s Hc Hr' (holds_log_ne sphere_offset _ _ 0 t Hr' Hh)) as (j & u & Hj & U & _).
  assert (j = 0) as -> by (destruct (holds_args sphere_offset d s j u Hr' Hj) as (B & _); cbn in B; lia).
  rewrite (holds_fun sphere_offset d s 0 t u Hh Hj). exact U.
Qed.

(** 2^-20 *)
Definition f64_micro : binary64 := b64_of_bits 0x3EB0000000000000.

(*@ C100, refuted: that every pixel scale accepted by the configuration works.  With the default settings but a pixel scale of 2^-20 arcseconds, a Discrete map with one tract of radius 4 degrees needs
    a tract box of more than 2^31 pixels, which Box2I cannot represent (the model, with unbounded integers, makes it; the program cannot). *)
Lemma tiny_pixels_refuted_proof : forall p2a bnd order sha1,
  let c := mkConfig tb_default f64_one f64_micro (of_string "STG") f64_zero (DiscreteCfg [f64_3_5] [f64_45] [f64_4]) in
  exists m0 m t, construct sphere_offset (factory_wcs fits_projections) p2a bnd order c None = Ok m0 /\ used sphere_offset sha1 m0 m
    /\ cfg_ok (selected (c_tb c)) /\ (0 < f2r (c_scale c))%R /\ holds sphere_offset (m_def m) 0 (m_state m) t /\ ~ fits32 (t_bbox t).
Proof.
  intros p2a bnd order sha1 c. pose proof PI_RGT_0 as HP. pose proof PI_lower as PL. pose proof PI_upper as PU.
  assert (F : f2r f64_micro = (/ IZR (2 ^ 20))%R) by (vm_compute; lra).
  assert (F2 : IZR (2 ^ 20) = 1048576%R) by reflexivity. rewrite F2 in F.
  destruct (tan_bounds (deg 5 / 2) ltac:(unfold deg; lra) ltac:(unfold deg; lra)) as [T1 T2].
  assert (T3 : (tan (deg 5 / 2) <= 1)%R).
  { rewrite <- tan_PI4. destruct (Req_dec (deg 5 / 2) (PI / 4)) as [->|N]; [lra|]. left. apply tan_increasing; unfold deg in *; lra. }
  assert (ET : exists T, T = tan (deg 5 / 2)) by eauto. destruct ET as (T & ET). rewrite <- ET in T1, T2, T3.
  set (sc := (f2r f64_micro * (PI / 648000))%R). assert (Hsc : (4 / 1000000000000 <= sc <= 5 / 1000000000000)%R) by (unfold sc; rewrite F; lra).
  set (r := (2 * T / sc)%R).
  assert (Er : (r * sc = 2 * T)%R) by (unfold r; field; lra).
  assert (T0 : (43 / 1000 <= T)%R) by (unfold deg in T1; lra).
  assert (Hr : (2147483648 <= r <= 1000000000000)%R).
  { clearbody r sc. clear - Er Hsc T0 T3. split; nra. }
  assert (Hr2 : (0 <= r < IZR (2 ^ 51))%R) by (split; [lra|]; apply Rle_lt_trans with 1000000000000%R; [lra|apply IZR_lt; reflexivity]).
  destruct (one_tract_map p2a bnd order sha1 f64_micro r ltac:(rewrite F; lra) Hr2) as (m0 & m & t & C0 & Hu & Hc & Hh & _ & _ & _ & _ & D & _).
  { rewrite <- ET. unfold sc in Er. exact Er. }
  exists m0, m, t. split; [exact C0|]. split; [exact Hu|]. split; [exact Hc|]. split; [change (c_scale c) with f64_micro; rewrite F; lra|].
  split; [exact Hh|]. intros (_ & _ & [_ K] & _). apply IZR_lt in K. change (IZR (2 ^ 31)) with 2147483648%R in K. lra.
Qed.

(*@ C100, non-vacuity: with the default pixel scale the same map meets the assumptions of the above, and the boxes of its tract, patches and cells fit. *)
Example tract_size_example_proof : forall p2a bnd order sha1,
  let c := mkConfig tb_default f64_one f64_0_333 (of_string "STG") f64_zero (DiscreteCfg [f64_3_5] [f64_45] [f64_4]) in
  exists m0 m t r, construct sphere_offset (factory_wcs fits_projections) p2a bnd order c None = Ok m0 /\ used sphere_offset sha1 m0 m
    /\ cfg_ok (selected (c_tb c)) /\ (0 < f2r (c_scale c))%R /\ holds sphere_offset (m_def m) 0 (m_state m) t
    /\ in_use sphere_offset (selected (c_tb c)) (sm_builder (m_state m)) t
    /\ tract_radius (c_class c) 0 (deg 4) /\ (0 <= r < IZR (2 ^ 51))%R
    /\ (2 * atan (r * (f2r (c_scale c) * (PI / 648000)) / 2) = deg 4 + f2r (c_overlap c) * (PI / 180))%R
    /\ (exists p, tract_getPatchInfo (sm_builder (m_state m)) t (IxIndex2D 0 0) = Ok p)
    /\ fits32 (t_bbox t)
    /\ forall ix p, tract_getPatchInfo (sm_builder (m_state m)) t ix = Ok p -> fits32 (p_inner p) /\ fits32 (p_outer p).
Proof.
  intros p2a bnd order sha1 c. pose proof PI_RGT_0 as HP. pose proof PI_lower as PL. pose proof PI_upper as PU.
  assert (F : (333 / 1001 <= f2r f64_0_333 <= 334 / 1000)%R) by (vm_compute; lra).
  destruct (tan_bounds (deg 5 / 2) ltac:(unfold deg; lra) ltac:(unfold deg; lra)) as [T1 T2].
  assert (T3 : (tan (deg 5 / 2) <= 1)%R).
  { rewrite <- tan_PI4. destruct (Req_dec (deg 5 / 2) (PI / 4)) as [->|N]; [lra|]. left. apply tan_increasing; unfold deg in *; lra. }
  set (sc := (f2r f64_0_333 * (PI / 648000))%R).
  assert (Hsc : (11 / 10000000 <= sc <= 17 / 10000000)%R).
  { unfold sc. set (f := f2r f64_0_333) in *. clearbody f. split.
    - apply Rle_trans with (333 / 1001 * (314 / 100 / 648000))%R; [lra|]. apply Rmult_le_compat; lra.
    - apply Rle_trans with (334 / 1000 * (315 / 100 / 648000))%R; [|lra]. apply Rmult_le_compat; lra. }
  set (r := (2 * tan (deg 5 / 2) / sc)%R).
  assert (Er : (r * sc = 2 * tan (deg 5 / 2))%R) by (unfold r; field; lra).
  assert (T0 : (43 / 1000 <= tan (deg 5 / 2))%R) by (unfold deg in *; lra).
  assert (Hr : (1 <= r <= 100000000)%R).
  { clearbody r sc. split; nra. }
  assert (Hr2 : (0 <= r < IZR (2 ^ 51))%R) by (split; [lra|]; apply Rle_lt_trans with 100000000%R; [lra|apply IZR_lt; reflexivity]).
  destruct (one_tract_map p2a bnd order sha1 f64_0_333 r ltac:(lra) Hr2 Er) as (m0 & m & t & C0 & Hu & Hc & Hh & Hin & Hrad & _ & Ed & Dx & Dy).
  exists m0, m, t, r. split; [exact C0|]. split; [exact Hu|]. split; [exact Hc|]. split; [change (c_scale c) with f64_0_333; lra|].
  split; [exact Hh|]. split; [exact Hin|]. split; [exact Hrad|]. split; [exact Hr2|]. split; [exact Ed|].
  assert (Bx : dimx (t_bbox t) < 300000000) by (apply lt_IZR; lra). assert (By : dimy (t_bbox t) < 300000000) by (apply lt_IZR; lra).
  assert (B0 : 0 < dimx (t_bbox t)) by (apply lt_IZR; lra). assert (B1 : 0 < dimy (t_bbox t)) by (apply lt_IZR; lra).
  destruct (in_use_spec sphere_offset _ _ t Hc Hin) as (nx & ny & Hi & Hinit & Hnb & Hnt & Hnx & Hny & Hz & HB).
  rewrite HB in B0, B1. cbn [dimx dimy] in B0, B1.
  split.
  { exists (the_patch (selected (c_tb c)) nx ny (t_wcs t) 0 0). unfold tract_getPatchInfo. apply getPatchInfo_pair; try assumption; nia. }
  destruct (boxes_fit_proof _ sphere_offset _ _ t Hc Hin) as [A B].
  - change (dimx (t_bbox t) + 2 * 100 < 2147483648). clear - Bx. lia.
  - change (dimy (t_bbox t) + 2 * 100 < 2147483648). clear - By. lia.
  - split; [exact A|]. intros ix p Hp. destruct (B ix p Hp) as (Q1 & Q2 & _). auto.
Qed.
