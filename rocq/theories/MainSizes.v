(** Patch sizes and borders that the configuration accepts (C91). *)
From Coq Require Import Reals ZArith Lia List Bool.
Require Import Verif.Py Verif.Geom Verif.PatchInfo Verif.TractBuilder Verif.TractInfo Verif.Spec Verif.PatchProofs.
Require Import Verif.SkyMap Verif.SkySpec Verif.SkyProofs Verif.SkyProofs2 Verif.Uniform Verif.MainSky Verif.Register Verif.RegSpec Verif.RegProofs Verif.RegProofs2 Verif.MainRegister.
From Coq Require Import ZifyBool.
Import ListNotations.
Open Scope Z_scope.
Local Arguments Z.mul : simpl never.
Local Arguments Z.add : simpl never.

(** A builder has the geometry of its configuration, sensible or not. *)
Lemma builder_geometry c b : builder_reachable c b ->
  b_config b = c /\ b_patchInner b = cfg_inner c /\ b_patchBorder b = cfg_border c.
Proof.
  induction 1 as [|b m b' out _ (A & B & C) Hm Hs].
  - destruct c as [[w h] bd|[w h] cb n nb]; cbn; auto.
  - unfold setupPatches in Hs. destruct (setup_axis _ _ _) as [[[x0 w] nx]|]; [|discriminate]. cbn [bind] in Hs.
    destruct (setup_axis _ _ _) as [[[y0 h] ny]|]; [|discriminate]. cbn [bind] in Hs. injection Hs as <- _. cbn. auto.
Qed.

Lemma axis_zero mn dim : setup_axis mn dim 0 = Raise ZeroDivisionError.
Proof. reflexivity. Qed.
Lemma axis_total mn dim w : w <> 0 -> exists mn' dim' num, setup_axis mn dim w = Ok (mn', dim', num)
  /\ (0 < w -> 0 <= dim -> dim' = num * w /\ dim <= num * w < dim + w)
  /\ (w < 0 -> dim' = dim /\ num = (dim + w - 1) / w).
Proof.
  intros Hw. destruct (Z_lt_le_dec 0 w) as [H|H].
  - unfold setup_axis, py_floordiv. destruct (Z.eqb_spec w 0); [lia|]. cbn [bind].
    pose proof (Z.div_mod (dim + w - 1) w ltac:(lia)) as D. pose proof (Z.mod_pos_bound (dim + w - 1) w H) as M.
    set (num := (dim + w - 1) / w) in *. clearbody num. destruct (Z.ltb_spec 0 (w * num - dim)); eexists _, _, _; split; try reflexivity; split; intros; nia.
  - unfold setup_axis, py_floordiv. destruct (Z.eqb_spec w 0); [lia|]. cbn [bind].
    pose proof (Z.div_mod (dim + w - 1) w ltac:(lia)) as D. pose proof (Z.mod_neg_bound (dim + w - 1) w ltac:(lia)) as M.
    set (num := (dim + w - 1) / w) in *. clearbody num. destruct (Z.ltb_spec 0 (w * num - dim)); [exfalso; nia|]. eexists _, _, _; split; [reflexivity|]. split; intros; [lia|auto].
Qed.

(*@ C91: setting up the patches of a tract (any minimum box) raises ZeroDivisionError if the configured patch inner size is zero along an axis, and
    succeeds otherwise, negative sizes included; no exception comes from any border. *)
Lemma zero_size_proof : forall c b m, builder_reachable c b ->
  (fst (cfg_inner c) = 0 \/ snd (cfg_inner c) = 0 -> setupPatches b m = Raise ZeroDivisionError)
  /\ (fst (cfg_inner c) <> 0 -> snd (cfg_inner c) <> 0 -> exists b' out, setupPatches b m = Ok (b', out)).
Proof.
  intros c b m Hr. destruct (builder_geometry c b Hr) as (_ & E & _). unfold setupPatches. rewrite E. split.
  - intros H. destruct (Z.eq_dec (fst (cfg_inner c)) 0) as [E0|E0].
    + rewrite E0, axis_zero. reflexivity.
    + destruct H as [H|H]; [contradiction|]. destruct (axis_total (minx m) (dimx m) _ E0) as (a & d & n & -> & _). cbn [bind]. rewrite H, axis_zero. reflexivity.
  - intros H1 H2. destruct (axis_total (minx m) (dimx m) _ H1) as (a & d & n & -> & _). destruct (axis_total (miny m) (dimy m) _ H2) as (a' & d' & n' & -> & _).
    cbn [bind]. eauto.
Qed.

(** Along one axis: the patch inner size is positive, or it is -1 and the tract is one pixel wide. *)
Definition axis_usable (size dim : Z) : Prop := 0 < size \/ size = -1 /\ dim = 1.

Lemma contains_grown i n T : 0 < dimx i -> 0 < dimy i -> box_contains_box T i = true ->
  box_contains_box (box_grow i n) i = (0 <=? n) /\ box_contains_box (box_clip (box_grow i n) T) i = (0 <=? n).
Proof.
  intros Hx Hy HT. destruct i as [x y w h], T as [X Y W H]. cbn [dimx dimy] in Hx, Hy.
  assert (Eg : box_grow (Box x y w h) n = if (w + 2 * n <=? 0) || (h + 2 * n <=? 0) then box_empty else Box (x - n) (y - n) (w + 2 * n) (h + 2 * n)).
  { unfold box_grow, box_isEmpty. cbn [dimx dimy minx miny]. assert ((w =? 0) && (h =? 0) = false) as -> by lia. reflexivity. }
  rewrite Eg. clear Eg. unfold box_contains_box, box_isEmpty, maxx, maxy in HT. cbn [minx miny dimx dimy] in HT.
  destruct ((w + 2 * n <=? 0) || (h + 2 * n <=? 0)) eqn:E.
  { change (box_clip box_empty (Box X Y W H)) with box_empty. unfold box_contains_box, box_isEmpty, maxx, maxy, box_empty. cbn [minx miny dimx dimy]. lia. }
  split; [unfold box_contains_box, box_isEmpty, maxx, maxy; cbn [minx miny dimx dimy]; lia|].
  unfold box_clip, box_isEmpty, maxx, maxy. cbn [minx miny dimx dimy].
  assert ((w + 2 * n =? 0) && (h + 2 * n =? 0) = false) as -> by lia. assert ((W =? 0) && (H =? 0) = false) as -> by lia.
  destruct ((_ <? _) || _) eqn:E2; unfold box_contains_box, box_isEmpty, maxx, maxy, box_empty; cbn [minx miny dimx dimy]; lia.
Qed.

(** The inner box of an index in range lies in the tract exactly if the axes are usable. *)
Lemma axis_inside mn dim w mn' dim' num x : w <> 0 -> 0 < dim -> setup_axis mn dim w = Ok (mn', dim', num) ->
  0 < dim' /\ (axis_usable w dim -> 0 < num) /\ (0 <= x < num ->
  ((0 <= (if w <? 0 then x * w + w + 1 else x * w) /\ (if w <? 0 then x * w + w + 1 else x * w) + Z.abs w <= dim') <-> axis_usable w dim)).
Proof.
  intros Hw Hd E. destruct (axis_total mn dim w Hw) as (a & d & n & E' & P & Q). rewrite E' in E. injection E as <- <- <-.
  unfold axis_usable. destruct (Z.ltb_spec w 0) as [L|L].
  - destruct (Q L) as [-> ->]. clear P Q E'.
    pose proof (Z.div_mod (dim + w - 1) w ltac:(lia)) as D. pose proof (Z.mod_neg_bound (dim + w - 1) w ltac:(lia)) as M.
    set (q := (dim + w - 1) / w) in *. clearbody q. set (r := (dim + w - 1) mod w) in *. clearbody r.
    split; [lia|]. split.
    { intros [?|[-> ->]]; [lia|]. lia. }
    intros Hx. split.
    + intros [A _]. right. assert (w = -1) by nia. subst w. assert (x = 0) by lia. subst x. split; [reflexivity|]. lia.
    + intros [?|[-> ->]]; [lia|]. assert (q = 1) by lia. assert (x = 0) by lia. subst. lia.
  - assert (0 < w) as L' by lia. destruct (P L' ltac:(lia)) as [-> ?]. clear P Q E'. split; [nia|]. split; [nia|]. intros Hx. split; [lia|]. intros _. rewrite Z.abs_eq by lia. nia.
Qed.

(*@ C91: patches can be obtained from a tract (whose minimum box is not empty) exactly if the patch inner sizes are positive and the border is not negative
    (leaving aside the size -1 in a tract one pixel wide).  If they can, every index in range gives a patch; if they cannot, every index
    in range raises RuntimeError.  An index out of range raises IndexError in any case. *)
Lemma usable_sizes_proof : forall (W : Type) c b m b' B nx ny (wcs : W), builder_reachable c b -> box_wf m -> m <> box_empty ->
  setupPatches b m = Ok (b', (B, (nx, ny))) ->
  let usable := axis_usable (fst (cfg_inner c)) (dimx m) /\ axis_usable (snd (cfg_inner c)) (dimy m) /\ 0 <= cfg_border c in
  (usable -> 0 < nx /\ 0 < ny)
  /\ (forall x y, 0 <= x < nx -> 0 <= y < ny -> usable -> exists p, getPatchInfo b' (IxIndex2D x y) wcs = Ok p)
  /\ (forall x y, 0 <= x < nx -> 0 <= y < ny -> ~ usable -> getPatchInfo b' (IxIndex2D x y) wcs = Raise RuntimeError)
  /\ (forall x y, ~ (0 <= x < nx /\ 0 <= y < ny) -> getPatchInfo b' (IxIndex2D x y) wcs = Raise IndexError).
Proof.
  intros W c b m b' B nx ny wcs Hr Hm Hne Hs usable. destruct Hm as [Hm|[Mx My]]; [contradiction|].
  destruct (builder_geometry c b Hr) as (E1 & E2 & E3).
  assert (Hz : fst (cfg_inner c) <> 0 /\ snd (cfg_inner c) <> 0).
  { split; intros H0; rewrite (proj1 (zero_size_proof c b m Hr)) in Hs; auto; discriminate. }
  destruct Hz as [Z1 Z2]. unfold setupPatches in Hs. rewrite E2 in Hs.
  destruct (setup_axis (minx m) _ _) as [[[x0 w] nx']|] eqn:Ax; [|discriminate]. cbn [bind] in Hs.
  destruct (setup_axis (miny m) _ _) as [[[y0 h] ny']|] eqn:Ay; [|discriminate]. cbn [bind] in Hs. cbv zeta in Hs.
  assert (Hw : 0 < w) by exact (proj1 (axis_inside _ _ _ _ _ _ 0 Z1 Mx Ax)).
  assert (Hh : 0 < h) by exact (proj1 (axis_inside _ _ _ _ _ _ 0 Z2 My Ay)).
  assert (Hbox : forall a b, box_make (a, b) (w, h) = Box a b w h).
  { intros a b0. unfold box_make. destruct (Z.eqb_spec w 0), (Z.eqb_spec h 0); try lia. cbn [orb]. destruct (Z.ltb_spec w 0), (Z.ltb_spec h 0); try lia. now rewrite !Z.abs_eq by lia. }
  rewrite Hbox in Hs. unfold box_dims in Hs. cbn [dimx dimy] in Hs. rewrite Hbox in Hs. injection Hs as Hb _ <- <-.
  assert (G : forall x y, 0 <= x < nx' -> 0 <= y < ny' ->
    (usable -> exists p, getPatchInfo b' (IxIndex2D x y) wcs = Ok p) /\ (~ usable -> getPatchInfo b' (IxIndex2D x y) wcs = Raise RuntimeError)).
  { intros x y Hx Hy.
    destruct (axis_inside _ _ _ _ _ _ x Z1 Mx Ax) as (_ & _ & Kx). specialize (Kx Hx). destruct (axis_inside _ _ _ _ _ _ y Z2 My Ay) as (_ & _ & Ky). specialize (Ky Hy).
    unfold getPatchInfo. rewrite <- Hb. cbn [b_initialized b_numPatches b_patchInner b_patchBorder b_tractBBox b_config negb bind getSequentialPatchIndexFromPair].
    rewrite ?E1, ?E2, ?E3.
    assert ((0 <=? x) && (x <? nx') = true) as -> by lia. assert ((0 <=? y) && (y <? ny') = true) as -> by lia. cbn [negb orb].
    destruct (cfg_inner c) as [iw ih] eqn:Ei. cbn [fst snd] in *.
    set (ib := box_make (x * iw, y * ih) (iw, ih)).
    assert (Eib : ib = Box (if iw <? 0 then x * iw + iw + 1 else x * iw) (if ih <? 0 then y * ih + ih + 1 else y * ih) (Z.abs iw) (Z.abs ih)).
    { unfold ib, box_make. destruct (Z.eqb_spec iw 0), (Z.eqb_spec ih 0); try lia. reflexivity. }
    assert (Hin : box_contains_box (Box 0 0 w h) ib = true <-> axis_usable iw (dimx m) /\ axis_usable ih (dimy m)).
    { rewrite <- Kx, <- Ky. rewrite Eib. set (u := if iw <? 0 then _ else _). set (v := if ih <? 0 then _ else _). clearbody u v.
      unfold box_contains_box, box_isEmpty, maxx, maxy. cbn [minx miny dimx dimy]. clear -Z1 Z2. lia. }
    destruct (box_contains_box (Box 0 0 w h) ib) eqn:Ec; cbn [negb].
    2:{ split; [|reflexivity]. intros (U1 & U2 & _). exfalso. assert (false = true) by (apply Hin; auto). discriminate. }
    destruct (proj1 Hin eq_refl) as [U1 U2].
    assert (Dx : 0 < dimx ib) by (rewrite Eib; cbn [dimx]; lia). assert (Dy : 0 < dimy ib) by (rewrite Eib; cbn [dimy]; lia).
    destruct (contains_grown ib (cfg_border c) (Box 0 0 w h) Dx Dy Ec) as [C1 C2]. clearbody ib. clear Hin Kx Ky.
    assert (Hu : usable <-> 0 <= cfg_border c) by (unfold usable; tauto).
    destruct c as [[cw ch] bd|[cw ch] cb n nb]; unfold PatchInfo_init; [rewrite C2|rewrite C1]; destruct (Z.leb_spec 0 (cfg_border (LegacyCfg (cw, ch) bd))) as [L|L] || destruct (Z.leb_spec 0 (cfg_border (CellCfg (cw, ch) cb n nb))) as [L|L]; cbn [negb bind];
      (split; [intros U; try (eexists; reflexivity); exfalso; apply Hu in U; lia|intros U; try reflexivity; exfalso; apply U, Hu; exact L]). }
  split.
  { intros (U1 & U2 & _). destruct (axis_inside _ _ _ _ _ _ 0 Z1 Mx Ax) as (_ & A & _). destruct (axis_inside _ _ _ _ _ _ 0 Z2 My Ay) as (_ & A' & _). auto. }
  split; [intros; now apply G|]. split; [intros; now apply G|].
  intros x y Ho. unfold getPatchInfo. rewrite <- Hb. cbn [b_initialized b_numPatches negb bind].
  assert (negb ((0 <=? x) && (x <? nx')) || negb ((0 <=? y) && (y <? ny')) = true) as -> by lia. reflexivity.
Qed.

(** A patch is only returned if the border is not negative. *)
Lemma patch_border c b (W : Type) ix (wcs : W) p : builder_reachable c b -> getPatchInfo b ix wcs = Ok p ->
  fst (cfg_inner c) <> 0 /\ snd (cfg_inner c) <> 0 /\ 0 <= cfg_border c.
Proof.
  intros Hr H. destruct (builder_geometry c b Hr) as (E1 & E2 & E3).
  assert (Hz : b_initialized b = true -> fst (cfg_inner c) <> 0 /\ snd (cfg_inner c) <> 0).
  { clear -Hr. intros Hi. destruct Hr as [|b m b' out Hr Hm Hs].
    - destruct c as [[w h] bd|[w h] cb n nb]; discriminate.
    - split; intros E; rewrite (proj1 (zero_size_proof c b m Hr)) in Hs; auto; discriminate. }
  unfold getPatchInfo in H. destruct (b_initialized b); [|discriminate]. destruct (Hz eq_refl) as [Z1 Z2]. split; [exact Z1|]. split; [exact Z2|].
  cbn [negb] in H. destruct (match ix with IxIndex2D _ _ => _ | _ => _ end) as [[x y]|]; [|discriminate]. cbn [bind] in H.
  destruct (b_numPatches b) as [nx ny]. destruct (negb _ || negb _); [discriminate|].
  rewrite E1, E2, E3 in H. destruct (cfg_inner c) as [iw ih]. cbn [fst snd] in *.
  set (ib := box_make (x * iw, y * ih) (iw, ih)) in *.
  destruct (box_contains_box (b_tractBBox b) ib) eqn:Ec; [|discriminate]. cbn [negb bind] in H.
  assert (D : 0 < dimx ib /\ 0 < dimy ib).
  { unfold ib, box_make. destruct (Z.eqb_spec iw 0), (Z.eqb_spec ih 0); try lia. cbn [orb dimx dimy]. lia. }
  destruct (contains_grown ib (cfg_border c) (b_tractBBox b) (proj1 D) (proj2 D) Ec) as [C1 C2].
  destruct (getSequentialPatchIndexFromPair _ _) as [sq|]; [|discriminate]. cbn [bind] in H.
  destruct c as [[cw ch] bd|[cw ch] cb n nb]; unfold PatchInfo_init in H; [rewrite C2 in H|rewrite C1 in H]; destruct (0 <=? _) eqn:L; try discriminate; lia.
Qed.

(*@ C91: with a negative border no tract builder, in any state, returns a patch for any index. *)
Lemma negative_border_proof : forall (W : Type) c b ix (wcs : W), builder_reachable c b -> cfg_border c < 0 ->
  exists e, getPatchInfo b ix wcs = Raise e.
Proof.
  intros W c b ix wcs Hr Hb. destruct (getPatchInfo b ix wcs) as [p|e] eqn:E; [|eauto].
  destruct (patch_border c b W ix wcs p Hr E) as (_ & _ & H). lia.
Qed.

Lemma made_setup {Sky} (offset : Sky -> R -> R -> Sky) c t : tract_made offset c t ->
  exists b m b' B, builder_reachable c b /\ box_wf m /\ setupPatches b m = Ok (b', (B, t_numPatches t)) /\ t_bbox t = box_make (0, 0) (box_dims B).
Proof.
  assert (K : forall b oid id (ctr : Sky) verts overlap (w : wcs Sky) corners samples b' t, tract_build b oid id ctr verts overlap w corners samples = Ok (b', t) ->
    exists m B, box_wf m /\ setupPatches b m = Ok (b', (B, t_numPatches t)) /\ t_bbox t = box_make (0, 0) (box_dims B)).
  { clear. intros b oid id ctr verts overlap w corners samples b' t H. unfold tract_build in H.
    destruct (include_all w samples) as [mb|] eqn:Em; [|discriminate]. cbn [bind] in H.
    destruct (setupPatches b (box_of_box2d mb)) as [[b1 [B n]]|] eqn:Es; [|discriminate]. cbn [bind finalOrientation] in H. injection H as <- <-.
    exists (box_of_box2d mb), B. cbn [t_numPatches t_bbox]. split; [|auto]. apply box_of_box2d_wf. exact (proj1 (include_all_spec w samples Box2DEmpty I mb Em)). }
  intros [b b' t0 oid id ctr verts overlap w corners Hr H|b b' t0 oid id ctr radius overlap w corners Hr H].
  - destruct (K _ _ _ _ _ _ _ _ _ _ _ H) as (m & B & A). exists b, m, b', B. tauto.
  - unfold ExplicitTractInfo_init in H. destruct (tract_build _ _ _ _ _ _ _ _ _) as [[b1 t1]|] eqn:E; [|discriminate]. cbn [bind] in H. injection H as <- <-.
    destruct (K _ _ _ _ _ _ _ _ _ _ _ E) as (m & B & A). exists b, m, b1, B. cbn [t_numPatches t_bbox]. tauto.
Qed.

(*@ C91: with a negative patch inner size along an axis, tracts wider than that size along the axis can be made, but have no patches: the count along
    the axis is zero or negative, iterating over the tract yields nothing whatever the state of the builder, and so registering the tract writes no patches. *)
Lemma negative_size_proof : forall (Sky : Type) (offset : Sky -> R -> R -> Sky) c t b, tract_made offset c t ->
  fst (cfg_inner c) < 0 /\ - fst (cfg_inner c) < dimx (t_bbox t) \/ snd (cfg_inner c) < 0 /\ - snd (cfg_inner c) < dimy (t_bbox t) ->
  (fst (t_numPatches t) <= 0 \/ snd (t_numPatches t) <= 0) /\ tract_iter b t = Ok []
  /\ forall name, patch_records name b t = Ok [].
Proof.
  intros Sky offset c t b Ht Hn. destruct (made_setup offset c t Ht) as (b0 & m & b1 & B & Hr & Hm & Hs & Hbb).
  assert (Hz : fst (cfg_inner c) <> 0 /\ snd (cfg_inner c) <> 0).
  { split; intros H0; rewrite (proj1 (zero_size_proof c b0 m Hr)) in Hs; auto; discriminate. }
  destruct Hz as [Z1 Z2]. destruct (builder_geometry c b0 Hr) as (_ & E2 & _).
  assert (N : fst (t_numPatches t) <= 0 \/ snd (t_numPatches t) <= 0).
  { unfold setupPatches in Hs. rewrite E2 in Hs.
    destruct (axis_total (minx m) (dimx m) _ Z1) as (x0 & w & nx & Ex & Px & Qx). destruct (axis_total (miny m) (dimy m) _ Z2) as (y0 & h & ny & Ey & Py & Qy).
    rewrite Ex, Ey in Hs. cbn [bind] in Hs. injection Hs as _ HB Hnp. rewrite <- Hnp. cbn [fst snd]. clear Hnp.
    destruct m as [mx my mw mh]. cbn [minx miny dimx dimy] in *.
    assert (Mw : 0 <= mw /\ 0 <= mh) by (destruct Hm as [Hm|Hm]; [injection Hm as -> -> -> ->|cbn in Hm]; lia).
    assert (Hww : 0 <= w /\ 0 <= h).
    { clear -Z1 Z2 Px Qx Py Qy Mw. split.
      - destruct (Z_lt_le_dec 0 (fst (cfg_inner c))) as [L|L]; [destruct (Px L); lia|]. destruct Qx; lia.
      - destruct (Z_lt_le_dec 0 (snd (cfg_inner c))) as [L|L]; [destruct (Py L); lia|]. destruct Qy; lia. }
    assert (D : dimx (t_bbox t) <= w /\ dimy (t_bbox t) <= h).
    { assert (EB : B = if (w =? 0) || (h =? 0) then box_empty else Box x0 y0 w h).
      { rewrite <- HB. unfold box_make. clear -Hww. destruct ((w =? 0) || (h =? 0)) eqn:E; [reflexivity|].
        destruct (Z.ltb_spec w 0), (Z.ltb_spec h 0); try lia. now rewrite !Z.abs_eq by lia. }
      rewrite Hbb, EB. clear -Hww. destruct ((w =? 0) || (h =? 0)) eqn:E; [cbn; lia|]. unfold box_dims, box_make. cbn [dimx dimy]. rewrite E. cbn [dimx dimy]. lia. }
    clear HB Hbb.
    destruct Hn as [[L G]|[L G]]; [left; destruct (Qx L) as [-> ->]|right; destruct (Qy L) as [-> ->]].
    - set (v := fst (cfg_inner c)) in *. clearbody v. clear -L G D. pose proof (Z.div_mod (mw + v - 1) v ltac:(lia)). pose proof (Z.mod_neg_bound (mw + v - 1) v ltac:(lia)). nia.
    - set (v := snd (cfg_inner c)) in *. clearbody v. clear -L G D. pose proof (Z.div_mod (mh + v - 1) v ltac:(lia)). pose proof (Z.mod_neg_bound (mh + v - 1) v ltac:(lia)). nia. }
  assert (I : tract_iter b t = Ok []).
  { unfold tract_iter. destruct (t_numPatches t) as [nx ny]. cbn [fst snd] in N. assert (grid nx ny = []) as ->; [|reflexivity].
    destruct (grid nx ny) as [|[x y] l] eqn:E; [reflexivity|]. exfalso. assert (In (x, y) (grid nx ny)) as Hin by (rewrite E; now left). apply in_grid in Hin. lia. }
  split; [exact N|]. split; [exact I|]. intros name. unfold patch_records. rewrite I. reflexivity.
Qed.

(*@ C91: of a sky map with a zero patch inner size no tract can ever be obtained (so a map that makes its tracts when it is constructed cannot be
    constructed), registering it fails and adds no records. *)
Lemma zero_size_maps_proof : forall (Sky : Type) (offset : Sky -> R -> R -> Sky) d, fst (cfg_inner (sd_cfg d)) = 0 \/ snd (cfg_inner (sd_cfg d)) = 0 ->
  (forall s i s' t, sm_reachable offset d s -> 0 <= i -> sm_getitem offset d i s <> (s', Ok t))
  /\ (forall s, sd_kind d = EagerMap -> 0 < sd_num d -> sm_new offset d <> Ok s)
  /\ (forall faults sha name s r s' u' out, sm_reachable offset d s -> register offset faults d sha name s (butler_on r) = (s', u', out) ->
        (forall x, out <> Done x) /\ same_records r (u_durable u')).
Proof.
  intros Sky offset d Hz.
  assert (H : forall s i t, sm_reachable offset d s -> ~ holds offset d i s t).
  { intros s i t Hr Hh. destruct (holds_args offset d s i t Hr Hh) as (_ & a & b & b' & oid & _ & Hb & Hm).
    assert (Ht : tract_made offset (sd_cfg d) t) by (destruct a; [eapply tm_plain|eapply tm_explicit]; eassumption).
    destruct (made_setup offset _ t Ht) as (b0 & m & b1 & B & Hr0 & _ & Hs & _). rewrite (proj1 (zero_size_proof _ b0 m Hr0) Hz) in Hs. discriminate. }
  split; [|split].
  - intros s i s' t Hr Hi E. destruct (getitem_holds offset d s i s' t Hr Hi E) as (Hr' & _ & Hh). exact (H s' i t Hr' Hh).
  - intros s Hk Hn E. assert (Hr : sm_reachable offset d s) by (exists s; split; [exact E|constructor]).
    destruct (eager_index_range_proof _ offset d s 0 Hk Hr ltac:(lia)) as (L & _ & X & _). destruct X as (t & Et & _); [rewrite L; lia|].
    apply (H s 0 t Hr). split; [lia|exact Et].
  - intros faults sha name s r s' u' out Hr E. destruct (register_spec offset faults d sha name s r s' u' out Hr E) as (Ha & [[K1 K2]|(hash & nxm & nym & _ & K & Hn & _)]).
    + auto.
    + exfalso. destruct (K 0 ltac:(lia)) as (t & Ht). exact (H s' 0 t (reachable_accesses _ _ _ _ Hr Ha) Ht).
Qed.

(*@ C91: registering a sky map with a negative border, under a new name, fails and adds no records, unless none of its tracts has patches. *)
Lemma negative_border_register_proof : forall (Sky : Type) (offset : Sky -> R -> R -> Sky) d faults sha name s r s' u' out, cfg_border (sd_cfg d) < 0 ->
  sm_reachable offset d s -> ~ In name (map k_name (g_skymaps r)) -> register offset faults d sha name s (butler_on r) = (s', u', out) ->
  (exists i t, holds offset d i s' t /\ 0 < fst (t_numPatches t) /\ 0 < snd (t_numPatches t)) ->
  (forall x, out <> Done x) /\ same_records r (u_durable u').
Proof.
  intros Sky offset d faults sha name s r s' u' out Hb Hr Hnew E (i & t & Hh & N1 & N2).
  destruct (register_spec offset faults d sha name s r s' u' out Hr E) as (Ha & [[K1 K2]|(hash & nxm & nym & _ & _ & _ & _ & _ & K)]); [auto|].
  pose proof (reachable_accesses _ _ _ _ Hr Ha) as Hr'.
  assert (W : ~ wrote offset d name hash (mkSkyRec name hash (sd_num d) nxm nym) s' r (u_durable u')).
  { intros (_ & _ & trs & blocks & _ & _ & _ & _ & _ & _ & _ & F).
    destruct (holds_args offset d s' i t Hr' Hh) as (Hi & _).
    assert (Hin : In i (zrange 0 (sd_num d))) by (apply in_zrange; lia).
    destruct (Forall2_In_l _ _ _ i F Hin) as (block & _ & t' & Hh' & Ep).
    rewrite (holds_fun _ _ _ _ _ _ Hh' Hh) in Ep. unfold patch_records, tract_iter in Ep.
    destruct (t_numPatches t) as [nx ny]. cbn [fst snd] in N1, N2.
    assert (In (0, 0) (grid nx ny)) as Hg by (apply in_grid; lia).
    match type of Ep with bind ?x _ = _ => destruct x as [ps|] eqn:Em; [|discriminate] end. apply mapM_Forall2 in Em.
    destruct (Forall2_In_l _ _ _ _ Em Hg) as (p & _ & Epp). cbn [fst snd] in Epp.
    destruct (negative_border_proof _ _ (sm_builder s') (IxIndex2D 0 0) (t_wcs t) (si_reach _ _ _ _ (reachable_inv _ _ _ Hr')) Hb) as (e & Ee). unfold tract_getPatchInfo in Epp. congruence. }
  destruct out as [x|e|].
  - destruct K as [[_ K]|K]; [|contradiction]. exfalso. apply Hnew. apply (in_map k_name) in K. exact K.
  - split; [discriminate|exact K].
  - split; [discriminate|]. destruct K as [K|K]; [exact K|contradiction].
Qed.

(*@ C91: cells.  Patches of cell based tracts may exist although their cells do not work: with a negative cell border (and a patch border that is not negative) getCellInfo raises RuntimeError
    for every cell index in range; with a negative number of cells in the patch border the corner of the patch's inner region lies in no cell. *)
Lemma cell_sizes_proof : forall (W : Type) w h cb n nb b ix (wcs : W) p,
  let c := CellCfg (w, h) cb n nb in
  builder_reachable c b -> 0 < w -> 0 < h -> 0 < n -> getPatchInfo b ix wcs = Ok p ->
  p_numCells p = (n + 2 * nb, n + 2 * nb)
  /\ (cb < 0 -> forall x y, 0 <= x < n + 2 * nb -> 0 <= y < n + 2 * nb -> getCellInfo p (IxIndex2D x y) = Raise RuntimeError)
  /\ (nb < 0 -> forall ix' cell, getCellInfo p ix' = Ok cell -> ~ in_box (minx (p_inner p)) (miny (p_inner p)) (c_inner cell)).
Proof.
  intros W w h cb n nb b ix wcs p c Hr Hw Hh Hn H. destruct (builder_geometry c b Hr) as (E1 & E2 & E3).
  unfold getPatchInfo in H. destruct (b_initialized b); [|discriminate].
  cbn [negb] in H. destruct (match ix with IxIndex2D _ _ => _ | _ => _ end) as [[x y]|]; [|discriminate]. cbn [bind] in H.
  destruct (b_numPatches b) as [nx ny]. destruct (negb _ || negb _); [discriminate|].
  rewrite E1 in H. set (ib := box_make _ _) in H. destruct (negb _); [discriminate|].
  destruct (getSequentialPatchIndexFromPair _ _) as [sq|]; [|discriminate]. cbn [bind c] in H. unfold PatchInfo_init in H.
  destruct (negb _); [discriminate|]. cbn [bind] in H. destruct (Z.eqb_spec n 0); [lia|]. injection H as <-. cbn [p_numCells p_inner]. clearbody ib.
  split; [reflexivity|].
  assert (Eb : forall u v, box_make (u, v) (w, h) = Box u v w h).
  { intros u v. unfold box_make. destruct (Z.eqb_spec w 0), (Z.eqb_spec h 0); try lia. cbn [orb]. destruct (Z.ltb_spec w 0), (Z.ltb_spec h 0); try lia. now rewrite !Z.abs_eq by lia. }
  split.
  - intros Hcb cx cy Hx Hy. unfold getCellInfo. cbn [p_numCells p_cellInner p_nBorder p_inner p_cellBorder bind fst snd getSequentialCellIndexFromPair index2D_of_star].
    destruct (Z.eqb_spec (n + 2 * nb) 0); [lia|]. cbn [orb].
    assert ((0 <=? cx) && (cx <? n + 2 * nb) = true) as -> by lia. assert ((0 <=? cy) && (cy <? n + 2 * nb) = true) as -> by lia. cbn [negb orb].
    rewrite Eb. unfold CellInfo_init.
    match goal with |- context [box_contains_box (box_grow ?i _) _] => destruct (contains_grown i cb i) as [C1 _]; cbn [dimx dimy]; try lia end.
    { unfold box_contains_box, maxx, maxy. cbn [minx miny dimx dimy]. lia. }
    rewrite C1. destruct (Z.leb_spec 0 cb); [lia|]. reflexivity.
  - intros Hnb ix' cell Hc. unfold getCellInfo in Hc. cbn [p_numCells p_cellInner p_nBorder p_inner p_cellBorder fst snd] in Hc.
    destruct ((_ =? 0) || _); [discriminate|]. destruct (match ix' with IxIndex2D _ _ => _ | _ => _ end) as [[cx cy]|]; [|discriminate]. cbn [bind] in Hc.
    destruct (negb _ || negb _) eqn:Er; [discriminate|]. rewrite Eb in Hc.
    destruct (getSequentialCellIndexFromPair _ _) as [s2|]; [|discriminate]. cbn [bind] in Hc. unfold CellInfo_init in Hc.
    match type of Hc with (if ?b then _ else _) = _ => destruct b; [discriminate|] end.
    injection Hc as <-. cbn [c_inner]. unfold in_box. cbn [minx miny dimx dimy]. nia.
Qed.

(*@ C91, non-vacuity: configurations of each kind pass validation; for a tract of 10000 by 9000 pixels the default sizes are usable, and so are cells with numCellsInPatchBorder -1 and cellBorder 200,
    or with numCellsInPatchBorder 1 and cellBorder -10; a negative patch border, zero and negative sizes are not. *)
Example sizes_met_proof :
  let m := Box 5 7 10000 9000 in
  let valid c := tb_validate c = Ok tt /\ builder_reachable c (builder_init c) /\ box_wf m /\ m <> box_empty in
  let usable c := axis_usable (fst (cfg_inner c)) (dimx m) /\ axis_usable (snd (cfg_inner c)) (dimy m) /\ 0 <= cfg_border c in
  let made c n := valid c /\ exists b' B, setupPatches (builder_init c) m = Ok (b', (B, n)) in
  (made legacy_default (3, 3) /\ usable legacy_default)
  /\ (made (CellCfg (150, 150) 200 20 (-1)) (4, 3) /\ usable (CellCfg (150, 150) 200 20 (-1)))
  /\ (made (CellCfg (150, 150) (-10) 20 1) (4, 3) /\ usable (CellCfg (150, 150) (-10) 20 1))
  /\ (made (LegacyCfg (4000, 4000) (-1)) (3, 3) /\ ~ usable (LegacyCfg (4000, 4000) (-1)))
  /\ (made (LegacyCfg (-4000, 4000) 100) (-2, 3) /\ ~ usable (LegacyCfg (-4000, 4000) 100))
  /\ valid (LegacyCfg (4000, 0) 100) /\ valid (CellCfg (150, 150) 50 0 1).
Proof.
  intros m valid usable made.
  assert (V : forall c, tb_validate c = Ok tt -> valid c).
  { intros c H. split; [exact H|]. split; [constructor|]. split; [right; cbn; lia|discriminate]. }
  unfold usable, axis_usable.
  repeat match goal with
  | |- made _ _ /\ _ => split; [split; [apply V; reflexivity|eexists _, _; reflexivity]|cbn [cfg_inner cfg_border legacy_default fst snd dimx dimy m]; lia]
  | |- (made _ _ /\ _) /\ _ => split
  end.
  split; apply V; reflexivity.
Qed.
