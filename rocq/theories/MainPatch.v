(** Patches of a tract: growth, tiling, indexing (C01-C08). *)
From Coq Require Import Reals Lra.
From Flocq Require Import Raux.
Require Import Verif.Py Verif.Geom Verif.PatchInfo Verif.TractBuilder Verif.TractInfo Verif.Spec.
Require Import Verif.PatchProofs Verif.Examples.
From Coq Require Import ZifyBool.
Open Scope Z_scope.

Ltac Zify.zify_post_hook ::= Z.div_mod_to_equations.

(*@ C01: setting up patches never fails; the grown box contains the minimum box, is an exact
    multiple of the patch size, exceeds the minimum box by less than one patch per axis, and the
    added pixels on the two sides of an axis differ by at most one. *)
Lemma tract_growth_proof : forall c b m,
  cfg_ok c -> builder_reachable c b -> box_wf m ->
  exists b' bbox nx ny,
    setupPatches b m = Ok (b', (bbox, (nx, ny)))
    /\ (forall px py, in_box px py m -> in_box px py bbox)
    /\ dimx bbox = nx * fst (cfg_inner c) /\ dimy bbox = ny * snd (cfg_inner c)
    /\ dimx m <= dimx bbox < dimx m + fst (cfg_inner c)
    /\ dimy m <= dimy bbox < dimy m + snd (cfg_inner c)
    /\ (let left := minx m - minx bbox in
        let right := (minx bbox + dimx bbox) - (minx m + dimx m) in
        0 <= left <= right /\ right <= left + 1)
    /\ (let below := miny m - miny bbox in
        let above := (miny bbox + dimy bbox) - (miny m + dimy m) in
        0 <= below <= above /\ above <= below + 1).
Proof.
  intros c b m Hc Hr Hm.
  destruct (setupPatches_spec c b m Hc (builder_reachable_inv c b Hc Hr) Hm)
    as (b' & x0 & y0 & nx & ny & E & _ & _ & _ & Hnx & Hny & Hzx & Hzy & Hbx & Hby & Hmx & Hmy).
  exists b', (Box x0 y0 (nx * fst (cfg_inner c)) (ny * snd (cfg_inner c))), nx, ny.
  split; [exact E|]. unfold in_box. cbn [minx miny dimx dimy].
  split; [intros; lia|]. split; [reflexivity|]. split; [reflexivity|].
  split; [lia|]. split; [lia|]. split; cbv zeta; lia.
Qed.

(*@ C01, tract level: a tract's bounding box starts at (0,0) and its size is the number of
    patches times the patch size (both counts are zero or both are positive). *)
Lemma tract_box_exact_proof : forall (Sky : Type) (offset : Sky -> R -> R -> Sky) c t,
  cfg_ok c -> tract_made offset c t ->
  exists nx ny, t_numPatches t = (nx, ny) /\ 0 <= nx /\ 0 <= ny /\ (nx = 0 <-> ny = 0)
    /\ t_bbox t = Box 0 0 (nx * fst (cfg_inner c)) (ny * snd (cfg_inner c)).
Proof.
  intros Sky offset c t Hc Hm. destruct (tract_made_inv offset c t Hc Hm) as [H]. exact H.
Qed.

(*@ C02: every pixel of the tract is in the inner box of exactly one patch, inner boxes do not
    leave the tract and all have the configured size. *)
Lemma patches_tile_tract_proof : forall (Sky : Type) (offset : Sky -> R -> R -> Sky) c b t,
  cfg_ok c -> in_use offset c b t ->
  (forall px py, in_box px py (t_bbox t) ->
     exists x y p, tract_getPatchInfo b t (IxIndex2D x y) = Ok p /\ in_box px py (p_inner p)
       /\ forall x' y' p', tract_getPatchInfo b t (IxIndex2D x' y') = Ok p' ->
            in_box px py (p_inner p') -> x' = x /\ y' = y)
  /\ (forall ix p, tract_getPatchInfo b t ix = Ok p ->
        box_dims (p_inner p) = cfg_inner c
        /\ forall px py, in_box px py (p_inner p) -> in_box px py (t_bbox t)).
Proof.
  intros Sky offset c b t Hc Hu.
  destruct (in_use_spec offset c b t Hc Hu)
    as (nx & ny & Hi & Hinit & Hnb & Hnt & Hnx & Hny & Hz & HB).
  destruct (cfg_inner_pos c Hc) as [Hw Hh]. unfold tract_getPatchInfo.
  assert (A : forall x y p, getPatchInfo b (IxIndex2D x y) (t_wcs t) = Ok p ->
        0 <= x < nx /\ 0 <= y < ny /\ p_inner p =
           Box (x * fst (cfg_inner c)) (y * snd (cfg_inner c)) (fst (cfg_inner c)) (snd (cfg_inner c))).
  { intros x y p H. destruct (getPatchInfo_pair_inv c b nx ny _ x y p Hc Hi Hinit Hnb H)
      as (? & ? & ->). auto. }
  split.
  - intros px py. rewrite HB. unfold in_box at 1. cbn [minx miny dimx dimy].
    set (w := fst (cfg_inner c)) in *. set (h := snd (cfg_inner c)) in *.
    intros [Hpx Hpy].
    assert (Hx : 0 <= px / w < nx) by (split; [apply Z.div_pos|apply Z.div_lt_upper_bound]; lia).
    assert (Hy : 0 <= py / h < ny) by (split; [apply Z.div_pos|apply Z.div_lt_upper_bound]; lia).
    exists (px / w), (py / h), (the_patch c nx ny (t_wcs t) (px / w) (py / h)).
    split; [now apply getPatchInfo_pair|].
    split.
    + cbn. fold w h. unfold in_box. cbn. nia.
    + intros x' y' p' H Hin. apply A in H. destruct H as (Hx' & Hy' & E). rewrite E in Hin.
      unfold in_box in Hin. cbn [minx miny dimx dimy] in Hin.
      split; [assert (x' * w <= px < x' * w + w) by lia|assert (y' * h <= py < y' * h + h) by lia].
      * apply Z.div_unique with (px - x' * w); lia.
      * apply Z.div_unique with (py - y' * h); lia.
  - intros ix p H.
    assert (exists x y, getPatchInfo b (IxIndex2D x y) (t_wcs t) = Ok p) as (x & y & H').
    { destruct ix as [x y|n|l|].
      - eauto.
      - destruct (Z.eq_dec nx 0) as [->|Hne].
        + unfold getPatchInfo, getPatchIndexPair in H. rewrite Hinit, Hnb in H. discriminate.
        + rewrite (getPatchInfo_num b nx ny) in H by assumption. eauto.
      - unfold getPatchInfo in H. rewrite Hinit in H.
        destruct l as [|x [|y [|z l]]]; try discriminate. exists x, y.
        unfold getPatchInfo. rewrite Hinit. exact H.
      - unfold getPatchInfo in H. rewrite Hinit in H. discriminate. }
    apply A in H'. destruct H' as (Hx & Hy & E). rewrite E, HB. split.
    + unfold box_dims. cbn. destruct (cfg_inner c); reflexivity.
    + unfold in_box. cbn [minx miny dimx dimy]. nia.
Qed.

(*@ C03: with the legacy builder the outer box consists of exactly the tract pixels at most
    patch_border away, in x and in y, from some pixel of the inner box; in particular it contains
    the inner box and never leaves the tract. *)
Lemma legacy_outer_proof : forall (Sky : Type) (offset : Sky -> R -> R -> Sky) inner border b t x y p,
  cfg_ok (LegacyCfg inner border) -> in_use offset (LegacyCfg inner border) b t ->
  tract_getPatchInfo b t (IxIndex2D x y) = Ok p ->
  (forall px py, in_box px py (p_outer p) <->
     in_box px py (t_bbox t)
     /\ exists qx qy, in_box qx qy (p_inner p) /\ Z.abs (px - qx) <= border /\ Z.abs (py - qy) <= border)
  /\ (forall px py, in_box px py (p_inner p) -> in_box px py (p_outer p)).
Proof.
  intros Sky offset inner border b t x y p Hc Hu H.
  destruct (in_use_spec offset _ b t Hc Hu)
    as (nx & ny & Hi & Hinit & Hnb & Hnt & Hnx & Hny & Hz & HB).
  destruct (getPatchInfo_pair_inv _ b nx ny _ x y p Hc Hi Hinit Hnb H) as (Hx & Hy & ->).
  clear H. rewrite HB. destruct inner as [w h]. cbn in *.
  destruct Hc as (Hw & Hh & Hb).
  assert (Hxw : 0 <= x * w /\ x * w + w <= nx * w) by nia.
  assert (Hyh : 0 <= y * h /\ y * h + h <= ny * h) by nia.
  unfold in_box. cbn [minx miny dimx dimy].
  split; [|intros; lia].
  intros px py. split.
  - intros [Hpx Hpy]. split; [lia|].
    exists (Z.max (x * w) (Z.min px (x * w + w - 1))), (Z.max (y * h) (Z.min py (y * h + h - 1))).
    lia.
  - intros [[Hpx Hpy] (qx & qy & [Hqx Hqy] & Hdx & Hdy)]. lia.
Qed.

(*@ C04: with the cells builder the outer box is the inner box enlarged on every side by the
    widths of the border cells plus the cell border (the cell width is used for both axes), without
    clipping at the tract edge. *)
Lemma cells_outer_proof : forall (Sky : Type) (offset : Sky -> R -> R -> Sky) cw ch cb nI nB b t x y p,
  cfg_ok (CellCfg (cw, ch) cb nI nB) -> in_use offset (CellCfg (cw, ch) cb nI nB) b t ->
  tract_getPatchInfo b t (IxIndex2D x y) = Ok p ->
  enlarged (nB * cw + cb) (p_inner p) (p_outer p).
Proof.
  intros Sky offset cw ch cb nI nB b t x y p Hc Hu H.
  destruct (in_use_spec offset _ b t Hc Hu)
    as (nx & ny & Hi & Hinit & Hnb & Hnt & Hnx & Hny & Hz & HB).
  destruct (getPatchInfo_pair_inv _ b nx ny _ x y p Hc Hi Hinit Hnb H) as (Hx & Hy & ->).
  unfold enlarged. cbn. lia.
Qed.

(*@ C05: a pair is accepted exactly when it is in range (given as Index2D or as any sequence of
    two ints), and IndexError is raised otherwise; the internal consistency errors never occur. *)
Lemma patch_lookup_pair_proof : forall (Sky : Type) (offset : Sky -> R -> R -> Sky) c b t x y nx ny,
  cfg_ok c -> in_use offset c b t -> t_numPatches t = (nx, ny) ->
  (0 <= x < nx /\ 0 <= y < ny ->
     exists p, tract_getPatchInfo b t (IxIndex2D x y) = Ok p
            /\ tract_getPatchInfo b t (IxSeq [x; y]) = Ok p /\ p_index p = (x, y))
  /\ (~ (0 <= x < nx /\ 0 <= y < ny) ->
     tract_getPatchInfo b t (IxIndex2D x y) = Raise IndexError
     /\ tract_getPatchInfo b t (IxSeq [x; y]) = Raise IndexError).
Proof.
  intros Sky offset c b t x y nx ny Hc Hu Hn.
  destruct (in_use_spec offset _ b t Hc Hu)
    as (nx' & ny' & Hi & Hinit & Hnb & Hnt & _).
  rewrite Hn in Hnt. inversion Hnt; subst nx' ny'. unfold tract_getPatchInfo.
  split.
  - intros [Hx Hy]. exists (the_patch c nx ny (t_wcs t) x y).
    rewrite getPatchInfo_seq. rewrite (getPatchInfo_pair c b nx ny) by assumption. auto.
  - intros H. rewrite getPatchInfo_seq.
    rewrite (getPatchInfo_pair_out b nx ny) by assumption. auto.
Qed.

(*@ C05, sequential numbers: a number is accepted exactly when 0 <= n < len(tract), and then
    denotes the patch with that sequential index; otherwise IndexError (for a tract without
    patches, as built from positions that cannot be computed, ZeroDivisionError). *)
Lemma patch_lookup_number_proof : forall (Sky : Type) (offset : Sky -> R -> R -> Sky) c b t n,
  cfg_ok c -> in_use offset c b t ->
  (0 <= n < tract_len t ->
     exists p, tract_getPatchInfo b t (IxNum n) = Ok p /\ p_seq p = n)
  /\ (~ (0 <= n < tract_len t) ->
     tract_getPatchInfo b t (IxNum n) =
       Raise (if tract_len t =? 0 then ZeroDivisionError else IndexError)).
Proof.
  intros Sky offset c b t n Hc Hu.
  destruct (in_use_spec offset _ b t Hc Hu)
    as (nx & ny & Hi & Hinit & Hnb & Hnt & Hnx & Hny & Hz & HB).
  unfold tract_len, tract_getPatchInfo. rewrite Hnt.
  destruct (Z.eq_dec nx 0) as [->|Hne].
  - cbn [Z.mul]. split; [lia|]. intros _. unfold getPatchInfo, getPatchIndexPair.
    rewrite Hinit, Hnb. reflexivity.
  - rewrite (getPatchInfo_num b nx ny) by assumption.
    assert (Hm : 0 <= n mod nx < nx) by (apply Z.mod_pos_bound; lia).
    pose proof (Z.div_mod n nx Hne) as Hdm.
    split.
    + intros Hn. rewrite (getPatchInfo_pair c b nx ny); [|assumption..|].
      * eexists; split; [reflexivity|]. cbn. lia.
      * split; [apply Z.div_pos; lia|apply Z.div_lt_upper_bound; lia].
    + intros Hn. destruct (Z.eqb_spec (nx * ny) 0); [nia|].
      apply (getPatchInfo_pair_out b nx ny); try assumption.
      intros [_ Hy]. apply Hn. nia.
Qed.

(*@ C05, malformed indices: sequences of another length and non-iterables raise TypeError. *)
Lemma patch_lookup_malformed_proof : forall (Sky : Type) (offset : Sky -> R -> R -> Sky) c b t l,
  cfg_ok c -> in_use offset c b t ->
  tract_getPatchInfo b t IxOther = Raise TypeError
  /\ (length l <> 2%nat -> tract_getPatchInfo b t (IxSeq l) = Raise TypeError).
Proof.
  intros Sky offset c b t l Hc Hu. destruct Hu as [_ Hinit _ _].
  unfold tract_getPatchInfo, getPatchInfo. rewrite Hinit. split; [reflexivity|].
  destruct l as [|x [|y [|z l]]]; cbn; intros; try reflexivity. lia.
Qed.

(*@ C06: getSequentialPatchIndexFromPair and getPatchIndexPair are mutually inverse between the
    valid pairs and 0..len-1, and the number stored in a patch is the one of its pair. *)
Lemma sequential_patch_bijection_proof : forall (Sky : Type) (offset : Sky -> R -> R -> Sky) c b t nx ny,
  cfg_ok c -> in_use offset c b t -> t_numPatches t = (nx, ny) ->
  (forall x y, 0 <= x < nx -> 0 <= y < ny ->
     exists n, getSequentialPatchIndexFromPair b (IxIndex2D x y) = Ok n
       /\ 0 <= n < tract_len t /\ getPatchIndexPair b n = Ok (x, y))
  /\ (forall n, 0 <= n < tract_len t ->
     exists x y, getPatchIndexPair b n = Ok (x, y) /\ 0 <= x < nx /\ 0 <= y < ny
       /\ getSequentialPatchIndexFromPair b (IxIndex2D x y) = Ok n)
  /\ (forall x y p, tract_getPatchInfo b t (IxIndex2D x y) = Ok p ->
     getSequentialPatchIndexFromPair b (IxIndex2D x y) = Ok (p_seq p)
     /\ getSequentialPatchIndex b p = Ok (p_seq p)).
Proof.
  intros Sky offset c b t nx ny Hc Hu Hn.
  destruct (in_use_spec offset _ b t Hc Hu)
    as (nx' & ny' & Hi & Hinit & Hnb & Hnt & Hnx & Hny & Hz & HB).
  rewrite Hn in Hnt. inversion Hnt; subst nx' ny'.
  unfold tract_len, getSequentialPatchIndex, getSequentialPatchIndexFromPair, getPatchIndexPair.
  rewrite Hn, Hnb. cbn [bind fst snd]. unfold py_mod, py_floordiv.
  split; [|split].
  - intros x y Hx Hy. exists (nx * y + x). split; [reflexivity|]. split; [nia|].
    destruct (Z.eqb_spec nx 0); [lia|]. cbn [bind].
    replace ((nx * y + x) mod nx) with x by (apply Z.mod_unique with y; lia).
    replace ((nx * y + x) / nx) with y by (apply Z.div_unique with x; lia). reflexivity.
  - intros n Hnn. destruct (Z.eqb_spec nx 0); [subst; lia|]. cbn [bind].
    pose proof (Z.div_mod n nx ltac:(lia)). pose proof (Z.mod_pos_bound n nx ltac:(lia)).
    exists (n mod nx), (n / nx). split; [reflexivity|]. split; [lia|].
    split; [nia|]. f_equal; lia.
  - intros x y p H.
    destruct (getPatchInfo_pair_inv c b nx ny _ x y p Hc Hi Hinit Hnb H) as (_ & _ & ->).
    split; reflexivity.
Qed.

(*@ C07: iterating a tract yields len(tract) patches, the k-th being tract[k] with sequential
    index k; hence every patch occurs exactly once. *)
Lemma tract_iteration_proof : forall (Sky : Type) (offset : Sky -> R -> R -> Sky) c b t,
  cfg_ok c -> in_use offset c b t ->
  exists ps, tract_iter b t = Ok ps
    /\ Z.of_nat (length ps) = tract_len t
    /\ (forall k p, nth_error ps k = Some p ->
          tract_getPatchInfo b t (IxNum (Z.of_nat k)) = Ok p /\ p_seq p = Z.of_nat k)
    /\ (forall ix p, tract_getPatchInfo b t ix = Ok p -> In p ps).
Proof.
  intros Sky offset c b t Hc Hu.
  destruct (in_use_spec offset _ b t Hc Hu)
    as (nx & ny & Hi & Hinit & Hnb & Hnt & Hnx & Hny & Hz & HB).
  unfold tract_iter, tract_len, tract_getPatchInfo. rewrite Hnt.
  exists (map (fun i : pair2 => the_patch c nx ny (t_wcs t) (fst i) (snd i)) (grid nx ny)).
  split.
  { apply mapM_Ok. intros [x y] Hin. apply in_grid in Hin.
    apply getPatchInfo_pair; cbn [fst snd]; tauto || assumption. }
  rewrite map_length, grid_length by assumption.
  split; [nia|]. split.
  - intros k p Hk. rewrite nth_error_map in Hk.
    destruct (nth_error (grid nx ny) k) as [[x y]|] eqn:E; cbn in Hk; [|discriminate].
    inversion Hk; subst p; clear Hk.
    apply grid_nth_error in E; [|assumption..]. destruct E as (Hx & Hy & Ek).
    rewrite (getPatchInfo_num b nx ny) by (assumption || lia).
    rewrite Ek. replace ((nx * y + x) mod nx) with x by (apply Z.mod_unique with y; lia).
    replace ((nx * y + x) / nx) with y by (apply Z.div_unique with x; lia).
    rewrite (getPatchInfo_pair c b nx ny) by assumption. split; reflexivity.
  - intros ix p H.
    assert (exists x y, getPatchInfo b (IxIndex2D x y) (t_wcs t) = Ok p) as (x & y & H').
    { destruct ix as [x y|n|l|].
      - eauto.
      - destruct (Z.eq_dec nx 0) as [->|Hne].
        + unfold getPatchInfo, getPatchIndexPair in H. rewrite Hinit, Hnb in H. discriminate.
        + rewrite (getPatchInfo_num b nx ny) in H by assumption. eauto.
      - unfold getPatchInfo in H. rewrite Hinit in H.
        destruct l as [|x [|y [|z l]]]; try discriminate. exists x, y.
        unfold getPatchInfo. rewrite Hinit. exact H.
      - unfold getPatchInfo in H. rewrite Hinit in H. discriminate. }
    destruct (getPatchInfo_pair_inv c b nx ny _ x y p Hc Hi Hinit Hnb H') as (Hx & Hy & ->).
    apply in_map_iff. exists (x, y). split; [reflexivity|].
    apply in_grid. auto.
Qed.

(*@ C08: the sequential index is not unique over the pairs that are accepted: the out-of-range
    pair (nx, 0) gets the number of the valid patch (0, 1), in every tract with at least two rows. *)
Lemma sequential_patch_unique_refuted_proof :
  forall (Sky : Type) (offset : Sky -> R -> R -> Sky) c b t nx ny,
  cfg_ok c -> in_use offset c b t -> t_numPatches t = (nx, ny) -> 2 <= ny ->
  exists n, getSequentialPatchIndexFromPair b (IxIndex2D nx 0) = Ok n
    /\ getSequentialPatchIndexFromPair b (IxIndex2D 0 1) = Ok n
    /\ (exists p, tract_getPatchInfo b t (IxIndex2D 0 1) = Ok p /\ p_seq p = n)
    /\ tract_getPatchInfo b t (IxIndex2D nx 0) = Raise IndexError.
Proof.
  intros Sky offset c b t nx ny Hc Hu Hn H2.
  destruct (in_use_spec offset _ b t Hc Hu)
    as (nx' & ny' & Hi & Hinit & Hnb & Hnt & Hnx & Hny & Hz & HB).
  rewrite Hn in Hnt. inversion Hnt; subst nx' ny'.
  exists nx. unfold getSequentialPatchIndexFromPair, tract_getPatchInfo. rewrite Hnb. cbn [bind fst snd].
  split; [f_equal; lia|]. split; [f_equal; lia|]. split.
  - exists (the_patch c nx ny (t_wcs t) 0 1). split; [apply getPatchInfo_pair; auto; lia|].
    cbn. lia.
  - apply (getPatchInfo_pair_out b nx ny); auto; lia.
Qed.

(*@ C01-C08, non-vacuity: a legacy tract of 3 x 2 patches of 4000 x 4000 pixels, and a cell
    tract of 4 x 2 patches, are in use. *)
Example patch_hypotheses_met_proof :
  cfg_ok legacy_default /\ cfg_ok cell_default
  /\ (exists b t, in_use flat_offset legacy_default b t /\ t_numPatches t = (3, 2))
  /\ (exists b t, in_use flat_offset cell_default b t /\ t_numPatches t = (4, 2)).
Proof.
  assert (H1 : cfg_ok legacy_default) by (cbn; lia).
  assert (H2 : cfg_ok cell_default) by (cbn; lia).
  split; [exact H1|]. split; [exact H2|]. split.
  - destruct (ex_tract legacy_default 0 0 9999 4999 (builder_init _) H1 (br_init _))
      as (b & t & _ & Hu & Hn); [lia|lia|]. exists b, t. split; [exact Hu|]. rewrite Hn. reflexivity.
  - destruct (ex_tract cell_default 0 0 9999 4999 (builder_init _) H2 (br_init _))
      as (b & t & _ & Hu & Hn); [lia|lia|]. exists b, t. split; [exact Hu|]. rewrite Hn. reflexivity.
Qed.
