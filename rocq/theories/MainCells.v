(** Cells of a patch (C09-C14, C56). *)
From Coq Require Import Reals Lra.
Require Import Verif.Py Verif.Geom Verif.PatchInfo Verif.TractBuilder Verif.TractInfo Verif.Spec.
Require Import Verif.PatchProofs Verif.CellProofs Verif.Examples.
Open Scope Z_scope.
Local Arguments Z.mul : simpl never.

(*@ C09: in a patch with cells, getSequentialCellIndexFromPair and getCellIndexPair are mutually
    inverse between valid cell pairs and 0..len-1. *)
Lemma sequential_cell_bijection_proof :
  forall (Sky : Type) (offset : Sky -> R -> R -> Sky) d cb nI nB b t X Y p,
  cfg_ok (CellCfg d cb nI nB) -> in_use offset (CellCfg d cb nI nB) b t ->
  tract_getPatchInfo b t (IxIndex2D X Y) = Ok p ->
  let N := nI + 2 * nB in
  patch_len p = N * N
  /\ (forall x y, 0 <= x < N -> 0 <= y < N ->
     exists n, getSequentialCellIndexFromPair p (IxIndex2D x y) = Ok n
       /\ 0 <= n < patch_len p /\ getCellIndexPair p n = Ok (x, y))
  /\ (forall n, 0 <= n < patch_len p ->
     exists x y, getCellIndexPair p n = Ok (x, y) /\ 0 <= x < N /\ 0 <= y < N
       /\ getSequentialCellIndexFromPair p (IxIndex2D x y) = Ok n).
Proof.
  intros Sky offset [cw ch] cb nI nB b t X Y p Hc Hu Hp N.
  destruct (cells_of_tract offset cw ch cb nI nB b t X Y p Hc Hu Hp) as (Hi & _).
  pose proof (cells_N_pos _ _ _ _ _ _ _ _ Hi) as HN.
  unfold patch_len, getSequentialCellIndexFromPair, getCellIndexPair.
  rewrite (ci_num _ _ _ _ _ _ _ _ Hi). fold N. fold N in HN.
  destruct (Z.eqb_spec N 0); [lia|]. cbn [orb index2D_of_star bind fst snd].
  unfold py_mod, py_floordiv. destruct (Z.eqb_spec N 0); [lia|]. cbn [bind].
  split; [reflexivity|]. split.
  - intros x y Hx Hy. exists (N * y + x). split; [reflexivity|]. split; [nia|].
    replace ((N * y + x) mod N) with x by (apply Z.mod_unique with y; lia).
    replace ((N * y + x) / N) with y by (apply Z.div_unique with x; lia). reflexivity.
  - intros n' Hn'. pose proof (Z.div_mod n' N ltac:(lia)). pose proof (Z.mod_pos_bound n' N ltac:(lia)).
    exists (n' mod N), (n' / N). split; [reflexivity|]. split; [lia|]. split; [nia|]. f_equal; lia.
Qed.

(*@ C09, iteration: list(patch) has len(patch) elements, the k-th is patch[k] and has sequential
    index k, and every cell occurs. *)
Lemma cell_iteration_proof :
  forall (Sky : Type) (offset : Sky -> R -> R -> Sky) d cb nI nB b t X Y p,
  cfg_ok (CellCfg d cb nI nB) -> in_use offset (CellCfg d cb nI nB) b t ->
  tract_getPatchInfo b t (IxIndex2D X Y) = Ok p ->
  exists cs, patch_iter p = Ok cs
    /\ Z.of_nat (length cs) = patch_len p
    /\ (forall k c, nth_error cs k = Some c ->
          getCellInfo p (IxNum (Z.of_nat k)) = Ok c /\ c_seq c = Z.of_nat k)
    /\ (forall x y c, getCellInfo p (IxIndex2D x y) = Ok c -> In c cs).
Proof.
  intros Sky offset [cw ch] cb nI nB b t X Y p Hc Hu Hp.
  destruct (cells_of_tract offset cw ch cb nI nB b t X Y p Hc Hu Hp) as (Hi & _).
  pose proof (cells_N_pos _ _ _ _ _ _ _ _ Hi) as HN. set (N := nI + 2 * nB) in *.
  unfold patch_iter, patch_len. rewrite (ci_num _ _ _ _ _ _ _ _ Hi). fold N.
  exists (map (fun i : pair2 => the_cell (p_wcs p) cw ch cb nB N (X * (cw * nI)) (Y * (ch * nI)) (fst i) (snd i))
              (grid N N)).
  split.
  { apply mapM_Ok. intros [x y] Hin. apply in_grid in Hin. cbn [fst snd].
    eapply getCellInfo_pair; eauto; tauto. }
  rewrite map_length. rewrite grid_length by lia. split; [reflexivity|]. split.
  - intros k c Hk. rewrite nth_error_map in Hk.
    destruct (nth_error (grid N N) k) as [[x y]|] eqn:E; cbn in Hk; [|discriminate].
    inversion Hk; subst c. apply grid_nth_error in E; [|lia..]. destruct E as (Hx & Hy & Ek).
    rewrite (getCellInfo_num _ _ _ _ _ _ _ _ Hi). fold N. rewrite Ek.
    replace ((N * y + x) mod N) with x by (apply Z.mod_unique with y; lia).
    replace ((N * y + x) / N) with y by (apply Z.div_unique with x; lia).
    split; [eapply getCellInfo_pair; eauto|reflexivity].
  - intros x y c Hg. eapply getCellInfo_pair_inv in Hg; [|eassumption].
    destruct Hg as (Hx & Hy & ->). apply in_map_iff. exists (x, y). split; [reflexivity|].
    apply in_grid. auto.
Qed.

(*@ C10: the cell inner boxes tile, without overlap, exactly the patch inner box enlarged by
    numCellsInPatchBorder cells on every side; cells at least numCellsInPatchBorder away from the
    edge of the patch grid tile exactly the patch inner box. *)
Lemma cells_tile_patch_proof :
  forall (Sky : Type) (offset : Sky -> R -> R -> Sky) cw ch cb nI nB b t X Y p,
  cfg_ok (CellCfg (cw, ch) cb nI nB) -> in_use offset (CellCfg (cw, ch) cb nI nB) b t ->
  tract_getPatchInfo b t (IxIndex2D X Y) = Ok p ->
  (forall px py,
     (minx (p_inner p) - nB * cw <= px < minx (p_inner p) + dimx (p_inner p) + nB * cw /\
      miny (p_inner p) - nB * ch <= py < miny (p_inner p) + dimy (p_inner p) + nB * ch)
     <-> exists x y c, getCellInfo p (IxIndex2D x y) = Ok c /\ in_box px py (c_inner c))
  /\ (forall px py,
     in_box px py (p_inner p)
     <-> exists x y c, getCellInfo p (IxIndex2D x y) = Ok c /\ in_box px py (c_inner c)
           /\ nB <= x < nB + nI /\ nB <= y < nB + nI)
  /\ (forall px py x y c x' y' c',
     getCellInfo p (IxIndex2D x y) = Ok c -> getCellInfo p (IxIndex2D x' y') = Ok c' ->
     in_box px py (c_inner c) -> in_box px py (c_inner c') -> x = x' /\ y = y')
  /\ (forall x y c, getCellInfo p (IxIndex2D x y) = Ok c -> box_dims (c_inner c) = (cw, ch)).
Proof.
  intros Sky offset cw ch cb nI nB b t X Y p Hc Hu Hp.
  destruct (cells_of_tract offset cw ch cb nI nB b t X Y p Hc Hu Hp) as (Hi & _).
  pose proof (cells_N_pos _ _ _ _ _ _ _ _ Hi) as HN. set (N := nI + 2 * nB) in *.
  set (X0 := X * (cw * nI)) in *. set (Y0 := Y * (ch * nI)) in *.
  rewrite (ci_inner _ _ _ _ _ _ _ _ Hi). destruct Hc as (Hcw & Hch & Hcb & HnI & HnB).
  assert (A : forall x y c, getCellInfo p (IxIndex2D x y) = Ok c ->
     0 <= x < N /\ 0 <= y < N /\ c_inner c = Box ((x - nB) * cw + X0) ((y - nB) * ch + Y0) cw ch).
  { intros x y c Hg. eapply getCellInfo_pair_inv in Hg; [|eassumption].
    destruct Hg as (? & ? & ->). auto. }
  assert (B : forall x y, 0 <= x < N -> 0 <= y < N ->
     exists c, getCellInfo p (IxIndex2D x y) = Ok c /\
        c_inner c = Box ((x - nB) * cw + X0) ((y - nB) * ch + Y0) cw ch).
  { intros x y Hx Hy. eexists. split; [eapply getCellInfo_pair; eauto|reflexivity]. }
  assert (D : forall q w, 0 < w -> w * (q / w) <= q < w * (q / w) + w).
  { intros q w Hw. pose proof (Z.div_mod q w ltac:(lia)). pose proof (Z.mod_pos_bound q w Hw). lia. }
  unfold in_box. cbn [minx miny dimx dimy].
  split; [|split; [|split]].
  - intros px py. split.
    + intros [Hx Hy].
      pose proof (D (px - X0) cw Hcw) as Dx. pose proof (D (py - Y0) ch Hch) as Dy.
      destruct (B ((px - X0) / cw + nB) ((py - Y0) / ch + nB)) as (c & Hg & E).
      * unfold N. split; nia.
      * unfold N. split; nia.
      * exists ((px - X0) / cw + nB), ((py - Y0) / ch + nB), c. rewrite E. cbn. split; [exact Hg|]. lia.
    + intros (x & y & c & Hg & Hin). destruct (A _ _ _ Hg) as (Hx & Hy & E). rewrite E in Hin.
      cbn in Hin. unfold N in *. nia.
  - intros px py. split.
    + intros [Hx Hy].
      pose proof (D (px - X0) cw Hcw) as Dx. pose proof (D (py - Y0) ch Hch) as Dy.
      assert (Qx : 0 <= (px - X0) / cw < nI) by (split; nia).
      assert (Qy : 0 <= (py - Y0) / ch < nI) by (split; nia).
      destruct (B ((px - X0) / cw + nB) ((py - Y0) / ch + nB)) as (c & Hg & E); [unfold N; lia..|].
      exists ((px - X0) / cw + nB), ((py - Y0) / ch + nB), c. rewrite E. cbn. split; [exact Hg|]. lia.
    + intros (x & y & c & Hg & Hin & Hx' & Hy'). destruct (A _ _ _ Hg) as (Hx & Hy & E).
      rewrite E in Hin. cbn in Hin. nia.
  - intros px py x y c x' y' c' Hg Hg' Hin Hin'.
    destruct (A _ _ _ Hg) as (Hx & Hy & E). destruct (A _ _ _ Hg') as (Hx' & Hy' & E').
    rewrite E in Hin. rewrite E' in Hin'. cbn in Hin, Hin'. split; nia.
  - intros x y c Hg. destruct (A _ _ _ Hg) as (_ & _ & E). rewrite E. reflexivity.
Qed.

(*@ C11: for square cells, the outer box of a cell is its inner box enlarged by cellBorder and
    lies in the patch outer box; conversely every pixel of the patch outer box lies in the outer
    box of some cell. *)
Lemma cell_outer_cover_proof :
  forall (Sky : Type) (offset : Sky -> R -> R -> Sky) cs cb nI nB b t X Y p,
  cfg_ok (CellCfg (cs, cs) cb nI nB) -> in_use offset (CellCfg (cs, cs) cb nI nB) b t ->
  tract_getPatchInfo b t (IxIndex2D X Y) = Ok p ->
  (forall x y c, getCellInfo p (IxIndex2D x y) = Ok c -> enlarged cb (c_inner c) (c_outer c))
  /\ (forall px py, in_box px py (p_outer p)
        <-> exists x y c, getCellInfo p (IxIndex2D x y) = Ok c /\ in_box px py (c_outer c)).
Proof.
  intros Sky offset cs cb nI nB b t X Y p Hc Hu Hp.
  destruct (cells_of_tract offset cs cs cb nI nB b t X Y p Hc Hu Hp) as (Hi & _ & Hout).
  pose proof (cells_N_pos _ _ _ _ _ _ _ _ Hi) as HN. set (N := nI + 2 * nB) in *.
  set (X0 := X * (cs * nI)) in *. set (Y0 := Y * (cs * nI)) in *.
  destruct Hc as (Hcw & Hch & Hcb & HnI & HnB).
  split.
  - intros x y c Hg. eapply getCellInfo_pair_inv in Hg; [|eassumption].
    destruct Hg as (? & ? & ->). unfold enlarged. cbn. lia.
  - rewrite Hout. cbn zeta. unfold in_box. cbn [minx miny dimx dimy].
    intros px py. split.
    + assert (D : forall q, (* choose the nearest cell on one axis *)
         - (nB * cs + cb) <= q < cs * nI + nB * cs + cb ->
         exists x, 0 <= x < N /\ (x - nB) * cs - cb <= q < (x - nB) * cs + cs + cb).
      { intros q Hq. pose proof (Z.div_mod q cs ltac:(lia)). pose proof (Z.mod_pos_bound q cs Hcw).
        destruct (Z_lt_le_dec (q / cs + nB) 0).
        - exists 0. split; [lia|]. nia.
        - destruct (Z_lt_le_dec (q / cs + nB) N).
          + exists (q / cs + nB). split; [lia|]. nia.
          + exists (N - 1). split; [lia|]. unfold N in *. nia. }
      intros [Hx Hy].
      destruct (D (px - X0)) as (x & Hxr & Hxb); [lia|].
      destruct (D (py - Y0)) as (y & Hyr & Hyb); [lia|].
      exists x, y. eexists. split; [eapply getCellInfo_pair; eauto|]. cbn. lia.
    + intros (x & y & c & Hg & Hin). eapply getCellInfo_pair_inv in Hg; [|eassumption].
      destruct Hg as (Hx & Hy & ->). cbn in Hin.
      assert (0 <= x * cs /\ 0 <= y * cs) by (split; nia).
      assert (x * cs <= (N - 1) * cs /\ y * cs <= (N - 1) * cs)
        by (unfold N in *; split; apply Z.mul_le_mono_nonneg_r; lia).
      unfold N in *. lia.
Qed.

(*@ C09: the sequential index of a cell object of the patch is the number it carries, is in range, and looking the cell up by
    it gives the same cell. *)
Lemma cell_own_number_proof :
  forall (Sky : Type) (offset : Sky -> R -> R -> Sky) d cb nI nB b t X Y p ix c,
  cfg_ok (CellCfg d cb nI nB) -> in_use offset (CellCfg d cb nI nB) b t ->
  tract_getPatchInfo b t (IxIndex2D X Y) = Ok p -> getCellInfo p ix = Ok c ->
  getSequentialCellIndex p c = Ok (c_seq c) /\ 0 <= c_seq c < patch_len p
  /\ getCellInfo p (IxNum (c_seq c)) = Ok c
  /\ getCellIndexPair p (c_seq c) = Ok (c_index c).
Proof.
  intros Sky offset [cw ch] cb nI nB b t X Y p ix c Hc Hu Hp Hg.
  destruct (cells_of_tract offset cw ch cb nI nB b t X Y p Hc Hu Hp) as (Hi & _).
  pose proof (cells_N_pos _ _ _ _ _ _ _ _ Hi) as HN. set (N := nI + 2 * nB) in *.
  assert (A : exists x y, getCellInfo p (IxIndex2D x y) = Ok c).
  { destruct ix as [x y|n|l|].
    - eauto.
    - rewrite (getCellInfo_num _ _ _ _ _ _ _ _ Hi) in Hg. eauto.
    - destruct l as [|x [|y [|? ?]]].
      1,2,4: unfold getCellInfo in Hg; rewrite (ci_num _ _ _ _ _ _ _ _ Hi) in Hg; fold N in Hg;
        destruct (Z.eqb_spec N 0); [lia|discriminate Hg].
      exists x, y. exact Hg.
    - unfold getCellInfo in Hg; rewrite (ci_num _ _ _ _ _ _ _ _ Hi) in Hg; fold N in Hg;
        destruct (Z.eqb_spec N 0); [lia|discriminate Hg]. }
  clear Hg. destruct A as (x & y & Hg). pose proof Hg as Hg0.
  eapply getCellInfo_pair_inv in Hg; [|eassumption]. fold N in Hg. destruct Hg as (Hx & Hy & Ec).
  assert (Ei : c_index c = (x, y)) by (rewrite Ec; reflexivity).
  assert (Es : c_seq c = N * y + x) by (rewrite Ec; reflexivity).
  rewrite (getCellInfo_num _ _ _ _ _ _ _ _ Hi). fold N. rewrite Es.
  replace ((N * y + x) mod N) with x by (apply Z.mod_unique with y; lia).
  replace ((N * y + x) / N) with y by (apply Z.div_unique with x; lia).
  unfold getSequentialCellIndex, getSequentialCellIndexFromPair, getCellIndexPair, patch_len.
  rewrite (ci_num _ _ _ _ _ _ _ _ Hi), Ei. fold N. cbn [index2D_of_star bind fst snd].
  split; [reflexivity|]. split; [nia|]. split; [exact Hg0|].
  destruct (Z.eqb_spec N 0); [lia|]. cbn [orb]. unfold py_mod, py_floordiv. destruct (Z.eqb_spec N 0); [lia|]. cbn [bind].
  replace ((N * y + x) mod N) with x by (apply Z.mod_unique with y; lia).
  replace ((N * y + x) / N) with y by (apply Z.div_unique with x; lia). reflexivity.
Qed.

(*@ C11: validate accepts every legacy configuration and exactly the cell configurations with square cells, others raise
    ValueError; the cells of a patch of a configuration it accepts exactly cover the patch outer box, and for
    a configuration it refuses (with a border of cells) those of no patch do. *)
Lemma cell_validation_proof :
  (forall inner border, tb_validate (LegacyCfg inner border) = Ok tt)
  /\ (forall cw ch cb nI nB, (tb_validate (CellCfg (cw, ch) cb nI nB) = Ok tt <-> cw = ch)
                           /\ (tb_validate (CellCfg (cw, ch) cb nI nB) = Raise ValueError <-> cw <> ch))
  /\ (forall (Sky : Type) (offset : Sky -> R -> R -> Sky) d cb nI nB b t X Y p,
       cfg_ok (CellCfg d cb nI nB) -> in_use offset (CellCfg d cb nI nB) b t ->
       tract_getPatchInfo b t (IxIndex2D X Y) = Ok p ->
       let covered := forall px py, in_box px py (p_outer p)
         <-> exists x y c, getCellInfo p (IxIndex2D x y) = Ok c /\ in_box px py (c_outer c) in
       (tb_validate (CellCfg d cb nI nB) = Ok tt -> covered)
       /\ (tb_validate (CellCfg d cb nI nB) <> Ok tt -> 0 < nB -> ~ covered)).
Proof.
  assert (V : forall cw ch cb nI nB, (tb_validate (CellCfg (cw, ch) cb nI nB) = Ok tt <-> cw = ch)
                           /\ (tb_validate (CellCfg (cw, ch) cb nI nB) = Raise ValueError <-> cw <> ch)).
  { intros. unfold tb_validate. destruct (Z.eqb_spec cw ch); cbn [negb]; split; split; congruence. }
  split; [reflexivity|]. split; [exact V|].
  intros Sky offset [cw ch] cb nI nB b t X Y p Hc Hu Hp covered. destruct (V cw ch cb nI nB) as [V1 _].
  split; rewrite V1.
  - intros <-. exact (proj2 (cell_outer_cover_proof Sky offset cw cb nI nB b t X Y p Hc Hu Hp)).
  - intros Hne HB Hcov.
    destruct (cells_of_tract offset cw ch cb nI nB b t X Y p Hc Hu Hp) as (Hi & _ & Hout). unfold covered in Hcov.
    pose proof (cells_N_pos _ _ _ _ _ _ _ _ Hi) as HN. set (N := nI + 2 * nB) in *.
    set (X0 := X * (cw * nI)) in *. set (Y0 := Y * (ch * nI)) in *.
    destruct Hc as (Hcw & Hch & Hcb & HnI & HnB). rewrite Hout in Hcov. cbv zeta in Hcov.
    (* the pixel row just below the patch outer box, or the lowest one in it *)
    destruct (Z_lt_le_dec cw ch) as [L|L].
    + (* cells reach below *)
      assert (E : getCellInfo p (IxIndex2D nB 0) = Ok (the_cell (p_wcs p) cw ch cb nB N X0 Y0 nB 0))
        by (eapply getCellInfo_pair; eauto; unfold N; lia).
      assert (In : in_box X0 (Y0 - nB * ch - cb) (c_outer (the_cell (p_wcs p) cw ch cb nB N X0 Y0 nB 0))).
      { unfold in_box. cbn. lia. }
      assert (K : in_box X0 (Y0 - nB * ch - cb) (Box (X0 - (nB * cw + cb)) (Y0 - (nB * cw + cb))
           (cw * nI + 2 * (nB * cw + cb)) (ch * nI + 2 * (nB * cw + cb)))) by (apply Hcov; eauto).
      unfold in_box in K. cbn in K. nia.
    + assert (K : in_box X0 (Y0 - (nB * cw + cb)) (Box (X0 - (nB * cw + cb)) (Y0 - (nB * cw + cb))
           (cw * nI + 2 * (nB * cw + cb)) (ch * nI + 2 * (nB * cw + cb)))).
      { unfold in_box. cbn. nia. }
      apply Hcov in K. destruct K as (x & y & c & Hg & Hin).
      eapply getCellInfo_pair_inv in Hg; [|eassumption]. destruct Hg as (Hx & Hy & ->).
      unfold in_box in Hin. cbn in Hin. assert (0 <= y * ch) by nia. nia.
Qed.

(*@ C12: cells of two patches of one tract whose inner boxes share a pixel are the same cell:
    identical inner and outer boxes. *)
Lemma neighbour_cells_coincide_proof :
  forall (Sky : Type) (offset : Sky -> R -> R -> Sky) d cb nI nB b t X Y p X' Y' p' x y c x' y' c' px py,
  cfg_ok (CellCfg d cb nI nB) -> in_use offset (CellCfg d cb nI nB) b t ->
  tract_getPatchInfo b t (IxIndex2D X Y) = Ok p -> tract_getPatchInfo b t (IxIndex2D X' Y') = Ok p' ->
  getCellInfo p (IxIndex2D x y) = Ok c -> getCellInfo p' (IxIndex2D x' y') = Ok c' ->
  in_box px py (c_inner c) -> in_box px py (c_inner c') ->
  c_inner c = c_inner c' /\ c_outer c = c_outer c'.
Proof.
  intros Sky offset [cw ch] cb nI nB b t X Y p X' Y' p' x y c x' y' c' px py Hc Hu Hp Hp' Hg Hg' H1 H2.
  destruct (cells_of_tract offset cw ch cb nI nB b t X Y p Hc Hu Hp) as (Hi & _).
  destruct (cells_of_tract offset cw ch cb nI nB b t X' Y' p' Hc Hu Hp') as (Hi' & _).
  eapply getCellInfo_pair_inv in Hg; [|eassumption]. destruct Hg as (_ & _ & ->).
  eapply getCellInfo_pair_inv in Hg'; [|eassumption]. destruct Hg' as (_ & _ & ->).
  destruct Hc as (Hcw & Hch & _). unfold in_box in *. cbn in *.
  assert (Ex : (x - nB) + X * nI = (x' - nB) + X' * nI) by nia.
  assert (Ey : (y - nB) + Y * nI = (y' - nB) + Y' * nI) by nia.
  assert (Fx : (x - nB) * cw + X * (cw * nI) = (x' - nB) * cw + X' * (cw * nI)) by nia.
  assert (Fy : (y - nB) * ch + Y * (ch * nI) = (y' - nB) * ch + Y' * (ch * nI)) by nia.
  rewrite Fx, Fy. auto.
Qed.

(*@ C13: a patch of a legacy tract has no cells: every lookup raises IndexError. *)
Lemma cell_lookup_legacy_proof :
  forall (Sky : Type) (offset : Sky -> R -> R -> Sky) inner border b t X Y p ix,
  cfg_ok (LegacyCfg inner border) -> in_use offset (LegacyCfg inner border) b t ->
  tract_getPatchInfo b t (IxIndex2D X Y) = Ok p ->
  getCellInfo p ix = Raise IndexError /\ patch_len p = 0 /\ patch_iter p = Ok [].
Proof.
  intros Sky offset inner border b t X Y p ix Hc Hu H.
  destruct (in_use_spec offset _ b t Hc Hu)
    as (nx & ny & Hi & Hinit & Hnb & _).
  destruct (getPatchInfo_pair_inv _ b nx ny _ X Y p Hc Hi Hinit Hnb H) as (_ & _ & ->).
  repeat split.
Qed.

(*@ C13: a patch of a cell tract accepts exactly the valid pairs and numbers. *)
Lemma cell_lookup_proof :
  forall (Sky : Type) (offset : Sky -> R -> R -> Sky) d cb nI nB b t X Y p,
  cfg_ok (CellCfg d cb nI nB) -> in_use offset (CellCfg d cb nI nB) b t ->
  tract_getPatchInfo b t (IxIndex2D X Y) = Ok p ->
  let N := nI + 2 * nB in
  (forall x y, 0 <= x < N /\ 0 <= y < N ->
     exists c, getCellInfo p (IxIndex2D x y) = Ok c /\ getCellInfo p (IxSeq [x; y]) = Ok c
            /\ c_index c = (x, y))
  /\ (forall x y, ~ (0 <= x < N /\ 0 <= y < N) ->
     getCellInfo p (IxIndex2D x y) = Raise IndexError
     /\ getCellInfo p (IxSeq [x; y]) = Raise IndexError)
  /\ (forall n, 0 <= n < patch_len p -> exists c, getCellInfo p (IxNum n) = Ok c /\ c_seq c = n)
  /\ (forall n, ~ (0 <= n < patch_len p) -> getCellInfo p (IxNum n) = Raise IndexError).
Proof.
  intros Sky offset [cw ch] cb nI nB b t X Y p Hc Hu Hp N.
  destruct (cells_of_tract offset cw ch cb nI nB b t X Y p Hc Hu Hp) as (Hi & _).
  pose proof (cells_N_pos _ _ _ _ _ _ _ _ Hi) as HN. fold N in HN.
  assert (S : forall x y, getCellInfo p (IxSeq [x; y]) = getCellInfo p (IxIndex2D x y)) by reflexivity.
  unfold patch_len. rewrite (ci_num _ _ _ _ _ _ _ _ Hi). fold N.
  split; [|split; [|split]].
  - intros x y [Hx Hy]. rewrite S. eexists. split; [eapply getCellInfo_pair; eauto|].
    split; [eapply getCellInfo_pair; eauto|reflexivity].
  - intros x y Ho. rewrite S. split; eapply getCellInfo_pair_out; eauto.
  - intros n Hn. rewrite (getCellInfo_num _ _ _ _ _ _ _ _ Hi). fold N.
    pose proof (Z.div_mod n N ltac:(lia)). pose proof (Z.mod_pos_bound n N ltac:(lia)).
    eexists. split; [eapply (getCellInfo_pair _ _ _ _ _ _ _ _ Hi); fold N; [lia|split; nia]|].
    cbn. fold N. lia.
  - intros n Hn. rewrite (getCellInfo_num _ _ _ _ _ _ _ _ Hi). fold N.
    eapply getCellInfo_pair_out; eauto. fold N.
    pose proof (Z.div_mod n N ltac:(lia)). pose proof (Z.mod_pos_bound n N ltac:(lia)).
    intros [_ Hy]. apply Hn. nia.
Qed.

(*@ C14: the IndexError documented for the two index converters is not raised: an out-of-range
    pair is silently mapped to the number of another cell, an out-of-range number to an
    out-of-range pair (shown for every cell tract patch). *)
Lemma cell_converters_indexerror_refuted_proof :
  forall (Sky : Type) (offset : Sky -> R -> R -> Sky) d cb nI nB b t X Y p,
  cfg_ok (CellCfg d cb nI nB) -> in_use offset (CellCfg d cb nI nB) b t ->
  tract_getPatchInfo b t (IxIndex2D X Y) = Ok p ->
  let N := nI + 2 * nB in
  (* the pair (N, 0) is out of range, yet gets the number of the pair (0, 1) *)
  getCellInfo p (IxIndex2D N 0) = Raise IndexError
  /\ getSequentialCellIndexFromPair p (IxIndex2D N 0) = Ok N
  /\ getSequentialCellIndexFromPair p (IxIndex2D 0 1) = Ok N
  (* the number len(patch) is out of range, yet is converted *)
  /\ getCellInfo p (IxNum (patch_len p)) = Raise IndexError
  /\ getCellIndexPair p (patch_len p) = Ok (0, N).
Proof.
  intros Sky offset [cw ch] cb nI nB b t X Y p Hc Hu Hp N.
  destruct (cells_of_tract offset cw ch cb nI nB b t X Y p Hc Hu Hp) as (Hi & _).
  pose proof (cells_N_pos _ _ _ _ _ _ _ _ Hi) as HN. fold N in HN.
  unfold patch_len, getSequentialCellIndexFromPair, getCellIndexPair.
  rewrite (ci_num _ _ _ _ _ _ _ _ Hi). fold N. cbn [index2D_of_star bind fst snd].
  split; [eapply getCellInfo_pair_out; eauto; fold N; lia|].
  split; [f_equal; lia|]. split; [f_equal; lia|]. split.
  - rewrite (getCellInfo_num _ _ _ _ _ _ _ _ Hi). fold N.
    eapply getCellInfo_pair_out; eauto. fold N. rewrite Z.div_mul by lia. lia.
  - destruct (Z.eqb_spec N 0); [lia|]. cbn [orb]. unfold py_mod, py_floordiv.
    destruct (Z.eqb_spec N 0); [lia|]. cbn [bind]. rewrite Z.mod_mul, Z.div_mul by lia. reflexivity.
Qed.

(*@ C14: exactly what the two index converters do, for every argument: a pair (x, y) gives y*n + x and a number k gives
    (k mod n, k div n), where n is the number of cells along a side; neither ever raises (for a pair of integers
    or a number), in particular not IndexError; the arguments for which patch[index] is
    refused are exactly those out of range. *)
Lemma cell_converters_exact_proof :
  forall (Sky : Type) (offset : Sky -> R -> R -> Sky) d cb nI nB b t X Y p,
  cfg_ok (CellCfg d cb nI nB) -> in_use offset (CellCfg d cb nI nB) b t ->
  tract_getPatchInfo b t (IxIndex2D X Y) = Ok p ->
  let n := nI + 2 * nB in
  0 < n
  /\ (forall x y, getSequentialCellIndexFromPair p (IxIndex2D x y) = Ok (y * n + x)
                /\ getSequentialCellIndexFromPair p (IxSeq [x; y]) = Ok (y * n + x))
  /\ (forall k, getCellIndexPair p k = Ok (k mod n, k / n))
  /\ (forall x y, getCellInfo p (IxIndex2D x y) = Raise IndexError <-> ~ (0 <= x < n /\ 0 <= y < n))
  /\ (forall k, getCellInfo p (IxNum k) = Raise IndexError <-> ~ (0 <= k < n * n)).
Proof.
  intros Sky offset [cw ch] cb nI nB b t X Y p Hc Hu Hp N.
  destruct (cells_of_tract offset cw ch cb nI nB b t X Y p Hc Hu Hp) as (Hi & _).
  pose proof (cells_N_pos _ _ _ _ _ _ _ _ Hi) as HN. fold N in HN. split; [exact HN|].
  assert (A : forall x y, getCellInfo p (IxIndex2D x y) = Raise IndexError <-> ~ (0 <= x < N /\ 0 <= y < N)).
  { intros x y. split.
    - intros E [Hx Hy].
      rewrite (getCellInfo_pair _ _ _ _ _ _ _ _ Hi) in E by (fold N; lia). discriminate.
    - intros H. eapply getCellInfo_pair_out; eauto; fold N; lia. }
  split; [|split; [|split; [exact A|]]].
  - intros x y. unfold getSequentialCellIndexFromPair. rewrite (ci_num _ _ _ _ _ _ _ _ Hi). fold N.
    cbn [index2D_of_star bind fst snd]. rewrite (Z.mul_comm y N). split; reflexivity.
  - intros k. unfold getCellIndexPair. rewrite (ci_num _ _ _ _ _ _ _ _ Hi). fold N. cbn [fst snd].
    destruct (Z.eqb_spec N 0); [lia|]. cbn [orb]. unfold py_mod, py_floordiv.
    destruct (Z.eqb_spec N 0); [lia|]. reflexivity.
  - intros k. rewrite (getCellInfo_num _ _ _ _ _ _ _ _ Hi). fold N. rewrite A.
    pose proof (Z.mod_pos_bound k N HN). pose proof (Z.div_mod k N ltac:(lia)).
    split; intros H1 H2; apply H1; [|nia].
    split; [assumption|]. split; [apply Z.div_pos; lia|apply Z.div_lt_upper_bound; lia].
Qed.

(*@ C56: patches made by tract builders (of any two configurations) that compare equal have the
    same cells: every index gives cells with equal index, number, inner and outer boxes, or the
    same exception. *)
Lemma equal_patches_equal_cells_proof :
  forall (Sky : Type) (offset : Sky -> R -> R -> Sky) c1 c2 b1 b2 t1 t2 X1 Y1 X2 Y2 p1 p2 ix,
  cfg_ok c1 -> cfg_ok c2 -> in_use offset c1 b1 t1 -> in_use offset c2 b2 t2 ->
  tract_getPatchInfo b1 t1 (IxIndex2D X1 Y1) = Ok p1 ->
  tract_getPatchInfo b2 t2 (IxIndex2D X2 Y2) = Ok p2 ->
  patch_eqb p1 p2 = true ->
  match getCellInfo p1 ix, getCellInfo p2 ix with
  | Ok e1, Ok e2 => c_index e1 = c_index e2 /\ c_seq e1 = c_seq e2
                    /\ c_inner e1 = c_inner e2 /\ c_outer e1 = c_outer e2
  | Raise x1, Raise x2 => x1 = x2
  | _, _ => False
  end.
Proof.
  intros Sky offset c1 c2 b1 b2 t1 t2 X1 Y1 X2 Y2 p1 p2 ix Hc1 Hc2 Hu1 Hu2 Hp1 Hp2 He.
  unfold patch_eqb, box_eqb in He. rewrite !andb_true_iff, !Z.eqb_eq in He.
  destruct He as (((((Hi1 & Hi2) & ((Hx & Hy) & Hdx) & Hdy) & ((Ox & Oy) & Odx) & Ody) & Hn1 & Hn2) & Hcb).
  destruct c1 as [in1 bd1|[cw1 ch1] cb1 nI1 nB1]; destruct c2 as [in2 bd2|[cw2 ch2] cb2 nI2 nB2].
  - destruct (cell_lookup_legacy_proof _ _ _ _ _ _ _ _ _ ix Hc1 Hu1 Hp1) as (-> & _).
    destruct (cell_lookup_legacy_proof _ _ _ _ _ _ _ _ _ ix Hc2 Hu2 Hp2) as (-> & _). reflexivity.
  - destruct (cells_of_tract offset _ _ _ _ _ _ _ _ _ _ Hc2 Hu2 Hp2) as (I2 & _).
    pose proof (cells_N_pos _ _ _ _ _ _ _ _ I2).
    rewrite (ci_num _ _ _ _ _ _ _ _ I2) in Hn1, Hn2. cbn in Hn1, Hn2.
    destruct (cell_lookup_legacy_proof _ _ _ _ _ _ _ _ _ ix Hc1 Hu1 Hp1) as (_ & L & _).
    unfold patch_len in L. destruct (p_numCells p1) as [u v] eqn:E. cbn in *. nia.
  - destruct (cells_of_tract offset _ _ _ _ _ _ _ _ _ _ Hc1 Hu1 Hp1) as (I1 & _).
    pose proof (cells_N_pos _ _ _ _ _ _ _ _ I1).
    rewrite (ci_num _ _ _ _ _ _ _ _ I1) in Hn1, Hn2. cbn in Hn1, Hn2.
    destruct (cell_lookup_legacy_proof _ _ _ _ _ _ _ _ _ ix Hc2 Hu2 Hp2) as (_ & L & _).
    unfold patch_len in L. destruct (p_numCells p2) as [u v] eqn:E. cbn in *. nia.
  - destruct (cells_of_tract offset _ _ _ _ _ _ _ _ _ _ Hc1 Hu1 Hp1) as (I1 & E1 & O1).
    destruct (cells_of_tract offset _ _ _ _ _ _ _ _ _ _ Hc2 Hu2 Hp2) as (I2 & E2 & O2).
    pose proof (cells_N_pos _ _ _ _ _ _ _ _ I1) as HN1.
    rewrite (ci_num _ _ _ _ _ _ _ _ I1), (ci_num _ _ _ _ _ _ _ _ I2) in Hn1.
    rewrite (ci_inner _ _ _ _ _ _ _ _ I1), (ci_inner _ _ _ _ _ _ _ _ I2) in *.
    rewrite (ci_border _ _ _ _ _ _ _ _ I1), (ci_border _ _ _ _ _ _ _ _ I2) in Hcb.
    rewrite E1, E2 in *. rewrite O1, O2 in *. cbn in *.
    destruct Hc1 as (Hcw1 & Hch1 & Hcb1 & HnI1 & HnB1). destruct Hc2 as (Hcw2 & Hch2 & Hcb2 & HnI2 & HnB2).
    subst X2 Y2 cb2.
    assert (Hb : nB1 * cw1 = nB2 * cw2) by lia.
    assert (Hw : cw1 = cw2).
    { assert ((nI1 + 2 * nB1) * cw1 = (nI1 + 2 * nB1) * cw2) by (transitivity ((nI2 + 2 * nB2) * cw2); [lia|now rewrite Hn1]). nia. }
    subst cw2. assert (nB2 = nB1) by nia. assert (nI2 = nI1) by lia. subst nB2 nI2.
    assert (ch2 = ch1) by nia. subst ch2.
    set (N := nI1 + 2 * nB1) in *.
    assert (F : forall x y, match getCellInfo p1 (IxIndex2D x y), getCellInfo p2 (IxIndex2D x y) with
      | Ok e1, Ok e2 => c_index e1 = c_index e2 /\ c_seq e1 = c_seq e2
                    /\ c_inner e1 = c_inner e2 /\ c_outer e1 = c_outer e2
      | Raise x1, Raise x2 => x1 = x2
      | _, _ => False
      end).
    { intros x y.
      assert (D : (0 <= x < N /\ 0 <= y < N) \/ ~ (0 <= x < N /\ 0 <= y < N)) by lia.
      destruct D as [[Dx Dy]|D].
      - rewrite (getCellInfo_pair _ _ _ _ _ _ _ _ I1), (getCellInfo_pair _ _ _ _ _ _ _ _ I2) by assumption.
        cbn. auto.
      - rewrite (getCellInfo_pair_out _ _ _ _ _ _ _ _ I1), (getCellInfo_pair_out _ _ _ _ _ _ _ _ I2) by assumption.
        reflexivity. }
    destruct ix as [x y|n|l|].
    + apply F.
    + rewrite (getCellInfo_num _ _ _ _ _ _ _ _ I1), (getCellInfo_num _ _ _ _ _ _ _ _ I2). apply F.
    + destruct l as [|x [|y [|z l]]].
      1,2,4: unfold getCellInfo; rewrite (ci_num _ _ _ _ _ _ _ _ I1), (ci_num _ _ _ _ _ _ _ _ I2);
             fold N; destruct (Z.eqb_spec N 0); [lia|]; reflexivity.
      apply F.
    + unfold getCellInfo; rewrite (ci_num _ _ _ _ _ _ _ _ I1), (ci_num _ _ _ _ _ _ _ _ I2).
      fold N; destruct (Z.eqb_spec N 0); [lia|]; reflexivity.
Qed.

(*@ C09-C14, non-vacuity: a patch of the default cell configuration, which has 22 x 22 cells. *)
Example cell_hypotheses_met_proof :
  exists b t p, cfg_ok cell_default /\ in_use flat_offset cell_default b t
    /\ tract_getPatchInfo b t (IxIndex2D 1 1) = Ok p /\ patch_len p = 484 /\ patch_eqb p p = true.
Proof.
  assert (H2 : cfg_ok cell_default) by (cbn; lia).
  destruct (ex_tract cell_default 0 0 9999 4999 (builder_init _) H2 (br_init _))
      as (b & t & _ & Hu & Hn); [lia|lia|].
  destruct (in_use_spec _ _ b t H2 Hu) as (nx & ny & Hi & Hinit & Hnb & Hnt & _).
  assert (En : nx = 4 /\ ny = 2) by (rewrite Hn in Hnt; vm_compute in Hnt; split; congruence).
  destruct En as [-> ->].
  exists b, t, (the_patch cell_default 4 2 (t_wcs t) 1 1).
  split; [exact H2|]. split; [exact Hu|].
  split; [apply (getPatchInfo_pair cell_default b 4 2 (t_wcs t) 1 1); auto; lia|].
  split; reflexivity.
Qed.
