(** Lemmas about the cells of a patch. *)
From Coq Require Import Reals.
Require Import Verif.Py Verif.Geom Verif.PatchInfo Verif.TractBuilder Verif.TractInfo Verif.Spec.
Require Import Verif.PatchProofs.
Open Scope Z_scope.

Definition the_cell {W} (wcs : W) (cw ch cb nB N X0 Y0 x y : Z) : cell W :=
  mkCell (x, y) (N * y + x)
    (Box ((x - nB) * cw + X0) ((y - nB) * ch + Y0) cw ch)
    (Box ((x - nB) * cw + X0 - cb) ((y - nB) * ch + Y0 - cb) (cw + 2 * cb) (ch + 2 * cb)) wcs.

Record cells_inv {W} (cw ch cb nI nB X0 Y0 : Z) (p : patch W) : Prop := {
  ci_cw : 0 < cw; ci_ch : 0 < ch; ci_cb : 0 <= cb; ci_nI : 0 < nI; ci_nB : 0 <= nB;
  ci_inner : p_inner p = Box X0 Y0 (cw * nI) (ch * nI);
  ci_dims : p_cellInner p = (cw, ch);
  ci_border : p_cellBorder p = cb;
  ci_nborder : p_nBorder p = nB;
  ci_num : p_numCells p = (nI + 2 * nB, nI + 2 * nB) }.

Lemma the_patch_cells {W} cw ch cb nI nB nx ny (w : W) X Y :
  cfg_ok (CellCfg (cw, ch) cb nI nB) ->
  cells_inv cw ch cb nI nB (X * (cw * nI)) (Y * (ch * nI))
    (the_patch (CellCfg (cw, ch) cb nI nB) nx ny w X Y).
Proof. intros (?&?&?&?&?). constructor; cbn; auto. Qed.

Section Cells.
Context {W : Type}.
Variables (cw ch cb nI nB X0 Y0 : Z) (p : patch W).
Hypothesis H : cells_inv cw ch cb nI nB X0 Y0 p.
Let N := nI + 2 * nB.

Lemma cells_N_pos : 0 < N.
Proof. destruct H. unfold N. lia. Qed.

Lemma getCellInfo_pair x y :
  0 <= x < N -> 0 <= y < N ->
  getCellInfo p (IxIndex2D x y) = Ok (the_cell (p_wcs p) cw ch cb nB N X0 Y0 x y).
Proof.
  pose proof cells_N_pos as HN. destruct H as [Hcw Hch Hcb HnI HnB Ein Ed Eb Enb Enum].
  fold N in Enum. intros Hx Hy. unfold getCellInfo. rewrite Enum.
  destruct (Z.eqb_spec N 0); [lia|]. cbn [orb bind].
  destruct (Z.leb_spec 0 x); [|lia]. destruct (Z.ltb_spec x N); [|lia].
  destruct (Z.leb_spec 0 y); [|lia]. destruct (Z.ltb_spec y N); [|lia].
  cbn [andb orb negb]. rewrite Ed, Eb, Enb, Ein. cbn [fst snd minx miny].
  rewrite box_make_pos, box_grow_pos by assumption.
  unfold getSequentialCellIndexFromPair. rewrite Enum. cbn [index2D_of_star bind fst snd].
  unfold CellInfo_init.
  assert (Hc : box_contains_box
     (Box ((x - nB) * cw + X0 - cb) ((y - nB) * ch + Y0 - cb) (cw + 2 * cb) (ch + 2 * cb))
     (Box ((x - nB) * cw + X0) ((y - nB) * ch + Y0) cw ch) = true).
  { unfold box_contains_box, box_isEmpty, maxx, maxy; cbn [minx miny dimx dimy].
    destruct (Z.eqb_spec cw 0); [lia|]. cbn [andb orb]. rewrite !andb_true_iff, !Z.leb_le. lia. }
  rewrite Hc. reflexivity.
Qed.

Lemma getCellInfo_pair_out x y :
  ~ (0 <= x < N /\ 0 <= y < N) -> getCellInfo p (IxIndex2D x y) = Raise IndexError.
Proof.
  pose proof cells_N_pos as HN. destruct H as [Hcw Hch Hcb HnI HnB Ein Ed Eb Enb Enum].
  fold N in Enum. intros Ho. unfold getCellInfo. rewrite Enum.
  destruct (Z.eqb_spec N 0); [lia|]. cbn [orb bind].
  destruct (Z.leb_spec 0 x); destruct (Z.ltb_spec x N);
  destruct (Z.leb_spec 0 y); destruct (Z.ltb_spec y N); cbn [andb orb negb]; try reflexivity. lia.
Qed.

Lemma getCellInfo_pair_inv x y c :
  getCellInfo p (IxIndex2D x y) = Ok c ->
  0 <= x < N /\ 0 <= y < N /\ c = the_cell (p_wcs p) cw ch cb nB N X0 Y0 x y.
Proof.
  intros Hg. assert (D : (0 <= x < N /\ 0 <= y < N) \/ ~ (0 <= x < N /\ 0 <= y < N)) by lia.
  destruct D as [[Hx Hy]|D].
  - rewrite getCellInfo_pair in Hg by assumption. inversion Hg. auto.
  - rewrite getCellInfo_pair_out in Hg by assumption. discriminate.
Qed.

Lemma getCellInfo_num n :
  getCellInfo p (IxNum n) = getCellInfo p (IxIndex2D (n mod N) (n / N)).
Proof.
  pose proof cells_N_pos as HN. destruct H as [Hcw Hch Hcb HnI HnB Ein Ed Eb Enb Enum].
  fold N in Enum. unfold getCellInfo, getCellIndexPair. rewrite Enum.
  destruct (Z.eqb_spec N 0); [lia|]. cbn [orb]. unfold py_mod, py_floordiv.
  destruct (Z.eqb_spec N 0); [lia|]. reflexivity.
Qed.
End Cells.

(** What the tract builder guarantees for a patch with cells. *)
Lemma cells_of_tract {Sky} (offset : Sky -> R -> R -> Sky) cw ch cb nI nB b t X Y p :
  cfg_ok (CellCfg (cw, ch) cb nI nB) -> in_use offset (CellCfg (cw, ch) cb nI nB) b t ->
  tract_getPatchInfo b t (IxIndex2D X Y) = Ok p ->
  cells_inv cw ch cb nI nB (X * (cw * nI)) (Y * (ch * nI)) p
  /\ p_index p = (X, Y)
  /\ p_outer p = (let n := nB * cw + cb in
                  Box (X * (cw * nI) - n) (Y * (ch * nI) - n) (cw * nI + 2 * n) (ch * nI + 2 * n)).
Proof.
  intros Hc Hu Hp.
  destruct (in_use_spec offset _ b t Hc Hu)
    as (nx & ny & Hi & Hinit & Hnb & Hnt & Hnx & Hny & Hz & HB).
  destruct (getPatchInfo_pair_inv _ b nx ny _ X Y p Hc Hi Hinit Hnb Hp) as (Hx & Hy & ->).
  split; [now apply the_patch_cells|]. split; reflexivity.
Qed.
