(** Patch records; soundness of repositories; successful registration. *)
From Coq Require Import Reals String.
Require Import Verif.Py Verif.Geom Verif.PatchInfo Verif.TractBuilder Verif.TractInfo Verif.Spec.
Require Import Verif.PatchProofs Verif.TractProofs.
Require Import Verif.SkyMap Verif.SkySpec Verif.SkyProofs Verif.SkyProofs2 Verif.Register Verif.RegSpec Verif.RegProofs.
Open Scope list_scope.
Open Scope Z_scope.
Local Arguments Z.mul : simpl never.

Lemma mapM_Forall2 {A B} (f : A -> res B) l ys :
  mapM f l = Ok ys <-> Forall2 (fun x y => f x = Ok y) l ys.
Proof.
  revert ys. induction l as [|x l IH]; intros ys; cbn [mapM].
  - split; [intros [= <-]; constructor|intros H; inversion H; reflexivity].
  - split.
    + destruct (f x) as [y|e] eqn:E; cbn [bind]; [|discriminate].
      destruct (mapM f l) as [ys'|e] eqn:E'; cbn [bind]; [|discriminate]. intros [= <-].
      constructor; [exact E|]. now apply IH.
    + intros H. inversion H as [|? y ? ys' H1 H2]; subst. rewrite H1. cbn [bind].
      apply IH in H2. rewrite H2. reflexivity.
Qed.

Lemma Forall2_nth_error {A B} (P : A -> B -> Prop) l1 l2 k a :
  Forall2 P l1 l2 -> nth_error l1 k = Some a -> exists b, nth_error l2 k = Some b /\ P a b.
Proof.
  intros H. revert k. induction H as [|x y l1 l2 Hxy _ IH]; intros [|k]; cbn; try discriminate; eauto.
  intros [= <-]. eauto.
Qed.
Lemma Forall2_nth_error_r {A B} (P : A -> B -> Prop) l1 l2 k b :
  Forall2 P l1 l2 -> nth_error l2 k = Some b -> exists a, nth_error l1 k = Some a /\ P a b.
Proof.
  intros H. revert k. induction H as [|x y l1 l2 Hxy _ IH]; intros [|k]; cbn; try discriminate; eauto.
  intros [= <-]. eauto.
Qed.

Lemma grid_nth nx ny x y : 0 <= x < nx -> 0 <= y < ny ->
  nth_error (grid nx ny) (Z.to_nat (y * nx + x)) = Some (x, y).
Proof.
  intros Hx Hy. destruct (nth_error (grid nx ny) (Z.to_nat (y * nx + x))) as [[x' y']|] eqn:E.
  - apply grid_nth_error in E; [|lia..]. destruct E as (Hx' & Hy' & E).
    assert (E2 : nx * y' + x' = nx * y + x) by nia.
    assert (y' = y) by nia. subst. f_equal. f_equal. lia.
  - exfalso. apply nth_error_None in E.
    pose proof (grid_length nx ny ltac:(lia) ltac:(lia)) as L.
    assert (0 <= y * nx + x < nx * ny) by nia. lia.
Qed.

Section Register.
Context {Sky : Type}.
Variable offset : Sky -> R -> R -> Sky.
Notation registry := (registry Sky).

(** The records of one tract, when the builder is in use by the tract [u]. *)
Lemma patch_records_spec c b (u t : tract Sky) name block :
  cfg_ok c -> in_use offset c b u -> tract_made offset c t ->
  patch_records name b t = Ok block -> patch_block name b (fst (t_numPatches u)) (t_id t) t block.
Proof.
  intros Hc Hu Ht H.
  destruct (in_use_spec offset c b u Hc Hu) as (nxl & nyl & Hi & Hinit & Hnb & Hnu & _).
  destruct (tract_made_inv offset c t Hc Ht) as [(nx & ny & Hn & Hnx & Hny & _)].
  unfold patch_records in H. destruct (tract_iter b t) as [ps|e] eqn:Ei; [|discriminate]. cbn [bind] in H.
  unfold tract_iter in Ei. rewrite Hn in Ei. apply mapM_Forall2 in Ei. apply mapM_Forall2 in H.
  exists nx, ny. split; [exact Hn|]. split; [exact Hnx|]. split; [exact Hny|].
  pose proof (Forall2_len _ _ _ Ei) as L1. pose proof (Forall2_len _ _ _ H) as L2.
  pose proof (grid_length nx ny Hnx Hny) as L0. split; [rewrite <- L2, <- L1; exact L0|].
  intros x y Hx Hy. pose proof (grid_nth nx ny x y Hx Hy) as Hg.
  destruct (Forall2_nth_error _ _ _ _ _ Ei Hg) as (p & Hp & Ep). cbn [fst snd] in Ep.
  destruct (Forall2_nth_error _ _ _ _ _ H Hp) as (pr & Hpr & Epr).
  exists p. split; [exact Ep|]. rewrite Hpr. f_equal.
  unfold tract_getPatchInfo in Ep.
  destruct (getPatchInfo_pair_inv c b nxl nyl _ x y p Hc Hi Hinit Hnb Ep) as (Hx' & Hy' & ->).
  unfold patch_record, getSequentialPatchIndex, getSequentialPatchIndexFromPair in Epr.
  rewrite Hnb in Epr. cbn [bind fst snd the_patch p_index] in Epr. injection Epr as <-.
  rewrite Hnu. cbn [fst]. f_equal. lia.
Qed.

(** The records of a tract exist exactly when its patch counts do not exceed those of [u]. *)
Lemma patch_records_ok c b (u t : tract Sky) name nx ny nxl nyl :
  cfg_ok c -> in_use offset c b u -> tract_made offset c t ->
  t_numPatches t = (nx, ny) -> t_numPatches u = (nxl, nyl) ->
  (nx <= nxl /\ ny <= nyl -> exists block, patch_records name b t = Ok block)
  /\ (nxl < nx \/ nyl < ny -> patch_records name b t = Raise IndexError).
Proof.
  intros Hc Hu Ht Hn Hnu.
  destruct (in_use_spec offset c b u Hc Hu) as (a & a' & Hi & Hinit & Hnb & Hnu' & Hnxl & Hnyl & _).
  rewrite Hnu in Hnu'. injection Hnu' as <- <-.
  destruct (tract_made_inv offset c t Hc Ht) as [(nx' & ny' & Hn' & Hnx & Hny & Hz & _)].
  rewrite Hn in Hn'. injection Hn' as <- <-. unfold patch_records, tract_iter. rewrite Hn. split.
  - intros [Hle Hle'].
    rewrite (mapM_Ok _ (fun i : pair2 => the_patch c nxl nyl (t_wcs t) (fst i) (snd i))).
    2:{ intros [x y] Hin. apply in_grid in Hin. unfold tract_getPatchInfo. cbn [fst snd].
        apply getPatchInfo_pair; auto; lia. }
    cbn [bind]. eexists. apply mapM_Ok with (g := fun p => mkPatchRec name (t_id t) (nxl * snd (p_index p) + fst (p_index p)) (fst (p_index p)) (snd (p_index p)) (patch_getOuterSkyPolygon p (Some (t_wcs t)))).
    intros p _. unfold patch_record, getSequentialPatchIndex, getSequentialPatchIndexFromPair. rewrite Hnb. reflexivity.
  - intros Hgt.
    assert (K : forall l, (forall i, In i l -> 0 <= fst i /\ 0 <= snd i) -> (exists i, In i l /\ (nxl <= fst i \/ nyl <= snd i)) ->
       mapM (fun i : pair2 => tract_getPatchInfo b t (IxIndex2D (fst i) (snd i))) l = Raise IndexError).
    { clear -Hc Hi Hinit Hnb. induction l as [|[x y] l IH]; intros Hpos (i & Hin & Hout); [contradiction|]. cbn [mapM].
      unfold tract_getPatchInfo at 1. cbn [fst snd].
      assert (D : (0 <= x < nxl /\ 0 <= y < nyl) \/ ~ (0 <= x < nxl /\ 0 <= y < nyl)) by lia.
      destruct D as [D|D].
      - rewrite (getPatchInfo_pair c b nxl nyl) by tauto. cbn [bind]. destruct Hin as [<-|Hin]; [cbn in Hout; lia|].
        rewrite IH; [reflexivity| |eauto]. intros; apply Hpos; now right.
      - rewrite (getPatchInfo_pair_out b nxl nyl) by assumption. reflexivity. }
    rewrite K; [reflexivity| |].
    + intros [x y] Hin. apply in_grid in Hin. cbn. lia.
    + exists (nx - 1, ny - 1). rewrite in_grid. cbn [fst snd]. lia.
Qed.

(** Once all tracts exist, the builder belongs to the one generated last. *)
Lemma all_held_last d s : cfg_ok (sd_cfg d) -> sm_reachable offset d s -> 0 < sd_num d ->
  (forall i, 0 <= i < sd_num d -> exists t, holds offset d i s t) ->
  exists u, holds offset d (last (sm_log s) 0) s u /\ in_use offset (sd_cfg d) (sm_builder s) u.
Proof.
  intros Hc Hr Hn Hall. destruct (Hall 0 ltac:(lia)) as (t & Ht).
  destruct (builder_last offset d s Hc Hr (holds_log_ne offset d s 0 t Hr Ht)) as (i & u & Hu & Hin & _ & <-). eauto.
Qed.

Lemma wrote_complete d name hash nxm nym s r r' :
  cfg_ok (sd_cfg d) -> sm_reachable offset d s -> 0 < sd_num d ->
  (forall i, 0 <= i < sd_num d -> exists t, holds offset d i s t) ->
  largest_count offset fst d s nxm -> largest_count offset snd d s nym ->
  wrote offset d name hash (mkSkyRec name hash (sd_num d) nxm nym) s r r' ->
  completely_registered offset d name hash s r r'.
Proof.
  intros Hc Hr Hn Hall Hx Hy (_ & _ & trs & blocks & A1 & A2 & A3 & A4 & A5 & A6 & F1 & F2).
  destruct (all_held_last d s Hc Hr Hn Hall) as (u & Hu & Hin).
  exists nxm, nym, trs, blocks, u. repeat (split; [assumption|]).
  eapply Forall2_impl; [|exact F2]. cbn. intros i block (t & Ht & Hb). exists t. split; [exact Ht|].
  rewrite <- (holds_id offset d s i t Hr Ht). eapply patch_records_spec; eauto. eapply holds_made; eauto.
Qed.

(** Where a record of a block is. *)
Lemma block_in name b stride i (t : tract Sky) block pr :
  patch_block name b stride i t block -> In pr block ->
  exists nx ny x y p, t_numPatches t = (nx, ny) /\ 0 <= x < nx /\ 0 <= y < ny
    /\ tract_getPatchInfo b t (IxIndex2D x y) = Ok p
    /\ pr = mkPatchRec name i (y * stride + x) x y (patch_getOuterSkyPolygon p (Some (t_wcs t))).
Proof.
  intros (nx & ny & Hn & Hx0 & Hy0 & Hl & Hb) Hin. apply In_nth_error in Hin. destruct Hin as (k & Hk).
  assert (Hlt : (k < List.length block)%nat) by (apply nth_error_Some; congruence).
  assert (Hk2 : 0 <= Z.of_nat k < nx * ny) by lia.
  assert (Hx : 0 < nx) by nia.
  set (x := Z.of_nat k mod nx). set (y := Z.of_nat k / nx).
  assert (Hxr : 0 <= x < nx) by (apply Z.mod_pos_bound; lia).
  assert (Hyr : 0 <= y < ny) by (split; [apply Z.div_pos; lia|apply Z.div_lt_upper_bound; lia]).
  destruct (Hb x y Hxr Hyr) as (p & Hp & Hpr). exists nx, ny, x, y, p.
  assert (E : y * nx + x = Z.of_nat k) by (unfold x, y; rewrite (Z.div_mod (Z.of_nat k) nx) at 3 by lia; lia).
  rewrite E, Nat2Z.id, Hk in Hpr. injection Hpr as ->. auto 10.
Qed.

Lemma same_records_sound (r r' : registry) : same_records r r' -> sound r -> sound r'.
Proof.
  intros (A1 & A2 & A3 & A4) [B1 B2 B3 B4 B5 B6 B7]. constructor; rewrite ?A1, ?A2, ?A3, ?A4; assumption.
Qed.

Lemma in_concat_Forall2 {A B} (P : A -> list B -> Prop) ids blocks b :
  Forall2 P ids blocks -> In b (concat blocks) -> exists i block, In i ids /\ P i block /\ In b block.
Proof.
  intros H. induction H as [|i block ids blocks H1 _ IH]; cbn; [intros []|].
  rewrite in_app_iff. intros [Hb|Hb]; [exists i, block; auto|].
  destruct (IH Hb) as (j & bl & ? & ? & ?). exists j, bl. auto.
Qed.

Lemma wrote_sound d name hash nxm nym s r r' :
  cfg_ok (sd_cfg d) -> sm_reachable offset d s -> 0 < sd_num d ->
  (forall i, 0 <= i < sd_num d -> exists t, holds offset d i s t) ->
  largest_count offset fst d s nxm -> largest_count offset snd d s nym ->
  wrote offset d name hash (mkSkyRec name hash (sd_num d) nxm nym) s r r' ->
  sound r -> sound r'.
Proof.
  intros Hc Hr Hnum Hall Hx Hy Hw [B1 B2 B3 B4 B5 B6 B7].
  pose proof (wrote_complete d name hash nxm nym s r r' Hc Hr Hnum Hall Hx Hy Hw)
    as (nxm' & nym' & trs' & blocks' & u & _ & _ & Hu & Ek' & _ & Ep' & _ & _ & FB).
  destruct Hw as (Hnn & Hnh & trs & blocks & A1 & A2 & A3 & A4 & A5 & A6 & F1 & _).
  cbn [k_name k_hash] in Hnn, Hnh.
  destruct (all_held_last d s Hc Hr Hnum Hall) as (u' & Hu' & Hin).
  rewrite (holds_fun _ _ _ _ _ _ Hu' Hu) in Hin. clear u' Hu'.
  destruct (in_use_spec offset (sd_cfg d) _ u Hc Hin) as (nxl & nyl & Hbi & Hinit & Hnb & Hnu & Hnxl & Hnyl & _).
  constructor.
  - rewrite A1, map_app. cbn. now apply NoDup_snoc.
  - rewrite A1, map_app. cbn. now apply NoDup_snoc.
  - now apply A5.
  - now apply A6.
  - intros n i. rewrite A2, map_app, in_app_iff, B5, A1. split.
    + intros [(k & Hk & En & Hi)|Hi].
      * exists k. rewrite in_app_iff. auto.
      * apply in_map_iff in Hi. destruct Hi as (tr & Etr & Htr).
        destruct (In_nth_error _ _ Htr) as (j & Hj).
        destruct (Forall2_nth_error_r _ _ _ _ _ F1 Hj) as (i' & Hi' & t & _ & ->).
        apply nth_error_In, in_zrange in Hi'. cbn in Etr. injection Etr as <- <-.
        eexists. rewrite in_app_iff. split; [right; left; reflexivity|]. cbn. auto.
    + intros (k & Hk & En & Hi). rewrite in_app_iff in Hk. destruct Hk as [Hk|[<-|[]]].
      * left. eauto.
      * cbn in En, Hi. subst n. right. apply in_zrange in Hi. apply In_nth_error in Hi. destruct Hi as (j & Hj).
        destruct (Forall2_nth_error _ _ _ _ _ F1 Hj) as (tr & Htr & t & _ & ->).
        apply nth_error_In in Htr. apply (in_map tract_key) in Htr. exact Htr.
  - intros p Hp. rewrite Ep', in_app_iff in Hp. rewrite A1. destruct Hp as [Hp|Hp].
    + destruct (B6 p Hp) as (k & Hk & H). exists k. rewrite in_app_iff. auto.
    + destruct (in_concat_Forall2 _ _ _ _ FB Hp) as (i & block & Hi & (t & Ht & Hblk) & Hin').
      destruct (block_in _ _ _ _ _ _ _ Hblk Hin') as (nx & ny & x & y & q & Hn & Hxr & Hyr & Hq & ->).
      eexists. rewrite in_app_iff. split; [right; left; reflexivity|]. cbn.
      apply in_zrange in Hi. unfold tract_getPatchInfo in Hq.
      destruct (getPatchInfo_pair_inv _ _ nxl nyl _ x y q Hc Hbi Hinit Hnb Hq) as (Hx' & Hy' & _).
      pose proof (proj1 Hx _ _ Ht) as L1. pose proof (proj1 Hy _ _ Ht) as L2. rewrite Hn in L1, L2. cbn in L1, L2.
      pose proof (proj1 Hx _ _ Hu) as L3. rewrite Hnu in L3 |- *. cbn [fst] in L3 |- *.
      split; [reflexivity|]. split; [exact Hi|]. split; [nia|]. lia.
  - rewrite A4, A1, B7, map_app. reflexivity.
Qed.

Lemma history_sound r : reg_history offset r -> sound r.
Proof.
  induction 1 as [|r faults d sha name s s' u' out Hh IH Hc Hr H].
  - constructor; cbn; try (apply NoDup_nil); try reflexivity; [|intros p []].
    intros n i. split; [intros []|]. intros (k & [] & _).
  - destruct (register_spec offset faults d sha name s r s' u' out Hr H) as (Ha & [[Hs _]|(hash & nxm & nym & _ & Hall & Hnum & Hx & Hy & Hout)]).
    + eapply same_records_sound; eauto.
    + pose proof (reachable_accesses _ _ _ _ Hr Ha) as Hr'.
      assert (K : same_records r (u_durable u') \/ wrote offset d name hash (mkSkyRec name hash (sd_num d) nxm nym) s' r (u_durable u')).
      { destruct out; tauto. }
      destruct K as [K|K]; [eapply same_records_sound; eauto|].
      exact (wrote_sound d name hash nxm nym s' r _ Hc Hr' Hnum Hall Hx Hy K IH).
Qed.
End Register.
