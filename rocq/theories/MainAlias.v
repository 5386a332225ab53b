(** The objects that a sky map hands out (C83). *)
From Coq Require Import Reals Lia.
Require Import Verif.Py Verif.Geom Verif.PatchInfo Verif.TractBuilder Verif.TractInfo Verif.Spec.
Require Import Verif.PatchProofs Verif.SkyMap Verif.SkySpec Verif.SkyProofs Verif.SkyProofs2 Verif.Examples.
Require Import Verif.Alias Verif.AliasSpec Verif.AliasProofs.
Open Scope Z_scope.
Local Arguments Z.mul : simpl never.

Section Sim.
Context {Sky : Type}.
Variable offset : Sky -> R -> R -> Sky.
Notation world := (world Sky).

Lemma setup_keeps b m b' out : setupPatches b m = Ok (b', out) ->
  b_config b' = b_config b /\ b_patchInner b' = b_patchInner b /\ b_patchBorder b' = b_patchBorder b.
Proof.
  unfold setupPatches.
  destruct (setup_axis _ _ _) as [[[? ?] ?]|]; [|discriminate].
  destruct (setup_axis _ _ _) as [[[? ?] ?]|]; [|discriminate].
  cbn [bind]. intros H. injection H as <- _. auto.
Qed.
Lemma build_keeps b oid id ctr verts ov w cor smp b' t :
  tract_build (Sky := Sky) b oid id ctr verts ov w cor smp = Ok (b', t) ->
  b_config b' = b_config b /\ b_patchInner b' = b_patchInner b /\ b_patchBorder b' = b_patchBorder b.
Proof.
  unfold tract_build. destruct (include_all w smp) as [m|]; [|discriminate]. cbn [bind].
  destruct (setupPatches b (box_of_box2d m)) as [[b1 [bb np]]|] eqn:E; [|discriminate]. cbn [bind].
  unfold finalOrientation. intros H. injection H as <- _. eapply setup_keeps, E.
Qed.
Lemma make_keeps b oid i a b' t : make_tract offset b oid i a = Ok (b', t) ->
  b_config b' = b_config b /\ b_patchInner b' = b_patchInner b /\ b_patchBorder b' = b_patchBorder b.
Proof.
  destruct a; cbn.
  - apply build_keeps.
  - unfold ExplicitTractInfo_init. destruct (tract_build _ _ _ _ _ _ _ _ _) as [[b1 t1]|] eqn:E; [|discriminate].
    cbn [bind]. intros H. injection H as <- _. eapply build_keeps, E.
Qed.

(** Reading through a heap that keeps the objects of the map. *)
Lemma read_map_frame (w w' : world) tb te :
  inv w tb te ->
  w_builder w' = w_builder w -> w_tracts w' = w_tracts w -> w_next w' = w_next w -> w_log w' = w_log w ->
  (forall r, tag tb te r = Some OMap -> value_at (w_heap w') r = value_at (w_heap w) r) ->
  (forall r, tag tb te r = Some ODims -> value_at (w_heap w') r = value_at (w_heap w) r) ->
  read_map w' = read_map w.
Proof.
  intros Hi Eb Et En El Hm Hd. unfold read_map. rewrite Eb, Et, En, El. f_equal.
  - apply map_ext_in. intros [t|] Ht; [|reflexivity]. cbn. f_equal. unfold read_tract. f_equal.
    specialize (Hm _ (i_tracts _ _ _ Hi t Ht)). cbn in Hm. injection Hm as Hm. exact Hm.
  - unfold read_builder. f_equal.
    + specialize (Hd _ (i_dims _ _ _ Hi)). cbn in Hd. injection Hd as Hd. exact Hd.
    + specialize (Hm _ (i_tbox _ _ _ Hi)). cbn in Hm. injection Hm as Hm. exact Hm.
Qed.

Definition read_res (w : world) (r : res (htract Sky)) : res (tract Sky) :=
  match r with Ok t => Ok (read_tract (w_heap w) t) | Raise e => Raise e end.

Lemma generate_sim d i (w : world) tb te :
  inv w tb te ->
  generateTract offset d i (read_map w)
  = (read_map (fst (w_generate offset d i w)), read_res (fst (w_generate offset d i w)) (snd (w_generate offset d i w))).
Proof.
  intros Hi. unfold generateTract, w_generate. cbn [read_map sm_builder sm_next].
  destruct (a <- sd_args d i ;; make_tract offset (read_builder (w_heap w) (w_builder w)) (w_next w) i a)
    as [[b t]|e] eqn:E; [|reflexivity].
  assert (Hk : b_config b = hb_config (w_builder w) /\ b_patchInner b = ext_at (w_heap w) (hb_dims (w_builder w))
               /\ b_patchBorder b = hb_border (w_builder w)).
  { destruct (sd_args d i) as [a|]; [|discriminate]. cbn [bind] in E. apply make_keeps in E. exact E. }
  destruct Hk as (K1 & K2 & K3). cbn [new_box fst snd].
  pose proof (i_b _ _ _ Hi) as LB.
  assert (Hold : forall n, (n < length tb)%nat ->
     box_at (mkHeap ((h_box (w_heap w) ++ [b_tractBBox b]) ++ [t_bbox t]) (h_ext (w_heap w))) n = box_at (w_heap w) n).
  { intros n Hn. unfold box_at. cbn. rewrite <- app_assoc, app_nth1 by lia. reflexivity. }
  assert (Ev : forall n x, nth_error tb n = Some x -> (n < length tb)%nat).
  { intros n x Hn. apply nth_error_Some. congruence. }
  f_equal.
  - unfold read_map. cbn [w_heap w_builder w_tracts w_next w_log]. f_equal.
    + apply map_ext_in. intros [u|] Hu; [|reflexivity]. cbn. f_equal. unfold read_tract. f_equal.
      symmetry. apply Hold. eapply Ev. exact (i_tracts _ _ _ Hi u Hu).
    + unfold read_builder. cbn. rewrite <- K1, <- K3. unfold ext_at in *. cbn. rewrite <- K2. unfold box_at. cbn.
      rewrite <- app_assoc, app_nth2, Nat.sub_diag by lia. destruct b; reflexivity.
  - unfold read_res, read_tract. cbn. f_equal. unfold box_at. cbn.
    rewrite app_nth2, Nat.sub_diag by lia. destruct t; reflexivity.
Qed.

Lemma read_tract_frame (w w' : world) (t : htract Sky) tb te :
  tag tb te (RBox (ht_bbox t)) = Some OMap ->
  (forall r, tag tb te r = Some OMap -> value_at (w_heap w') r = value_at (w_heap w) r) ->
  read_tract (w_heap w') t = read_tract (w_heap w) t.
Proof.
  intros Ht H. unfold read_tract. f_equal. specialize (H _ Ht). cbn in H. injection H as H. exact H.
Qed.

Lemma map_list_set {A B} (f : A -> B) l i v : map f (list_set l i v) = list_set (map f l) i (f v).
Proof. revert i. induction l as [|x l IH]; intros [|i]; cbn; auto. rewrite IH. reflexivity. Qed.

Lemma py_nth_map {A B} (f : A -> B) l i :
  py_nth (map f l) i = match py_nth l i with Ok x => Ok (f x) | Raise e => Raise e end.
Proof.
  unfold py_nth. rewrite map_length. cbv zeta.
  match goal with |- context [if ?c then _ else _] => match c with _ && _ => destruct c end end; [|reflexivity].
  rewrite nth_error_map. destruct (nth_error l _); reflexivity.
Qed.

Lemma getitem_sim d i (w : world) tb te :
  inv w tb te ->
  sm_getitem offset d i (read_map w)
  = (read_map (fst (w_getitem offset d i w)), read_res (fst (w_getitem offset d i w)) (snd (w_getitem offset d i w))).
Proof.
  intros Hi. unfold sm_getitem, w_getitem. destruct (sd_kind d).
  - destruct ((i <? 0) || (sd_num d <? i)); [reflexivity|]. unfold smbind at 1.
    cbn [read_map sm_tracts]. rewrite py_nth_map.
    destruct (py_nth (w_tracts w) i) as [[t|]|e]; [reflexivity| |reflexivity].
    cbn [option_map]. unfold smbind at 1.
    change (mkSM (map (option_map (read_tract (w_heap w))) (w_tracts w))
              (read_builder (w_heap w) (w_builder w)) (w_next w) (w_log w)) with (read_map w).
    rewrite (generate_sim d i w tb te Hi).
    destruct (w_generate offset d i w) as [w1 [t|e]]; [|reflexivity].
    cbn [fst snd read_res]. unfold smbind, sm_store, smret. f_equal.
    unfold read_map. cbn [sm_tracts sm_builder sm_next sm_log set_tracts w_heap w_tracts w_builder w_next w_log].
    rewrite map_list_set. reflexivity.
  - unfold smbind. cbn [read_map sm_tracts]. rewrite py_nth_map.
    destruct (py_nth (w_tracts w) i) as [[t|]|e]; reflexivity.
Qed.

Lemma fill_sim d ids : forall (w : world) tb te,
  inv w tb te ->
  match w_fill offset d ids w with
  | Ok w' => eager_fill offset d ids (read_map w) = (read_map w', Ok tt)
  | Raise e => exists s, eager_fill offset d ids (read_map w) = (s, Raise e)
  end.
Proof.
  induction ids as [|i ids IH]; intros w tb te Hi; cbn [w_fill eager_fill]; [reflexivity|].
  pose proof (generate_frame offset d i w tb te (AGetitem i) Hi) as Hf.
  pose proof (generate_sim d i w tb te Hi) as Hs.
  destruct (w_generate offset d i w) as [w1 [t|e]]; cbn [fst snd read_res] in Hs.
  - destruct Hf as ([Hv _] & Ht & El). rewrite app_nil_r in Hv.
    assert (Hv1 : inv (set_tracts w1 (w_tracts w1 ++ [Some t])) (tb ++ [OMap; OMap]) te).
    { apply inv_set_tracts; [exact Hv|]. intros u Hu. rewrite in_app_iff in Hu.
      destruct Hu as [Hu|[E|[]]]; [apply (i_tracts _ _ _ Hv), Hu|]. injection E as <-. exact Ht. }
    specialize (IH _ _ _ Hv1).
    assert (E : mkSM (sm_tracts (read_map w1) ++ [Some (read_tract (w_heap w1) t)]) (sm_builder (read_map w1))
                  (sm_next (read_map w1)) (sm_log (read_map w1))
                = read_map (set_tracts w1 (w_tracts w1 ++ [Some t]))).
    { unfold read_map. cbn. rewrite map_app. reflexivity. }
    destruct (w_fill offset d ids _) as [w'|e].
    + unfold smbind. rewrite Hs. rewrite E. exact IH.
    + destruct IH as [s IH]. exists s. unfold smbind. rewrite Hs. rewrite E. exact IH.
  - exists (read_map w1). unfold smbind. rewrite Hs. reflexivity.
Qed.

Lemma new_sim d : sm_new offset d = match w_new offset d with Ok w => Ok (read_map w) | Raise e => Raise e end.
Proof.
  unfold sm_new, w_new. destruct (sd_kind d).
  - f_equal. unfold read_map, w_start. cbn. f_equal.
    + generalize (Z.to_nat (sd_num d)). intros n. induction n as [|n IH]; cbn; [reflexivity|]. rewrite <- IH. reflexivity.
    + unfold read_builder. cbn. destruct (builder_init (sd_cfg d)); reflexivity.
  - assert (Hi : inv (w_start (Sky := Sky) d []) [OMap] [ODims]) by (apply start_inv; intros t []).
    pose proof (fill_sim d (zrange 0 (sd_num d)) _ _ _ Hi) as H.
    assert (E : read_map (w_start (Sky := Sky) d []) = mkSM [] (builder_init (sd_cfg d)) 0 []).
    { unfold read_map, w_start, read_builder. cbn. destruct (builder_init (sd_cfg d)); reflexivity. }
    rewrite E in H. destruct (w_fill _ _ _ _) as [w|e].
    + rewrite H. reflexivity.
    + destruct H as [s ->]. reflexivity.
Qed.

Lemma act_fields d a (w : world) : (forall i, a <> AGetitem i) ->
  let w' := act offset d a w in
  w_builder w' = w_builder w /\ w_tracts w' = w_tracts w /\ w_next w' = w_next w /\ w_log w' = w_log w.
Proof.
  intros N. destruct a as [i|i|i|i q|k|k|k|k ix|k|k|j v]; cbn [act]; [destruct (N i eq_refl)|..].
  1,2: destruct (slot w i); cbn; auto.
  - destruct (slot w i); [|auto]. destruct (ask q _ _) as [l|]; [|auto].
    destruct (new_patches (w_heap w) l); cbn; auto.
  - destruct (nth_error _ _); cbn; auto.
  - destruct (nth_error _ _); cbn; auto.
  - destruct (nth_error _ _); cbn; auto.
  - destruct (nth_error _ _); [|auto]. destruct (getCellInfo _ _); cbn; auto.
  - destruct (nth_error _ _); cbn; auto.
  - destruct (nth_error _ _); cbn; auto.
  - destruct (nth_error _ _) as [[? ?]|]; cbn; auto.
Qed.

Lemma act_sim d a (w : world) tb te :
  inv w tb te -> (forall o, changes w a o -> but_dims o) ->
  read_map (act offset d a w)
  = match a with AGetitem i => fst (sm_getitem offset d i (read_map w)) | _ => read_map w end.
Proof.
  intros Hi Ha.
  assert (G : (forall i, a <> AGetitem i) -> read_map (act offset d a w) = read_map w).
  { intros N. destruct (act_frame offset d a w tb te Hi) as (tb' & te' & _ & Hf).
    destruct (act_fields d a w N) as (E1 & E2 & E3 & E4).
    apply (read_map_frame w _ tb te Hi E1 E2 E3 E4).
    - intros r Hr. apply (Hf r _ Hr). intros j v o r' -> Hj. destruct o; cbn; discriminate.
    - intros r Hr. apply (Hf r _ Hr). intros j v o r' -> Hj.
      assert (Ho : but_dims o) by (apply Ha; exists j, v, r'; auto).
      destruct o; cbn; try discriminate. destruct (Ho eq_refl). }
  destruct a; try (apply G; discriminate).
  rewrite (getitem_sim d i w tb te Hi). reflexivity.
Qed.
End Sim.

(*@ C83: as long as the user changes no object that came from [patch_inner_dimensions], the sky map is always
    in a state that accesses alone can bring about, whatever else was obtained and changed in place: an access
    is an access to that state, and nothing else has an effect on it.  So all properties of reachable sky
    maps hold, whatever the user does with the boxes and extents handed out. *)
Lemma handed_out_map_proof : forall (Sky : Type) (offset : Sky -> R -> R -> Sky) d w,
  history offset d but_dims w ->
  sm_reachable offset d (read_map w)
  /\ forall a, (forall o, changes w a o -> o <> FromPatchDims) ->
     read_map (act offset d a w)
     = match a with AGetitem i => fst (sm_getitem offset d i (read_map w)) | _ => read_map w end.
Proof.
  intros Sky offset d w H. split.
  - induction H as [w H|w a H IH Ha].
    + exists (read_map w). split; [|constructor]. rewrite new_sim, H. reflexivity.
    + destruct (history_inv offset d _ w H) as (tb & te & Hi).
      rewrite (act_sim offset d a w tb te Hi Ha).
      destruct a; try exact IH. eapply reachable_accesses; [exact IH|].
      eapply acc_get; [constructor|]. apply surjective_pairing.
  - intros a Ha. destruct (history_inv offset d _ w H) as (tb & te & Hi).
    apply (act_sim offset d a w tb te Hi Ha).
Qed.

Lemma new_patches_read {Sky} (l : list (patch (wcs Sky))) : forall h,
  map (read_patch (fst (new_patches h l))) (snd (new_patches h l)) = l.
Proof.
  induction l as [|p l IH]; intros h; [reflexivity|].
  cbn [new_patches]. specialize (IH (fst (new_patch h p))).
  pose proof (new_patches_grows l (fst (new_patch h p))) as (bs & es & Hb & He & _).
  assert (E : read_patch (fst (new_patches (fst (new_patch h p)) l)) (snd (new_patch h p)) = p).
  { set (h2 := fst (new_patches (fst (new_patch h p)) l)) in *. clearbody h2. unfold read_patch.
    cbn [new_patch new_box new_ext snd hp_attrs hp_inner hp_outer hp_cellInner].
    unfold box_at, ext_at. rewrite Hb, He. cbn [new_patch new_box new_ext fst h_box h_ext].
    rewrite <- !app_assoc. cbn [app]. rewrite !nth_middle.
    change (h_box h ++ p_inner p :: p_outer p :: bs) with (h_box h ++ [p_inner p] ++ p_outer p :: bs).
    rewrite (app_assoc (h_box h)), nth_middle. destruct p; reflexivity. }
  destruct (new_patch h p) as [h1 x]. cbn [fst snd] in *.
  destruct (new_patches h1 l) as [h2 xs]. cbn [fst snd map] in *. rewrite E, IH. reflexivity.
Qed.

Lemma slot_holds {Sky} (offset : Sky -> R -> R -> Sky) d (w : world Sky) i t :
  sm_reachable offset d (read_map w) -> slot w i = Some t ->
  holds offset d i (read_map w) (read_tract (w_heap w) t).
Proof.
  intros Hr Hs. unfold slot in Hs. destruct (Z.ltb_spec i 0); [discriminate|].
  destruct (nth_error (w_tracts w) (Z.to_nat i)) as [o|] eqn:E; [|discriminate]. subst o.
  assert (N : nth_error (sm_tracts (read_map w)) (Z.to_nat i) = Some (Some (read_tract (w_heap w) t))).
  { cbn. rewrite nth_error_map, E. reflexivity. }
  apply (holds_slot offset d _ i _ Hr). split; [|exact N]. split; [exact H|].
  pose proof (si_len _ _ _ _ (reachable_inv _ _ _ Hr)) as L.
  assert (Z.to_nat i < length (sm_tracts (read_map w)))%nat by (apply nth_error_Some; congruence). lia.
Qed.

(*@ C83: the patches that a call returns (tract[index], findPatch, findPatchList, iteration over a tract) are,
    at that moment, the ones that the model without objects computes for the tract of the sky map; and so is
    the box that tract.bbox returns. *)
Lemma handed_out_answers_proof : forall (Sky : Type) (offset : Sky -> R -> R -> Sky) d w i t,
  history offset d but_dims w -> slot w i = Some t ->
  holds offset d i (read_map w) (read_tract (w_heap w) t)
  /\ (forall q l, ask q (sm_builder (read_map w)) (read_tract (w_heap w) t) = Ok l ->
      exists ps, w_patches (act offset d (AQuery i q) w) = w_patches w ++ ps
        /\ map (read_patch (w_heap (act offset d (AQuery i q) w))) ps = l)
  /\ (exists r, w_given (act offset d (ABBox i) w) = w_given w ++ [(FromTractBBox, r)]
        /\ value_at (w_heap (act offset d (ABBox i) w)) r = VBox (t_bbox (read_tract (w_heap w) t))).
Proof.
  intros Sky offset d w i t H Hs. split; [|split].
  - apply slot_holds; [apply (handed_out_map_proof Sky offset d w H)|exact Hs].
  - intros q l Hq. cbn [act]. rewrite Hs. cbn [read_map sm_builder] in Hq. rewrite Hq.
    pose proof (new_patches_read l (w_heap w)) as R.
    destruct (new_patches (w_heap w) l) as [h ps]. exists ps. cbn. split; [reflexivity|exact R].
  - cbn [act]. rewrite Hs. eexists. cbn. split; [reflexivity|]. cbn. unfold box_at. cbn.
    rewrite app_nth2, Nat.sub_diag by lia. reflexivity.
Qed.

(*@ C83: a cell taken from a patch is, at that moment, the one that the model without objects computes for what
    the patch holds now; and the attributes of patches and cells and patch_inner_dimensions hand out objects that
    hold what the patch, cell or map holds now. *)
Lemma handed_out_attributes_proof : forall (Sky : Type) (offset : Sky -> R -> R -> Sky) d w,
  history offset d anything w ->
  (forall k p ix c, nth_error (w_patches w) k = Some p -> getCellInfo (read_patch (w_heap w) p) ix = Ok c ->
     exists x, w_cells (act offset d (ACell k ix) w) = w_cells w ++ [x]
       /\ read_cell (w_heap (act offset d (ACell k ix) w)) x = c)
  /\ (forall k p, nth_error (w_patches w) k = Some p ->
     let q := read_patch (w_heap w) p in
     forall a v, (a = AInner k /\ v = VBox (p_inner q)) \/ (a = AOuter k /\ v = VBox (p_outer q))
               \/ (a = ACellDims k /\ v = VExt (p_cellInner q)) ->
     exists r, w_given (act offset d a w) = w_given w ++ [(FromPatch k, r)]
       /\ w_heap (act offset d a w) = w_heap w /\ value_at (w_heap w) r = v)
  /\ (forall k c, nth_error (w_cells w) k = Some c ->
     let q := read_cell (w_heap w) c in
     forall a v, (a = ACellInner k /\ v = VBox (c_inner q)) \/ (a = ACellOuter k /\ v = VBox (c_outer q)) ->
     exists r, w_given (act offset d a w) = w_given w ++ [(FromCell k, r)]
       /\ w_heap (act offset d a w) = w_heap w /\ value_at (w_heap w) r = v)
  /\ (forall i t, slot w i = Some t ->
     exists r, w_given (act offset d (ADims i) w) = w_given w ++ [(FromPatchDims, r)]
       /\ w_heap (act offset d (ADims i) w) = w_heap w
       /\ value_at (w_heap w) r = VExt (b_patchInner (sm_builder (read_map w)))).
Proof.
  intros Sky offset d w H. split; [|split; [|split]].
  - intros k p ix c Hp Hc. cbn [act]. rewrite Hp, Hc. cbn [new_cell new_box w_cells w_heap].
    eexists. split; [reflexivity|]. unfold read_cell. cbn [hc_attrs hc_inner hc_outer]. unfold box_at. cbn [h_box].
    rewrite nth_middle. rewrite <- app_assoc. cbn [app]. rewrite nth_middle. destruct c; reflexivity.
  - intros k p Hp q a v [[-> ->]|[[-> ->]|[-> ->]]]; cbn [act]; rewrite Hp; eexists; split; try reflexivity;
      split; reflexivity.
  - intros k c Hc q a v [[-> ->]|[-> ->]]; cbn [act]; rewrite Hc; eexists; split; try reflexivity; split; reflexivity.
  - intros i t Ht. cbn [act]. rewrite Ht. eexists; split; [reflexivity|]. split; reflexivity.
Qed.

(*@ C83: what a patch holds changes only if the user changes an object obtained from this very patch, and
    likewise for a cell and for a box obtained from tract.bbox (each call of which gives a new one); this
    holds even if the patch dimensions are tampered with. *)
Lemma handed_out_local_proof : forall (Sky : Type) (offset : Sky -> R -> R -> Sky) d w a,
  history offset d anything w ->
  (forall k p, nth_error (w_patches w) k = Some p -> ~ changes w a (FromPatch k) ->
     nth_error (w_patches (act offset d a w)) k = Some p
     /\ read_patch (w_heap (act offset d a w)) p = read_patch (w_heap w) p)
  /\ (forall k c, nth_error (w_cells w) k = Some c -> ~ changes w a (FromCell k) ->
     nth_error (w_cells (act offset d a w)) k = Some c
     /\ read_cell (w_heap (act offset d a w)) c = read_cell (w_heap w) c)
  /\ (forall j r, nth_error (w_given w) j = Some (FromTractBBox, r) -> (forall v, a <> AChange j v) ->
     value_at (w_heap (act offset d a w)) r = value_at (w_heap w) r).
Proof.
  intros Sky offset d w a H.
  destruct (history_inv offset d _ w H) as (tb & te & Hi).
  destruct (act_frame offset d a w tb te Hi) as (tb' & te' & _ & Hf).
  assert (Hkeep : (exists ps, w_patches (act offset d a w) = w_patches w ++ ps)
                  /\ (exists cs, w_cells (act offset d a w) = w_cells w ++ cs)).
  { assert (K : forall w', w_patches w' = w_patches w -> w_cells w' = w_cells w ->
      (exists ps, w_patches w' = w_patches w ++ ps) /\ (exists cs, w_cells w' = w_cells w ++ cs)).
    { intros w' -> ->. split; exists []; rewrite app_nil_r; reflexivity. }
    destruct a as [i|i|i|i q|k|k|k|k ix|k|k|j v]; cbn [act].
    - unfold w_getitem. destruct (sd_kind d).
      + destruct (_ || _); [apply K; reflexivity|].
        destruct (py_nth (w_tracts w) i) as [[t|]|e]; try (apply K; reflexivity).
        unfold w_generate. destruct (a <- _ ;; _) as [[b t]|e]; apply K; reflexivity.
      + destruct (py_nth (w_tracts w) i) as [[t|]|e]; apply K; reflexivity.
    - destruct (slot w i); apply K; reflexivity.
    - destruct (slot w i); apply K; reflexivity.
    - destruct (slot w i); [|apply K; reflexivity]. destruct (ask q _ _) as [l|]; [|apply K; reflexivity].
      destruct (new_patches (w_heap w) l) as [hh ps]. cbn. split; [eauto|exists []; rewrite app_nil_r; reflexivity].
    - destruct (nth_error _ _); apply K; reflexivity.
    - destruct (nth_error _ _); apply K; reflexivity.
    - destruct (nth_error _ _); apply K; reflexivity.
    - destruct (nth_error _ _); [|apply K; reflexivity].
      destruct (getCellInfo _ _); [|apply K; reflexivity].
      cbn. split; [exists []; rewrite app_nil_r; reflexivity|eauto].
    - destruct (nth_error _ _); apply K; reflexivity.
    - destruct (nth_error _ _); apply K; reflexivity.
    - destruct (nth_error _ _) as [[? ?]|]; apply K; reflexivity. }
  destruct Hkeep as [[ps Ep] [cs Ec]].
  split; [|split].
  - intros k p Hp Hn. split.
    { rewrite Ep, nth_error_app1; [exact Hp|]. apply nth_error_Some. congruence. }
    destruct (i_patches _ _ _ Hi k p Hp) as (A & B & C).
    assert (S : spares w a (OPatch k)).
    { intros j v o r -> Hj E. apply Hn. exists j, v, r. split; [reflexivity|].
      destruct o; cbn in E; try discriminate. injection E as ->. exact Hj. }
    pose proof (Hf _ _ A S) as VA. pose proof (Hf _ _ B S) as VB. pose proof (Hf _ _ C S) as VC.
    cbn in VA, VB, VC. injection VA as VA. injection VB as VB. injection VC as VC.
    unfold read_patch. rewrite VA, VB, VC. reflexivity.
  - intros k c Hc Hn. split.
    { rewrite Ec, nth_error_app1; [exact Hc|]. apply nth_error_Some. congruence. }
    destruct (i_cells _ _ _ Hi k c Hc) as (A & B).
    assert (S : spares w a (OCell k)).
    { intros j v o r -> Hj E. apply Hn. exists j, v, r. split; [reflexivity|].
      destruct o; cbn in E; try discriminate. injection E as ->. exact Hj. }
    pose proof (Hf _ _ A S) as VA. pose proof (Hf _ _ B S) as VB.
    cbn in VA, VB. injection VA as VA. injection VB as VB.
    unfold read_cell. rewrite VA, VB. reflexivity.
  - intros j r Hj Hn. apply (Hf r (OClient j) (i_given _ _ _ Hi j _ r Hj)).
    intros j' v o r' -> Hj' E. destruct o; cbn in E; try discriminate. injection E as ->.
    exact (Hn v eq_refl).
Qed.

Lemma nth_list_set {A} (l : list A) n v d : (n < length l)%nat -> nth n (list_set l n v) d = v.
Proof. revert n. induction l as [|x l IH]; intros [|n] H; cbn in *; try lia; auto. apply IH. lia. Qed.

(*@ C83: the attributes inner_bbox and outer_bbox of a patch are the patch's own objects: a change of them is a
    change of the patch (and of the cells taken from it afterwards). *)
Lemma handed_out_patch_own_proof : forall (Sky : Type) (offset : Sky -> R -> R -> Sky) d w k p bx,
  history offset d anything w -> nth_error (w_patches w) k = Some p ->
  let j := length (w_given w) in
  let w1 := act offset d (AChange j (VBox bx)) (act offset d (AInner k) w) in
  let w2 := act offset d (AChange j (VBox bx)) (act offset d (AOuter k) w) in
  (nth_error (w_patches w1) k = Some p /\ p_inner (read_patch (w_heap w1) p) = bx
   /\ p_outer (read_patch (w_heap w1) p) = p_outer (read_patch (w_heap w) p))
  /\ (nth_error (w_patches w2) k = Some p /\ p_outer (read_patch (w_heap w2) p) = bx
   /\ p_inner (read_patch (w_heap w2) p) = p_inner (read_patch (w_heap w) p)).
Proof.
  intros Sky offset d w k p bx H Hp j w1 w2.
  destruct (history_inv offset d _ w H) as (tb & te & Hi).
  destruct (i_patches _ _ _ Hi k p Hp) as (A & B & _). cbn in A, B. pose proof (i_b _ _ _ Hi) as LB.
  assert (LA : (hp_inner p < length tb)%nat) by (apply nth_error_Some; congruence).
  assert (LO : (hp_outer p < length tb)%nat) by (apply nth_error_Some; congruence).
  unfold w1, w2, j. cbn [act]. rewrite Hp. cbn [give w_given].
  rewrite !nth_error_app2, Nat.sub_diag by lia.
  cbn [nth_error change set_heap w_heap w_patches read_patch p_inner p_outer].
  pose proof (i_distinct _ _ _ Hi k p Hp) as N. unfold box_at. cbn [h_box].
  cbn [give w_heap w_patches h_box h_ext].
  rewrite (nth_list_set _ (hp_inner p)), (nth_list_set _ (hp_outer p)) by lia.
  rewrite (list_set_nth _ (hp_inner p)), (list_set_nth _ (hp_outer p)) by congruence. auto 10.
Qed.

(*@ C83: the result of patch_inner_dimensions is the tract builder's own object, shared by all tracts: a change of it
    changes the dimensions used for every tract of the map, and the inner boxes of all their patches. *)
Lemma handed_out_dims_shared_proof :
  forall (Sky : Type) (offset : Sky -> R -> R -> Sky) d w j r i t nx ny x y e1 e2,
  let c := sd_cfg d in
  cfg_ok c -> history offset d anything w -> nth_error (w_given w) j = Some (FromPatchDims, r) ->
  slot w i = Some t -> in_use offset c (sm_builder (read_map w)) (read_tract (w_heap w) t) ->
  t_numPatches (read_tract (w_heap w) t) = (nx, ny) -> 0 <= x < nx -> 0 <= y < ny ->
  0 < e1 <= fst (cfg_inner c) -> 0 < e2 <= snd (cfg_inner c) ->
  let w' := act offset d (AChange j (VExt (e1, e2))) w in
  b_patchInner (sm_builder (read_map w')) = (e1, e2)
  /\ read_tract (w_heap w') t = read_tract (w_heap w) t
  /\ (exists p, tract_getPatchInfo (sm_builder (read_map w)) (read_tract (w_heap w) t) (IxIndex2D x y) = Ok p
      /\ p_inner p = Box (x * fst (cfg_inner c)) (y * snd (cfg_inner c)) (fst (cfg_inner c)) (snd (cfg_inner c)))
  /\ (exists p, tract_getPatchInfo (sm_builder (read_map w')) (read_tract (w_heap w') t) (IxIndex2D x y) = Ok p
      /\ p_inner p = Box (x * e1) (y * e2) e1 e2).
Proof.
  intros Sky offset d w j r i t nx ny x y e1 e2 c Hc H Hj Hs Hu Hn Hx Hy He1 He2 w'.
  destruct (history_inv offset d _ w H) as (tb & te & Hi).
  pose proof (i_given _ _ _ Hi j _ r Hj) as Tr. cbn [owner_of] in Tr.
  destruct (act_frame offset d (AChange j (VExt (e1, e2))) w tb te Hi) as (tb' & te' & Hi' & Hf).
  pose proof (i_gdims _ _ _ Hi j r Hj) as ->.
  assert (Eb : read_builder (w_heap w') (w_builder w')
     = mkBuilder (hb_config (w_builder w)) (e1, e2) (hb_border (w_builder w)) (hb_initialized (w_builder w))
                 (hb_numPatches (w_builder w)) (box_at (w_heap w) (hb_tractBBox (w_builder w)))).
  { unfold w'. cbn [act]. rewrite Hj. unfold read_builder. cbn. f_equal. unfold ext_at. cbn. apply nth_list_set.
    rewrite <- (i_e _ _ _ Hi). apply nth_error_Some. pose proof (i_dims _ _ _ Hi) as E. cbn in E. congruence. }
  assert (Et : read_tract (w_heap w') t = read_tract (w_heap w) t).
  { unfold w'. cbn [act]. rewrite Hj. reflexivity. }
  split; [cbn [read_map sm_builder]; rewrite Eb; reflexivity|]. split; [exact Et|].
  destruct (in_use_spec offset c _ _ Hc Hu) as (nx' & ny' & Hinv & Hinit & Hnb & Hnt & _).
  rewrite Hn in Hnt. injection Hnt as <- <-. destruct (cfg_inner_pos c Hc) as [Pw Ph].
  split.
  { unfold tract_getPatchInfo. rewrite (getPatchInfo_pair c _ nx ny) by assumption.
    eexists. split; [reflexivity|]. reflexivity. }
  rewrite Et. unfold tract_getPatchInfo. cbn [read_map sm_builder]. rewrite Eb.
  destruct Hinv as [Hcfg Hin Hbd Hbox]. destruct (Hbox Hinit) as (nx' & ny' & Hn' & Hnx & Hny & _ & HB).
  cbn [read_map sm_builder read_builder b_config b_patchInner b_patchBorder b_initialized b_numPatches b_tractBBox] in *.
  rewrite Hnb in Hn'. injection Hn' as <- <-.
  pose proof (cfg_border_nonneg c Hc) as Pb.
  unfold getPatchInfo. cbn [b_config b_patchInner b_patchBorder b_initialized b_numPatches b_tractBBox fst snd bind].
  rewrite Hinit, Hnb, HB, Hcfg, Hbd. cbn [negb].
  destruct (Z.leb_spec 0 x); [|lia]. destruct (Z.ltb_spec x nx); [|lia].
  destruct (Z.leb_spec 0 y); [|lia]. destruct (Z.ltb_spec y ny); [|lia]. cbn [andb orb negb].
  rewrite box_make_pos by lia. rewrite box_grow_pos by lia.
  destruct (cfg_inner c) as [cw ch] eqn:Ei. cbn [fst snd] in *.
  assert (X1 : x * e1 + e1 <= nx * cw) by nia. assert (Y1 : y * e2 + e2 <= ny * ch) by nia.
  assert (X0 : 0 <= x * e1) by nia. assert (Y0 : 0 <= y * e2) by nia.
  set (X := x * e1) in *. set (Y := y * e2) in *. set (Wd := nx * cw) in *. set (Hg := ny * ch) in *. set (n := cfg_border c) in *.
  assert (C1 : box_contains_box (Box 0 0 Wd Hg) (Box X Y e1 e2) = true).
  { unfold box_contains_box, maxx, maxy; cbn [minx miny dimx dimy]. apply orb_true_iff. right.
    rewrite !andb_true_iff, !Z.leb_le. lia. }
  rewrite C1. cbn [negb]. unfold getSequentialPatchIndexFromPair. cbn [b_numPatches bind]. cbv beta iota zeta.
  assert (C2 : box_contains_box (Box (X - n) (Y - n) (e1 + 2 * n) (e2 + 2 * n)) (Box X Y e1 e2) = true).
  { unfold box_contains_box, maxx, maxy; cbn [minx miny dimx dimy]. apply orb_true_iff. right.
    rewrite !andb_true_iff, !Z.leb_le. lia. }
  assert (C3 : box_contains_box (box_clip (Box (X - n) (Y - n) (e1 + 2 * n) (e2 + 2 * n)) (Box 0 0 Wd Hg)) (Box X Y e1 e2) = true).
  { unfold box_clip, box_isEmpty, maxx, maxy; cbn [minx miny dimx dimy].
    destruct (Z.eqb_spec (e1 + 2 * n) 0); [lia|]. cbn [andb].
    destruct (Z.eqb_spec Wd 0); [lia|]. cbn [andb].
    match goal with |- context [?a <? ?b] => destruct (Z.ltb_spec a b); [lia|] end.
    match goal with |- context [?a <? ?b] => destruct (Z.ltb_spec a b); [lia|] end. cbn [orb].
    unfold box_contains_box, maxx, maxy; cbn [minx miny dimx dimy]. apply orb_true_iff. right.
    rewrite !andb_true_iff, !Z.leb_le. lia. }
  subst c. destruct (sd_cfg d) as [dims bd|[w0 h0] cb nI nB]; cbn [bind]; unfold PatchInfo_init; rewrite ?C3, ?C2; cbn [negb bind];
    eexists; (split; [reflexivity|reflexivity]).
Qed.

(*@ C83, non-vacuity: a map of two tracts of 4 x 2 patches with cells, with both tracts generated, a patch and a
    cell of the second one, a box from tract.bbox and the patch dimensions obtained from the first one, and the
    inner box of the patch changed in place. *)
Example handed_out_hypotheses_met_proof :
  exists d w t u p0 c0 r1 r2 r3, cfg_ok (sd_cfg d) /\ sd_num d = 2
    /\ history flat_offset d but_dims w
    /\ slot w 0 = Some t /\ slot w 1 = Some u
    /\ in_use flat_offset (sd_cfg d) (sm_builder (read_map w)) (read_tract (w_heap w) u)
    /\ t_numPatches (read_tract (w_heap w) u) = (4, 2)
    /\ nth_error (w_patches w) 0 = Some p0 /\ nth_error (w_cells w) 0 = Some c0
    /\ w_given w = [(FromTractBBox, r1); (FromPatchDims, r2); (FromPatch 0, r3)]
    /\ p_inner (read_patch (w_heap w) p0) = Box 7 7 7 7
    /\ c_inner (read_cell (w_heap w) c0) = Box 2850 (-150) 150 150.
Proof.
  set (d := mkDef CachingMap cell_default 2 (fun i =>
     Ok (PlainArgs (0, 0)%R (ex_verts 9999 4999) 0%R flat_wcs None))).
  assert (Hc : cfg_ok cell_default) by (cbn; lia).
  set (w0 := w_start d [None; None]).
  assert (H0 : history flat_offset d but_dims w0) by (apply hist_new; reflexivity).
  assert (K : forall w a, history flat_offset d but_dims w -> (forall j v, a <> AChange j v) ->
      history flat_offset d but_dims (act flat_offset d a w)).
  { intros w a Hw Ha. apply hist_act; [exact Hw|]. intros o (j & v & r & E & _). destruct (Ha j v E). }
  destruct (ex_tract cell_default 0 0 9999 4999 (builder_init _) Hc (br_init _)) as (b & t & E & Hu & Hn); [lia|lia|].
  destruct (ex_tract cell_default 1 1 9999 4999 b Hc (iu_reach _ _ _ _ Hu)) as (b' & u & E' & Hu' & Hn'); [lia|lia|].
  set (h1 := mkHeap [box_empty; b_tractBBox b; t_bbox t] [(3000, 3000)]).
  set (w1 := mkWorld h1 (mkHB cell_default 0 200 (b_initialized b) (b_numPatches b) 1) [Some (mkHT t 2); None] 1 [0] [] [] []).
  assert (G1 : act flat_offset d (AGetitem 0) w0 = w1).
  { assert (Gen : w_generate flat_offset d 0 w0 = (set_tracts w1 [None; None], Ok (mkHT t 2))).
    { unfold w_generate. change (read_builder (w_heap w0) (w_builder w0)) with (builder_init cell_default).
      cbn [sd_args d bind make_tract w_next w0 w_start]. rewrite E. reflexivity. }
    cbn [act]. unfold w_getitem. cbn [sd_kind d]. rewrite Gen. reflexivity. }
  assert (Eb : read_builder h1 (w_builder w1) = b).
  { pose proof (make_keeps flat_offset (builder_init cell_default) 0%nat 0
      (PlainArgs (0, 0)%R (ex_verts 9999 4999) 0%R flat_wcs None) b t E) as (K1 & K2 & K3).
    destruct b as [b1 b2 b3 b4 b5 b6]. cbn in K1, K2, K3. subst b1 b2 b3. reflexivity. }
  set (h2 := mkHeap [box_empty; b_tractBBox b; t_bbox t; b_tractBBox b'; t_bbox u] [(3000, 3000)]).
  set (w2 := mkWorld h2 (mkHB cell_default 0 200 (b_initialized b') (b_numPatches b') 3) [Some (mkHT t 2); Some (mkHT u 4)] 2 [0; 1] [] [] []).
  assert (G2 : act flat_offset d (AGetitem 1) w1 = w2).
  { assert (Gen : w_generate flat_offset d 1 w1 = (set_tracts w2 [Some (mkHT t 2); None], Ok (mkHT u 4))).
    { unfold w_generate. change (w_heap w1) with h1. rewrite Eb.
      cbn [sd_args d bind make_tract]. change (w_next w1) with 1%nat. rewrite E'. reflexivity. }
    cbn [act]. unfold w_getitem. cbn [sd_kind d]. rewrite Gen. reflexivity. }
  assert (Eb2 : read_builder h2 (w_builder w2) = b').
  { pose proof (make_keeps flat_offset b 1%nat 1
      (PlainArgs (0, 0)%R (ex_verts 9999 4999) 0%R flat_wcs None) b' u E') as (K1 & K2 & K3).
    rewrite <- Eb in K1, K2, K3. cbn in K1, K2, K3.
    destruct b' as [b1 b2 b3 b4 b5 b6]. cbn in K1, K2, K3. subst b1 b2 b3. reflexivity. }
  assert (Eu : read_tract h2 (mkHT u 4) = u) by (destruct u; reflexivity).
  assert (H2 : history flat_offset d but_dims w2).
  { rewrite <- G2, <- G1. apply K; [apply K; [exact H0|discriminate]|discriminate]. }
  assert (Hn2 : t_numPatches u = (4, 2)) by (rewrite Hn'; reflexivity).
  destruct (in_use_spec flat_offset _ _ _ Hc Hu') as (nx & ny & Hinv & Hinit & Hnb & Hnt & _).
  rewrite Hn2 in Hnt. injection Hnt as <- <-.
  set (p := the_patch cell_default 4 2 (t_wcs u) 1 0).
  assert (Hp : tract_getPatchInfo b' u (IxIndex2D 1 0) = Ok p).
  { unfold tract_getPatchInfo. rewrite (getPatchInfo_pair cell_default b' 4 2) by (assumption || lia). reflexivity. }
  set (h3 := mkHeap [box_empty; b_tractBBox b; t_bbox t; b_tractBBox b'; t_bbox u; p_inner p; p_outer p] [(3000, 3000); p_cellInner p]).
  set (w3 := mkWorld h3 (w_builder w2) (w_tracts w2) 2 [0; 1] [mkHP p 5 6 1] [] []).
  assert (G3 : act flat_offset d (AQuery 1 (QIndex (IxIndex2D 1 0))) w2 = w3).
  { cbn [act]. change (slot w2 1) with (Some (mkHT u 4)). cbv beta iota. change (w_heap w2) with h2. rewrite Eb2, Eu.
    cbn [ask]. rewrite Hp. reflexivity. }
  assert (H3 : history flat_offset d but_dims w3) by (rewrite <- G3; apply K; [exact H2|discriminate]).
  set (w4 := act flat_offset d (ACell 0 (IxIndex2D 0 0)) w3).
  set (w5 := act flat_offset d (ABBox 0) w4).
  set (w6 := act flat_offset d (ADims 0) w5).
  set (w7 := act flat_offset d (AInner 0) w6).
  set (w8 := act flat_offset d (AChange 2 (VBox (Box 7 7 7 7))) w7).
  assert (H7 : history flat_offset d but_dims w7).
  { unfold w7, w6, w5, w4. apply K; [|discriminate]. apply K; [|discriminate]. apply K; [|discriminate].
    apply K; [exact H3|discriminate]. }
  assert (Ec : exists c, getCellInfo (read_patch h3 (mkHP p 5 6 1)) (IxIndex2D 0 0) = Ok c /\ c_inner c = Box 2850 (-150) 150 150).
  { unfold p, the_patch. eexists. split; [vm_compute; reflexivity|reflexivity]. }
  destruct Ec as (c & Ec & Ic).
  set (h4 := mkHeap (h_box h3 ++ [c_inner c; c_outer c]) (h_ext h3)).
  assert (E4 : w4 = mkWorld h4 (w_builder w2) (w_tracts w2) 2 [0; 1] [mkHP p 5 6 1] [mkHC c 7 8] []).
  { unfold w4. cbn [act]. cbn [w3 w_patches nth_error w_heap]. rewrite Ec. reflexivity. }
  exists d, w8, (mkHT t 2), (mkHT u 4), (mkHP p 5 6 1), (mkHC c 7 8), (RBox 9), (RExt 0), (RBox 5).
  split; [exact Hc|]. split; [reflexivity|]. split.
  { apply hist_act; [exact H7|]. intros o (j & v & r & Ej & Hj). injection Ej as <- <-.
    unfold w7, w6, w5 in Hj. rewrite E4 in Hj. cbn in Hj. injection Hj as <- <-. discriminate. }
  unfold w8, w7, w6, w5. rewrite E4.
  split; [reflexivity|]. split; [reflexivity|]. split.
  { match goal with |- in_use _ _ ?X ?Y => assert (EX : X = b'); [|assert (EY : Y = u)] end.
    - rewrite <- Eb2. reflexivity.
    - destruct u; reflexivity.
    - rewrite EX, EY. exact Hu'. }
  split; [exact Hn2|]. split; [reflexivity|]. split; [reflexivity|]. split; [reflexivity|].
  split; [reflexivity|exact Ic].
Qed.
