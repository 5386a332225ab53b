(** Ownership of the Box2I and Extent2I objects. *)
From Coq Require Import Reals Lia.
Require Import Verif.Py Verif.Geom Verif.PatchInfo Verif.TractBuilder Verif.TractInfo Verif.Spec.
Require Import Verif.SkyMap Verif.SkySpec Verif.SkyProofs Verif.Alias Verif.AliasSpec.
Open Scope Z_scope.

Inductive owner := OMap | ODims | OPatch (k : nat) | OCell (k : nat) | OClient (j : nat).
Definition owner_of (o : origin) (j : nat) : owner :=
  match o with
  | FromTractBBox => OClient j
  | FromPatchDims => ODims
  | FromPatch k => OPatch k
  | FromCell k => OCell k
  end.
Definition tag (tb te : list owner) (r : ref) : option owner :=
  match r with RBox n => nth_error tb n | RExt n => nth_error te n end.

Section Alias.
Context {Sky : Type}.
Variable offset : Sky -> R -> R -> Sky.
Notation world := (world Sky).

Record inv (w : world) (tb te : list owner) : Prop := mkInv {
  i_b : length tb = length (h_box (w_heap w));
  i_e : length te = length (h_ext (w_heap w));
  i_dims : tag tb te (RExt (hb_dims (w_builder w))) = Some ODims;
  i_tbox : tag tb te (RBox (hb_tractBBox (w_builder w))) = Some OMap;
  i_tracts : forall t, In (Some t) (w_tracts w) -> tag tb te (RBox (ht_bbox t)) = Some OMap;
  i_patches : forall k p, nth_error (w_patches w) k = Some p ->
     tag tb te (RBox (hp_inner p)) = Some (OPatch k) /\ tag tb te (RBox (hp_outer p)) = Some (OPatch k)
     /\ tag tb te (RExt (hp_cellInner p)) = Some (OPatch k);
  i_distinct : forall k p, nth_error (w_patches w) k = Some p -> hp_inner p <> hp_outer p;
  i_cells : forall k c, nth_error (w_cells w) k = Some c ->
     tag tb te (RBox (hc_inner c)) = Some (OCell k) /\ tag tb te (RBox (hc_outer c)) = Some (OCell k);
  i_given : forall j o r, nth_error (w_given w) j = Some (o, r) -> tag tb te r = Some (owner_of o j);
  i_gdims : forall j r, nth_error (w_given w) j = Some (FromPatchDims, r) -> r = RExt (hb_dims (w_builder w)) }.

(** The heap only got new objects. *)
Definition grows (h h' : heap) (nb ne : nat) : Prop :=
  exists bs es, h_box h' = h_box h ++ bs /\ h_ext h' = h_ext h ++ es /\ length bs = nb /\ length es = ne.

Lemma grows_refl h : grows h h 0 0.
Proof. exists [], []. rewrite !app_nil_r. auto. Qed.
Lemma grows_trans h1 h2 h3 a b c d : grows h1 h2 a b -> grows h2 h3 c d -> grows h1 h3 (a + c) (b + d).
Proof.
  intros (bs & es & A & B & C & D) (bs' & es' & A' & B' & C' & D').
  exists (bs ++ bs'), (es ++ es'). rewrite A', B', A, B, !app_assoc, !app_length. subst. auto.
Qed.
Lemma grows_box h b : grows h (fst (new_box h b)) 1 0.
Proof. exists [b], []. cbn. rewrite app_nil_r. auto. Qed.
Lemma grows_ext h e : grows h (fst (new_ext h e)) 0 1.
Proof. exists [], [e]. cbn. rewrite app_nil_r. auto. Qed.

Lemma grows_value h h' nb ne tb te r x :
  grows h h' nb ne -> length tb = length (h_box h) -> length te = length (h_ext h) ->
  tag tb te r = Some x -> value_at h' r = value_at h r.
Proof.
  intros (bs & es & A & B & _ & _) Lb Le T. destruct r as [n|n]; cbn in *; unfold box_at, ext_at.
  - assert (n < length tb)%nat by (apply nth_error_Some; congruence).
    rewrite A, app_nth1 by lia. reflexivity.
  - assert (n < length te)%nat by (apply nth_error_Some; congruence).
    rewrite B, app_nth1 by lia. reflexivity.
Qed.

Lemma tag_app tb te tb' te' r x : tag tb te r = Some x -> tag (tb ++ tb') (te ++ te') r = Some x.
Proof.
  destruct r as [n|n]; cbn; intros H; (rewrite nth_error_app1; [exact H|apply nth_error_Some; congruence]).
Qed.

(** Extending heap and tags keeps everything that existed. *)
Lemma inv_grow w h tb te tb' te' :
  inv w tb te -> grows (w_heap w) h (length tb') (length te') ->
  inv (set_heap w h) (tb ++ tb') (te ++ te').
Proof.
  intros [B E D T R P S C G U] (bs & es & Hb & He & Lb & Le). constructor; cbn.
  - rewrite Hb, !app_length. lia.
  - rewrite He, !app_length. lia.
  - exact (tag_app tb te tb' te' (RExt _) _ D).
  - exact (tag_app tb te tb' te' (RBox _) _ T).
  - intros t Ht. exact (tag_app tb te tb' te' (RBox _) _ (R t Ht)).
  - intros k p Hp. destruct (P k p Hp) as (X & Y & Z).
    exact (conj (tag_app tb te tb' te' (RBox _) _ X)
                (conj (tag_app tb te tb' te' (RBox _) _ Y) (tag_app tb te tb' te' (RExt _) _ Z))).
  - exact S.
  - intros k p Hp. destruct (C k p Hp) as (X & Y).
    exact (conj (tag_app tb te tb' te' (RBox _) _ X) (tag_app tb te tb' te' (RBox _) _ Y)).
  - intros j o r Hj. apply tag_app, (G j o r Hj).
  - exact U.
Qed.

Lemma nth_error_snoc {A} (l : list A) x k y :
  nth_error (l ++ [x]) k = Some y -> nth_error l k = Some y \/ (k = length l /\ y = x).
Proof.
  intros H. destruct (Nat.lt_ge_cases k (length l)) as [L|L].
  - rewrite nth_error_app1 in H by lia. auto.
  - rewrite nth_error_app2 in H by lia. right.
    destruct (k - length l)%nat as [|m] eqn:E; cbn in H.
    + injection H as <-. split; [lia|reflexivity].
    + destruct m; discriminate.
Qed.

Lemma inv_give w o r tb te :
  inv w tb te -> tag tb te r = Some (owner_of o (length (w_given w))) ->
  (o = FromPatchDims -> r = RExt (hb_dims (w_builder w))) -> inv (give w o r) tb te.
Proof.
  intros [B E D T R P S C G U] Hr Hd. constructor; cbn; auto.
  - intros j o' r' H. apply nth_error_snoc in H. destruct H as [H|[-> H]]; [apply G, H|].
    injection H as -> ->. exact Hr.
  - intros j r' H. apply nth_error_snoc in H. destruct H as [H|[-> H]]; [apply (U j), H|].
    injection H as <- ->. apply Hd. reflexivity.
Qed.

Lemma list_set_nth {A} (l : list A) i v j d : i <> j -> nth j (list_set l i v) d = nth j l d.
Proof.
  revert i j. induction l as [|x l IH]; intros [|i] [|j] H; cbn; auto; try congruence.
Qed.

Lemma change_other h r v tb te r' x y :
  tag tb te r = Some x -> tag tb te r' = Some y -> x <> y -> value_at (change h r v) r' = value_at h r'.
Proof.
  intros Hr Hr' N. destruct r as [n|n], v as [b|e]; cbn; try reflexivity;
    destruct r' as [m|m]; cbn; try reflexivity; unfold box_at, ext_at; cbn;
    (rewrite list_set_nth; [reflexivity|]); cbn in Hr, Hr'; congruence.
Qed.
Lemma change_lengths h r v :
  length (h_box (change h r v)) = length (h_box h) /\ length (h_ext (change h r v)) = length (h_ext h).
Proof. destruct r, v; cbn; rewrite ?list_set_length; auto. Qed.

(** What an action may touch. *)
Definition spares (w : world) (a : action Sky) (x : owner) : Prop :=
  forall j v o r, a = AChange j v -> nth_error (w_given w) j = Some (o, r) -> owner_of o j <> x.

Definition framed (w w' : world) (a : action Sky) (tb te tb' te' : list owner) : Prop :=
  inv w' (tb ++ tb') (te ++ te')
  /\ forall r x, tag tb te r = Some x -> spares w a x -> value_at (w_heap w') r = value_at (w_heap w) r.

Lemma framed_refl w a tb te : inv w tb te -> framed w w a tb te [] [].
Proof. intros H. unfold framed. rewrite !app_nil_r. auto. Qed.

Lemma generate_frame d i w tb te a :
  inv w tb te ->
  match w_generate offset d i w with
  | (w', Ok t) => framed w w' a tb te [OMap; OMap] [] /\ tag (tb ++ [OMap; OMap]) te (RBox (ht_bbox t)) = Some OMap
                  /\ w_tracts w' = w_tracts w
  | (w', Raise _) => w' = w
  end.
Proof.
  intros Hi. unfold w_generate.
  destruct (a0 <- sd_args d i ;; make_tract offset (read_builder (w_heap w) (w_builder w)) (w_next w) i a0)
    as [[b t]|e]; [|reflexivity].
  cbn [new_box]. set (h2 := mkHeap _ _).
  assert (Hg : grows (w_heap w) h2 2 0).
  { exists [b_tractBBox b; t_bbox t], []. cbn. rewrite <- app_assoc, app_nil_r. auto. }
  pose proof (inv_grow w h2 tb te [OMap; OMap] [] Hi Hg) as Hi'.
  destruct Hi as [B E D T R P S C G U]. destruct Hi' as [B' E' D' T' R' P' S' C' G' U'].
  assert (L1 : nth_error (tb ++ [OMap; OMap]) (length (h_box (w_heap w))) = Some OMap).
  { rewrite nth_error_app2 by lia. rewrite <- B, Nat.sub_diag. reflexivity. }
  assert (L2 : nth_error (tb ++ [OMap; OMap]) (length (h_box (mkHeap (h_box (w_heap w) ++ [b_tractBBox b]) (h_ext (w_heap w))))) = Some OMap).
  { cbn. rewrite app_length, nth_error_app2 by (cbn; lia). rewrite <- B. cbn.
    replace (length tb + 1 - length tb)%nat with 1%nat by lia. reflexivity. }
  split; [split|split; [exact L2|reflexivity]].
  - constructor; cbn [w_heap w_builder w_tracts w_patches w_cells w_given set_heap hb_dims hb_tractBBox] in *; auto.
  - intros r x Hr _. cbn. apply (grows_value _ _ _ _ tb te r x Hg B E Hr).
Qed.

Lemma inv_set_tracts w l tb te :
  inv w tb te -> (forall t, In (Some t) l -> tag tb te (RBox (ht_bbox t)) = Some OMap) ->
  inv (set_tracts w l) tb te.
Proof. intros [B E D T R P S C G U] H. constructor; cbn; auto. Qed.

Lemma in_list_set {A} (l : list A) i v x : In x (list_set l i v) -> x = v \/ In x l.
Proof.
  revert i. induction l as [|y l IH]; intros [|i]; cbn; intros H; auto.
  - destruct H as [H|H]; auto.
  - destruct H as [H|H]; [auto|]. destruct (IH i H); auto.
Qed.

Lemma getitem_frame d i w tb te a :
  inv w tb te -> exists tb' te', framed w (fst (w_getitem offset d i w)) a tb te tb' te'.
Proof.
  intros Hi. assert (K : exists tb' te', framed w w a tb te tb' te') by (exists [], []; apply framed_refl, Hi).
  unfold w_getitem. destruct (sd_kind d).
  - destruct ((i <? 0) || (sd_num d <? i)); [exact K|].
    destruct (py_nth (w_tracts w) i) as [[t|]|e]; [exact K| |exact K].
    pose proof (generate_frame d i w tb te a Hi) as Hf.
    destruct (w_generate offset d i w) as [w' [t|e]]; [|subst w'; exact K].
    destruct Hf as ([Hv Hval] & Ht & El). exists [OMap; OMap], []. cbn [fst]. split.
    + apply inv_set_tracts; [exact Hv|]. intros u Hu. rewrite app_nil_r in *.
      apply in_list_set in Hu. destruct Hu as [E|Hu].
      * injection E as ->. exact Ht.
      * apply (i_tracts _ _ _ Hv), Hu.
    + exact Hval.
  - destruct (py_nth (w_tracts w) i) as [[t|]|e]; exact K.
Qed.

Lemma new_patch_grows h p : grows h (fst (@new_patch Sky h p)) 2 1.
Proof. exists [p_inner p; p_outer p], [p_cellInner p]. cbn. rewrite <- app_assoc. auto. Qed.

Fixpoint box_tags (k n : nat) : list owner :=
  match n with O => [] | S n => OPatch k :: OPatch k :: box_tags (S k) n end.
Fixpoint ext_tags (k n : nat) : list owner :=
  match n with O => [] | S n => OPatch k :: ext_tags (S k) n end.
Lemma tags_length k n : length (box_tags k n) = (2 * n)%nat /\ length (ext_tags k n) = n.
Proof. revert k; induction n; intros k; cbn; auto. destruct (IHn (S k)) as [-> ->]. lia. Qed.

Definition add_patches (w : world) (h : heap) (ps : list (hpatch Sky)) : world :=
  mkWorld h (w_builder w) (w_tracts w) (w_next w) (w_log w) (w_patches w ++ ps) (w_cells w) (w_given w).

Lemma new_patches_grows l : forall h, grows h (fst (@new_patches Sky h l)) (2 * length l) (length l).
Proof.
  induction l as [|p l IH]; intros h; [apply grows_refl|].
  cbn [new_patches]. pose proof (new_patch_grows h p) as G. destruct (new_patch h p) as [h1 x].
  pose proof (IH h1) as G1. destruct (new_patches h1 l) as [h2 xs]. cbn [fst length] in *.
  replace (2 * S (length l))%nat with (2 + 2 * length l)%nat by lia.
  apply (grows_trans _ _ _ _ _ _ _ G G1).
Qed.

Lemma add_one w p tb te :
  inv w tb te ->
  inv (add_patches w (fst (new_patch (w_heap w) p)) [snd (new_patch (w_heap w) p)])
      (tb ++ [OPatch (length (w_patches w)); OPatch (length (w_patches w))]) (te ++ [OPatch (length (w_patches w))]).
Proof.
  intros Hi. pose proof (new_patch_grows (w_heap w) p) as Hg.
  destruct (inv_grow w _ tb te [OPatch (length (w_patches w)); OPatch (length (w_patches w))]
             [OPatch (length (w_patches w))] Hi Hg) as [B' E' D' T' R' P' S' C' G' U'].
  destruct Hi as [B E D T R P S C G U].
  constructor; cbn [w_heap w_builder w_tracts w_patches w_cells w_given set_heap add_patches] in *; auto.
  2:{ intros k q Hq. apply nth_error_snoc in Hq. destruct Hq as [Hq|[-> ->]]; [apply (S' k q Hq)|].
      cbn [new_patch new_box new_ext snd hp_inner hp_outer hp_cellInner h_box]. rewrite app_length. cbn. lia. }
  intros k q Hq. apply nth_error_snoc in Hq. destruct Hq as [Hq|[-> ->]]; [apply P', Hq|].
  cbn [new_patch new_box new_ext snd hp_inner hp_outer hp_cellInner tag h_box h_ext].
  rewrite app_length, !nth_error_app2 by (cbn; lia). rewrite <- B, <- E. cbn.
  rewrite !Nat.sub_diag. replace (length tb + 1 - length tb)%nat with 1%nat by lia. auto.
Qed.

Lemma add_many l : forall w tb te,
  inv w tb te ->
  inv (add_patches w (fst (new_patches (w_heap w) l)) (snd (new_patches (w_heap w) l)))
      (tb ++ box_tags (length (w_patches w)) (length l)) (te ++ ext_tags (length (w_patches w)) (length l)).
Proof.
  induction l as [|p l IH]; intros w tb te Hi.
  - cbn. rewrite !app_nil_r. destruct w; cbn. unfold add_patches; cbn. rewrite app_nil_r. exact Hi.
  - pose proof (add_one w p tb te Hi) as H1. apply IH in H1.
    cbn [new_patches length box_tags ext_tags].
    destruct (new_patch (w_heap w) p) as [h1 x]. cbn [add_patches w_heap w_patches fst snd] in H1.
    destruct (new_patches h1 l) as [h2 xs]. cbn [fst snd] in *. unfold add_patches in *.
    cbn [w_heap w_builder w_tracts w_next w_log w_patches w_cells w_given] in H1.
    rewrite <- !app_assoc in H1. rewrite app_length in H1. cbn [length app] in H1.
    replace (length (w_patches w) + 1)%nat with (S (length (w_patches w))) in H1 by lia. exact H1.
Qed.

Lemma act_frame d a w tb te :
  inv w tb te -> exists tb' te', framed w (act offset d a w) a tb te tb' te'.
Proof.
  intros Hi. assert (K : exists tb' te', framed w w a tb te tb' te') by (exists [], []; apply framed_refl, Hi).
  assert (KG : forall o r, tag tb te r = Some (owner_of o (length (w_given w))) ->
             (o = FromPatchDims -> r = RExt (hb_dims (w_builder w))) ->
             exists tb' te', framed w (give w o r) a tb te tb' te').
  { intros o r Hr Hd. exists [], []. split.
    - rewrite !app_nil_r. apply inv_give; assumption.
    - reflexivity. }
  destruct a as [i|i|i|i q|k|k|k|k ix|k|k|j v]; cbn [act].
  - apply getitem_frame, Hi.
  - destruct (slot w i) as [t|]; [|exact K]. cbn [new_box].
    set (h := mkHeap _ _).
    assert (Hg : grows (w_heap w) h 1 0).
    { eexists [_], []. cbn. rewrite app_nil_r. split; [reflexivity|auto]. }
    exists [OClient (length (w_given w))], []. split.
    + apply inv_give.
      * apply inv_grow; assumption.
      * cbn. rewrite <- (i_b _ _ _ Hi), nth_error_app2, Nat.sub_diag by lia. reflexivity.
      * discriminate.
    + intros r x Hr _. apply (grows_value _ _ _ _ tb te r x Hg (i_b _ _ _ Hi) (i_e _ _ _ Hi) Hr).
  - destruct (slot w i) as [t|]; [|exact K]. apply KG; [apply (i_dims _ _ _ Hi)|reflexivity].
  - destruct (slot w i) as [t|]; [|exact K].
    destruct (ask q _ _) as [l|e]; [|exact K].
    pose proof (add_many l w tb te Hi) as H. pose proof (new_patches_grows l (w_heap w)) as Hg.
    destruct (new_patches (w_heap w) l) as [h ps]. cbn [fst snd] in *.
    exists (box_tags (length (w_patches w)) (length l)), (ext_tags (length (w_patches w)) (length l)).
    split; [exact H|]. intros r x Hr _.
    apply (grows_value _ _ _ _ tb te r x Hg (i_b _ _ _ Hi) (i_e _ _ _ Hi) Hr).
  - destruct (nth_error (w_patches w) k) as [p|] eqn:Hp; [|exact K]. apply KG; [apply (i_patches _ _ _ Hi k p Hp)|discriminate].
  - destruct (nth_error (w_patches w) k) as [p|] eqn:Hp; [|exact K]. apply KG; [apply (i_patches _ _ _ Hi k p Hp)|discriminate].
  - destruct (nth_error (w_patches w) k) as [p|] eqn:Hp; [|exact K]. apply KG; [apply (i_patches _ _ _ Hi k p Hp)|discriminate].
  - destruct (nth_error (w_patches w) k) as [p|] eqn:Hp; [|exact K].
    destruct (getCellInfo _ ix) as [c|e]; [|exact K]. cbn [new_cell new_box].
    set (h := mkHeap _ _).
    assert (Hg : grows (w_heap w) h 2 0).
    { exists [c_inner c; c_outer c], []. cbn. rewrite <- app_assoc, app_nil_r. auto. }
    exists [OCell (length (w_cells w)); OCell (length (w_cells w))], []. split.
    + destruct (inv_grow w _ tb te [OCell (length (w_cells w)); OCell (length (w_cells w))] [] Hi Hg)
        as [B' E' D' T' R' P' S' C' G' U'].
      pose proof (i_b _ _ _ Hi) as B.
      constructor; cbn [w_heap w_builder w_tracts w_patches w_cells w_given set_heap] in *; auto.
      intros k' c' Hc. apply nth_error_snoc in Hc. destruct Hc as [Hc|[-> ->]]; [apply C', Hc|].
      cbn [hc_inner hc_outer tag h_box]. rewrite app_length, !nth_error_app2 by (cbn; lia).
      rewrite <- B, Nat.sub_diag. cbn.
      replace (length tb + 1 - length tb)%nat with 1%nat by lia. auto.
    + intros r x Hr _. apply (grows_value _ _ _ _ tb te r x Hg (i_b _ _ _ Hi) (i_e _ _ _ Hi) Hr).
  - destruct (nth_error (w_cells w) k) as [p|] eqn:Hp; [|exact K]. apply KG; [apply (i_cells _ _ _ Hi k p Hp)|discriminate].
  - destruct (nth_error (w_cells w) k) as [p|] eqn:Hp; [|exact K]. apply KG; [apply (i_cells _ _ _ Hi k p Hp)|discriminate].
  - destruct (nth_error (w_given w) j) as [[o r]|] eqn:Hj; [|exact K].
    pose proof (i_given _ _ _ Hi j o r Hj) as Ho. exists [], []. split.
    + rewrite !app_nil_r. destruct Hi as [B E D T R P S C G U].
      destruct (change_lengths (w_heap w) r v) as [Lb Le].
      constructor; cbn; auto; congruence.
    + intros r' x Hr' Hs. cbn.
      apply (change_other (w_heap w) r v tb te r' _ _ Ho Hr'). apply (Hs j v o r eq_refl Hj).
Qed.

Lemma fill_inv d ids : forall w tb te w',
  inv w tb te -> w_fill offset d ids w = Ok w' -> exists tb' te', inv w' tb' te'.
Proof.
  induction ids as [|i ids IH]; intros w tb te w' Hi H; cbn in H.
  - injection H as <-. eauto.
  - pose proof (generate_frame d i w tb te (AGetitem i) Hi) as Hf.
    destruct (w_generate offset d i w) as [w1 [t|e]]; [|discriminate].
    destruct Hf as ([Hv _] & Ht & El). apply IH with (tb := tb ++ [OMap; OMap]) (te := te) in H; [exact H|].
    rewrite app_nil_r in Hv. apply inv_set_tracts; [exact Hv|].
    intros u Hu. rewrite in_app_iff in Hu. destruct Hu as [Hu|[E|[]]].
    + apply (i_tracts _ _ _ Hv), Hu.
    + injection E as <-. exact Ht.
Qed.

Lemma start_inv d l : (forall t, ~ In (Some t) l) -> inv (w_start (Sky := Sky) d l) [OMap] [ODims].
Proof.
  intros Hl. constructor; cbn; auto.
  - intros t Ht. destruct (Hl t Ht).
  - intros [|k] p Hp; discriminate.
  - intros [|k] p Hp; discriminate.
  - intros [|k] p Hp; discriminate.
  - intros [|k] o r Hp; discriminate.
  - intros [|k] r Hp; discriminate.
Qed.

Lemma new_inv d w : w_new offset d = Ok w -> exists tb te, inv w tb te.
Proof.
  unfold w_new. destruct (sd_kind d).
  - intros H. injection H as <-. exists [OMap], [ODims]. apply start_inv.
    intros t Ht. apply repeat_spec in Ht. discriminate.
  - intros H. eapply fill_inv; [|exact H]. apply start_inv. intros t [].
Qed.

Lemma history_inv d allowed w : history offset d allowed w -> exists tb te, inv w tb te.
Proof.
  induction 1 as [w H|w a H (tb & te & IH) _].
  - apply (new_inv d w H).
  - destruct (act_frame d a w tb te IH) as (tb' & te' & Hf & _). eauto.
Qed.
End Alias.
