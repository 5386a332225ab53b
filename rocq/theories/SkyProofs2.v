(** Searches over whole sky maps. *)
From Coq Require Import Reals Lra Sorted.
From Flocq Require Import Raux.
Require Import Verif.Py Verif.Geom Verif.PatchInfo Verif.TractBuilder Verif.TractInfo Verif.Spec.
Require Import Verif.SkyMap Verif.SkySpec Verif.PatchProofs Verif.TractProofs Verif.SkyProofs.
Open Scope Z_scope.
Local Arguments Z.mul : simpl never.

Lemma Forall2_impl {A B} (P Q : A -> B -> Prop) l1 l2 :
  (forall a b, P a b -> Q a b) -> Forall2 P l1 l2 -> Forall2 Q l1 l2.
Proof. intros H. induction 1; constructor; auto. Qed.

Section SkyMap.
Context {Sky : Type}.
Variable offset : Sky -> R -> R -> Sky.
Notation patch_list := (list (patch (wcs Sky))).
Notation accesses := (accesses offset).
Notation sm_reachable := (sm_reachable offset).
Notation holds := (holds offset).
Notation sm_getitem := (sm_getitem offset).

Lemma holds_slot d s i t :
  sm_reachable d s -> holds d i s t <-> 0 <= i < sd_num d /\ nth_error (sm_tracts s) (Z.to_nat i) = Some (Some t).
Proof.
  intros Hr. unfold SkySpec.holds. split.
  - intros [Hi Hg]. pose proof (getitem_ok _ _ _ _ _ _ Hr Hi Hg). intuition lia.
  - intros [Hi Hs]. split; [lia|]. rewrite <- (Z2Nat.id i) at 1 by lia. apply getitem_filled; [exact Hs|lia].
Qed.

Lemma holds_accesses d s s' i t :
  sm_reachable d s -> accesses d s s' -> holds d i s t -> holds d i s' t.
Proof.
  intros Hr Ha Hh. pose proof (reachable_accesses _ _ _ _ Hr Ha) as Hr'.
  apply (holds_slot _ _ _ _ Hr) in Hh. apply (holds_slot _ _ _ _ Hr').
  split; [apply Hh|]. apply (accesses_inv _ _ _ _ (reachable_inv _ _ _ Hr) Ha). apply Hh.
Qed.

Lemma holds_fun d s i t t' : holds d i s t -> holds d i s t' -> t = t'.
Proof. intros [_ H] [_ H']. congruence. Qed.

Lemma holds_inj d s i j t t' :
  sm_reachable d s -> holds d i s t -> holds d j s t' -> t_oid t = t_oid t' -> i = j.
Proof.
  intros Hr Hi Hj E. apply (holds_slot _ _ _ _ Hr) in Hi. apply (holds_slot _ _ _ _ Hr) in Hj.
  pose proof (si_oid _ _ _ _ (reachable_inv _ _ _ Hr) _ _ _ _ (proj2 Hi) (proj2 Hj) E). lia.
Qed.

Lemma holds_id d s i t : sm_reachable d s -> holds d i s t -> t_id t = i.
Proof.
  intros Hr Hi. apply (holds_slot _ _ _ _ Hr) in Hi.
  rewrite (so_id _ _ _ _ _ (si_slots _ _ _ _ (reachable_inv _ _ _ Hr) _ _ (proj2 Hi))). lia.
Qed.

Lemma holds_made d s i t : sm_reachable d s -> holds d i s t -> tract_made offset (sd_cfg d) t.
Proof.
  intros Hr Hi. apply (holds_slot _ _ _ _ Hr) in Hi.
  destruct (so_made _ _ _ _ _ (si_slots _ _ _ _ (reachable_inv _ _ _ Hr) _ _ (proj2 Hi)))
    as (a & b0 & b1 & _ & Hb & Hm).
  eapply make_tract_made; eauto.
Qed.

Lemma holds_log d s i : sm_reachable d s -> In i (sm_log s) <-> exists t, holds d i s t.
Proof.
  intros Hr. pose proof (reachable_inv _ _ _ Hr) as Hinv. rewrite (si_log_iff _ _ _ _ Hinv).
  split.
  - intros [Hi (t & Ht)]. exists t. apply (holds_slot _ _ _ _ Hr). split; [|exact Ht].
    assert (Hl : (Z.to_nat i < length (sm_tracts s))%nat) by (apply nth_error_Some; congruence).
    rewrite (si_len _ _ _ _ Hinv) in Hl. lia.
  - intros (t & Ht). apply (holds_slot _ _ _ _ Hr) in Ht. split; [lia|]. exists t. apply Ht.
Qed.

Lemma getitem_holds d s i s' t :
  sm_reachable d s -> 0 <= i -> sm_getitem d i s = (s', Ok t) ->
  sm_reachable d s' /\ accesses d s s' /\ holds d i s' t.
Proof.
  intros Hr Hi Hg. assert (Ha : accesses d s s') by (econstructor; [constructor|exact Hg]).
  pose proof (reachable_accesses _ _ _ _ Hr Ha) as Hr'. split; [exact Hr'|]. split; [exact Ha|].
  apply (holds_slot _ _ _ _ Hr'). pose proof (getitem_ok _ _ _ _ _ _ Hr Hi Hg). intuition lia.
Qed.

(** The builder belongs to the tract generated last. *)
Lemma builder_last d s :
  cfg_ok (sd_cfg d) -> sm_reachable d s -> sm_log s <> [] ->
  exists i t, holds d i s t /\ in_use offset (sd_cfg d) (sm_builder s) t
    /\ sm_builder s = builder_for (sd_cfg d) t /\ last (sm_log s) 0 = i.
Proof.
  intros Hc Hr Hl. pose proof (reachable_inv _ _ _ Hr) as Hinv.
  destruct (si_builder _ _ _ _ Hinv) as [[E _]|(l & i & t & El & Et & Eb)]; [congruence|].
  assert (Hin : In i (sm_log s)) by (rewrite El, in_app_iff; cbn; auto).
  assert (Hh : holds d i s t).
  { apply (holds_log _ _ _ Hr) in Hin. destruct Hin as (t' & Ht'). pose proof Ht' as Ht2.
    apply (holds_slot _ _ _ _ Hr) in Ht2. destruct Ht2 as [_ Ht2]. congruence. }
  exists i, t. split; [exact Hh|]. split; [|split; [exact Eb|rewrite El; apply last_last]].
  constructor.
  - apply Hinv.
  - rewrite Eb. reflexivity.
  - eapply holds_made; eauto.
  - rewrite Eb. reflexivity.
Qed.

Lemma uniform_holds d n s i t :
  uniform_counts offset d n -> sm_reachable d s -> holds d i s t -> t_numPatches t = n.
Proof.
  intros Hu Hr Hh. pose proof Hh as Hs. apply (holds_slot _ _ _ _ Hr) in Hs. destruct Hs as [Hi Hs].
  destruct (so_made _ _ _ _ _ (si_slots _ _ _ _ (reachable_inv _ _ _ Hr) _ _ Hs))
    as (a & b0 & b1 & Ha & Hb & Hm).
  rewrite Z2Nat.id in Ha, Hm by lia. eapply Hu; eauto.
Qed.

Definition builder_of_counts (c : tb_config) (n : pair2) : builder :=
  mkBuilder c (b_patchInner (builder_init c)) (b_patchBorder (builder_init c)) true n
    (Box 0 0 (fst n * fst (cfg_inner c)) (snd n * snd (cfg_inner c))).

Lemma builder_for_counts c t :
  cfg_ok c -> tract_made offset c t -> builder_for c t = builder_of_counts c (t_numPatches t).
Proof.
  intros Hc Hm. destruct (tract_made_inv _ c t Hc Hm) as [(nx & ny & Hn & _ & _ & _ & HB)].
  unfold builder_for, builder_of_counts. rewrite HB, Hn. reflexivity.
Qed.

Lemma uniform_builder d n s :
  cfg_ok (sd_cfg d) -> uniform_counts offset d n -> sm_reachable d s -> sm_log s <> [] ->
  sm_builder s = builder_of_counts (sd_cfg d) n.
Proof.
  intros Hc Hu Hr Hl. destruct (builder_last d s Hc Hr Hl) as (i & t & Hh & _ & -> & _).
  rewrite builder_for_counts by (auto; eapply holds_made; eauto).
  f_equal. eapply uniform_holds; eauto.
Qed.

Lemma holds_log_ne d s i t : sm_reachable d s -> holds d i s t -> sm_log s <> [].
Proof.
  intros Hr Hh E. assert (In i (sm_log s)) by (apply (holds_log _ _ _ Hr); eauto). rewrite E in *. contradiction.
Qed.

Lemma uniform_stable d n s i t s' :
  cfg_ok (sd_cfg d) -> uniform_counts offset d n -> sm_reachable d s -> holds d i s t ->
  accesses d s s' -> sm_builder s' = sm_builder s.
Proof.
  intros Hc Hu Hr Hh Ha. pose proof (reachable_accesses _ _ _ _ Hr Ha) as Hr'.
  assert (Hh' : holds d i s' t) by (eapply holds_accesses; [exact Hr|exact Ha|exact Hh]).
  rewrite (uniform_builder d n s' Hc Hu Hr' (holds_log_ne d s' i t Hr' Hh')).
  symmetry. exact (uniform_builder d n s Hc Hu Hr (holds_log_ne d s i t Hr Hh)).
Qed.

Lemma uniform_in_use d n s i t :
  cfg_ok (sd_cfg d) -> uniform_counts offset d n -> sm_reachable d s -> holds d i s t ->
  in_use offset (sd_cfg d) (sm_builder s) t.
Proof.
  intros Hc Hu Hr Hh. constructor.
  - apply (si_reach _ _ _ _ (reachable_inv _ _ _ Hr)).
  - rewrite (uniform_builder d n s Hc Hu Hr) by (exact (holds_log_ne d s i t Hr Hh)). reflexivity.
  - eapply holds_made; eauto.
  - rewrite (uniform_builder d n s Hc Hu Hr) by (exact (holds_log_ne d s i t Hr Hh)). cbn.
    symmetry. eapply uniform_holds; eauto.
Qed.

(** Loops over the tracts whose body does not change the state. *)
Lemma for_spec {B} d (f : tract Sky -> SM Sky B) (ids : list Z) :
  (forall t s s' r, f t s = (s', r) -> s' = s) ->
  (forall i, In i ids -> 0 <= i) ->
  forall s s' r, sm_reachable d s ->
  smmap (fun i => t <-- sm_getitem d i ;; f t) ids s = (s', r) ->
  accesses d s s'
  /\ match r with
     | Ok l => Forall2 (fun i y => exists t s1, accesses d s s1 /\ accesses d s1 s'
                          /\ holds d i s1 t /\ f t s1 = (s1, Ok y)) ids l
     | Raise e => exists i, In i ids /\ exists s1, accesses d s s1
                    /\ (sm_getitem d i s1 = (s', Raise e)
                        \/ exists t, sm_getitem d i s1 = (s', Ok t) /\ f t s' = (s', Raise e))
     end.
Proof.
  intros Hf. induction ids as [|i ids IH]; intros Hpos s s' r Hr; cbn [smmap].
  - intros [= <- <-]. split; [constructor|constructor].
  - unfold smbind at 1. unfold smbind at 1.
    destruct (sm_getitem d i s) as [s1 [t|e]] eqn:Eg.
    2:{ intros [= <- <-]. split; [econstructor; [constructor|exact Eg]|].
        exists i. split; [now left|]. exists s. split; [constructor|]. left; exact Eg. }
    destruct (getitem_holds d s i s1 t Hr (Hpos i (or_introl eq_refl)) Eg) as (Hr1 & Ha1 & Hh1).
    destruct (f t s1) as [s2 [y|e]] eqn:Ef; pose proof (Hf _ _ _ _ Ef); subst s2.
    2:{ intros [= <- <-]. split; [exact Ha1|].
        exists i. split; [now left|]. exists s. split; [constructor|]. right; eauto. }
    unfold smbind at 1.
    destruct (smmap _ ids s1) as [s3 r3] eqn:Em.
    destruct (IH (fun j Hj => Hpos j (or_intror Hj)) s1 s3 r3 Hr1 Em) as [Ha3 H3].
    pose proof (accesses_trans _ _ _ _ _ Ha1 Ha3) as Ha.
    destruct r3 as [ys|e]; cbn; intros [= <- <-]; (split; [exact Ha|]).
    + constructor; [exists t, s1; auto|]. eapply Forall2_impl; [|exact H3]. cbn.
      intros j y' (t' & s1' & B1 & B2 & B3 & B4). exists t', s1'.
      split; [exact (accesses_trans _ _ _ _ _ Ha1 B1)|]. auto.
    + destruct H3 as (j & Hj & s1' & B1 & B2). exists j. split; [now right|].
      exists s1'. split; [exact (accesses_trans _ _ _ _ _ Ha1 B1)|exact B2].
Qed.

Lemma zrange_nonneg n i : In i (zrange 0 n) -> 0 <= i.
Proof. intros H. apply in_zrange in H. lia. Qed.

Lemma smret_pure {A} (a : A) (s s' : smstate Sky) r : smret a s = (s', r) -> s' = s.
Proof. now intros [= <- <-]. Qed.

Lemma iter_spec d s s' r :
  sm_reachable d s -> sm_iter offset d s = (s', r) ->
  accesses d s s'
  /\ match r with
     | Ok l => Forall2 (fun i t => holds d i s' t) (zrange 0 (sd_num d)) l
     | Raise e => exists i s1, 0 <= i < sd_num d /\ accesses d s s1 /\ sm_getitem d i s1 = (s', Raise e)
     end.
Proof.
  intros Hr H. unfold sm_iter, sm_for in H.
  apply for_spec in H; [|intros; eapply smret_pure; eauto|apply zrange_nonneg|exact Hr].
  destruct H as [Ha H]. split; [exact Ha|]. destruct r as [l|e].
  - eapply Forall2_impl; [|exact H]. intros i t (t' & s1 & A1 & A2 & A3 & A4).
    inversion A4; subst t'. eapply holds_accesses; [|exact A2|exact A3]. eapply reachable_accesses; eauto.
  - destruct H as (i & Hi & s1 & A1 & [A2|(t & _ & A3)]); [|discriminate].
    apply in_zrange in Hi. eauto.
Qed.

(** A full iteration on a map whose tracts all exist changes nothing. *)
Lemma iter_full d s l :
  sm_reachable d s -> Forall2 (fun i t => holds d i s t) (zrange 0 (sd_num d)) l ->
  sm_iter offset d s = (s, Ok l).
Proof.
  intros Hr. unfold sm_iter, sm_for. generalize (zrange 0 (sd_num d)) as ids.
  intros ids H. induction H as [|i t ids l Hi Hl IH]; [reflexivity|].
  cbn [smmap]. unfold smbind at 1. unfold smbind at 1. destruct Hi as [_ Hi]. rewrite Hi.
  cbn. unfold smbind at 1. rewrite IH. reflexivity.
Qed.

(** ** Sorting by separation *)
Definition key := (R * Z * tract Sky)%type.
Definition key_lt (a b : key) : Prop :=
  (fst (fst a) < fst (fst b))%R \/ (fst (fst a) = fst (fst b) /\ snd (fst a) <= snd (fst b)).

Lemma key_le_spec (a b : key) : key_le a b = true <-> key_lt a b.
Proof.
  unfold key_le, key_lt. rewrite orb_true_iff, andb_true_iff, Z.leb_le.
  split.
  - intros [H|[H1 H2]].
    + left. revert H. case Rlt_bool_spec; [auto|discriminate].
    + right. revert H1. case Req_bool_spec; [auto|discriminate].
  - intros [H|[H1 H2]].
    + left. now apply Rlt_bool_true.
    + right. split; [now apply Req_bool_true|exact H2].
Qed.
Lemma key_lt_total a b : key_lt a b \/ key_lt b a.
Proof.
  unfold key_lt. destruct (Rtotal_order (fst (fst a)) (fst (fst b))) as [H|[H|H]]; auto.
  rewrite H. destruct (Z.le_gt_cases (snd (fst a)) (snd (fst b))); [left|right]; right; split; auto; lia.
Qed.
Lemma key_lt_trans a b c : key_lt a b -> key_lt b c -> key_lt a c.
Proof. unfold key_lt. intros [|[]] [|[]]; try (left; lra). right. split; [lra|lia]. Qed.

Lemma insert_head (x : key) l :
  (forall y, In y (insert_key x l) <-> y = x \/ In y l).
Proof.
  induction l as [|z l IH]; cbn; intros y; [intuition|].
  destruct (key_le x z); cbn; [intuition|]. rewrite IH. intuition.
Qed.
Lemma sort_in (l : list key) y : In y (sort_keys l) <-> In y l.
Proof. induction l as [|x l IH]; cbn; [tauto|]. rewrite insert_head, IH. intuition. Qed.
Definition key_sorted := StronglySorted key_lt.
Lemma insert_sorted (x : key) l : key_sorted l -> key_sorted (insert_key x l).
Proof.
  induction 1 as [|y l Hs IH Hy]; cbn; [repeat constructor|].
  destruct (key_le x y) eqn:E.
  - apply key_le_spec in E. constructor; [constructor; auto|]. constructor; [exact E|].
    eapply Forall_impl; [|exact Hy]. intros z Hz. eapply key_lt_trans; eauto.
  - constructor; [exact IH|]. apply Forall_forall. intros z Hz. apply insert_head in Hz.
    destruct Hz as [->|Hz].
    + destruct (key_lt_total x y) as [H|H]; [|exact H]. apply key_le_spec in H. congruence.
    + rewrite Forall_forall in Hy. auto.
Qed.
Lemma sort_sorted (l : list key) : key_sorted (sort_keys l).
Proof. induction l; cbn; [constructor|]. now apply insert_sorted. Qed.
Lemma sort_head (l : list key) k ks : sort_keys l = k :: ks -> In k l /\ forall y, In y l -> key_lt k y.
Proof.
  intros E. split.
  - apply sort_in. rewrite E. now left.
  - intros y Hy. apply sort_in in Hy. pose proof (sort_sorted l) as Hs. rewrite E in Hs, Hy.
    inversion Hs; subst. destruct Hy as [<-|Hy].
    + right. split; [reflexivity|lia].
    + rewrite Forall_forall in H2. auto.
Qed.

Lemma Forall2_in_combine {A B} (P : A -> B -> Prop) l1 l2 a b :
  Forall2 P l1 l2 -> In (a, b) (combine l1 l2) -> P a b.
Proof.
  intros H. induction H as [|x y l1 l2 Hxy _ IH]; cbn; [intros []|].
  intros [E|Hi]; [inversion E; subst; exact Hxy|auto].
Qed.
Lemma Forall2_in_l {A B} (P : A -> B -> Prop) l1 l2 a :
  Forall2 P l1 l2 -> In a l1 -> exists b, In (a, b) (combine l1 l2) /\ P a b.
Proof.
  intros H. induction H as [|x y l1 l2 Hxy _ IH]; cbn; [intros []|].
  intros [<-|Hi]; [eauto|]. destruct (IH Hi) as (b & H1 & H2). eauto.
Qed.
Lemma Forall2_len {A B} (P : A -> B -> Prop) l1 l2 : Forall2 P l1 l2 -> length l1 = length l2.
Proof. induction 1; cbn; auto. Qed.

Lemma base_findTract_spec sep d coord s s' r :
  sm_reachable d s -> base_findTract offset sep d coord s = (s', r) ->
  accesses d s s'
  /\ match r with
     | Ok t => exists i, holds d i s' t
         /\ (forall j, 0 <= j < sd_num d -> exists t', holds d j s' t')
         /\ forall j t', holds d j s' t' ->
              (sep coord (t_ctr t) < sep coord (t_ctr t'))%R
              \/ (sep coord (t_ctr t) = sep coord (t_ctr t') /\ i <= j)
     | Raise e => (sd_num d <= 0 /\ e = IndexError)
         \/ exists i s1, 0 <= i < sd_num d /\ accesses d s s1 /\ sm_getitem d i s1 = (s', Raise e)
     end.
Proof.
  intros Hr. unfold base_findTract, smbind. destruct (sm_iter offset d s) as [s1 r1] eqn:Ei.
  destruct (iter_spec _ _ _ _ Hr Ei) as [Ha H1].
  destruct r1 as [ts|e]; [|intros [= <- <-]; split; [exact Ha|right; exact H1]].
  unfold smlift. intros H; injection H as <- <-. split; [exact Ha|].
  pose proof (reachable_accesses _ _ _ _ Hr Ha) as Hr1.
  pose proof (Forall2_len _ _ _ H1) as Hlen. rewrite zrange_length, Z.sub_0_r in Hlen.
  assert (HE : zrange 0 (Z.of_nat (length ts)) = zrange 0 (sd_num d)).
  { rewrite <- Hlen. destruct (Z_le_gt_dec (sd_num d) 0);
      [rewrite !zrange_nil by lia; reflexivity|f_equal; lia]. }
  rewrite HE.
  destruct (sort_keys _) as [|k ks] eqn:Es.
  - left. split; [|reflexivity].
    destruct (Z_le_gt_dec (sd_num d) 0); [assumption|exfalso].
    destruct (Forall2_in_l _ _ _ 0 H1) as (t & Ht & _); [apply in_zrange; lia|].
    apply (in_map (fun it => (sep coord (t_ctr (snd it)), fst it, snd it))) in Ht.
    apply sort_in in Ht. rewrite Es in Ht. exact Ht.
  - apply sort_head in Es. destruct Es as [Hk Hmin].
    apply in_map_iff in Hk. destruct Hk as ([i t] & <- & Hin). cbn [fst snd] in *.
    exists i. pose proof (Forall2_in_combine _ _ _ _ _ H1 Hin) as Hh. split; [exact Hh|]. split.
    + intros j Hj. destruct (Forall2_in_l _ _ _ j H1) as (t' & _ & Ht'); [apply in_zrange; lia|]. eauto.
    + intros j t' Hj. pose proof Hj as Hj'. apply (holds_slot _ _ _ _ Hr1) in Hj'. destruct Hj' as [Hj1 _].
      destruct (Forall2_in_l _ _ _ j H1) as (t2 & Hin2 & Ht2); [apply in_zrange; lia|].
      pose proof (holds_fun _ _ _ _ _ Hj Ht2) as ->.
      apply (in_map (fun it => (sep coord (t_ctr (snd it)), fst it, snd it))) in Hin2.
      apply Hmin in Hin2. exact Hin2.
Qed.

Lemma base_findTract_iter sep d coord s s' t :
  sm_reachable d s -> base_findTract offset sep d coord s = (s', Ok t) ->
  base_findTract offset sep d coord s' = (s', Ok t).
Proof.
  intros Hr. unfold base_findTract, smbind. destruct (sm_iter offset d s) as [s1 r1] eqn:Ei.
  destruct (iter_spec _ _ _ _ Hr Ei) as [Ha H1].
  destruct r1 as [ts|e]; [|discriminate]. unfold smlift. intros [= <- H].
  rewrite (iter_full _ _ _ (reachable_accesses _ _ _ _ Hr Ha) H1). rewrite H. reflexivity.
Qed.

Lemma base_search sep d : search offset d (base_findTract offset sep d).
Proof.
  constructor.
  - intros c s s' r Hr H. eapply base_findTract_spec; eauto.
  - intros c s s' t Hr H. pose proof (base_findTract_spec _ _ _ _ _ _ Hr H) as (_ & i & Hi & _). eauto.
  - intros c s s' t s1 Hr H Ha.
    unfold base_findTract, smbind in *. destruct (sm_iter offset d s) as [s2 r2] eqn:Ei.
    destruct (iter_spec _ _ _ _ Hr Ei) as [Ha2 H2].
    destruct r2 as [ts|e]; [|discriminate]. unfold smlift in *. injection H as -> H.
    pose proof (reachable_accesses _ _ _ _ Hr Ha2) as Hr2.
    rewrite (iter_full d s1 ts); [now rewrite H|eapply reachable_accesses; eauto|].
    eapply Forall2_impl; [|exact H2]. intros i t' Hh. eapply holds_accesses; eauto.
Qed.

(** ** Lists of tracts and patches *)
Lemma on_tract_pure {A} (m : builder -> tract Sky -> res A) t s s' r :
  on_tract m t s = (s', r) -> s' = s /\ r = m (sm_builder s) t.
Proof. unfold on_tract, smbind, sm_cur_builder, smlift. now intros [= <- <-]. Qed.

Lemma settled_uniform d n s :
  cfg_ok (sd_cfg d) -> uniform_counts offset d n -> sm_reachable d s -> settled offset d s.
Proof.
  intros Hc Hu Hr s1 s2 i t Ha Hh Ha2.
  apply (uniform_stable d n s1 i t s2 Hc Hu (reachable_accesses _ _ _ _ Hr Ha) Hh Ha2).
Qed.

Lemma accesses_all d s s' :
  sm_reachable d s -> (forall i, 0 <= i < sd_num d -> exists t, holds d i s t) ->
  accesses d s s' -> s' = s.
Proof.
  intros Hr Hall. induction 1 as [|s1 i s2 r Ha IH Hg]; [reflexivity|]. subst s1.
  destruct (sd_kind d) eqn:Hk; [|eapply getitem_eager; eauto].
  pose proof (getitem_caching _ _ _ _ _ _ Hk (reachable_inv _ _ _ Hr) Hg) as (_ & _ & H).
  destruct r as [t|e]; [|apply H].
  destruct H as [Hi _]. destruct (Hall i Hi) as (t' & _ & Ht'). rewrite Ht' in Hg. now injection Hg as <- _.
Qed.

Lemma settled_all d s :
  sm_reachable d s -> (forall i, 0 <= i < sd_num d -> exists t, holds d i s t) -> settled offset d s.
Proof.
  intros Hr Hall s1 s2 i t Ha Hh Ha2.
  pose proof (accesses_all d s s1 Hr Hall Ha). subst s1.
  pose proof (accesses_all d s s2 Hr Hall Ha2). subst s2. reflexivity.
Qed.

Lemma settled_accesses d s s' : settled offset d s -> accesses d s s' -> settled offset d s'.
Proof.
  intros Hs Ha s1 s2 i t Ha1 Hh Ha2. eapply Hs; [|exact Hh|exact Ha2]. eapply accesses_trans; eauto.
Qed.

Lemma patch_list_general d coords s s' l :
  sm_reachable d s -> base_findTractPatchList offset d coords s = (s', Ok l) ->
  accesses d s s'
  /\ exists all, Forall2 (fun i tp => exists s1, accesses d s s1 /\ accesses d s1 s'
                     /\ holds d i s1 (fst tp)
                     /\ findPatchList (sm_builder s1) (fst tp) coords = Ok (snd tp))
               (zrange 0 (sd_num d)) all
     /\ l = filter (fun tp => nonempty (snd tp)) all.
Proof.
  intros Hr. unfold base_findTractPatchList, sm_for. unfold smbind at 1.
  destruct (smmap _ _ s) as [s1 r1] eqn:Em.
  apply for_spec in Em; [| |apply zrange_nonneg|exact Hr].
  2:{ intros t s2 s2' r2. unfold smbind. destruct (on_tract _ t s2) as [s3 r3] eqn:E.
      apply on_tract_pure in E. destruct E as [-> _]. destruct r3; intros [= <- <-]; reflexivity. }
  destruct Em as [Ha H1].
  destruct r1 as [l1|e]; [|discriminate]. intros HH. injection HH as <- <-. split; [exact Ha|].
  exists l1. split; [|reflexivity].
  eapply Forall2_impl; [|exact H1]. intros i tp (t & s2 & A1 & A2 & A3 & A4).
  unfold smbind in A4. destruct (on_tract _ t s2) as [s3 r3] eqn:E.
  apply on_tract_pure in E. destruct E as [-> ->].
  destruct (findPatchList (sm_builder s2) t coords) as [pl|] eqn:Ef; [|discriminate].
  injection A4 as <-. exists s2. cbn [fst snd]. auto.
Qed.

Lemma patch_list_spec d coords s s' r :
  settled offset d s -> sm_reachable d s ->
  base_findTractPatchList offset d coords s = (s', r) ->
  accesses d s s'
  /\ forall l, r = Ok l ->
       (forall i, 0 <= i < sd_num d -> exists t pl, holds d i s' t
             /\ findPatchList (sm_builder s') t coords = Ok pl)
       /\ (forall t pl, In (t, pl) l <->
            (exists i, holds d i s' t) /\ findPatchList (sm_builder s') t coords = Ok pl /\ pl <> [])
       /\ StronglySorted (fun p q => t_id (fst p) < t_id (fst q)) l.
Proof.
  intros Hst Hr. unfold base_findTractPatchList, sm_for. unfold smbind at 1.
  destruct (smmap _ _ s) as [s1 r1] eqn:Em.
  apply for_spec in Em; [| |apply zrange_nonneg|exact Hr].
  2:{ intros t s2 s2' r2. unfold smbind. destruct (on_tract _ t s2) as [s3 r3] eqn:E.
      apply on_tract_pure in E. destruct E as [-> _]. destruct r3; intros [= <- <-]; reflexivity. }
  destruct Em as [Ha H1].
  destruct r1 as [l1|e]; intros [= <- <-]; (split; [exact Ha|]); [|discriminate].
  intros l [= <-]. pose proof (reachable_accesses _ _ _ _ Hr Ha) as Hr1.
  assert (H2 : Forall2 (fun i tp => holds d i s1 (fst tp)
                 /\ findPatchList (sm_builder s1) (fst tp) coords = Ok (snd tp))
               (zrange 0 (sd_num d)) l1).
  { eapply Forall2_impl; [|exact H1]. intros i tp (t & s2 & A1 & A2 & A3 & A4).
    pose proof (reachable_accesses _ _ _ _ Hr A1) as Hr2.
    unfold smbind in A4. destruct (on_tract _ t s2) as [s3 r3] eqn:E.
    apply on_tract_pure in E. destruct E as [-> ->].
    destruct (findPatchList (sm_builder s2) t coords) as [pl|] eqn:Ef; [|discriminate].
    injection A4 as <-. cbn [fst snd]. split; [eapply holds_accesses; eauto|].
    rewrite (Hst s2 s1 i t); auto. }
  clear H1. split; [|split].
  - intros i Hi. destruct (Forall2_in_l _ _ _ i H2) as ([t pl] & _ & Ht & Hp); [apply in_zrange; lia|]. eauto.
  - intros t pl. rewrite filter_In. cbn [snd]. split.
    + intros [Hin Hne].
      assert (Hx : exists i, holds d i s1 t /\ findPatchList (sm_builder s1) t coords = Ok pl).
      { clear -H2 Hin. induction H2 as [|i tp l l' Hh _ IH]; [destruct Hin|].
        destruct Hin as [->|Hin]; [exists i; exact Hh|auto]. }
      destruct Hx as (i & Hx1 & Hx2). split; [eauto|]. split; [exact Hx2|].
      destruct pl; [discriminate|congruence].
    + intros ((i & Hh) & Hp & Hne). split.
      * pose proof Hh as Hh'. apply (holds_slot _ _ _ _ Hr1) in Hh'.
        destruct (Forall2_in_l _ _ _ i H2) as ([t' pl'] & Hin & Ht & Hp'); [apply in_zrange; lia|].
        cbn in Ht, Hp'. pose proof (holds_fun _ _ _ _ _ Hh Ht) as <-.
        assert (pl' = pl) by congruence. subst pl'.
        apply in_combine_r in Hin. exact Hin.
      * destruct pl; [congruence|reflexivity].
  - assert (H3 : StronglySorted (fun p q : tract Sky * patch_list => t_id (fst p) < t_id (fst q)) l1).
    { remember 0 as a eqn:E0. assert (Ha0 : 0 <= a) by lia. clear E0.
      remember (zrange a (sd_num d)) as ids eqn:Ei. revert a Ha0 Ei.
      induction H2 as [|i tp ids l' Hh H2 IH]; intros a Ha0 Ei; [constructor|].
      assert (a < sd_num d).
      { destruct (Z_lt_ge_dec a (sd_num d)); [assumption|]. rewrite zrange_nil in Ei by lia. discriminate. }
      rewrite zrange_cons in Ei by assumption. injection Ei as -> ->.
      constructor; [eapply (IH (a + 1)); [lia|reflexivity]|].
      apply Forall_forall. intros tp' Hin'. cbv beta.
      apply Z.le_lt_trans with a; [exact (Z.eq_le_incl _ _ (holds_id _ _ _ _ Hr1 (proj1 Hh)))|].
      clear IH. remember (zrange (a + 1) (sd_num d)) as ids'.
      assert (Hx : exists j, In j ids' /\ holds d j s1 (fst tp')).
      { clear -H2 Hin'. induction H2 as [|i tp l l' Hh _ IH]; [destruct Hin'|].
        destruct Hin' as [->|Hin]; [exists i; split; [now left|apply Hh]|].
        destruct (IH Hin) as (j & ? & ?). exists j. split; [now right|auto]. }
      destruct Hx as (j & Hj & Hx). subst ids'. apply in_zrange in Hj.
      apply Z.lt_le_trans with j; [lia|exact (Z.eq_le_incl _ _ (eq_sym (holds_id _ _ _ _ Hr1 Hx)))]. }
    clear -H3. induction H3 as [|x l H3 IH Hx]; cbn; [constructor|].
    destruct (nonempty (snd x)); [|exact IH]. constructor; [exact IH|].
    apply Forall_forall. intros y Hy. apply filter_In in Hy. rewrite Forall_forall in Hx. apply Hx, Hy.
Qed.

Lemma patches_eqb_refl l : patches_eqb (Sky := Sky) l l = true.
Proof.
  induction l as [|p l IH]; cbn; [reflexivity|]. rewrite IH.
  unfold patch_eqb, box_eqb. rewrite !Z.eqb_refl. reflexivity.
Qed.

(** [retList] after handling a list of tracts that all exist. *)
Definition same_object (t t' : tract Sky) : bool := Nat.eqb (t_oid t) (t_oid t').
Definition collect (b : builder) (coords : list Sky) (acc : list (tract Sky * patch_list)) (t : tract Sky)
  : list (tract Sky * patch_list) :=
  match findPatchList b t coords with
  | Ok pl => if nonempty pl && negb (pair_mem (t, pl) acc) then acc ++ [(t, pl)] else acc
  | Raise _ => acc
  end.

Lemma collect_spec d s coords ts :
  sm_reachable d s ->
  (forall t, In t ts -> exists i, holds d i s t) ->
  (forall t, In t ts -> exists pl, findPatchList (sm_builder s) t coords = Ok pl) ->
  let l := fold_left (collect (sm_builder s) coords) ts [] in
  (forall t pl, In (t, pl) l <-> In t ts /\ findPatchList (sm_builder s) t coords = Ok pl /\ pl <> [])
  /\ map fst l = filter (fun t => match findPatchList (sm_builder s) t coords with
                                  | Ok pl => nonempty pl | Raise _ => false end)
                        (first_occurrences same_object ts)
  /\ NoDup (map (fun tp => t_oid (fst tp)) l).
Proof.
  intros Hr. unfold first_occurrences.
  induction ts as [|t ts IH] using rev_ind; intros Hh Hp.
  - cbn. split; [intros; split; [intros []|intros [[] _]]|]. split; [reflexivity|constructor].
  - cbn zeta. rewrite !fold_left_app. cbn [fold_left].
    specialize (IH (fun t Ht => Hh t (in_or_app _ _ _ (or_introl Ht)))
                   (fun t Ht => Hp t (in_or_app _ _ _ (or_introl Ht)))).
    cbn zeta in IH. destruct IH as (I1 & I2 & I3).
    set (l := fold_left (collect (sm_builder s) coords) ts []) in *.
    set (fo := fold_left (fun acc x => if existsb (same_object x) acc then acc else acc ++ [x]) ts []) in *.
    assert (Hfo : forall x, In x fo <-> In x ts).
    { assert (G : forall ts', (forall t, In t ts' -> exists i, holds d i s t) ->
        forall x, In x (fold_left (fun acc x => if existsb (same_object x) acc then acc else acc ++ [x]) ts' []) <-> In x ts').
      { clear -Hr. induction ts' as [|t ts IH] using rev_ind; intros Hh x; [reflexivity|].
        rewrite fold_left_app. cbn [fold_left].
        specialize (IH (fun t Ht => Hh t (in_or_app _ _ _ (or_introl Ht)))).
        destruct (existsb _ _) eqn:Ex.
        - rewrite IH, in_app_iff. cbn. split; [tauto|]. intros [?|[<-|[]]]; [assumption|].
          apply existsb_exists in Ex. destruct Ex as (y & Hy & Ey).
          apply IH in Hy. unfold same_object in Ey. apply Nat.eqb_eq in Ey.
          destruct (Hh t) as (i & Hi); [apply in_or_app; right; now left|].
          destruct (Hh y) as (j & Hj); [apply in_or_app; now left|].
          pose proof (holds_inj _ _ _ _ _ _ Hr Hi Hj Ey). subst j.
          rewrite (holds_fun _ _ _ _ _ Hi Hj). exact Hy.
        - rewrite !in_app_iff, IH. reflexivity. }
      apply G. intros t' Ht'. apply Hh, in_or_app. now left. }
    destruct (Hh t) as (i & Hi); [apply in_or_app; right; now left|].
    destruct (Hp t) as (pl & Epl); [apply in_or_app; right; now left|].
    assert (Hsame : forall y, In y ts -> t_oid t = t_oid y -> y = t).
    { intros y Hy Ey. destruct (Hh y) as (j & Hj); [apply in_or_app; now left|].
      pose proof (holds_inj _ _ _ _ _ _ Hr Hi Hj Ey). subst j. symmetry.
      apply (holds_fun _ _ _ _ _ Hi Hj). }
    assert (Hmem : existsb (same_object t) fo = true <-> In t ts).
    { rewrite existsb_exists. split.
      - intros (y & Hy & Ey). apply Hfo in Hy. apply Nat.eqb_eq in Ey.
        rewrite <- (Hsame y Hy Ey). exact Hy.
      - intros Hin. exists t. rewrite Hfo. split; [exact Hin|apply Nat.eqb_refl]. }
    assert (Hpm : pl <> [] -> (pair_mem (t, pl) l = true <-> In t ts)).
    { intros Hne. unfold pair_mem. rewrite existsb_exists. split.
      - intros ([y pl'] & Hy & Ey). cbn [fst snd] in Ey. apply andb_true_iff in Ey.
        destruct Ey as [Ey _]. apply Nat.eqb_eq in Ey. apply I1 in Hy.
        rewrite <- (Hsame y (proj1 Hy) (eq_sym Ey)). apply Hy.
      - intros Hin. exists (t, pl). rewrite I1. cbn [fst snd].
        rewrite Nat.eqb_refl, patches_eqb_refl. auto. }
    unfold collect at 1 2 3. rewrite Epl.
    destruct pl as [|p pl].
    { cbn [nonempty andb].
      split; [|split; [|exact I3]].
      - intros t' pl'. rewrite I1, in_app_iff. cbn. split; [tauto|].
        intros [[?|[<-|[]]] [E Hne]]; [tauto|]. congruence.
      - rewrite I2. destruct (existsb (same_object t) fo); [reflexivity|].
        rewrite filter_app. cbn [filter]. rewrite Epl. cbn [nonempty]. now rewrite app_nil_r. }
    cbn [nonempty andb]. specialize (Hpm ltac:(congruence)).
    destruct (pair_mem (t, p :: pl) l) eqn:Epm; cbn [negb].
    + assert (Hin : In t ts) by now apply Hpm.
      split; [|split; [|exact I3]].
      * intros t' pl'. rewrite I1, in_app_iff. cbn. split; [tauto|].
        intros [[?|[<-|[]]] HH]; tauto.
      * rewrite (proj2 Hmem Hin). exact I2.
    + assert (Hnin : ~ In t ts) by (intros H; apply Hpm in H; discriminate).
      assert (Hex : existsb (same_object t) fo = false).
      { apply not_true_is_false. intros HE. apply Hnin, Hmem, HE. }
      rewrite Hex. split; [|split].
      * intros t' pl'. rewrite !in_app_iff, I1. cbn. split.
        -- intros [H|[E|[]]]; [tauto|]. inversion E; subst. split; [tauto|]. split; [exact Epl|congruence].
        -- intros [[?|[<-|[]]] [E Hne]]; [tauto|]. right; left. congruence.
      * rewrite map_app, filter_app, I2. cbn [map fst filter]. rewrite Epl. reflexivity.
      * rewrite map_app. cbn [map fst].
        clear -I3 I1 Hnin Hsame.
        assert (Hx : ~ In (t_oid t) (map (fun tp => t_oid (fst tp)) l)).
        { rewrite in_map_iff. intros ([y pl'] & Ey & Hy). apply I1 in Hy. cbn in Ey.
          apply Hnin. rewrite <- (Hsame y (proj1 Hy) (eq_sym Ey)). apply Hy. }
        induction (map (fun tp => t_oid (fst tp)) l) as [|a m IHm]; cbn.
        -- constructor; [intros []|constructor].
        -- inversion I3; subst. constructor.
           ++ rewrite in_app_iff. cbn. intros [?|[E|[]]]; [auto|]. apply Hx. now left.
           ++ apply IHm; auto. intros ?; apply Hx. now right.
Qed.

Lemma closest_loop_spec d ft coords :
  search offset d ft ->
  forall todo acc s s' l, sm_reachable d s -> settled offset d s ->
  closest_loop ft coords todo acc s = (s', Ok l) ->
  accesses d s s' /\
  exists ts, Forall2 (fun c t => (exists i, holds d i s' t) /\ ft c s' = (s', Ok t)) todo ts
    /\ (forall t, In t ts -> exists pl, findPatchList (sm_builder s') t coords = Ok pl)
    /\ l = fold_left (collect (sm_builder s') coords) ts acc.
Proof.
  intros [S1 S2 S3]. induction todo as [|c todo IH]; intros acc s s' l Hr Hst; cbn [closest_loop].
  - intros [= <- <-]. split; [constructor|]. exists []. split; [constructor|]. split; [intros ? []|reflexivity].
  - unfold smbind at 1. destruct (ft c s) as [s1 [t|e]] eqn:Ef; [|discriminate].
    pose proof (S1 _ _ _ _ Hr Ef) as Ha1. pose proof (S2 _ _ _ _ Hr Ef) as (i & Hi).
    pose proof (reachable_accesses _ _ _ _ Hr Ha1) as Hr1.
    unfold smbind at 1. unfold add_tract at 1. unfold smbind at 1.
    destruct (on_tract _ t s1) as [s2 r2] eqn:Eo. apply on_tract_pure in Eo. destruct Eo as [-> ->].
    destruct (findPatchList (sm_builder s1) t coords) as [pl|e] eqn:Ep; [|discriminate].
    cbn -[closest_loop]. intros H. apply IH in H; [|exact Hr1|eapply settled_accesses; eauto].
    destruct H as (Ha2 & ts & H1 & H2 & H3).
    split; [eapply accesses_trans; eauto|]. exists (t :: ts).
    assert (Eb : sm_builder s' = sm_builder s1) by (eapply Hst; eauto).
    split; [|split].
    + constructor; [|exact H1]. split; [exists i; exact (holds_accesses _ _ _ _ _ Hr1 Ha2 Hi)|].
      exact (S3 _ _ _ _ _ Hr Ef Ha2).
    + intros t' [<-|Ht']; [|auto]. rewrite Eb. eauto.
    + cbn [fold_left]. rewrite H3. f_equal. unfold collect. rewrite Eb, Ep. reflexivity.
Qed.
End SkyMap.
