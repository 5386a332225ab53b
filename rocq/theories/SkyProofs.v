(** Invariants of sky map objects. *)
From Coq Require Import Reals Lra.
From Flocq Require Import Raux.
Require Import Verif.Py Verif.Geom Verif.PatchInfo Verif.TractBuilder Verif.TractInfo Verif.Spec.
Require Import Verif.SkyMap Verif.SkySpec Verif.PatchProofs Verif.TractProofs.
Open Scope Z_scope.
Local Arguments Z.mul : simpl never.

Lemma list_set_length {A} (l : list A) i v : length (list_set l i v) = length l.
Proof. revert i; induction l; intros [|i]; cbn; auto. Qed.
Lemma list_set_eq {A} (l : list A) i v : (i < length l)%nat -> nth_error (list_set l i v) i = Some v.
Proof. revert i; induction l; intros [|i]; cbn; intros; try lia; auto. apply IHl; lia. Qed.
Lemma list_set_neq {A} (l : list A) i j v : i <> j -> nth_error (list_set l i v) j = nth_error l j.
Proof. revert i j; induction l; intros [|i] [|j] H; cbn; auto; try congruence. Qed.

Lemma py_nth_spec {A} (l : list A) i a :
  0 <= i -> py_nth l i = Ok a <-> nth_error l (Z.to_nat i) = Some a.
Proof.
  intros Hi. split.
  - unfold py_nth. destruct (Z.ltb_spec i 0); [lia|].
    destruct (_ && _); [|discriminate]. destruct (nth_error l (Z.to_nat i)); [|discriminate].
    now intros [= ->].
  - now apply py_nth_in.
Qed.

Section SkyMap.
Context {Sky : Type}.
Variable offset : Sky -> R -> R -> Sky.

(** The builder parts that never change. *)
Definition static_of (c : tb_config) (b : builder) : Prop :=
  b_config b = c /\ b_patchInner b = b_patchInner (builder_init c)
  /\ b_patchBorder b = b_patchBorder (builder_init c).

Lemma static_reachable c b : builder_reachable c b -> static_of c b.
Proof.
  induction 1 as [|b m b' out Hr IH Hm Hs].
  - unfold static_of. destruct c as [|[? ?]]; cbn; auto.
  - unfold setupPatches in Hs.
    destruct (setup_axis _ _ _) as [[[? ?] ?]|]; [|discriminate].
    destruct (setup_axis _ _ _) as [[[? ?] ?]|]; [|discriminate].
    cbn [bind] in Hs. inversion Hs; subst. exact IH.
Qed.

Definition builder_for (c : tb_config) (t : tract Sky) : builder :=
  mkBuilder c (b_patchInner (builder_init c)) (b_patchBorder (builder_init c)) true
            (t_numPatches t) (t_bbox t).

Lemma tract_build_static c b oid id ctr verts overlap w corners samples b' t :
  builder_reachable c b ->
  tract_build (Sky := Sky) b oid id ctr verts overlap w corners samples = Ok (b', t) ->
  builder_reachable c b' /\ b' = builder_for c t /\ t_id t = id /\ t_oid t = oid.
Proof.
  intros Hr. destruct (static_reachable c b Hr) as (H1 & H2 & H3). unfold tract_build.
  destruct (include_all w samples) as [m|e] eqn:Em; [|discriminate]. cbn [bind].
  destruct (include_all_spec w samples Box2DEmpty I m Em) as (Hw & _ & _).
  pose proof (box_of_box2d_wf m Hw) as Hm.
  destruct (setupPatches b (box_of_box2d m)) as [[b1 [bb np]]|e] eqn:E; [|discriminate].
  cbn [bind]. pose proof (br_setup c b _ _ _ Hr Hm E) as Hr'.
  unfold setupPatches in E.
  destruct (setup_axis (minx _) _ _) as [[[x0 w0] nx]|]; [|discriminate].
  destruct (setup_axis (miny _) _ _) as [[[y0 h0] ny]|]; [|discriminate].
  cbn [bind] in E. inversion E; subst b1 bb np. clear E.
  unfold finalOrientation. intros [= <- <-]. split; [exact Hr'|].
  unfold builder_for. cbn. rewrite H1, H2, H3. auto.
Qed.

Lemma make_tract_static c b oid id a b' t :
  builder_reachable c b -> make_tract offset b oid id a = Ok (b', t) ->
  builder_reachable c b' /\ b' = builder_for c t /\ t_id t = id /\ t_oid t = oid.
Proof.
  intros Hr. destruct a as [ctr verts ov w cor|ctr rad ov w cor]; cbn.
  - apply tract_build_static, Hr.
  - intros H. destruct (explicit_init_inv _ _ _ _ _ _ _ _ _ _ _ _ H)
      as (t0 & H0 & Ew & Eb & En & Eo & Ei & _).
    apply (tract_build_static c) in H0; [|exact Hr]. destruct H0 as (H1 & H2 & H3 & H4).
    rewrite Eo, Ei. split; [exact H1|]. unfold builder_for in *. rewrite Eb, En. auto.
Qed.

Lemma make_tract_made c b oid id a b' t :
  builder_reachable c b -> make_tract offset b oid id a = Ok (b', t) -> tract_made offset c t.
Proof.
  intros Hr. destruct a; cbn; intros H; [eapply tm_plain|eapply tm_explicit]; eauto.
Qed.

Lemma tract_build_indep c b1 b2 o1 o2 id ctr verts overlap w corners samples :
  static_of c b1 -> static_of c b2 ->
  match tract_build (Sky := Sky) b1 o1 id ctr verts overlap w corners samples,
        tract_build (Sky := Sky) b2 o2 id ctr verts overlap w corners samples with
  | Ok (b1', t1), Ok (b2', t2) => b1' = b2' /\ same_tract t1 t2
  | Raise e1, Raise e2 => e1 = e2
  | _, _ => False
  end.
Proof.
  intros (A1 & A2 & A3) (B1 & B2 & B3). unfold tract_build.
  destruct (include_all w samples) as [m|e]; cbn [bind]; [|reflexivity].
  unfold setupPatches. rewrite A1, A2, A3, B1, B2, B3.
  destruct (setup_axis (minx _) _ _) as [[[x0 w0] nx]|]; cbn [bind]; [|reflexivity].
  destruct (setup_axis (miny _) _ _) as [[[y0 h0] ny]|]; cbn [bind]; [|reflexivity].
  unfold finalOrientation. split; [reflexivity|]. unfold same_tract; cbn. repeat split.
Qed.

Lemma make_tract_indep c b1 b2 o1 o2 id a :
  builder_reachable c b1 -> builder_reachable c b2 ->
  match make_tract offset b1 o1 id a, make_tract offset b2 o2 id a with
  | Ok (b1', t1), Ok (b2', t2) => b1' = b2' /\ same_tract t1 t2
  | Raise e1, Raise e2 => e1 = e2
  | _, _ => False
  end.
Proof.
  intros H1 H2. apply static_reachable in H1. apply static_reachable in H2.
  destruct a as [ctr verts ov w cor|ctr rad ov w cor]; cbn.
  - now apply (tract_build_indep c).
  - unfold ExplicitTractInfo_init.
    pose proof (tract_build_indep c b1 b2 o1 o2 id ctr [] ov w cor (explicit_samples offset ctr rad ov) H1 H2) as H.
    destruct (tract_build b1 o1 id ctr [] ov w cor _) as [[b1' t1]|e1];
      destruct (tract_build b2 o2 id ctr [] ov w cor _) as [[b2' t2]|e2]; cbn [bind]; try tauto.
    destruct H as [-> (E1 & E2 & E3 & E4 & E5 & E6 & E7 & E8)]. split; [reflexivity|].
    unfold same_tract; cbn. rewrite E1, E2, E4, E5, E6, E7, E8. repeat split.
Qed.

(** ** The invariant *)
Record slot_ok (d : skydef Sky) (s : smstate Sky) (k : nat) (t : tract Sky) : Prop := {
  so_id : t_id t = Z.of_nat k;
  so_oid : (t_oid t < sm_next s)%nat;
  so_made : exists a b0 b1, sd_args d (Z.of_nat k) = Ok a /\ builder_reachable (sd_cfg d) b0
            /\ make_tract offset b0 (t_oid t) (Z.of_nat k) a = Ok (b1, t) }.

Record sm_inv (d : skydef Sky) (n : nat) (s : smstate Sky) : Prop := {
  si_len : length (sm_tracts s) = n;
  si_slots : forall k t, nth_error (sm_tracts s) k = Some (Some t) -> slot_ok d s k t;
  si_log : NoDup (sm_log s);
  si_log_iff : forall i, In i (sm_log s) <->
     0 <= i /\ exists t, nth_error (sm_tracts s) (Z.to_nat i) = Some (Some t);
  si_oid : forall k k' t t', nth_error (sm_tracts s) k = Some (Some t) ->
     nth_error (sm_tracts s) k' = Some (Some t') -> t_oid t = t_oid t' -> k = k';
  si_reach : builder_reachable (sd_cfg d) (sm_builder s);
  si_builder : (sm_log s = [] /\ sm_builder s = builder_init (sd_cfg d)) \/
     exists l i t, sm_log s = l ++ [i] /\ nth_error (sm_tracts s) (Z.to_nat i) = Some (Some t)
       /\ sm_builder s = builder_for (sd_cfg d) t }.

Lemma slot_ok_mono d s s' k t :
  (sm_next s <= sm_next s')%nat -> slot_ok d s k t -> slot_ok d s' k t.
Proof. intros H [A B C]. constructor; auto. lia. Qed.

(** What one generated tract does to the state. *)
Lemma generate_spec d n s i s' r :
  sm_inv d n s -> generateTract offset d i s = (s', r) ->
  match r with
  | Ok t => exists a, sd_args d i = Ok a
      /\ make_tract offset (sm_builder s) (sm_next s) i a = Ok (sm_builder s', t)
      /\ s' = mkSM (sm_tracts s) (builder_for (sd_cfg d) t) (S (sm_next s)) (sm_log s ++ [i])
      /\ builder_reachable (sd_cfg d) (builder_for (sd_cfg d) t)
      /\ t_id t = i /\ t_oid t = sm_next s
  | Raise _ => s' = s
  end.
Proof.
  intros [] H. unfold generateTract in H.
  destruct (sd_args d i) as [a|e] eqn:Ea; cbn [bind] in H; [|inversion H; subst; reflexivity].
  destruct (make_tract _ _ _ _ _) as [[b t]|e] eqn:Em; [|inversion H; subst; reflexivity].
  inversion H; subst; clear H. exists a. split; [reflexivity|]. split; [exact Em|].
  pose proof (make_tract_static _ _ _ _ _ _ _ si_reach0 Em) as (H1 & -> & H3 & H4).
  auto.
Qed.

Lemma getitem_caching d s i s' r :
  sd_kind d = CachingMap -> sm_inv d (Z.to_nat (sd_num d)) s ->
  sm_getitem offset d i s = (s', r) ->
  sm_inv d (Z.to_nat (sd_num d)) s'
  /\ (forall k t, nth_error (sm_tracts s) k = Some (Some t) -> nth_error (sm_tracts s') k = Some (Some t))
  /\ match r with
     | Ok t => 0 <= i < sd_num d /\ nth_error (sm_tracts s') (Z.to_nat i) = Some (Some t)
     | Raise e => s' = s /\ (e = IndexError /\ ~ 0 <= i < sd_num d \/
                  0 <= i < sd_num d /\ forall t, nth_error (sm_tracts s) (Z.to_nat i) <> Some (Some t))
     end.
Proof.
  intros Hk Hinv. unfold sm_getitem. rewrite Hk.
  destruct (Z.ltb_spec i 0); [cbn; intros [= <- <-]; split; [auto|]; split; [auto|]; split; [auto|left; split; [reflexivity|lia]]|].
  destruct (Z.ltb_spec (sd_num d) i); [cbn; intros [= <- <-]; split; [auto|]; split; [auto|]; split; [auto|left; split; [reflexivity|lia]]|].
  cbn [orb]. unfold smbind at 1.
  destruct (py_nth (sm_tracts s) i) as [o|e] eqn:En.
  2:{ intros [= <- <-]. split; [auto|]. split; [auto|]. split; [reflexivity|].
      destruct (Z.eq_dec i (sd_num d)) as [->|].
      - left. rewrite py_nth_ge in En by (rewrite (si_len _ _ _ Hinv); lia). inversion En. split; [reflexivity|lia].
      - right. split; [lia|]. intros t Ht.
        apply py_nth_spec in Ht; [|lia]. congruence. }
  assert (Hi : 0 <= i < sd_num d).
  { apply py_nth_spec in En; [|lia].
    assert (Hl : (Z.to_nat i < length (sm_tracts s))%nat) by (apply nth_error_Some; congruence).
    rewrite (si_len _ _ _ Hinv) in Hl. lia. }
  apply py_nth_spec in En; [|lia].
  destruct o as [t|].
  { cbn. intros [= <- <-]. auto. }
  unfold smbind at 1. destruct (generateTract offset d i s) as [s1 [t|e]] eqn:Eg.
  2:{ intros [= <- <-]. pose proof (generate_spec _ _ _ _ _ _ Hinv Eg) as ->.
      split; [auto|]. split; [auto|]. split; [reflexivity|]. right. split; [lia|]. congruence. }
  pose proof (generate_spec _ _ _ _ _ _ Hinv Eg) as (a & Ea & Em & -> & Hr & Hid & Hoid).
  cbn. intros [= <- <-]. cbn.
  assert (Hl : (Z.to_nat i < length (sm_tracts s))%nat) by (apply nth_error_Some; congruence).
  assert (Hnew : nth_error (list_set (sm_tracts s) (Z.to_nat i) (Some t)) (Z.to_nat i) = Some (Some t))
    by now apply list_set_eq.
  assert (Hold : forall k, k <> Z.to_nat i ->
            nth_error (list_set (sm_tracts s) (Z.to_nat i) (Some t)) k = nth_error (sm_tracts s) k)
    by (intros; apply list_set_neq; congruence).
  assert (Hfresh : ~ In i (sm_log s)).
  { intros Hin. apply (si_log_iff _ _ _ Hinv) in Hin. destruct Hin as (_ & t' & Ht'). congruence. }
  split; [|split; [|auto]].
  2:{ intros k t' Hkt. destruct (Nat.eq_dec k (Z.to_nat i)) as [->|Hne]; [congruence|].
      now rewrite Hold. }
  constructor; cbn.
  - rewrite list_set_length. apply Hinv.
  - intros k t' Hkt. destruct (Nat.eq_dec k (Z.to_nat i)) as [->|Hne].
    + rewrite Hnew in Hkt. inversion Hkt; subst t'. constructor; cbn.
      * lia.
      * lia.
      * rewrite Z2Nat.id by lia. exists a, (sm_builder s). eexists. rewrite Hoid.
        split; [exact Ea|]. split; [apply Hinv|]. exact Em.
    + rewrite Hold in Hkt by assumption. eapply slot_ok_mono; [|eapply si_slots; eauto]. cbn; lia.
  - clear -Hfresh Hinv. pose proof (si_log _ _ _ Hinv) as Hn.
    induction (sm_log s) as [|j l IH]; cbn; [constructor; [intros []|constructor]|].
    inversion Hn; subst. constructor.
    + rewrite in_app_iff. cbn. intros [?|[->|[]]]; [auto|]. apply Hfresh; now left.
    + apply IH; auto. intros ?; apply Hfresh; now right.
  - intros j. rewrite in_app_iff, (si_log_iff _ _ _ Hinv). cbn. split.
    + intros [[Hj (t' & Ht')]|[->|[]]].
      * split; [lia|]. destruct (Nat.eq_dec (Z.to_nat j) (Z.to_nat i)) as [E|Hne].
        -- rewrite E. eauto.
        -- rewrite Hold by assumption. eauto.
      * split; [lia|eauto].
    + intros [Hj (t' & Ht')]. destruct (Nat.eq_dec (Z.to_nat j) (Z.to_nat i)) as [E|Hne].
      * right; left. lia.
      * left. rewrite Hold in Ht' by assumption. eauto.
  - intros k k' t1 t2 H1 H2 E.
    destruct (Nat.eq_dec k (Z.to_nat i)) as [->|Hne];
      destruct (Nat.eq_dec k' (Z.to_nat i)) as [->|Hne']; auto.
    + rewrite Hold in H2 by assumption. rewrite Hnew in H1. inversion H1; subst t1.
      pose proof (so_oid _ _ _ _ (si_slots _ _ _ Hinv _ _ H2)). lia.
    + rewrite Hold in H1 by assumption. rewrite Hnew in H2. inversion H2; subst t2.
      pose proof (so_oid _ _ _ _ (si_slots _ _ _ Hinv _ _ H1)). lia.
    + rewrite Hold in H1, H2 by assumption. eapply si_oid; eauto.
  - exact Hr.
  - right. exists (sm_log s), i, t. auto.
Qed.

(** Eager maps: after construction every slot is filled and accesses change nothing. *)
Lemma eager_fill_spec d ids : forall n s s' r,
  sm_inv d n s -> (forall k, (k < n)%nat -> exists t, nth_error (sm_tracts s) k = Some (Some t)) ->
  ids = zrange (Z.of_nat n) (Z.of_nat n + Z.of_nat (length ids)) ->
  eager_fill offset d ids s = (s', Ok r) ->
  sm_inv d (n + length ids) s'
  /\ (forall k, (k < n + length ids)%nat -> exists t, nth_error (sm_tracts s') k = Some (Some t))
  /\ sm_log s' = sm_log s ++ ids.
Proof.
  induction ids as [|i ids IH]; intros n s s' r Hinv Hfull Hids; cbn [eager_fill].
  - intros [= <- <-]. cbn [length]. rewrite Nat.add_0_r, app_nil_r. auto.
  - rewrite (zrange_cons (Z.of_nat n)) in Hids by (cbn [length]; lia).
    injection Hids as Ei Eids.
    unfold smbind at 1. destruct (generateTract offset d i s) as [s1 [t|e]] eqn:Eg; [|intros HH; cbn in HH; inversion HH].
    pose proof (generate_spec _ _ _ _ _ _ Hinv Eg) as (a & Ea & Em & -> & Hr & Hid & Hoid).
    unfold smbind at 1. cbn -[eager_fill]. intros H.
    assert (Hlen : length (sm_tracts s) = n) by apply Hinv.
    assert (Hnew : nth_error (sm_tracts s ++ [Some t]) n = Some (Some t)).
    { rewrite nth_error_app2 by lia. rewrite Hlen, Nat.sub_diag. reflexivity. }
    assert (Hold : forall k, k <> n -> nth_error (sm_tracts s ++ [Some t]) k = nth_error (sm_tracts s) k).
    { intros k Hk. destruct (Nat.lt_ge_cases k n).
      - apply nth_error_app1. lia.
      - rewrite (proj2 (nth_error_None (sm_tracts s ++ [Some t]) k)) by (rewrite app_length; cbn; lia).
        symmetry. apply nth_error_None. lia. }
    assert (Hfresh : ~ In i (sm_log s)).
    { intros Hin. apply (si_log_iff _ _ _ Hinv) in Hin. destruct Hin as (_ & t' & Ht').
      assert (Z.to_nat i < length (sm_tracts s))%nat by (apply nth_error_Some; congruence). lia. }
    assert (Hn : Z.to_nat i = n) by lia.
    apply (IH (S n)) in H.
    + destruct H as (H1 & H2 & H3). rewrite Nat.add_succ_comm in H1, H2. cbn in H3.
      split; [exact H1|]. split; [exact H2|]. rewrite H3. rewrite <- app_assoc. reflexivity.
    + constructor; cbn.
      * rewrite app_length. cbn. lia.
      * intros k t' Hkt. destruct (Nat.eq_dec k n) as [->|Hne].
        -- rewrite Hnew in Hkt. inversion Hkt; subst t'. constructor; cbn; try lia.
           exists a, (sm_builder s). eexists. rewrite Hoid, <- Ei.
           split; [exact Ea|]. split; [apply Hinv|exact Em].
        -- rewrite Hold in Hkt by assumption. eapply slot_ok_mono; [|eapply si_slots; eauto]. cbn; lia.
      * clear -Hfresh Hinv. pose proof (si_log _ _ _ Hinv) as Hn.
        induction (sm_log s) as [|j l IH]; cbn; [constructor; [intros []|constructor]|].
        inversion Hn; subst. constructor.
        -- rewrite in_app_iff. cbn. intros [?|[->|[]]]; [auto|]. apply Hfresh; now left.
        -- apply IH; auto. intros ?; apply Hfresh; now right.
      * intros j. rewrite in_app_iff, (si_log_iff _ _ _ Hinv). cbn. split.
        -- intros [[Hj (t' & Ht')]|[<-|[]]].
           ++ split; [lia|]. destruct (Nat.eq_dec (Z.to_nat j) n) as [E|Hne].
              ** rewrite E. eauto.
              ** rewrite Hold by assumption. eauto.
           ++ split; [lia|]. rewrite Hn. eauto.
        -- intros [Hj (t' & Ht')]. destruct (Nat.eq_dec (Z.to_nat j) n) as [E|Hne].
           ++ right; left. lia.
           ++ left. rewrite Hold in Ht' by assumption. eauto.
      * intros k k' t1 t2 H1 H2 E.
        destruct (Nat.eq_dec k n) as [->|Hne]; destruct (Nat.eq_dec k' n) as [->|Hne']; auto.
        -- rewrite Hold in H2 by assumption. rewrite Hnew in H1. inversion H1; subst t1.
           pose proof (so_oid _ _ _ _ (si_slots _ _ _ Hinv _ _ H2)). lia.
        -- rewrite Hold in H1 by assumption. rewrite Hnew in H2. inversion H2; subst t2.
           pose proof (so_oid _ _ _ _ (si_slots _ _ _ Hinv _ _ H1)). lia.
        -- rewrite Hold in H1, H2 by assumption. eapply si_oid; eauto.
      * exact Hr.
      * right. exists (sm_log s), i, t. rewrite Hn. auto.
    + intros k Hk. cbn. destruct (Nat.eq_dec k n) as [->|Hne]; [eauto|].
      rewrite Hold by assumption. apply Hfull. lia.
    + rewrite Eids at 1. f_equal; lia.
Qed.

Lemma new_inv d s :
  sm_new offset d = Ok s ->
  sm_inv d (Z.to_nat (sd_num d)) s
  /\ (sd_kind d = EagerMap -> sm_log s = zrange 0 (sd_num d)
      /\ forall k, (k < Z.to_nat (sd_num d))%nat -> exists t, nth_error (sm_tracts s) k = Some (Some t))
  /\ (sd_kind d = CachingMap -> sm_log s = []).
Proof.
  unfold sm_new. destruct (sd_kind d) eqn:Hk.
  - intros [= <-]. split; [|split; [discriminate|reflexivity]].
    assert (Hr : forall k t, nth_error (repeat (@None (tract Sky)) (Z.to_nat (sd_num d))) k <> Some (Some t)).
    { intros k t H. apply nth_error_In, repeat_spec in H. discriminate. }
    constructor; cbn.
    + apply repeat_length.
    + intros k t H. now apply Hr in H.
    + constructor.
    + intros i. split; [intros []|]. intros (_ & t & H). now apply Hr in H.
    + intros k k' t t' H. now apply Hr in H.
    + constructor.
    + left; auto.
  - destruct (eager_fill _ _ _ _) as [s1 [r|e]] eqn:E; [|discriminate]. intros [= ->].
    eapply (eager_fill_spec d _ 0%nat) in E.
    + destruct E as (H1 & H2 & H3). cbn in H1, H2, H3. rewrite zrange_length, Z.sub_0_r in *.
      split; [exact H1|]. split; [|discriminate]. auto.
    + constructor; cbn.
      * reflexivity.
      * intros [|k] t; discriminate.
      * constructor.
      * intros i. split; [intros []|]. intros (_ & t & H). destruct (Z.to_nat i); discriminate.
      * intros [|k]; discriminate.
      * constructor.
      * left; auto.
    + intros k Hk'. lia.
    + cbn [length]. rewrite zrange_length, Z.sub_0_r, Z.add_0_l. cbn.
      destruct (Z_le_gt_dec (sd_num d) 0).
      * rewrite !zrange_nil by lia. reflexivity.
      * f_equal. lia.
Qed.

Lemma getitem_eager d s i s' r :
  sd_kind d = EagerMap -> sm_getitem offset d i s = (s', r) -> s' = s.
Proof.
  intros Hk. unfold sm_getitem. rewrite Hk. unfold smbind.
  destruct (py_nth (sm_tracts s) i) as [[t|]|e]; cbn; intros [= <- <-]; reflexivity.
Qed.

Lemma getitem_inv d s i s' r :
  sm_inv d (Z.to_nat (sd_num d)) s -> sm_getitem offset d i s = (s', r) ->
  sm_inv d (Z.to_nat (sd_num d)) s'
  /\ (forall k t, nth_error (sm_tracts s) k = Some (Some t) -> nth_error (sm_tracts s') k = Some (Some t)).
Proof.
  intros Hinv H. destruct (sd_kind d) eqn:Hk.
  - pose proof (getitem_caching _ _ _ _ _ Hk Hinv H) as (H1 & H2 & _). auto.
  - apply getitem_eager in H; [|exact Hk]. subst. auto.
Qed.

Lemma accesses_inv d s s' :
  sm_inv d (Z.to_nat (sd_num d)) s -> accesses offset d s s' ->
  sm_inv d (Z.to_nat (sd_num d)) s'
  /\ (forall k t, nth_error (sm_tracts s) k = Some (Some t) -> nth_error (sm_tracts s') k = Some (Some t)).
Proof.
  intros Hinv. induction 1 as [|s1 i s2 r Ha IH Hg]; [auto|].
  destruct IH as [I1 I2]. pose proof (getitem_inv _ _ _ _ _ I1 Hg) as [J1 J2]. auto.
Qed.

Lemma accesses_trans d s1 s2 s3 :
  accesses offset d s1 s2 -> accesses offset d s2 s3 -> accesses offset d s1 s3.
Proof. intros H1. induction 1; [exact H1|]. econstructor; eauto. Qed.

Lemma accesses_eager d s s' : sd_kind d = EagerMap -> accesses offset d s s' -> s' = s.
Proof. intros Hk. induction 1; [reflexivity|]. subst. eapply getitem_eager; eauto. Qed.

Lemma reachable_inv d s : sm_reachable offset d s -> sm_inv d (Z.to_nat (sd_num d)) s.
Proof.
  intros (s0 & Hn & Ha). apply new_inv in Hn. destruct Hn as [Hi _].
  eapply accesses_inv in Ha; eauto. apply Ha.
Qed.

Lemma reachable_accesses d s s' :
  sm_reachable offset d s -> accesses offset d s s' -> sm_reachable offset d s'.
Proof. intros (s0 & Hn & Ha) H. exists s0. split; [exact Hn|]. eapply accesses_trans; eauto. Qed.

Lemma reachable_full d s :
  sd_kind d = EagerMap -> sm_reachable offset d s ->
  forall k, (k < Z.to_nat (sd_num d))%nat -> exists t, nth_error (sm_tracts s) k = Some (Some t).
Proof.
  intros Hk (s0 & Hn & Ha). apply accesses_eager in Ha; [|exact Hk]. subst s0.
  apply new_inv in Hn. apply Hn. exact Hk.
Qed.

(** A filled slot is what an access returns, without a state change. *)
Lemma getitem_filled d s k t :
  nth_error (sm_tracts s) k = Some (Some t) -> (k < Z.to_nat (sd_num d))%nat ->
  sm_getitem offset d (Z.of_nat k) s = (s, Ok t).
Proof.
  intros H Hk. unfold sm_getitem, smbind.
  assert (Hp : py_nth (sm_tracts s) (Z.of_nat k) = Ok (Some t)).
  { apply py_nth_in; [lia|]. now rewrite Nat2Z.id. }
  destruct (sd_kind d).
  - destruct (Z.ltb_spec (Z.of_nat k) 0); [lia|]. destruct (Z.ltb_spec (sd_num d) (Z.of_nat k)); [lia|].
    cbn [orb]. rewrite Hp. reflexivity.
  - rewrite Hp. reflexivity.
Qed.

Lemma getitem_ok d s i s' t :
  sm_reachable offset d s -> 0 <= i -> sm_getitem offset d i s = (s', Ok t) ->
  i < sd_num d /\ nth_error (sm_tracts s') (Z.to_nat i) = Some (Some t).
Proof.
  intros Hr Hi H. pose proof (reachable_inv _ _ Hr) as Hinv.
  destruct (sd_kind d) eqn:Hk.
  - pose proof (getitem_caching _ _ _ _ _ Hk Hinv H) as (_ & _ & [H1 H2]). split; [lia|exact H2].
  - pose proof (getitem_eager _ _ _ _ _ Hk H) as ->.
    unfold sm_getitem in H. rewrite Hk in H. unfold smbind in H.
    destruct (py_nth (sm_tracts s) i) as [[t'|]|e] eqn:En; cbn in H; try discriminate.
    inversion H; subst t'. apply py_nth_spec in En; [|exact Hi]. split; [|exact En].
    assert (Hl : (Z.to_nat i < length (sm_tracts s))%nat) by (apply nth_error_Some; congruence).
    rewrite (si_len _ _ _ Hinv) in Hl. lia.
Qed.
End SkyMap.
