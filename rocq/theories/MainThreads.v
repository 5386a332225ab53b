(** Threads sharing a sky map (C75). *)
From Coq Require Import Reals Lia Relations.
Require Import Verif.Py Verif.Geom Verif.PatchInfo Verif.TractBuilder Verif.TractInfo Verif.Spec.
Require Import Verif.SkyMap Verif.SkySpec Verif.PatchProofs Verif.TractProofs Verif.SkyProofs Verif.SkyProofs2 Verif.MainSky Verif.Examples.
Require Import Verif.Sphere Verif.Maps Verif.Rings Verif.RingsSpec Verif.Uniform Verif.MainRings2.
Require Import Verif.Threads Verif.ThreadsProofs.
Open Scope Z_scope.
Local Arguments Z.mul : simpl never.

(*@ C75: a call that no other thread interrupts does what the model of one thread says. *)
Lemma threads_one_alone_proof : forall (Sky : Type) (offset : Sky -> R -> R -> Sky) d c s,
  sm_reachable offset d s -> run (call_prog offset d c) s = seq_answer offset d c s.
Proof. exact @call_run. Qed.

(*@ C75: if all tracts exist when the threads start (always so for Equat and Dodeca, and for the others after
    iterating over the map), then under every schedule the map never changes and every call of every
    thread returns what it would have returned without other threads. *)
Lemma threads_all_tracts_exist_proof : forall (Sky : Type) (offset : Sky -> R -> R -> Sky) d s0 p,
  sm_reachable offset d s0 ->
  (sd_kind d = EagerMap \/ forall i, 0 <= i < sd_num d -> exists t, holds offset d i s0 t) ->
  schedule offset d s0 p ->
  pr_map p = s0 /\ forall c a, In (c, a) (pr_done p) -> a = snd (seq_answer offset d c s0).
Proof.
  intros Sky offset d s0 p Hr Hf Hs.
  assert (Hf' : forall i, 0 <= i < sd_num d -> exists t, holds offset d i s0 t).
  { destruct Hf as [Hk|Hf]; [|exact Hf]. intros i Hi. destruct (reachable_full _ _ _ Hk Hr (Z.to_nat i)) as (t & Ht); [lia|].
    exists t. apply (holds_slot offset d s0 i t Hr). auto. }
  destruct (full_schedule offset d s0 p Hr Hf' Hs) as (A & _ & B). auto.
Qed.

Lemma reachable_thread_inv {Sky} (offset : Sky -> R -> R -> Sky) d s okNum okBox :
  sm_reachable offset d s -> cfg_ok (sd_cfg d) ->
  (b_initialized (sm_builder s) = true -> okNum (b_numPatches (sm_builder s)) /\ okBox (b_tractBBox (sm_builder s))) ->
  inv offset d okNum okBox s.
Proof.
  intros Hr Hc Ho. pose proof (reachable_inv _ _ _ Hr) as Hi. constructor.
  - apply Hi.
  - intros k t Hk. assert (Hl : (k < length (sm_tracts s))%nat) by (apply nth_error_Some; congruence).
    rewrite (si_len _ _ _ _ Hi) in Hl. split.
    + destruct (so_made _ _ _ _ _ (si_slots _ _ _ _ Hi _ _ Hk)) as (a & b0 & b1 & A1 & A2 & A3). exists a, b0, b1. auto.
    + assert (Hh : holds offset d (Z.of_nat k) s t) by (apply (holds_slot offset d s _ _ Hr); rewrite Nat2Z.id; split; [lia|exact Hk]).
      destruct (builder_last offset d s Hc Hr (holds_log_ne offset d s _ t Hr Hh)) as (j & u & _ & [_ U2 _ _] & _). exact U2.
  - apply static_reachable, Hi.
  - exact Ho.
Qed.

Definition get_call {Sky} (offset : Sky -> R -> R -> Sky) d (c : call (Sky := Sky)) (b : bool) (a : answer (Sky := Sky)) : Prop :=
  match c with CGet i => exists r, a = ATract r /\ get_ok offset d i b r | _ => True end.

(*@ C75: on every map made tract by tract (Rings, Discrete, Healpix), under every schedule, skymap[i] returns a
    tract with the contents it has without other threads (or raises the same exception). *)
Lemma threads_get_proof : forall (Sky : Type) (offset : Sky -> R -> R -> Sky) d s0 p i a,
  cfg_ok (sd_cfg d) -> sd_kind d = CachingMap -> sm_reachable offset d s0 -> schedule offset d s0 p ->
  In (CGet i, a) (pr_done p) ->
  match a, snd (sm_getitem offset d i s0) with
  | ATract (Ok t), Ok t' => same_tract t t'
  | ATract (Raise e), Raise e' => e = e'
  | _, _ => False
  end.
Proof.
  intros Sky offset d s0 p i a Hc Hk Hr Hs Hin.
  destruct (schedule_inv offset d (fun _ => True) (fun _ => True) s0 (get_call offset d)) with (p := p) as [_ _ _ D]; auto.
  - intros j. cbn [call_prog]. apply safe_bind_ret.
    assert (K : forall f q, safe offset d (fun _ => True) (fun _ => True) (get_ok offset d j) f q ->
       safe offset d (fun _ => True) (fun _ => True) (fun b a => get_call offset d (CGet j) b (ATract a)) f q).
    { intros f q. cbn [get_call]. revert f.
      induction q as [x|x k IH|x t k IH|x k IH|v k IH|v k IH|k IH|k IH|k IH|k IH]; intros f H; cbn [safe] in *; eauto.
      - destruct H as (A1 & A2 & A3). split; [exact A1|]. split; [|eauto]. intros L. destruct (A2 L). split; eauto.
      - destruct H as (A1 & A2 & A3 & A4). eauto 10.
      - destruct H. eauto. - destruct H. eauto. - destruct H as (A1 & A2 & A3). eauto.
      - destruct H. split; eauto. }
    apply K. apply safe_getitem; auto.
  - intros c t j Ht _ _. apply safe_any; [eapply call_reads; exact Ht|]. destruct c; cbn; auto. discriminate Ht.
  - apply reachable_thread_inv; auto.
  - destruct (D _ _ Hin) as (b & _ & r & -> & HQ). exact (getitem_get_ok offset d s0 i b r Hk Hr HQ).
Qed.

(** ** Maps whose tracts have equal patch counts *)
Lemma good_tract {Sky} (offset : Sky -> R -> R -> Sky) d n i t :
  cfg_ok (sd_cfg d) -> uniform_counts offset d n -> 0 <= i < sd_num d -> good offset d i t ->
  t_numPatches t = n /\ in_use offset (sd_cfg d) (builder_of_counts (sd_cfg d) n) t.
Proof.
  intros Hc Hu Hi (a & b0 & b1 & A1 & A2 & A3). pose proof (Hu i a b0 _ b1 t Hi A1 A2 A3) as En. split; [exact En|].
  destruct (make_tract_static _ _ _ _ _ _ _ _ A2 A3) as (B1 & B2 & _). pose proof (make_tract_made _ _ _ _ _ _ _ _ A2 A3) as M.
  rewrite (builder_for_counts offset _ _ Hc M), En in B2. subst b1. constructor; auto.
Qed.
Lemma in_use_counts {Sky} (offset : Sky -> R -> R -> Sky) c b t :
  cfg_ok c -> in_use offset c b t -> b = builder_of_counts c (t_numPatches t).
Proof.
  intros Hc Hu. destruct (in_use_spec _ _ _ _ Hc Hu) as (nx & ny & [I1 I2 I3 I4] & U1 & U2 & U3 & _).
  destruct (I4 U1) as (x & y & E & _ & _ & _ & EB). rewrite U2 in E. injection E as <- <-. rewrite U3.
  destruct (static_reachable _ _ (iu_reach _ _ _ _ Hu)) as (S1 & S2 & S3).
  unfold builder_of_counts. rewrite <- S2, <- S3. destruct b; cbn in *. subst. reflexivity.
Qed.

Definition uniform_call {Sky} (offset : Sky -> R -> R -> Sky) d n (c : call (Sky := Sky)) (b : bool) (a : answer (Sky := Sky)) : Prop :=
  match call_tract c with
  | None => get_call offset d c b a
  | Some t => (exists j, 0 <= j < sd_num d /\ good offset d j t) /\ patch_answer (builder_of_counts (sd_cfg d) n) c = Some a
  end.

Lemma get_call_safe {Sky} (offset : Sky -> R -> R -> Sky) d okN okB j f q :
  safe offset d okN okB (get_ok offset d j) f q ->
  safe offset d okN okB (fun b a => get_call offset d (CGet j) b (ATract a)) f q.
Proof.
  cbn [get_call]. revert f.
  induction q as [x|x k IH|x t k IH|x k IH|v k IH|v k IH|k IH|k IH|k IH|k IH]; intros f H; cbn [safe] in *; eauto.
  - destruct H as (A1 & A2 & A3). split; [exact A1|]. split; [|eauto]. intros L. destruct (A2 L). split; eauto.
  - destruct H as (A1 & A2 & A3 & A4). eauto 10.
  - destruct H. eauto. - destruct H. eauto. - destruct H as (A1 & A2 & A3). eauto.
  - destruct H. split; eauto.
Qed.

Lemma uniform_pinv {Sky} (offset : Sky -> R -> R -> Sky) d n s0 p :
  cfg_ok (sd_cfg d) -> sd_kind d = CachingMap -> sm_reachable offset d s0 -> uniform_counts offset d n -> schedule offset d s0 p ->
  pinv offset d (fun v => v = n) (fun v => v = b_tractBBox (builder_of_counts (sd_cfg d) n)) s0 (uniform_call offset d n) p.
Proof.
  intros Hc Hk Hr Hu Hs. apply schedule_inv; auto.
  - intros j. cbn [call_prog]. apply safe_bind_ret. unfold uniform_call. cbn [call_tract]. apply get_call_safe, safe_getitem; auto.
    intros b' t Hj E. unfold computed in E. destruct (sd_args d j) as [a|] eqn:Ea; [|discriminate]. cbn [bind] in E.
    pose proof (Hu _ _ _ _ _ _ Hj Ea (br_init _) E) as En.
    destruct (make_tract_static _ _ _ _ _ _ _ _ (br_init _) E) as (_ & B2 & _).
    pose proof (make_tract_made _ _ _ _ _ _ _ _ (br_init _) E) as M.
    rewrite (builder_for_counts offset _ _ Hc M), En in B2. subst b'. auto.
  - intros c t j Ht Hj Hg. set (b := builder_of_counts (sd_cfg d) n).
    destruct (good_tract offset d n j t Hc Hu Hj Hg) as [_ Hin].
    apply safe_reads with (s := mkSM [] b 0 []); auto; [eapply call_reads; exact Ht|].
    unfold uniform_call. rewrite Ht. split; [eauto|].
    assert (P : exists a, patch_answer b c = Some a) by (destruct c; cbn in *; try discriminate; eauto).
    destruct P as (a & Ea).
    rewrite (patch_run offset d c a (mkSM [] b 0 [])); [exact Ea| |exact Ea].
    apply static_reachable, (iu_reach _ _ _ _ Hin).
  - apply reachable_thread_inv; auto. intros Hi. rewrite (uniform_builder offset d n s0 Hc Hu Hr); [auto|].
    intros El. destruct (si_builder _ _ _ _ (reachable_inv _ _ _ Hr)) as [[_ E]|(l & j & t & E & _)].
    + rewrite E in Hi. destruct (sd_cfg d) as [|[? ?]]; discriminate Hi.
    + rewrite El in E. symmetry in E. apply app_eq_nil in E. destruct E. discriminate.
Qed.

(*@ C75: if moreover all tracts of the map have the same patch counts (as all Rings maps with the TAN or STG projection do), then
    under every schedule every question to a tract gets the answer it gets without other threads right after the
    tract was made, and whenever a tract has been obtained the shared builder fits it. *)
Lemma threads_uniform_proof : forall (Sky : Type) (offset : Sky -> R -> R -> Sky) d n s0 p,
  cfg_ok (sd_cfg d) -> sd_kind d = CachingMap -> sm_reachable offset d s0 -> uniform_counts offset d n ->
  schedule offset d s0 p ->
  (forall c t a, In (c, a) (pr_done p) -> call_tract c = Some t ->
     (exists b, in_use offset (sd_cfg d) b t) /\ forall b, in_use offset (sd_cfg d) b t -> patch_answer b c = Some a)
  /\ (forall i t, In (CGet i, ATract (Ok t)) (pr_done p) -> in_use offset (sd_cfg d) (sm_builder (pr_map p)) t).
Proof.
  intros Sky offset d n s0 p Hc Hk Hr Hu Hs. destruct (uniform_pinv offset d n s0 p Hc Hk Hr Hu Hs) as [I1 _ _ D]. split.
  - intros c t a Hin Ht. destruct (D _ _ Hin) as (b & _ & HQ). unfold uniform_call in HQ. rewrite Ht in HQ.
    destruct HQ as ((j & Hj & Hg) & Ha). destruct (good_tract offset d n j t Hc Hu Hj Hg) as [En Hin'].
    split; [eauto|]. intros b' Hb'. rewrite (in_use_counts offset _ b' t Hc Hb'), En. exact Ha.
  - intros i t Hin. destruct (D _ _ Hin) as (b & Hb & HQ). unfold uniform_call in HQ. cbn [call_tract get_call] in HQ.
    destruct HQ as (r & Er & HQ). injection Er as <-. destruct HQ as (-> & Hi & Hg). specialize (Hb eq_refl).
    destruct (iv_init _ _ _ _ _ I1 Hb) as [O1 O2]. destruct (iv_static _ _ _ _ _ I1) as (S1 & S2 & S3).
    destruct (good_tract offset d n i t Hc Hu Hi Hg) as [En Hin'].
    replace (sm_builder (pr_map p)) with (builder_of_counts (sd_cfg d) n); [exact Hin'|].
    unfold builder_of_counts in *. cbn [b_tractBBox] in O2. destruct (sm_builder (pr_map p)); cbn in *. subst. reflexivity.
Qed.

(*@ C75: a Rings map with the TAN or STG projection, shared by threads from its construction on: no call of any
    thread gets an answer it would not get without the others. *)
Lemma threads_rings_proof : forall c S mk ov g s0 p, cfg_ok c -> rings_wf g -> standard_wcs S mk ->
  let d := rings_def c mk ov g in
  sm_reachable sphere_offset d s0 -> schedule sphere_offset d s0 p ->
  (forall i a, In (CGet i, a) (pr_done p) ->
     match a, snd (sm_getitem sphere_offset d i s0) with
     | ATract (Ok t), Ok t' => same_tract t t'
     | ATract (Raise e), Raise e' => e = e'
     | _, _ => False
     end)
  /\ (forall q t a, In (q, a) (pr_done p) -> call_tract q = Some t ->
     forall b, in_use sphere_offset c b t -> patch_answer b q = Some a).
Proof.
  intros c S mk ov g s0 p Hc W Hm d Hr Hs. destruct (rings_uniform_proof c S mk ov g Hc W Hm) as [(n & Hu) _].
  split.
  - intros i a Hin. exact (threads_get_proof _ sphere_offset d s0 p i a Hc eq_refl Hr Hs Hin).
  - intros q t a Hin Ht. exact (proj2 (proj1 (threads_uniform_proof _ sphere_offset d n s0 p Hc eq_refl Hr Hu Hs) q t a Hin Ht)).
Qed.

(** ** No call blocks *)
Definition finishes {Sky} (offset : Sky -> R -> R -> Sky) d s0 n c a p : Prop :=
  exists p', clos_refl_trans _ (pstep offset d s0) p p' /\ pr_threads p' n = None
    /\ (forall m, m <> n -> pr_threads p' m = pr_threads p m) /\ pr_done p' = pr_done p ++ [(c, a)].
Lemma one_act {Sky} (offset : Sky -> R -> R -> Sky) d s0 p n c q a s' q' :
  pr_threads p n = Some (c, q) -> act q (pr_map p) = Some (s', q') -> snd (run q (pr_map p)) = a ->
  (forall p, pr_threads p n = Some (c, q') -> snd (run q' (pr_map p)) = a -> finishes offset d s0 n c a p) ->
  finishes offset d s0 n c a p.
Proof.
  intros Hp E Ha H. rewrite (act_run _ _ _ _ E) in Ha.
  destruct (H (mkProc s' (set_thread (pr_threads p) n (Some (c, q'))) (pr_done p))) as (p' & K1 & K2 & K3 & K4);
    [apply set_same|exact Ha|].
  exists p'. split; [eapply rt_trans; [apply rt_step; eapply ps_act; [exact Hp|exact E]|exact K1]|].
  split; [exact K2|]. split; [|exact K4]. intros m Hm. rewrite K3 by exact Hm. cbn [pr_threads]. now apply set_other.
Qed.
Lemma sched_acts {Sky} (offset : Sky -> R -> R -> Sky) d s0 p n c q a :
  pr_threads p n = Some (c, q) -> snd (run q (pr_map p)) = a -> finishes offset d s0 n c a p.
Proof.
  revert p. induction q as [x|x k IH|x t k IH|x k IH|v k IH|v k IH|k IH|k IH|k IH|k IH]; intros p Hp Ha.
  2-10: eapply one_act; [exact Hp|reflexivity|exact Ha|intros p2; apply IH].
  exists (mkProc (pr_map p) (set_thread (pr_threads p) n None) (pr_done p ++ [(c, x)])). cbn in Ha. subst x.
  split; [apply rt_step; now apply ps_return|]. cbn. split; [apply set_same|]. split; [|reflexivity].
  intros m Hm. now apply set_other.
Qed.

(*@ C75: no call waits for another thread: a thread that goes on alone finishes its call. *)
Lemma threads_never_block_proof : forall (Sky : Type) (offset : Sky -> R -> R -> Sky) d s0 p n c q,
  pr_threads p n = Some (c, q) ->
  exists p' a, clos_refl_trans _ (pstep offset d s0) p p' /\ pr_threads p' n = None
    /\ (forall m, m <> n -> pr_threads p' m = pr_threads p m) /\ pr_done p' = pr_done p ++ [(c, a)].
Proof.
  intros Sky offset d s0 p n c q H. destruct (sched_acts offset d s0 p n c q _ H eq_refl) as (p' & K). eauto.
Qed.

(** ** What goes wrong *)
Fixpoint acts {Sky A} (k : nat) (q : prog (Sky := Sky) A) (s : smstate Sky) : option (smstate Sky * prog A) :=
  match k with O => Some (s, q) | S k => match act q s with Some (s', q') => acts k q' s' | None => None end end.
Lemma schedule_acts {Sky} (offset : Sky -> R -> R -> Sky) d s0 k : forall p n c q s' q',
  schedule offset d s0 p -> pr_threads p n = Some (c, q) -> acts k q (pr_map p) = Some (s', q') ->
  exists f, schedule offset d s0 (mkProc s' f (pr_done p)) /\ f n = Some (c, q')
    /\ forall m, m <> n -> f m = pr_threads p m.
Proof.
  induction k as [|k IH]; intros p n c q s' q' Hs Hp Ha; cbn [acts] in Ha.
  - injection Ha as <- <-. exists (pr_threads p). split; [destruct p; exact Hs|]. split; [exact Hp|reflexivity].
  - destruct (act q (pr_map p)) as [[s1 q1]|] eqn:E; [|discriminate].
    destruct (IH (mkProc s1 (set_thread (pr_threads p) n (Some (c, q1))) (pr_done p)) n c q1 s' q') as (f & F1 & F2 & F3).
    + eapply sc_step; [exact Hs|]. eapply ps_act; eauto.
    + apply set_same.
    + exact Ha.
    + exists f. split; [exact F1|]. split; [exact F2|]. intros m Hm. rewrite F3 by exact Hm. cbn. now apply set_other.
Qed.

(** The map of C20: tracts of 3 x 2 and 1 x 1 patches. *)
Definition two_sizes : skydef flat := mkDef CachingMap legacy_default 2 (fun i =>
   Ok (if i =? 0 then PlainArgs (0, 0)%R (ex_verts 9999 4999) 0%R flat_wcs None
       else PlainArgs (0, 0)%R (ex_verts 999 999) 0%R flat_wcs None)).
Lemma two_sizes_start : exists t u,
  let b0 := builder_of_counts legacy_default (3, 2) in
  let s1 := mkSM [Some t; None] b0 1 [0] in
  sm_reachable flat_offset two_sizes s1 /\ holds flat_offset two_sizes 0 s1 t /\ t_numPatches t = (3, 2)
  /\ computed flat_offset two_sizes 1 = Ok (builder_of_counts legacy_default (1, 1), u).
Proof.
  assert (Hc : cfg_ok legacy_default) by (cbn; lia).
  set (s0 := mkSM (repeat (@None (tract flat)) 2) (builder_init legacy_default) 0 []).
  assert (Hr0 : sm_reachable flat_offset two_sizes s0) by (exists s0; split; [reflexivity|constructor]).
  destruct (ex_tract legacy_default 0 0 9999 4999 (builder_init _) Hc (br_init _)) as (b & t & E & Hu & Hn); [lia|lia|].
  destruct (ex_tract legacy_default 0 1 999 999 (builder_init _) Hc (br_init _)) as (b' & u & E' & Hu' & Hn'); [lia|lia|].
  pose proof (in_use_counts _ _ _ _ Hc Hu) as Eb. rewrite Hn in Eb. change (b = builder_of_counts legacy_default (3, 2)) in Eb.
  pose proof (in_use_counts _ _ _ _ Hc Hu') as Eb'. rewrite Hn' in Eb'. change (b' = builder_of_counts legacy_default (1, 1)) in Eb'.
  exists t, u. cbv zeta. set (s1 := mkSM _ _ _ _).
  assert (G0 : sm_getitem flat_offset two_sizes 0 s0 = (s1, Ok t)).
  { unfold sm_getitem, smbind, generateTract. cbn -[TractInfo_init ex_verts builder_init].
    rewrite E, Eb. reflexivity. }
  destruct (getitem_holds flat_offset two_sizes s0 0 s1 t Hr0 ltac:(lia) G0) as (Hr1 & Ha1 & Hh1).
  split; [exact Hr1|]. split; [exact Hh1|]. split; [exact Hn|].
  unfold computed. cbn -[TractInfo_init ex_verts builder_init]. rewrite E', Eb'. reflexivity.
Qed.

Lemma getitem_none {Sky} (offset : Sky -> R -> R -> Sky) d i b' t : sd_kind d = CachingMap -> 0 <= i < sd_num d ->
  computed offset d i = Ok (b', t) ->
  getitem_p offset d i = PSlot i (fun r =>
        match r with
        | Raise e => PRet (Raise e)
        | Ok (Some _) => PSlot i (fun r' => PRet (match r' with Ok (Some t) => Ok t | Ok None => Raise TypeError | Raise e => Raise e end))
        | Ok None => PNew i (fun oid => PSetNum (b_numPatches b') (PSetBox (b_tractBBox b')
            (PSetInit (PStore i (with_oid t oid) (PRet (Ok (with_oid t oid)))))))
        end).
Proof.
  intros Hk Hi E. unfold getitem_p. rewrite Hk. destruct (Z.ltb_spec i 0); [lia|]. destruct (Z.ltb_spec (sd_num d) i); [lia|].
  cbn [orb]. fold (computed offset d i). rewrite E. reflexivity.
Qed.

Lemma one_in : 0 <= 1 < sd_num two_sizes.
Proof. cbn. lia. Qed.

(*@ C75 REFUTED for identity: two threads that ask for the same new tract at the same time get two different tract
    objects (with one thread it is always the same object, C21). *)
Lemma threads_identity_refuted_proof :
  exists d s0 p t t', cfg_ok (sd_cfg d) /\ sm_reachable flat_offset d s0 /\ schedule flat_offset d s0 p
    /\ In (CGet 1, ATract (Ok t)) (pr_done p) /\ In (CGet 1, ATract (Ok t')) (pr_done p) /\ t_oid t <> t_oid t'.
Proof.
  destruct two_sizes_start as (t & u & Hr & Hh & Hn & Hu). cbv zeta in Hr, Hh.
  set (b0 := builder_of_counts legacy_default (3, 2)) in *. clearbody b0. set (b1 := builder_of_counts _ _) in Hu. clearbody b1.
  set (s0 := mkSM [Some t; None] b0 1 [0]) in *.
  set (c := CGet (Sky := flat) 1).
  assert (Ec : call_prog flat_offset two_sizes c = pbind (getitem_p flat_offset two_sizes 1) (fun r => PRet (ATract r))) by reflexivity.
  rewrite (getitem_none flat_offset two_sizes 1 _ u eq_refl one_in Hu) in Ec.
  assert (S1 : schedule flat_offset two_sizes s0 (mkProc s0 (fun _ => None) [])) by constructor.
  eapply sc_step in S1; [|apply ps_call with (n := 0%nat) (c := c); [reflexivity|discriminate]].
  eapply sc_step in S1; [|apply ps_call with (n := 1%nat) (c := c); [reflexivity|discriminate]].
  cbn [pr_map pr_threads pr_done] in S1. rewrite Ec in S1.
  eapply (schedule_acts _ _ _ 1 _ 0%nat c) in S1; [|cbn; reflexivity|cbn; reflexivity]. destruct S1 as (f1 & S1 & F1 & G1).
  eapply (schedule_acts _ _ _ 6 _ 1%nat c) in S1; [|cbn [pr_threads]; rewrite G1 by discriminate; cbn; reflexivity|cbn; reflexivity].
  destruct S1 as (f2 & S1 & F2 & G2).
  eapply (schedule_acts _ _ _ 5 _ 0%nat c) in S1; [|cbn [pr_threads]; rewrite G2 by discriminate; exact F1|cbn; reflexivity].
  destruct S1 as (f3 & S1 & F3 & G3).
  eapply sc_step in S1; [|apply ps_return with (n := 0%nat); exact F3].
  eapply sc_step in S1; [|apply ps_return with (n := 1%nat); cbn [pr_threads]; rewrite set_other, G3 by discriminate; exact F2].
  exists two_sizes, s0. eexists. exists (with_oid u 2), (with_oid u 1). split; [cbn; lia|]. split; [exact Hr|]. split; [exact S1|].
  cbn [pr_done app]. split; [left; reflexivity|]. split; [right; left; reflexivity|]. cbn. discriminate.
Qed.

(*@ C75 REFUTED for maps whose tracts differ in patch counts: with another thread making a tract, getPatchInfo for
    a patch of an existing tract can raise RuntimeError ("not in tract"), which it never does with one thread,
    whatever was accessed before. *)
Lemma threads_torn_refuted_proof :
  (exists d s0 p t q, cfg_ok (sd_cfg d) /\ sm_reachable flat_offset d s0 /\ holds flat_offset d 0 s0 t
    /\ tract_getPatchInfo (sm_builder s0) t (IxIndex2D 2 0) = Ok q
    /\ schedule flat_offset d s0 p /\ In (CPatch t (IxIndex2D 2 0), APatch (Raise RuntimeError)) (pr_done p))
  /\ (forall (Sky : Type) (offset : Sky -> R -> R -> Sky) d s i t ix,
        cfg_ok (sd_cfg d) -> sm_reachable offset d s -> holds offset d i s t ->
        tract_getPatchInfo (sm_builder s) t ix <> Raise RuntimeError).
Proof.
  split.
  - destruct two_sizes_start as (t & u & Hr & Hh & Hn & Hu). cbv zeta in Hr, Hh.
    set (s0 := mkSM [Some t; None] _ 1 [0]) in *.
    set (c := CGet (Sky := flat) 1). set (c' := CPatch t (IxIndex2D 2 0)).
    assert (Ec : call_prog flat_offset two_sizes c = pbind (getitem_p flat_offset two_sizes 1) (fun r => PRet (ATract r))) by reflexivity.
    rewrite (getitem_none flat_offset two_sizes 1 _ u eq_refl one_in Hu) in Ec.
    assert (S1 : schedule flat_offset two_sizes s0 (mkProc s0 (fun _ => None) [])) by constructor.
    eapply sc_step in S1; [|apply ps_call with (n := 0%nat) (c := c'); [reflexivity|]].
    2: { intros t' [= <-]. exists 0. right. exact Hh. }
    eapply sc_step in S1; [|apply ps_call with (n := 1%nat) (c := c); [reflexivity|discriminate]].
    cbn [pr_map pr_threads pr_done] in S1. rewrite Ec in S1.
    eapply (schedule_acts _ _ _ 3 _ 0%nat c') in S1; [|cbn; reflexivity|cbn; reflexivity]. destruct S1 as (f1 & S1 & F1 & G1).
    eapply (schedule_acts _ _ _ 4 _ 1%nat c) in S1; [|cbn [pr_threads]; rewrite G1 by discriminate; cbn; reflexivity|cbn; reflexivity].
    destruct S1 as (f2 & S1 & F2 & G2).
    eapply (schedule_acts _ _ _ 1 _ 0%nat c') in S1; [|cbn [pr_threads]; rewrite G2 by discriminate; exact F1|vm_compute; reflexivity].
    destruct S1 as (f3 & S1 & F3 & G3).
    eapply sc_step in S1; [|apply ps_return with (n := 0%nat); exact F3].
    exists two_sizes, s0. eexists. exists t. eexists. split; [cbn; lia|]. split; [exact Hr|]. split; [exact Hh|].
    split; [reflexivity|]. split; [exact S1|]. cbn [pr_done app]. left. reflexivity.
  - intros Sky offset d s i t ix Hc Hr Hh.
    destruct (builder_last offset d s Hc Hr (holds_log_ne offset d s _ t Hr Hh)) as (j & v & _ & [V1 V2 _ _] & _).
    destruct (builder_reachable_inv _ _ Hc V1) as [I1 I2 I3 I4]. destruct (I4 V2) as (nx & ny & N1 & N2 & N3 & _ & NB).
    pose proof (builder_reachable_inv _ _ Hc V1) as Hi.
    assert (K : forall x y, getPatchInfo (sm_builder s) (IxIndex2D x y) (t_wcs t) <> Raise RuntimeError).
    { intros x y. assert (D : (0 <= x < nx /\ 0 <= y < ny) \/ ~ (0 <= x < nx /\ 0 <= y < ny)) by lia. destruct D as [[Dx Dy]|D].
      - rewrite (getPatchInfo_pair (sd_cfg d) _ nx ny) by assumption. discriminate.
      - rewrite (getPatchInfo_pair_out _ nx ny) by assumption. discriminate. }
    unfold tract_getPatchInfo. destruct ix as [x y|k|l|]; [apply K| | |].
    + destruct (Z.eq_dec nx 0) as [->|Hx]; [|rewrite (getPatchInfo_num _ nx ny) by assumption; apply K].
      unfold getPatchInfo, getPatchIndexPair. rewrite V2, N1. cbn [negb bind]. discriminate.
    + destruct l as [|x [|y [|z l]]]; [| |apply K|]; unfold getPatchInfo; rewrite V2; cbn [negb bind index2D_of_star]; discriminate.
    + unfold getPatchInfo. rewrite V2. cbn [negb bind index2D_of_star]. discriminate.
Qed.

Lemma schedule_call {Sky} (offset : Sky -> R -> R -> Sky) d s0 p n c :
  schedule offset d s0 p -> pr_threads p n = None ->
  (forall t, call_tract c = Some t -> exists i, In (CGet i, ATract (Ok t)) (pr_done p)) ->
  exists p', schedule offset d s0 p' /\ (forall m, m <> n -> pr_threads p' m = pr_threads p m)
    /\ pr_done p' = pr_done p ++ [(c, snd (run (call_prog offset d c) (pr_map p)))].
Proof.
  intros Hs Hn Hc.
  assert (S1 : schedule offset d s0 (mkProc (pr_map p) (set_thread (pr_threads p) n (Some (c, call_prog offset d c))) (pr_done p))).
  { eapply sc_step; [exact Hs|]. apply ps_call; [exact Hn|]. intros t Ht. destruct (Hc t Ht) as (i & Hi). eauto. }
  set (p1 := mkProc (pr_map p) (set_thread (pr_threads p) n (Some (c, call_prog offset d c))) (pr_done p)) in S1.
  assert (T1 : pr_threads p1 n = Some (c, call_prog offset d c)) by apply set_same.
  destruct (sched_acts offset d s0 p1 n c _ _ T1 eq_refl) as (p' & K1 & _ & K3 & K4).
  exists p'. split; [|split; [|exact K4]].
  - clear -S1 K1. apply clos_rt_rtn1 in K1. induction K1; [exact S1|]. eapply sc_step; eauto.
  - intros m Hm. rewrite K3 by exact Hm. cbn. now apply set_other.
Qed.

(*@ C75, non-vacuity: a map of two tracts of equal patch counts; one thread makes its second tract
    and another asks this tract for its patch (2, 1). *)
Example threads_hypotheses_met_proof :
  exists d s0 p t q, cfg_ok (sd_cfg d) /\ sd_kind d = CachingMap /\ sm_reachable flat_offset d s0
    /\ uniform_counts flat_offset d (3, 2) /\ schedule flat_offset d s0 p
    /\ In (CGet 1, ATract (Ok t)) (pr_done p) /\ In (CPatch t (IxIndex2D 2 1), APatch (Ok q)) (pr_done p).
Proof.
  destruct sky_map_hypotheses_met_proof as (d & s & t0 & Hc & Hk & Hn & Hu & Hr & Hh & _ & s1 & u & G & Hne).
  destruct (schedule_call flat_offset d s _ 0%nat (CGet 1) (sc_start _ _ _) eq_refl) as (p & S1 & O1 & D1); [discriminate|].
  cbn [pr_map pr_done app] in D1. rewrite call_run in D1 by exact Hr. cbn [seq_answer] in D1. rewrite G in D1. cbn [snd] in D1.
  set (c := CPatch u (IxIndex2D 2 1)).
  destruct (schedule_call flat_offset d s p 1%nat c S1) as (p2 & S2 & _ & D2).
  { rewrite O1 by discriminate. reflexivity. }
  { intros t' [= <-]. exists 1. rewrite D1. left. reflexivity. }
  rewrite D1 in D2. cbn [app] in D2. set (a := snd _) in D2. clearbody a.
  destruct (threads_uniform_proof _ flat_offset d (3, 2) s p2 Hc Hk Hr Hu S2) as [U1 U2].
  destruct (U1 c u a) as [(b & Hb) U]; [rewrite D2; right; left; reflexivity|reflexivity|].
  specialize (U b Hb). cbn [patch_answer c] in U. unfold tract_getPatchInfo in U.
  destruct (in_use_spec _ _ _ _ Hc Hb) as (nx & ny & Hi & Hinit & Hnb & Hnt & _).
  assert (En : t_numPatches u = (3, 2)).
  { destruct (getitem_holds flat_offset d s 1 s1 u Hr ltac:(lia) G) as (Hr1 & _ & Hh1). eapply uniform_holds; eauto. }
  rewrite En in Hnt. injection Hnt as <- <-.
  rewrite (getPatchInfo_pair (sd_cfg d) b 3 2) in U by (assumption || lia). injection U as <-.
  exists d, s, p2, u. eexists. split; [exact Hc|]. split; [exact Hk|]. split; [exact Hr|]. split; [exact Hu|]. split; [exact S2|].
  rewrite D2. split; [left; reflexivity|]. right. left. reflexivity.
Qed.
