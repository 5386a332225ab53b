(** Registering a sky map while other threads use it (C93). *)
From Coq Require Import Reals Lia Relations String.
Require Import Verif.Py Verif.Geom Verif.PatchInfo Verif.TractBuilder Verif.TractInfo Verif.Spec.
Require Import Verif.SkyMap Verif.SkySpec Verif.PatchProofs Verif.TractProofs Verif.SkyProofs Verif.SkyProofs2 Verif.MainSky Verif.Examples.
Require Import Verif.Sphere Verif.Maps Verif.Rings Verif.RingsSpec Verif.Uniform Verif.MainRings2.
Require Import Verif.Register Verif.RegSpec Verif.RegProofs3 Verif.MainRegister.
Require Import Verif.Threads Verif.ThreadsProofs Verif.MainThreads Verif.RegThreads Verif.RegThreadsProofs.
Open Scope list_scope.
Open Scope Z_scope.
Local Arguments Z.mul : simpl never.

Lemma getitem_stable {Sky} (offset : Sky -> R -> R -> Sky) d s i :
  sd_kind d = CachingMap -> sm_reachable offset d s -> 0 <= i < sd_num d -> exists b, get_ok offset d i b (snd (sm_getitem offset d i s)).
Proof.
  intros Hk Hr Hlt. pose proof (reachable_inv _ _ _ Hr) as Hi. pose proof (si_reach _ _ _ _ Hi) as Hb.
  destruct (sm_getitem offset d i s) as [s' [t|e]] eqn:E; cbn [snd get_ok].
  - exists true. split; [reflexivity|]. split; [exact Hlt|]. destruct (getitem_holds offset d s i s' t Hr (proj1 Hlt) E) as (Hr' & _ & Hh).
    apply (holds_slot offset d s' i t Hr') in Hh. destruct Hh as [_ Hh].
    destruct (so_made _ _ _ _ _ (si_slots _ _ _ _ (reachable_inv _ _ _ Hr') _ _ Hh)) as (a & b0 & b1 & A1 & A2 & A3).
    rewrite Z2Nat.id in A1, A3 by lia. exists a, b0, b1. auto.
  - exists false. right. split; [exact Hlt|].
    assert (Hl : (Z.to_nat i < Datatypes.length (sm_tracts s))%nat) by (rewrite (si_len _ _ _ _ Hi); lia).
    destruct (nth_error (sm_tracts s) (Z.to_nat i)) as [[t|]|] eqn:En; [| |apply nth_error_None in En; lia].
    + assert (Hh : holds offset d i s t) by (apply (holds_slot offset d s i t Hr); auto). destruct Hh as [_ Hh]. congruence.
    + unfold sm_getitem in E. rewrite Hk in E. destruct (Z.ltb_spec i 0) in E; [lia|]. destruct (Z.ltb_spec (sd_num d) i) in E; [lia|]. cbn [orb] in E.
      unfold smbind at 1 in E. rewrite (py_nth_in _ i None) in E by (lia || exact En). unfold smbind, generateTract in E.
      unfold computed. destruct (sd_args d i) as [a|]; cbn [bind] in *; [|injection E as _ ->; reflexivity].
      destruct (make_tract offset (sm_builder s) (sm_next s) i a) as [[b' t]|e'] eqn:Em; [discriminate|]. injection E as _ ->.
      exact (make_raise_indep offset (sd_cfg d) _ (builder_init (sd_cfg d)) (sm_next s) 0 i a e Hb (br_init _) Em).
Qed.

(*@ C93: let a map of which all tracts have the same patch counts (as all Rings maps with the TAN or STG projection have)
    be registered by one thread while others use it, with any failures of the butler.  Whatever the
    others do and when, the registration ends as it would have ended without them, and
    leaves the same records. *)
Lemma registering_uniform_proof : forall (Sky : Type) (offset : Sky -> R -> R -> Sky) d cnt s0 n faults sha name r J out,
  cfg_ok (sd_cfg d) -> sd_kind d = CachingMap -> sm_reachable offset d s0 -> uniform_counts offset d cnt ->
  registering offset faults d s0 n sha name r J -> j_out J = Some out ->
  exists s', register offset faults d sha name s0 (butler_on r) = (s', j_butler J, out).
Proof.
  intros Sky offset d cnt s0 n faults sha name r J out Hc Hk Hr Hu HJ Ho.
  set (b := builder_of_counts (sd_cfg d) cnt).
  set (canon := fun c : call (Sky := Sky) => match c with
     | CGet i => ATract (snd (sm_getitem offset d i s0))
     | _ => match patch_answer b c with Some a => a | None => ATract (Raise TypeError) end end).
  set (Rs := fun s (L : list (tract Sky)) => sm_reachable offset d s /\ forall t, In t L -> exists i, holds offset d i s t).
  assert (Hr0 : sm_reachable offset d s0) by exact Hr.
  apply (registering_result offset faults d canon) with (Rs := Rs) (s0 := s0) (n := n) (sha := sha) (name := name) (r := r); auto.
  - intros c c' E. destruct c as [i|t ix|t ix|t k|t co|t co|t], c' as [i'|t' ix'|t' ix'|t' k'|t' co'|t' co'|t']; cbn [call_eq] in E; try contradiction.
    + subst i'. apply ans_eq_refl.
    + destruct E as [(_ & _ & _ & _ & _ & _ & T7 & _) <-]. cbn [canon patch_answer]. unfold tract_getPatchInfo. rewrite T7. apply ans_eq_refl.
    + destruct E as [_ <-]. apply ans_eq_refl.
  - intros s L c [Hs HL] Ht Hi. destruct (call_tract c) as [t|] eqn:Et.
    + assert (E : seq_answer offset d c s = (s, match patch_answer (sm_builder s) c with Some a => a | None => ATract (Raise TypeError) end)).
      { destruct c; try discriminate Et; reflexivity. }
      rewrite E. cbn [fst snd]. assert (Eo : forall a, obtained c a = []) by (intros a; destruct c; try discriminate Et; reflexivity).
      rewrite Eo. cbn [app]. split; [|split; assumption].
      destruct (HL t (Ht t eq_refl)) as (i & Hh). rewrite (uniform_builder offset d cnt s Hc Hu Hs (holds_log_ne offset d s i t Hs Hh)).
      fold b. destruct c; try discriminate Et; apply ans_eq_refl.
    + destruct c as [i| | | | | |]; try discriminate Et. cbn [seq_answer canon]. specialize (Hi i eq_refl).
      destruct (getitem_stable offset d s i Hk Hs Hi) as (bb & Hg). pose proof (getitem_get_ok offset d s0 i bb _ Hk Hr Hg) as K.
      destruct (sm_getitem offset d i s) as [s' [t|e]] eqn:E; cbn [fst snd obtained app] in *.
      * split; [destruct (snd (sm_getitem offset d i s0)); [exact K|contradiction]|].
        destruct (getitem_holds offset d s i s' t Hs (proj1 Hi) E) as (Hs' & Ha & Hh). split; [exact Hs'|].
        intros t' [<-|Hin]; [eauto|]. destruct (HL t' Hin) as (j & Hj). exists j. exact (holds_accesses offset d s s' j t' Hs Ha Hj).
      * split; [destruct (snd (sm_getitem offset d i s0)); [contradiction|cbn; now rewrite K]|].
        assert (Ha : accesses offset d s s') by (econstructor; [constructor|exact E]).
        split; [exact (reachable_accesses offset d s s' Hs Ha)|].
        intros t' Hin. destruct (HL t' Hin) as (j & Hj). exists j. exact (holds_accesses offset d s s' j t' Hs Ha Hj).
  - intros p c a Hs Hi Hin. destruct (uniform_pinv offset d cnt s0 p Hc Hk Hr Hu Hs) as [_ _ _ D].
    destruct (D _ _ Hin) as (bb & _ & HQ). unfold uniform_call in HQ. destruct (call_tract c) as [t|] eqn:Et.
    + destruct HQ as [_ HQ]. fold b in HQ. destruct c; try discriminate Et; try exact I; cbn [canon]; rewrite HQ; apply ans_eq_refl.
    + destruct c as [i| | | | | |]; try discriminate Et. cbn [get_call canon] in *. destruct HQ as (x & -> & HQ).
      pose proof (getitem_get_ok offset d s0 i bb _ Hk Hr HQ) as K. destruct x as [t|e], (snd (sm_getitem offset d i s0)) as [t'|e']; cbn; try contradiction; [exact K|now rewrite K].
  - split; [exact Hr|]. contradiction.
Qed.

(*@ C93: the same for every map of which all tracts exist when the threads start (always so for Equat and Dodeca,
    and for the others after iterating over the map), whatever the patch counts. *)
Lemma registering_all_tracts_exist_proof : forall (Sky : Type) (offset : Sky -> R -> R -> Sky) d s0 n faults sha name r J out,
  sm_reachable offset d s0 ->
  (sd_kind d = EagerMap \/ forall i, 0 <= i < sd_num d -> exists t, holds offset d i s0 t) ->
  registering offset faults d s0 n sha name r J -> j_out J = Some out ->
  exists s', register offset faults d sha name s0 (butler_on r) = (s', j_butler J, out).
Proof.
  intros Sky offset d s0 n faults sha name r J out Hr Hf HJ Ho.
  assert (Hf' : forall i, 0 <= i < sd_num d -> exists t, holds offset d i s0 t).
  { destruct Hf as [Hk|Hf']; [|exact Hf']. intros i Hi. destruct (reachable_full _ _ _ Hk Hr (Z.to_nat i)) as (t & Ht); [lia|].
    exists t. apply (holds_slot offset d s0 i t Hr). auto. }
  apply (registering_result offset faults d (fun c => snd (seq_answer offset d c s0))) with (Rs := fun s _ => s = s0) (s0 := s0) (n := n) (sha := sha) (name := name) (r := r); auto.
  - intros c c' E. destruct c as [i|t ix|t ix|t k|t co|t co|t], c' as [i'|t' ix'|t' ix'|t' k'|t' co'|t' co'|t']; cbn [call_eq] in E; try contradiction.
    + subst i'. apply ans_eq_refl.
    + destruct E as [(_ & _ & _ & _ & _ & _ & T7 & _) <-]. cbn [seq_answer patch_answer snd]. unfold tract_getPatchInfo. rewrite T7. apply ans_eq_refl.
    + destruct E as [_ <-]. apply ans_eq_refl.
  - intros s L c -> Ht Hi. split; [apply ans_eq_refl|]. destruct c as [i| | | | | |]; try reflexivity.
    destruct (Hf' i (Hi i eq_refl)) as (t & _ & Hg). cbn [seq_answer]. now rewrite Hg.
  - intros p c a Hs Hi Hin. destruct (full_schedule offset d s0 p Hr Hf' Hs) as (_ & _ & D). pose proof (D c a Hin) as ->.
    destruct c; try exact I; apply ans_eq_refl.
Qed.

(*@ C93: a Rings map with the TAN or STG projection, from its construction on: what registration returns, raises and
    leaves in the repository does not depend on other threads that use the map. *)
Lemma registering_rings_proof : forall c S mk ov g s0 n faults sha name r J out, cfg_ok c -> rings_wf g -> standard_wcs S mk ->
  let d := rings_def c mk ov g in
  sm_reachable sphere_offset d s0 -> registering sphere_offset faults d s0 n sha name r J -> j_out J = Some out ->
  exists s', register sphere_offset faults d sha name s0 (butler_on r) = (s', j_butler J, out).
Proof.
  intros c S mk ov g s0 n faults sha name r J out Hc W Hm d Hr HJ Ho.
  destruct (rings_uniform_proof c S mk ov g Hc W Hm) as [(cnt & Hu) _].
  exact (registering_uniform_proof _ sphere_offset d cnt s0 n faults sha name r J out Hc eq_refl Hr Hu HJ Ho).
Qed.

(*@ C93: and the other threads are not affected by the registration: their calls are as in C75, so that on a map with equal patch
    counts each gets the answer it gets alone. *)
Lemma registering_others_proof : forall (Sky : Type) (offset : Sky -> R -> R -> Sky) d s0 n faults sha name r J,
  registering offset faults d s0 n sha name r J ->
  schedule offset d s0 (j_proc J)
  /\ forall cnt, cfg_ok (sd_cfg d) -> sd_kind d = CachingMap -> sm_reachable offset d s0 -> uniform_counts offset d cnt ->
     (forall c t a, In (c, a) (pr_done (j_proc J)) -> call_tract c = Some t ->
        (exists b, in_use offset (sd_cfg d) b t) /\ forall b, in_use offset (sd_cfg d) b t -> patch_answer b c = Some a)
     /\ (forall i a, In (CGet i, a) (pr_done (j_proc J)) ->
          match a, snd (sm_getitem offset d i s0) with
          | ATract (Ok t), Ok t' => same_tract t t'
          | ATract (Raise e), Raise e' => e = e'
          | _, _ => False
          end).
Proof.
  intros Sky offset d s0 n faults sha name r J HJ. pose proof (registering_schedule offset faults d s0 n sha name r J HJ) as Hs.
  split; [exact Hs|]. intros cnt Hc Hk Hr Hu. split.
  - exact (proj1 (threads_uniform_proof Sky offset d cnt s0 (j_proc J) Hc Hk Hr Hu Hs)).
  - intros i a Hin. exact (threads_get_proof Sky offset d s0 (j_proc J) i a Hc Hk Hr Hs Hin).
Qed.

(** ** Registration ends *)
Definition jsteps {Sky} (offset : Sky -> R -> R -> Sky) faults d s0 n := clos_refl_trans _ (jstep offset faults d s0 n).
Section Ends.
Context {Sky : Type} (offset : Sky -> R -> R -> Sky) (faults : nat -> fault) (d : skydef Sky) (s0 : smstate Sky) (n : nat).
Lemma job_act q q' p c k u s' : pr_threads p n = Some (c, q) -> act q (pr_map p) = Some (s', q') ->
  jstep offset faults d s0 n (mkJ p (JAsk c k) u None) (mkJ (mkProc s' (set_thread (pr_threads p) n (Some (c, q'))) (pr_done p)) (JAsk c k) u None).
Proof.
  intros Hp E. apply js_threads; [eapply ps_act; eauto|]. cbn [pr_threads]. rewrite set_same, Hp. split; discriminate.
Qed.
Lemma job_acts q : forall p c k u, pr_threads p n = Some (c, q) ->
  exists p' a, jsteps offset faults d s0 n (mkJ p (JAsk c k) u None) (mkJ p' (k a) u None) /\ pr_threads p' n = None
    /\ (forall m, m <> n -> pr_threads p' m = pr_threads p m) /\ pr_done p' = pr_done p ++ [(c, a)].
Proof.
  induction q as [x|i k' IH|i t k' IH|i k' IH|v k' IH|v k' IH|k' IH|k' IH|k' IH|k' IH]; intros p c k u Hp.
  2-10: match type of Hp with pr_threads _ _ = Some (_, ?q) => assert (E : exists s' q', act q (pr_map p) = Some (s', q')) by (cbn; eauto) end;
    destruct E as (s' & q' & E); pose proof (job_act _ _ p c k u s' Hp E) as St; cbn [act] in E; injection E as <- <-;
    match type of St with jstep _ _ _ _ _ _ (mkJ ?p1 _ _ _) =>
      assert (K : exists p' a, jsteps offset faults d s0 n (mkJ p1 (JAsk c k) u None) (mkJ p' (k a) u None) /\ pr_threads p' n = None
        /\ (forall m, m <> n -> pr_threads p' m = pr_threads p1 m) /\ pr_done p' = pr_done p1 ++ [(c, a)]) by (eapply IH; apply set_same);
      destruct K as (p' & a & K1 & K2 & K3 & K4)
    end;
    exists p', a; (split; [eapply rt_trans; [apply rt_step, St|exact K1]|]); (split; [exact K2|]); (split; [|exact K4]);
    intros m Hm; rewrite K3 by exact Hm; cbn [pr_threads]; now apply set_other.
  exists (mkProc (pr_map p) (set_thread (pr_threads p) n None) (pr_done p ++ [(c, x)])), x.
  split; [apply rt_step; now apply js_answer|]. cbn. split; [apply set_same|]. split; [|reflexivity]. intros m Hm. now apply set_other.
Qed.
Definition got (L : list (tract Sky)) (p : process (Sky := Sky)) : Prop := forall t, In t L -> exists i, In (CGet i, ATract (Ok t)) (pr_done p).
Lemma job_ends j : forall L p u, honest (sd_num d) L j -> got L p -> pr_threads p n = None ->
  exists J out, jsteps offset faults d s0 n (mkJ p j u None) J /\ j_out J = Some out /\ pr_threads (j_proc J) n = None
    /\ forall m, m <> n -> pr_threads (j_proc J) m = pr_threads p m.
Proof.
  induction j as [r|c k IH|f k IH|j IH|j IH]; intros L p u Hh Hg Hp; cbn [honest] in Hh.
  - destruct r as [x|e].
    + eexists. exists (Done x). split; [apply rt_step, js_return|]. cbn. auto.
    + eexists. exists (Raised e). split; [apply rt_step, js_raise|]. cbn. auto.
  - destruct Hh as (H1 & H2 & H3).
    set (p1 := mkProc (pr_map p) (set_thread (pr_threads p) n (Some (c, call_prog offset d c))) (pr_done p)).
    assert (St : pstep offset d s0 p p1). { apply ps_call; [exact Hp|]. intros t Ht. destruct (Hg t (H1 t Ht)) as (i & Hi). exists i. now left. }
    destruct (job_acts (call_prog offset d c) p1 c k u (set_same _ _ _)) as (p2 & a & K1 & K2 & K3 & K4).
    destruct (IH a _ p2 u (H3 a)) as (J & out & A1 & A2 & A3 & A4); [|exact K2|].
    + intros t Ht. rewrite K4. apply in_app_or in Ht. destruct Ht as [Ht|Ht].
      * destruct c as [i| | | | | |]; try contradiction. destruct a as [[t'|]| | | |]; try contradiction.
        destruct Ht as [<-|[]]. exists i. apply in_or_app. right. now left.
      * destruct (Hg t Ht) as (i & Hin). exists i. apply in_or_app. now left.
    + exists J, out. split; [|split; [exact A2|]].
      * eapply rt_trans; [apply rt_step; apply js_call with (p' := p1); [exact Hp|exact St|apply set_same]|]. eapply rt_trans; [exact K1|exact A1].
      * split; [exact A3|]. intros m Hm. rewrite A4, K3 by exact Hm. now apply set_other.
  - destruct (bop faults f (pr_map p) u) as [[s1 u1] [b|e|]] eqn:E.
    + destruct (IH b L p u1 (Hh b) Hg Hp) as (J & out & A1 & A). exists J, out. split; [|exact A].
      eapply rt_trans; [apply rt_step; eapply js_op; exact E|exact A1].
    + eexists. eexists. split; [apply rt_step; eapply js_op_raise; exact E|]. cbn. split; [reflexivity|auto].
    + eexists. eexists. split; [apply rt_step; eapply js_op_crash; exact E|]. cbn. split; [reflexivity|auto].
  - destruct (IH L p (mkButler (u_durable u) (u_work u) true (u_ops u)) Hh Hg Hp) as (J & out & A1 & A). exists J, out. split; [|exact A].
    eapply rt_trans; [apply rt_step; apply js_begin|exact A1].
  - destruct (commit faults u) as [u' [x|e|]] eqn:E.
    + destruct (IH L p u' Hh Hg Hp) as (J & out & A1 & A). exists J, out. split; [|exact A].
      eapply rt_trans; [apply rt_step; eapply js_commit; exact E|exact A1].
    + eexists. eexists. split; [apply rt_step; eapply js_commit_fails; [exact E|discriminate]|]. cbn. split; [reflexivity|auto].
    + eexists. eexists. split; [apply rt_step; eapply js_commit_fails; [exact E|discriminate]|]. cbn. split; [reflexivity|auto].
Qed.
End Ends.
Section Ends2.
Context {Sky : Type} (offset : Sky -> R -> R -> Sky) (faults : nat -> fault) (d : skydef Sky) (s0 : smstate Sky) (n : nat).
Definition pending (J : jstate Sky) : Prop := j_out J = None ->
  (exists L, honest (sd_num d) L (j_job J) /\ got L (j_proc J))
  /\ (pr_threads (j_proc J) n = None \/ exists c k q, j_job J = JAsk c k /\ pr_threads (j_proc J) n = Some (c, q)).
Lemma got_step L p p' : pstep offset d s0 p p' -> got L p -> got L p'.
Proof. intros Hp H t Ht. destruct (H t Ht) as (i & Hin). exists i. eapply pstep_done; eassumption. Qed.
Lemma pending_step J J' : pending J -> jstep offset faults d s0 n J J' -> pending J'.
Proof.
  intros HI Hs. unfold pending in *.
  destruct Hs as [p p' j u o Hp Hi|p p' c k u Hn Hp Hc|p c k a u Hn|p f k u s' u' b Hb|p f k u s' u' e Hb|p f k u s' u' Hb|p j u|p j u u' x Hb|p j u u' o Hb Ho|p x u|p e u];
    cbn [j_out j_job j_butler j_proc] in *; intros Ho'; try discriminate; try (subst o).
  - destruct (HI eq_refl) as [(L & H3 & H4) H5]. split; [exists L; split; [exact H3|eapply got_step; eassumption]|].
    destruct H5 as [H5|(c & k & q & E & H5)]; [left; now apply Hi|right].
    destruct (pstep_call offset d s0 n p p' c q Hp H5) as (q' & Hq'); [rewrite <- Hi, H5; discriminate|eauto].
  - destruct (HI eq_refl) as [(L & H3 & H4) H5]. split; [exists L; split; [exact H3|eapply got_step; eassumption]|eauto 8].
  - destruct (HI eq_refl) as [(L & (_ & _ & G3) & H4) H5]. split; [|left; apply set_same]. exists (obtained c a ++ L). split; [apply G3|].
    intros t Ht. cbn [pr_done]. apply in_app_or in Ht. destruct Ht as [Ht|Ht].
    + destruct c as [i| | | | | |]; try contradiction. destruct a as [[t'|]| | | |]; try contradiction.
      destruct Ht as [<-|[]]. exists i. apply in_or_app. right. now left.
    + destruct (H4 t Ht) as (i & Hin). exists i. apply in_or_app. now left.
  - destruct (HI eq_refl) as [(L & H3 & H4) H5]. split; [exists L; split; [apply H3|exact H4]|].
    destruct H5 as [H5|(c & k' & q & E & _)]; [now left|discriminate].
  - destruct (HI eq_refl) as [(L & H3 & H4) H5]. split; [exists L; split; [apply H3|exact H4]|].
    destruct H5 as [H5|(c & k' & q & E & _)]; [now left|discriminate].
  - destruct (HI eq_refl) as [(L & H3 & H4) H5]. split; [exists L; split; [apply H3|exact H4]|].
    destruct H5 as [H5|(c & k' & q & E & _)]; [now left|discriminate].
Qed.
Lemma registering_pending sha name r J : registering offset faults d s0 n sha name r J -> pending J.
Proof.
  induction 1 as [p Hs Hn|J J' HJ IH Hs]; [|eapply pending_step; eassumption].
  intros _. cbn. split; [|now left]. exists []. split; [apply ho_register|]. intros t [].
Qed.
End Ends2.

(*@ C93: registration never waits for another thread: in every state, for every map, if the registering thread goes on alone
    the registration ends. *)
Lemma registering_never_blocks_proof : forall (Sky : Type) (offset : Sky -> R -> R -> Sky) d s0 n faults sha name r J,
  registering offset faults d s0 n sha name r J ->
  exists J' out, clos_refl_trans _ (jstep offset faults d s0 n) J J' /\ j_out J' = Some out
    /\ forall m, m <> n -> pr_threads (j_proc J') m = pr_threads (j_proc J) m.
Proof.
  intros Sky offset d s0 n faults sha name r [p j u [o|]] HJ; [exists (mkJ p j u (Some o)), o; split; [apply rt_refl|auto]|].
  destruct (registering_pending offset faults d s0 n sha name r _ HJ eq_refl) as [(L & Hh & Hg) Hp]. cbn [j_proc j_job] in *.
  destruct Hp as [Hp|(c & k & q & -> & Hp)].
  - destruct (job_ends offset faults d s0 n j L p u Hh Hg Hp) as (J' & out & A1 & A2 & _ & A4). exists J', out. auto.
  - destruct Hh as (_ & _ & H3). destruct (job_acts offset faults d s0 n q p c k u Hp) as (p2 & a & K1 & K2 & K3 & K4).
    destruct (job_ends offset faults d s0 n (k a) (obtained c a ++ L) p2 u (H3 a)) as (J' & out & A1 & A2 & _ & A4); [|exact K2|].
    + intros t Ht. rewrite K4. apply in_app_or in Ht. destruct Ht as [Ht|Ht].
      * destruct c as [i| | | | | |]; try contradiction. destruct a as [[t'|]| | | |]; try contradiction.
        destruct Ht as [<-|[]]. exists i. apply in_or_app. right. now left.
      * destruct (Hg t Ht) as (i & Hin). exists i. apply in_or_app. now left.
    + exists J', out. split; [eapply rt_trans; [exact K1|exact A1]|]. split; [exact A2|]. intros m Hm. now rewrite A4, K3.
Qed.
(** ** What goes wrong *)
(** Two tracts of 1 x 1 and 3 x 2 patches. *)
Definition growing_map : skydef flat := mkDef CachingMap legacy_default 2 (fun i =>
   Ok (if i =? 0 then PlainArgs (0, 0)%R (ex_verts 999 999) 0%R flat_wcs None
       else PlainArgs (0, 0)%R (ex_verts 9999 4999) 0%R flat_wcs None)).
Notation empty_reg := (mkReg [] [] [] [] [] []).

Lemma job_acts_run {Sky} (offset : Sky -> R -> R -> Sky) faults d s0 n q : forall p c k u, pr_threads p n = Some (c, q) ->
  exists p', jsteps offset faults d s0 n (mkJ p (JAsk c k) u None) (mkJ p' (k (snd (run q (pr_map p)))) u None) /\ pr_threads p' n = None
    /\ (forall m, m <> n -> pr_threads p' m = pr_threads p m) /\ pr_done p' = pr_done p ++ [(c, snd (run q (pr_map p)))]
    /\ pr_map p' = fst (run q (pr_map p)).
Proof.
  induction q as [x|i k' IH|i t k' IH|i k' IH|v k' IH|v k' IH|k' IH|k' IH|k' IH|k' IH]; intros p c k u Hp.
  2-10: match type of Hp with pr_threads _ _ = Some (_, ?q) => assert (E : exists s' q', act q (pr_map p) = Some (s', q')) by (cbn; eauto) end;
    destruct E as (s' & q' & E); pose proof (job_act offset faults d s0 n _ _ p c k u s' Hp E) as St; rewrite (act_run _ _ _ _ E);
    cbn [act] in E; injection E as <- <-;
    match type of St with jstep _ _ _ _ _ _ (mkJ ?p1 _ _ _) =>
      match type of St with jstep _ _ _ _ _ _ (mkJ (mkProc ?s1 (set_thread _ _ (Some (_, ?q1))) _) _ _ _) =>
      assert (K : exists p', jsteps offset faults d s0 n (mkJ p1 (JAsk c k) u None) (mkJ p' (k (snd (run q1 s1))) u None) /\ pr_threads p' n = None
        /\ (forall m, m <> n -> pr_threads p' m = pr_threads p1 m) /\ pr_done p' = pr_done p1 ++ [(c, snd (run q1 s1))]
        /\ pr_map p' = fst (run q1 s1)) by (exact (IH p1 c k u (set_same _ _ _)) || exact (IH _ p1 c k u (set_same _ _ _))) end;
      destruct K as (p' & K1 & K2 & K3 & K4)
    end;
    exists p'; (split; [eapply rt_trans; [apply rt_step, St|exact K1]|]); (split; [exact K2|]); (split; [|exact K4]);
    intros m Hm; rewrite K3 by exact Hm; cbn [pr_threads]; now apply set_other.
  exists (mkProc (pr_map p) (set_thread (pr_threads p) n None) (pr_done p ++ [(c, x)])).
  split; [apply rt_step; now apply js_answer|]. cbn. split; [apply set_same|]. split; [intros m Hm; now apply set_other|]. auto.
Qed.

(** The registering thread 1 has the job [j] left, thread 0 is in the call of skymap[0] with [q] left. *)
Definition halfway faults d s0 sha name r (s : smstate flat) q L j u : Prop :=
  exists p, registering flat_offset faults d s0 1%nat sha name r (mkJ p j u None) /\ pr_map p = s /\ pr_threads p 1%nat = None
    /\ pr_threads p 0%nat = Some (CGet 0, q) /\ got L p.
Section Halfway.
Variables (faults : nat -> fault) (d : skydef flat) (s0 : smstate flat) (sha : res (list Z)) (name : string) (r : registry flat).
Notation half := (halfway faults d s0 sha name r).
Lemma jsteps_registering n J J' : registering flat_offset faults d s0 n sha name r J -> jsteps flat_offset faults d s0 n J J' ->
  registering flat_offset faults d s0 n sha name r J'.
Proof.
  intros H Hs. apply clos_rt_rtn1 in Hs. induction Hs as [|J1 J2 Hs _ IH]; [exact H|]. eapply rg_step; eauto.
Qed.
Lemma half_ask s q L c k u s' a : half s q L (JAsk c k) u -> (forall t, call_tract c = Some t -> In t L) ->
  run (call_prog flat_offset d c) s = (s', a) -> half s' q (obtained c a ++ L) (k a) u.
Proof.
  intros (p & H1 & H2 & H3 & H4 & H5) Hc Er.
  set (p1 := mkProc (pr_map p) (set_thread (pr_threads p) 1%nat (Some (c, call_prog flat_offset d c))) (pr_done p)).
  assert (St : pstep flat_offset d s0 p p1). { apply ps_call; [exact H3|]. intros t Ht. destruct (H5 t (Hc t Ht)) as (i & Hi). exists i. now left. }
  destruct (job_acts_run flat_offset faults d s0 1%nat (call_prog flat_offset d c) p1 c k u (set_same _ _ _)) as (p2 & K1 & K2 & K3 & K4 & K5).
  cbn [p1 pr_map] in K1, K4, K5. rewrite H2, Er in *. cbn [fst snd] in *.
  exists p2. split.
  - eapply jsteps_registering; [|exact K1]. eapply rg_step; [exact H1|]. apply js_call with (p' := p1); [exact H3|exact St|apply set_same].
  - split; [exact K5|]. split; [exact K2|]. split; [rewrite K3 by discriminate; cbn [p1 pr_threads]; now rewrite set_other by discriminate|].
    intros t Ht. rewrite K4. apply in_app_or in Ht. destruct Ht as [Ht|Ht].
    + destruct c as [i| | | | | |]; try contradiction. destruct a as [[t'|]| | | |]; try contradiction.
      destruct Ht as [<-|[]]. exists i. apply in_or_app. right. now left.
    + destruct (H5 t Ht) as (i & Hin). exists i. apply in_or_app. now left.
Qed.
Lemma half_op s q L f k u u' b : half s q L (JOp f k) u -> bop faults f s u = (s, u', Done b) -> half s q L (k b) u'.
Proof.
  intros (p & H1 & H2 & H3 & H4 & H5) E. exists p. split; [|auto]. eapply rg_step; [exact H1|]. eapply js_op. rewrite H2. exact E.
Qed.
Lemma half_begin s q L j u : half s q L (JBegin j) u -> half s q L j (mkButler (u_durable u) (u_work u) true (u_ops u)).
Proof. intros (p & H1 & H2). exists p. split; [|exact H2]. eapply rg_step; [exact H1|apply js_begin]. Qed.
Lemma half_other s q L j u s' q' : half s q L j u -> act q s = Some (s', q') -> half s' q' L j u.
Proof.
  intros (p & H1 & H2 & H3 & H4 & H5) E. subst s.
  exists (mkProc s' (set_thread (pr_threads p) 0%nat (Some (CGet 0, q'))) (pr_done p)). cbn [pr_map pr_threads].
  split; [|split; [reflexivity|split; [now rewrite set_other by discriminate|split; [apply set_same|exact H5]]]].
  eapply rg_step; [exact H1|]. apply js_threads; [eapply ps_act; eassumption|]. cbn [pr_threads]. rewrite set_other by discriminate. tauto.
Qed.
End Halfway.

Lemma growing_start : exists t u s1 s2,
  let d := growing_map in let s0 := mkSM [None; None] (builder_init legacy_default) 0 [] in
  sm_reachable flat_offset d s0 /\ computed flat_offset d 0 = Ok (builder_of_counts legacy_default (1, 1), t)
  /\ sm_getitem flat_offset d 0 s0 = (s1, Ok t) /\ sm_getitem flat_offset d 1 s1 = (s2, Ok u)
  /\ s2 = mkSM [Some t; Some u] (builder_of_counts legacy_default (3, 2)) 2 [0; 1]
  /\ t_numPatches t = (1, 1) /\ t_numPatches u = (3, 2) /\ t_id t = 0 /\ t_id u = 1.
Proof.
  set (d := growing_map).
  assert (Hc : cfg_ok legacy_default) by (cbn; lia).
  set (s0 := mkSM [None; None] (builder_init legacy_default) 0 []).
  assert (H0 : sm_new flat_offset d = Ok s0) by reflexivity.
  assert (Hr0 : sm_reachable flat_offset d s0) by (exists s0; split; [exact H0|constructor]).
  destruct (ex_tract legacy_default 0 0 999 999 (builder_init _) Hc (br_init _)) as (b & t & E & Hu & Hn); [lia|lia|].
  pose proof (in_use_counts _ _ _ _ Hc Hu) as Eb. rewrite Hn in Eb. change (b = builder_of_counts legacy_default (1, 1)) in Eb.
  set (s1 := mkSM [Some t; None] b 1 [0]).
  assert (G0 : sm_getitem flat_offset d 0 s0 = (s1, Ok t)).
  { unfold sm_getitem, smbind, generateTract. cbn -[TractInfo_init ex_verts builder_init]. rewrite E. reflexivity. }
  destruct (getitem_holds flat_offset d s0 0 s1 t Hr0 ltac:(lia) G0) as (Hr1 & Ha1 & Hh1).
  destruct (ex_tract legacy_default 1 1 9999 4999 b Hc (iu_reach _ _ _ _ Hu)) as (b' & u & E' & Hu' & Hn'); [lia|lia|].
  pose proof (in_use_counts _ _ _ _ Hc Hu') as Eb'. rewrite Hn' in Eb'. change (b' = builder_of_counts legacy_default (3, 2)) in Eb'.
  set (s2 := mkSM [Some t; Some u] b' 2 [0; 1]).
  assert (G1 : sm_getitem flat_offset d 1 s1 = (s2, Ok u)).
  { unfold sm_getitem, smbind, generateTract. cbn -[TractInfo_init ex_verts builder_init].
    change (Pos.to_nat 1) with 1%nat. cbn -[TractInfo_init ex_verts builder_init]. rewrite E'. reflexivity. }
  destruct (getitem_holds flat_offset d s1 1 s2 u Hr1 ltac:(lia) G1) as (Hr2 & Ha2 & Hh2).
  exists t, u, s1, s2. cbv zeta. split; [exact Hr0|]. split.
  { unfold computed. cbn -[TractInfo_init ex_verts builder_init]. rewrite E, Eb. reflexivity. }
  split; [exact G0|]. split; [exact G1|]. split; [unfold s2; now rewrite Eb'|]. split; [rewrite Hn; reflexivity|]. split; [rewrite Hn'; reflexivity|].
  split; [exact (holds_id flat_offset d s1 0 t Hr1 Hh1)|exact (holds_id flat_offset d s2 1 u Hr2 Hh2)].
Qed.

Lemma register_after_iter {Sky} (offset : Sky -> R -> R -> Sky) faults d sha name s s2 ts u :
  sm_iter offset d s = (s2, Ok ts) -> sm_iter offset d s2 = (s2, Ok ts) ->
  register offset faults d sha name s u = register offset faults d sha name s2 u.
Proof.
  intros E1 E2. unfold register. match goal with |- bbind ?m ?F s u = _ => set (G := F) end.
  unfold bbind, bsky. now rewrite E1, E2.
Qed.

Lemma growing_registers name hash : exists s' u',
  register flat_offset no_faults growing_map (Ok hash) name (mkSM [None; None] (builder_init legacy_default) 0 []) (butler_on empty_reg) = (s', u', Done tt).
Proof.
  destruct growing_start as (t & u & s1 & s2 & Hr0 & _ & G0 & G1 & E2 & Nt & Nu & _). cbv zeta in *.
  set (d := growing_map) in *. set (s0 := mkSM [None; None] _ 0 []) in *.
  assert (Hc : cfg_ok (sd_cfg d)) by (cbn; lia).
  destruct (getitem_holds flat_offset d s0 0 s1 t Hr0 ltac:(lia) G0) as (Hr1 & Ha1 & Hh1).
  destruct (getitem_holds flat_offset d s1 1 s2 u Hr1 ltac:(lia) G1) as (Hr2 & Ha2 & Hh2).
  pose proof (holds_accesses flat_offset d s1 s2 0 t Hr1 Ha2 Hh1) as Hh1'.
  assert (Hall : forall j, 0 <= j < sd_num d -> exists v, holds flat_offset d j s2 v).
  { intros j Hj. cbn in Hj. assert (j = 0 \/ j = 1) as [-> | ->] by lia; eauto. }
  rewrite (register_after_iter flat_offset no_faults d (Ok hash) name s0 s2 [t; u]).
  - apply (register_exactly_proof flat flat_offset d name hash s2 empty_reg u); try assumption; [cbn; lia| |apply rh_empty|subst s2; exact Hh2|intros []|intros []|].
    + intros s i Hs Hi. destruct (Hall i Hi) as (v & Hv). destruct (regenerate flat_offset d s2 s i v Hr2 Hv Hs) as (sx & tx & G & _). eauto.
    + intros i v Hv. assert (Hi : 0 <= i < sd_num d) by (apply (holds_slot flat_offset d s2 i v Hr2) in Hv; tauto).
      cbn in Hi. assert (i = 0 \/ i = 1) as [-> | ->] by lia.
      * rewrite (holds_fun flat_offset d s2 0 v t Hv Hh1'), Nt, Nu. cbn. lia.
      * rewrite (holds_fun flat_offset d s2 1 v u Hv Hh2), Nu. cbn. lia.
  - unfold sm_iter, sm_for. change (zrange 0 (sd_num d)) with [0; 1]. cbn [smmap]. unfold smbind. rewrite G0. cbn [smret]. unfold smret. rewrite G1. reflexivity.
  - unfold sm_iter, sm_for. change (zrange 0 (sd_num d)) with [0; 1]. cbn [smmap]. unfold smbind. rewrite (proj2 Hh1'). unfold smret. rewrite (proj2 Hh2). reflexivity.
Qed.

(*@ C93 REFUTED for maps whose tracts differ in patch counts: a map that registers normally when no other thread uses it, but whose
    registration raises IndexError if another thread makes skymap[0] at the same time. *)
Lemma registering_refuted_proof : exists d s0,
  cfg_ok (sd_cfg d) /\ sm_new flat_offset d = Ok s0 /\ sm_reachable flat_offset d s0
  /\ forall name hash,
       (exists s' u', register flat_offset no_faults d (Ok hash) name s0 (butler_on empty_reg) = (s', u', Done tt))
       /\ exists n J, registering flat_offset no_faults d s0 n (Ok hash) name empty_reg J /\ j_out J = Some (Raised IndexError).
Proof.
  exists growing_map, (mkSM [None; None] (builder_init legacy_default) 0 []).
  split; [cbn; lia|]. split; [reflexivity|]. split; [exists (mkSM [None; None] (builder_init legacy_default) 0 []); split; [reflexivity|constructor]|].
  intros name hash. split; [apply growing_registers|]. exists 1%nat.
  destruct growing_start as (t & u & s1 & s2 & Hr0 & Hcomp & G0 & G1 & E2 & Nt & Nu & It & Iu). cbv zeta in *.
  set (d := growing_map) in *. set (s0 := mkSM [None; None] _ 0 []) in *.
  (* thread 0 asks for skymap[0] and finds no tract *)
  set (c := CGet (Sky := flat) 0).
  assert (Ec : call_prog flat_offset d c = pbind (getitem_p flat_offset d 0) (fun r => PRet (ATract r))) by reflexivity.
  assert (H01 : 0 <= 0 < sd_num d) by (cbn; lia).
  rewrite (getitem_none flat_offset d 0 _ t eq_refl H01 Hcomp) in Ec.
  assert (S1 : schedule flat_offset d s0 (mkProc s0 (fun _ => None) [])) by constructor.
  eapply sc_step in S1; [|apply ps_call with (n := 0%nat) (c := c); [reflexivity|discriminate]].
  cbn [pr_map pr_threads pr_done] in S1. rewrite Ec in S1.
  eapply (schedule_acts _ _ _ 1 _ 0%nat c) in S1; [|cbn; reflexivity|cbn; reflexivity]. destruct S1 as (f1 & S1 & F1 & F2).
  (* thread 1 starts to register *)
  set (q := PNew 0 (fun n : nat => PSetNum (1, 1) (PSetBox (b_tractBBox (builder_of_counts legacy_default (1, 1)))
       (PSetInit (PStore 0 (with_oid t n) (PRet (ATract (Ok (with_oid t n))))))))).
  assert (H : halfway no_faults d s0 (Ok hash) name empty_reg s0 q [] (register_job 2 2 (Ok hash) name) (butler_on empty_reg)).
  { eexists. split; [apply rg_start; [exact S1|cbn; rewrite F2 by discriminate; reflexivity]|].
    cbn [pr_map pr_threads]. split; [reflexivity|]. split; [rewrite F2 by discriminate; reflexivity|]. split; [exact F1|]. intros t' []. }
  clear S1 f1 F1 F2 Ec.
  destruct (getitem_holds flat_offset d s0 0 s1 t Hr0 ltac:(lia) G0) as (Hr1 & Ha1 & Hh1).
  unfold register_job in H. change (zrange 0 2) with [0; 1] in H. cbn [job_list] in H.
  unfold job_get at 1 in H.
  eapply half_ask in H; [|discriminate|cbn [call_prog]; rewrite run_bind, getitem_run by exact Hr0; rewrite G0; reflexivity].
  cbn [obtained app] in H. unfold job_get at 1 in H.
  eapply half_ask in H; [|discriminate|cbn [call_prog]; rewrite run_bind, getitem_run by exact Hr1; rewrite G1; reflexivity].
  cbn [obtained app rev map] in H. rewrite Nt, Nu in H. cbn [fst snd py_max fold_left Z.max Z.compare Pos.compare Pos.compare_cont] in H.
  (* thread 0 goes on *)
  subst s2 q. do 2 (eapply half_other in H; [|cbn; reflexivity]).
  unfold with_builder in H. cbn [sm_tracts sm_builder sm_next sm_log b_config b_patchInner b_patchBorder b_initialized b_tractBBox builder_of_counts] in H.
  match type of H with halfway _ _ _ _ _ _ ?x ?y _ _ _ => set (sx := x) in H; set (qx := y) in H end.
  do 2 (eapply half_op in H; [|cbn; reflexivity]). cbn [u_durable u_work u_in_tx u_ops add_name existsb app] in H.
  apply half_begin in H. eapply half_op in H; [|cbn; reflexivity]. cbn [job_for] in H.
  assert (Gt : run (call_prog flat_offset d (CGet 0)) sx = (sx, ATract (Ok t))) by reflexivity.
  assert (Gu : run (call_prog flat_offset d (CGet 1)) sx = (sx, ATract (Ok u))) by reflexivity.
  assert (P0 : forall v : tract flat, exists p, run (call_prog flat_offset d (CPatch v (IxIndex2D 0 0))) sx = (sx, APatch (Ok p)) /\ p_index p = (0, 0)).
  { intros v. eexists. split; [vm_compute; reflexivity|reflexivity]. }
  assert (Q0 : forall v : tract flat, run (call_prog flat_offset d (CSeq v (IxIndex2D 0 0))) sx = (sx, ANum (Ok 0))) by reflexivity.
  assert (P1 : forall v : tract flat, run (call_prog flat_offset d (CPatch v (IxIndex2D 1 0))) sx = (sx, APatch (Raise IndexError))) by reflexivity.
  clearbody sx qx.
  unfold job_get at 1 in H. eapply half_ask in H; [|discriminate|exact Gt]. cbn [obtained app] in H.
  unfold job_tract at 1 in H. rewrite It in H.
  eapply half_op in H; [|unfold bop, Concurrent.unit_op, insertTract; cbn; rewrite String.eqb_refl; cbn; reflexivity].
  rewrite Nt in H. change (grid 1 1) with [(0, 0)] in H. cbn [job_patches fst snd] in H.
  destruct (P0 t) as (p0 & Ep & Ix). unfold job_patch at 1 in H. cbn [fst snd] in H.
  eapply half_ask in H; [|intros v [= <-]; now left|exact Ep]. cbn [obtained app] in H.
  unfold job_seq at 1 in H. rewrite Ix in H. cbn [fst snd] in H.
  eapply half_ask in H; [|intros v [= <-]; now left|exact (Q0 t)]. cbn [obtained app rev] in H.
  eapply half_op in H; [|unfold bop, Concurrent.unit_op, insertPatches, insertPatches0, insertPatch; cbn; rewrite String.eqb_refl, It; cbn; reflexivity].
  unfold job_get at 1 in H. eapply half_ask in H; [|discriminate|exact Gu]. cbn [obtained app] in H.
  unfold job_tract at 1 in H. rewrite Iu in H.
  eapply half_op in H; [|unfold bop, Concurrent.unit_op, insertTract; cbn; rewrite !String.eqb_refl; cbn; reflexivity].
  rewrite Nu in H. change (grid 3 2) with [(0, 0); (1, 0); (2, 0); (0, 1); (1, 1); (2, 1)] in H. cbn [job_patches fst snd] in H.
  destruct (P0 u) as (p1 & Ep1 & Ix1). unfold job_patch at 1 in H. cbn [fst snd] in H.
  eapply half_ask in H; [|intros v [= <-]; now left|exact Ep1]. cbn [obtained app] in H.
  unfold job_seq at 1 in H. rewrite Ix1 in H. cbn [fst snd] in H.
  eapply half_ask in H; [|intros v [= <-]; now left|exact (Q0 u)]. cbn [obtained app rev] in H.
  unfold job_patch at 1 in H. cbn [fst snd] in H.
  eapply half_ask in H; [|intros v [= <-]; now left|exact (P1 u)]. cbn [obtained app rev] in H.
  destruct H as (p & H & _). eexists. split; [eapply rg_step; [exact H|apply js_raise]|reflexivity].
Qed.

(*@ C93: the hypotheses are met: a map of two tracts with 3 x 2 patches each; one thread has asked for skymap[1] and has not finished when
    another starts to register the map; the registration can end, and then it has returned and
    the repository holds the complete records. *)
Example registering_example_proof : exists d s0, cfg_ok (sd_cfg d) /\ sd_kind d = CachingMap /\ sm_reachable flat_offset d s0
  /\ uniform_counts flat_offset d (3, 2)
  /\ forall name hash,
       exists p J0 q J, registering flat_offset no_faults d s0 1 (Ok hash) name empty_reg J0 /\ j_proc J0 = p
         /\ pr_threads p 0%nat = Some (CGet 1, q) /\ q <> call_prog flat_offset d (CGet 1)
         /\ registering flat_offset no_faults d s0 1 (Ok hash) name empty_reg J /\ pr_threads (j_proc J) 0%nat = Some (CGet 1, q)
         /\ j_out J = Some (Done tt)
         /\ List.length (g_patches (u_durable (j_butler J))) = 12%nat.
Proof.
  destruct registration_example_proof as (s0 & H0 & Hgen & Hu & Hx). set (d := uniform_map) in *.
  assert (Hc : cfg_ok (sd_cfg d)) by (cbn; lia).
  assert (Hr : sm_reachable flat_offset d s0) by (exists s0; split; [exact H0|constructor]).
  exists d, s0. split; [exact Hc|]. split; [reflexivity|]. split; [exact Hr|]. split; [exact Hu|]. intros name hash.
  destruct (Hx name hash) as (s1 & u1 & R & _ & _ & _ & _ & L & _). injection H0 as <-. set (s0 := mkSM _ _ _ _) in *.
  assert (S1 : schedule flat_offset d s0 (mkProc s0 (fun _ => None) [])) by constructor.
  eapply sc_step in S1; [|apply ps_call with (n := 0%nat) (c := CGet 1); [reflexivity|discriminate]].
  cbn [pr_map pr_threads pr_done] in S1.
  assert (E : exists k, call_prog flat_offset d (CGet 1) = PSlot 1 k /\ act (call_prog flat_offset d (CGet 1)) s0 = Some (s0, k (Ok None))
     /\ k (Ok None) <> PSlot 1 k).
  { unfold call_prog, getitem_p. cbn -[make_tract builder_init ex_verts]. eexists. split; [reflexivity|]. split; [reflexivity|].
    cbn -[make_tract builder_init ex_verts]. destruct (make_tract _ _ _ _ _) as [[b t]|]; discriminate. }
  destruct E as (k & E1 & E2 & E3).
  eapply sc_step in S1; [|eapply ps_act with (n := 0%nat); [cbn; reflexivity|exact E2]]. cbn [pr_map pr_threads pr_done] in S1.
  set (q := k (Ok None)) in *.
  match type of S1 with schedule _ _ _ ?x => set (p := x) in * end.
  assert (HJ : registering flat_offset no_faults d s0 1 (Ok hash) name empty_reg
     (mkJ p (register_job (sd_num d) (sm_len d s0) (Ok hash) name) (butler_on empty_reg) None)) by (apply rg_start; [exact S1|reflexivity]).
  destruct (registering_never_blocks_proof _ _ _ _ _ _ _ _ _ _ HJ) as (J & out & K1 & K2 & K3).
  pose proof (jsteps_registering no_faults d s0 (Ok hash) name empty_reg 1 _ _ HJ K1) as HJ'.
  destruct (registering_uniform_proof _ _ _ _ _ _ _ _ _ _ _ _ Hc eq_refl Hr Hu HJ' K2) as (s' & R').
  rewrite R in R'. injection R' as _ Eu Eo.
  exists p. eexists. exists q, J. split; [exact HJ|]. split; [reflexivity|]. split; [reflexivity|]. split; [rewrite E1; exact E3|].
  split; [exact HJ'|]. split; [rewrite K3 by discriminate; reflexivity|]. split; [rewrite K2; now rewrite Eo|]. rewrite <- Eu. exact L.
Qed.
