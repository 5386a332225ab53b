(** Proofs about several registrations of one sky map object. *)
From Coq Require Import Reals String Lia Relations.
Require Import Verif.Py Verif.Geom Verif.PatchInfo Verif.TractBuilder Verif.TractInfo Verif.Spec.
Require Import Verif.SkyMap Verif.SkySpec Verif.PatchProofs Verif.TractProofs Verif.SkyProofs Verif.SkyProofs2.
Require Import Verif.Register Verif.RegSpec.
Require Import Verif.RegProofs Verif.RegProofs2 Verif.RegProofs3.
Require Import Verif.Concurrent Verif.ConcProofs.
Require Import Verif.Threads Verif.ThreadsProofs Verif.RegThreads Verif.RegThreadsProofs Verif.RegMany.
Open Scope list_scope.
Open Scope Z_scope.
Local Arguments Z.mul : simpl never.

Section RegMany.
Context {Sky : Type}.
Variable offset : Sky -> R -> R -> Sky.
Variable d : skydef Sky.
Notation registry := (registry Sky).
Notation call := (call (Sky := Sky)).
Notation answer := (answer (Sky := Sky)).

(** ** A job done alone is the program of Concurrent.v *)
Fixpoint pfollows (j : job Sky) (s : smstate Sky) (p : Concurrent.prog Sky) : Prop :=
  match j with
  | JEnd r => exists s', p = PEnd s' r
  | JAsk c k => let '(s', a) := seq_answer offset d c s in pfollows (k a) s' p
  | JOp f k => exists s' k', p = POp s' f k' /\ forall b, pfollows (k b) s (k' b)
  | JBegin j => exists p', p = PBegin p' /\ pfollows j s p'
  | JCommit j => exists s' p', p = PCommit s' p' /\ pfollows j s p'
  end.
Lemma pf_get i k s p : pfollows (job_get i k) s p <->
  match sm_getitem offset d i s with (s1, Ok t) => pfollows (k t) s1 p | (s1, Raise e) => exists s', p = PEnd s' (Raise e) end.
Proof. cbn [job_get pfollows seq_answer]. destruct (sm_getitem offset d i s) as [s1 [t|e]]; reflexivity. Qed.
Lemma pf_list ids : forall acc k s p, pfollows (job_list ids acc k) s p <->
  match smmap (fun i => smbind (sm_getitem offset d i) smret) ids s with
  | (s1, Ok ts) => pfollows (k (rev acc ++ ts)) s1 p
  | (s1, Raise e) => exists s', p = PEnd s' (Raise e)
  end.
Proof.
  set (f := fun i => smbind (sm_getitem offset d i) smret).
  induction ids as [|i ids IH]; intros acc k s p; cbn [job_list smmap].
  - unfold smret. now rewrite app_nil_r.
  - rewrite pf_get. unfold smbind.
    assert (Ef : f i s = match sm_getitem offset d i s with (s', Ok t) => (s', Ok t) | (s', Raise e) => (s', Raise e) end)
      by (unfold f, smbind, smret; reflexivity).
    rewrite Ef. destruct (sm_getitem offset d i s) as [s1 [t|e]]; [|reflexivity].
    rewrite IH. destruct (smmap f ids s1) as [s2 [ts|e]]; [|reflexivity].
    cbn [rev smret]. unfold smret. rewrite <- app_assoc. reflexivity.
Qed.
Lemma pf_patches name t ixs : forall acc k s p, pfollows (job_patches name t ixs acc k) s p <->
  match (ps <- mapM (fun i => tract_getPatchInfo (sm_builder s) t (IxIndex2D (fst i) (snd i))) ixs ;;
         mapM (patch_record name (sm_builder s) t) ps) with
  | Ok recs => pfollows (k (rev acc ++ recs)) s p
  | Raise e => exists s', p = PEnd s' (Raise e)
  end.
Proof.
  induction ixs as [|i ixs IH]; intros acc k s p; cbn [job_patches mapM].
  - cbn [bind mapM]. now rewrite app_nil_r.
  - cbn [job_patch pfollows seq_answer patch_answer].
    destruct (tract_getPatchInfo (sm_builder s) t (IxIndex2D (fst i) (snd i))) as [q|e]; cbn [bind]; [|reflexivity].
    cbn [job_seq pfollows seq_answer patch_answer].
    destruct (b_numPatches (sm_builder s)) as [nx ny] eqn:En.
    assert (E : getSequentialPatchIndexFromPair (sm_builder s) (IxIndex2D (fst (p_index q)) (snd (p_index q)))
       = Ok (nx * snd (p_index q) + fst (p_index q))).
    { unfold getSequentialPatchIndexFromPair. rewrite En. reflexivity. }
    rewrite E, IH. match goal with |- context [mapM ?f ixs] => destruct (mapM f ixs) as [ps|e] end; cbn [bind mapM]; [|reflexivity].
    assert (Er : patch_record name (sm_builder s) t q = Ok (mkPatchRec name (t_id t) (nx * snd (p_index q) + fst (p_index q))
        (fst (p_index q)) (snd (p_index q)) (patch_getOuterSkyPolygon q (Some (t_wcs t))))).
    { unfold patch_record, getSequentialPatchIndex. rewrite E. reflexivity. }
    rewrite Er. cbn [bind].
    destruct (mapM (patch_record name (sm_builder s) t) ps) as [recs|e]; cbn [bind]; [|reflexivity].
    cbn [rev]. rewrite <- app_assoc. reflexivity.
Qed.
Lemma pf_tract name t j s k : pfollows j s (k s) -> pfollows (job_tract name t j) s (prog_tract name t s k).
Proof.
  intros H. unfold job_tract, prog_tract. cbn [pfollows]. do 2 eexists. split; [reflexivity|]. intros ?b; cbv beta; clear b.
  rewrite pf_patches. unfold on_tract, smbind, sm_cur_builder, smlift, patch_records, tract_iter.
  destruct (t_numPatches t) as [nx ny].
  destruct (bind _ _) as [recs|e]; [|eauto]. cbn [rev app pfollows]. do 2 eexists. split; [reflexivity|]. intros ?b; cbv beta; clear b. exact H.
Qed.
Lemma pf_for name ids : forall j s k, (forall s1, pfollows j s1 (k s1)) -> pfollows (job_for name ids j) s (prog_for offset d name ids s k).
Proof.
  induction ids as [|i ids IH]; intros j s k H; cbn [job_for prog_for]; [apply H|].
  rewrite pf_get. destruct (sm_getitem offset d i s) as [s1 [t|e]]; [|eauto].
  apply pf_tract with (k := fun s2 => prog_for offset d name ids s2 k). now apply IH.
Qed.
Lemma pf_register sha name len s : (forall s1 ts, sm_iter offset d s = (s1, Ok ts) -> sm_len d s1 = len) ->
  pfollows (register_job (sd_num d) len sha name) s (register_prog offset d sha name s).
Proof.
  intros Hl. unfold register_job, register_prog. rewrite pf_list.
  change (smmap (fun i => smbind (sm_getitem offset d i) smret) (zrange 0 (sd_num d))) with (sm_iter offset d).
  destruct (sm_iter offset d s) as [s1 [ts|e]]; [|eauto]. specialize (Hl s1 ts eq_refl). cbn [rev app].
  destruct (py_max _) as [nxm|e]; [|cbn; eauto]. destruct (py_max _) as [nym|e]; [|cbn; eauto]. destruct sha as [hash|e]; [|cbn; eauto].
  rewrite Hl. set (rec := mkSkyRec name hash len nxm nym). cbn [pfollows]. do 2 eexists. split; [reflexivity|]. intros ?b; cbv beta; clear b.
  do 2 eexists. split; [reflexivity|]. intros ?b; cbv beta; clear b. unfold prog_tx. eexists. split; [reflexivity|]. do 2 eexists. split; [reflexivity|].
  intros [|]; cbv beta iota.
  - apply pf_for. intros s2. cbn. do 2 eexists. split; [reflexivity|]. intros ?b; cbv beta; clear b. do 2 eexists. split; [reflexivity|eauto].
  - cbn. do 2 eexists. split; [reflexivity|eauto].
Qed.

(** ** With given answers *)
Variable canon : call -> answer.
Hypothesis canon_eq : forall c c', call_eq c c' -> ans_eq (canon c) (canon c').
Fixpoint follows (j : job Sky) (p : Concurrent.prog Sky) : Prop :=
  match j with
  | JEnd r => exists s', p = PEnd s' r
  | JAsk c k => follows (k (canon c)) p
  | JOp f k => exists s' k', p = POp s' f k' /\ forall b, follows (k b) (k' b)
  | JBegin j => exists p', p = PBegin p' /\ follows j p'
  | JCommit j => exists s' p', p = PCommit s' p' /\ follows j p'
  end.
Lemma follows_jeq j j' : jeq j j' -> forall p, follows j p -> follows j' p.
Proof.
  induction 1 as [r|c c' k k' Hc _ IH|f k k' _ IH|j j' _ IH|j j' _ IH]; intros p; cbn [follows]; auto.
  - apply IH. now apply canon_eq.
  - intros (s' & k0 & -> & H). exists s', k0. split; [reflexivity|]. intros b. apply IH, H.
  - intros (p' & -> & H). eauto.
  - intros (s' & p' & -> & H). eauto.
Qed.
Variable Rs : smstate Sky -> list (tract Sky) -> Prop.
Hypothesis Hseq : forall s L c, Rs s L -> (forall t, call_tract c = Some t -> In t L) -> (forall i, c = CGet i -> 0 <= i < sd_num d) ->
  ans_eq (snd (seq_answer offset d c s)) (canon c)
  /\ Rs (fst (seq_answer offset d c s)) (obtained c (snd (seq_answer offset d c s)) ++ L).
Lemma pf_follows j : forall s L p, Rs s L -> honest (sd_num d) L j -> jeq j j -> pfollows j s p -> follows j p.
Proof.
  induction j as [r|c k IH|f k IH|j IH|j IH]; intros s L p HR Hh Hj; apply jeq_refl_l in Hj; cbn [pfollows follows honest] in *.
  - auto.
  - destruct Hh as (H1 & H2 & H3). destruct (Hseq s L c HR H1 H2) as [K1 K2].
    destruct (seq_answer offset d c s) as [s1 a]. cbn [fst snd] in K1, K2. intros H.
    eapply follows_jeq; [apply Hj; exact K1|]. eapply IH; [exact K2|apply H3|apply Hj, ans_eq_refl|exact H].
  - intros (s' & k' & -> & H). exists s', k'. split; [reflexivity|]. intros b. eapply IH; eauto.
  - intros (p' & -> & H). eauto.
  - intros (s' & p' & -> & H). eauto 7.
Qed.

Variable s0 : smstate Sky.
Hypothesis Hconc : forall p c a, schedule offset d s0 p -> (forall i, c = CGet i -> 0 <= i < sd_num d) -> In (c, a) (pr_done p) ->
  match c with CGet _ | CPatch _ _ | CSeq _ _ => ans_eq a (canon c) | _ => True end.
Hypothesis Hr : sm_reachable offset d s0.
Hypothesis Hc : cfg_ok (sd_cfg d).
Hypothesis HR0 : Rs s0 [].

Definition got (L : list (tract Sky)) (p : process (Sky := Sky)) : Prop := forall t, In t L -> exists i, In (CGet i, ATract (Ok t)) (pr_done p).
Lemma got_step L p p' : pstep offset d s0 p p' -> got L p -> got L p'.
Proof. intros Hp H t Ht. destruct (H t Ht) as (i & Hin). exists i. eapply pstep_done; eassumption. Qed.
Lemma got_more L p p' : (forall x, In x (pr_done p) -> In x (pr_done p')) -> got L p -> got L p'.
Proof. intros Hp H t Ht. destruct (H t Ht) as (i & Hin). exists i. auto. Qed.

Definition request_of (t : registrant Sky) : request Sky := mkRequest d (rt_sha t) (rt_name t) s0.
Definition rel (P : process (Sky := Sky)) (n : nat) (t : registrant Sky) (c : client Sky) : Prop :=
  c_req c = request_of t /\ c_out c = rt_out t
  /\ (rt_out t = None ->
      c_tx c = rt_tx t /\ c_base c = rt_base t /\ c_delta c = rt_delta t /\ follows (rt_job t) (c_prog c) /\ jeq (rt_job t) (rt_job t)
      /\ (exists L, honest (sd_num d) L (rt_job t) /\ got L P)
      /\ (pr_threads P n = None \/ exists c k q, rt_job t = JAsk c k /\ pr_threads P n = Some (c, q))).

Lemma rel_new P n sha name : pr_threads P n = None -> rel P n (new_registrant d s0 sha name) (new_client offset (mkRequest d sha name s0)).
Proof.
  intros Hn. split; [reflexivity|]. split; [reflexivity|]. intros _. cbn [new_registrant new_client rt_tx rt_base rt_delta rt_job c_tx c_base c_delta c_prog rq_map rq_sha rq_name rq_start].
  do 3 (split; [reflexivity|]). split.
  - eapply pf_follows; [exact HR0|apply ho_register|apply je_register|]. apply pf_register. intros s1 ts Hit. unfold sm_len. destruct (sd_kind d) eqn:Hk; [reflexivity|].
    pose proof (reachable_accesses _ _ _ _ Hr (proj1 (iter_spec _ _ _ _ _ Hr Hit))) as K.
    rewrite (si_len _ _ _ _ (reachable_inv _ _ _ Hr)), (si_len _ _ _ _ (reachable_inv _ _ _ K)). reflexivity.
  - split; [apply je_register|]. split; [|now left]. exists []. split; [apply ho_register|]. intros t [].
Qed.
(** steps of the threads *)
Lemma rel_pstep P P' n t c : pstep offset d s0 P P' -> (rt_out t = None -> pr_threads P n = None <-> pr_threads P' n = None) ->
  rel P n t c -> rel P' n t c.
Proof.
  intros Hp Hi (H1 & H2 & H3). split; [exact H1|]. split; [exact H2|]. intros Ho. specialize (Hi Ho).
  destruct (H3 Ho) as (A1 & A2 & A3 & A4 & A5 & (L & A6 & A7) & A8). do 5 (split; [assumption|]).
  split; [exists L; split; [exact A6|eapply got_step; eassumption]|].
  destruct A8 as [A8|(c' & k & q & E & A8)]; [left; now apply Hi|right].
  destruct (pstep_call offset d s0 n P P' c' q Hp A8) as (q' & Hq'); [rewrite <- Hi, A8; discriminate|eauto].
Qed.
Lemma pstep_one P P' : pstep offset d s0 P P' -> exists m, forall k, k <> m -> pr_threads P' k = pr_threads P k.
Proof. intros H. destruct H as [p m c' Hm _|p m c' q0 s' q' Hm Ha|p m c' a Hm]; exists m; intros k Hk; cbn; now apply set_other. Qed.
Lemma rel_same P P' n t c : pr_threads P' n = pr_threads P n -> (forall x, In x (pr_done P) -> In x (pr_done P')) ->
  rel P n t c -> rel P' n t c.
Proof.
  intros E Hd (H1 & H2 & H3). split; [exact H1|]. split; [exact H2|]. intros Ho.
  destruct (H3 Ho) as (A1 & A2 & A3 & A4 & A5 & (L & A6 & A7) & A8). do 5 (split; [assumption|]).
  split; [exists L; split; [exact A6|eapply got_more; eassumption]|]. now rewrite E.
Qed.
Lemma rel_call P P' n h m c k tx base delta cl :
  pstep offset d s0 P P' -> pr_threads P' n = Some (c, call_prog offset d c) ->
  rel P n (mkRegistrant h m (JAsk c k) tx base delta None) cl -> rel P' n (mkRegistrant h m (JAsk c k) tx base delta None) cl.
Proof.
  intros Hp Hn (H1 & H2 & H3). split; [exact H1|]. split; [exact H2|]. intros Ho.
  destruct (H3 Ho) as (A1 & A2 & A3 & A4 & A5 & (L & A6 & A7) & A8). do 5 (split; [assumption|]).
  split; [exists L; split; [exact A6|eapply got_step; eassumption]|]. right. cbn. eauto.
Qed.
Lemma rel_answer P n h m c k a tx base delta cl :
  schedule offset d s0 P -> pr_threads P n = Some (c, PRet a) ->
  rel P n (mkRegistrant h m (JAsk c k) tx base delta None) cl ->
  rel (mkProc (pr_map P) (set_thread (pr_threads P) n None) (pr_done P ++ [(c, a)])) n (mkRegistrant h m (k a) tx base delta None) cl.
Proof.
  intros Hsc Hn (H1 & H2 & H3). split; [exact H1|]. split; [exact H2|]. intros Ho. cbn [rt_out rt_tx rt_base rt_delta rt_job] in *.
  destruct (H3 Ho) as (A1 & A2 & A3 & A4 & A5 & (L & A6 & A7) & A8). do 3 (split; [assumption|]).
  destruct A6 as (G1 & G2 & G3). set (p' := mkProc (pr_map P) (set_thread (pr_threads P) n None) (pr_done P ++ [(c, a)])).
  assert (Hs' : schedule offset d s0 p') by (eapply sc_step; [exact Hsc|now apply ps_return]).
  assert (Hd : In (c, a) (pr_done p')) by (apply in_or_app; right; now left).
  pose proof (Hconc p' c a Hs' G2 Hd) as Ha.
  assert (Ce : call_eq c c) by (inversion A5; assumption).
  assert (Ae : ans_eq a (canon c)) by (destruct c; cbn in Ce; try contradiction; exact Ha).
  apply jeq_refl_l in A5. cbn [follows] in A4.
  assert (Ae' : ans_eq (canon c) a) by (destruct a as [[]| | | |], (canon c) as [[]| | | |]; cbn in Ae |- *; try congruence;
    unfold same_tract in *; destruct Ae as (? & ? & ? & ? & ? & ? & ? & ?); do 7 (split; [congruence|]); congruence).
  split; [exact (follows_jeq _ _ (A5 _ _ Ae') _ A4)|]. split; [apply A5, ans_eq_refl|]. split.
  - exists (obtained c a ++ L). split; [apply G3|]. intros t Ht. apply in_app_or in Ht. destruct Ht as [Ht|Ht].
    + destruct c as [i| | | | | |]; try contradiction. destruct a as [[t'|]| | | |]; try contradiction.
      destruct Ht as [<-|[]]. exists i. exact Hd.
    + destruct (A7 t Ht) as (i & Hin). exists i. apply in_or_app. now left.
  - left. apply set_same.
Qed.
(** uses of the repository *)
Lemma rel_repo P n t c D t' D' : rel P n t c -> repo_step D t D' t' ->
  exists c', client_step D c D' c' /\ rel P n t' c' /\ rt_sha t' = rt_sha t /\ rt_name t' = rt_name t.
Proof.
  intros (H1 & H2 & H3) St.
  assert (Ho : rt_out t = None) by (destruct St; reflexivity). specialize (H3 Ho).
  destruct H3 as (A1 & A2 & A3 & A4 & A5 & (L & A6 & A7) & A8).
  destruct c as [q p tx base delta out]. cbn [c_req c_out c_tx c_base c_delta c_prog] in *. subst q out.
  unfold request_of in *.
  destruct St as [D h n' x tx' b' dl|D h n' e tx' b' dl|D h n' f k b' dl D' b Ef|D h n' f k b' dl e Ef|D h n' f k b' dl w b Ef|D h n' f k b' dl e Ef
    |D h n' j b' dl|D h n' j b' dl|D h n' j b' dl Hk|D h n' j tx' b' dl e N1 N2|D h n' j tx' b' dl];
    cbn [rt_sha rt_name rt_job rt_tx rt_base rt_delta rt_out] in *; subst tx base delta; cbn [follows] in A4.
  - destruct A4 as (s' & ->). eexists. split; [apply st_return|]. split; [|auto]. split; [reflexivity|]. split; [reflexivity|]. discriminate.
  - destruct A4 as (s' & ->). eexists. split; [apply st_raise|]. split; [|auto]. split; [reflexivity|]. split; [reflexivity|]. discriminate.
  - destruct A4 as (s' & k' & -> & A4). eexists. split; [apply st_direct; exact Ef|]. split; [|auto]. split; [reflexivity|]. split; [reflexivity|].
    intros _. cbn. do 3 (split; [reflexivity|]). split; [apply A4|]. apply jeq_refl_l in A5. split; [apply A5|].
    split; [exists L; split; [apply A6|exact A7]|]. left. destruct A8 as [A8|(? & ? & ? & E & _)]; [exact A8|discriminate].
  - destruct A4 as (s' & k' & -> & A4). eexists. split; [apply st_direct_raise; exact Ef|]. split; [|auto]. split; [reflexivity|]. split; [reflexivity|discriminate].
  - destruct A4 as (s' & k' & -> & A4). eexists. split; [apply st_tx; exact Ef|]. split; [|auto]. split; [reflexivity|]. split; [reflexivity|].
    intros _. cbn. do 3 (split; [reflexivity|]). split; [apply A4|]. apply jeq_refl_l in A5. split; [apply A5|].
    split; [exists L; split; [apply A6|exact A7]|]. left. destruct A8 as [A8|(? & ? & ? & E & _)]; [exact A8|discriminate].
  - destruct A4 as (s' & k' & -> & A4). eexists. split; [apply st_tx_raise; exact Ef|]. split; [|auto]. split; [reflexivity|]. split; [reflexivity|discriminate].
  - destruct A4 as (p' & -> & A4). eexists. split; [apply st_begin|]. split; [|auto]. split; [reflexivity|]. split; [reflexivity|].
    intros _. cbn. do 3 (split; [reflexivity|]). split; [apply A4|]. apply jeq_refl_l in A5. split; [apply A5|].
    split; [exists L; split; [apply A6|exact A7]|]. left. destruct A8 as [A8|(? & ? & ? & E & _)]; [exact A8|discriminate].
  - eexists. split; [apply st_refresh|]. split; [|auto]. split; [reflexivity|]. split; [reflexivity|].
    intros _. cbn. do 3 (split; [reflexivity|]). split; [exact A4|]. split; [exact A5|]. split; [eauto|exact A8].
  - destruct A4 as (s' & p' & -> & A4). eexists. split; [apply st_commit; exact Hk|]. split; [|auto]. split; [reflexivity|]. split; [reflexivity|].
    intros _. cbn. do 3 (split; [reflexivity|]). split; [apply A4|]. apply jeq_refl_l in A5. split; [apply A5|].
    split; [exists L; split; [apply A6|exact A7]|]. left. destruct A8 as [A8|(? & ? & ? & E & _)]; [exact A8|discriminate].
  - eexists. split; [apply st_fail; [reflexivity|]|split; [split; [reflexivity|split; [reflexivity|discriminate]]|auto]].
    cbn [c_prog]. intros s r E. subst p. destruct j as [r'|c k|f k|j|j]; [now apply (N1 r')|now apply (N2 c k)|..]; cbn [follows] in A4.
    + destruct A4 as (? & ? & ? & _). discriminate.
    + destruct A4 as (? & ? & _). discriminate.
    + destruct A4 as (? & ? & ? & _). discriminate.
  - eexists. split; [apply st_crash; reflexivity|]. split; [|auto]. split; [reflexivity|split; [reflexivity|discriminate]].
Qed.

(** ** The invariant *)
Definition there (w : world Sky) (x : nat + nat) : Prop :=
  match x with inl n => w_regs w n <> None | inr i => nth_error (w_others w) i <> None end.
Record winv (r0 : registry) (w : world Sky) (cs : list (client Sky)) (pos : nat + nat -> nat) : Prop := {
  wi_steps : sys_steps offset (r0, []) (w_repo w, cs);
  wi_sched : schedule offset d s0 (w_proc w);
  wi_regs : forall n t, w_regs w n = Some t -> exists c, nth_error cs (pos (inl n)) = Some c /\ rel (w_proc w) n t c;
  wi_others : forall i c, nth_error (w_others w) i = Some c -> nth_error cs (pos (inr i)) = Some c;
  wi_inj : forall x y, there w x -> there w y -> pos x = pos y -> x = y }.

Lemma nth_len {A} (l : list A) n x : nth_error l n = Some x -> (n < Datatypes.length l)%nat.
Proof. intros H. apply nth_error_Some. congruence. Qed.
Lemma nth_mid {A} (l1 : list A) x l2 : nth_error (l1 ++ x :: l2) (Datatypes.length l1) = Some x.
Proof. rewrite nth_error_app2 by lia. now rewrite Nat.sub_diag. Qed.
Lemma nth_mid_other {A} (l1 : list A) x y l2 n : n <> Datatypes.length l1 -> nth_error (l1 ++ x :: l2) n = nth_error (l1 ++ y :: l2) n.
Proof.
  intros Hn. destruct (Nat.lt_ge_cases n (Datatypes.length l1)).
  - now rewrite !nth_error_app1 by assumption.
  - rewrite !nth_error_app2 by assumption. destruct (n - Datatypes.length l1)%nat eqn:E; [lia|reflexivity].
Qed.
Lemma nth_snoc {A} (l : list A) x n y : nth_error (l ++ [x]) n = Some y -> nth_error l n = Some y \/ (n = Datatypes.length l /\ y = x).
Proof.
  intros H. destruct (Nat.lt_ge_cases n (Datatypes.length l)) as [Hn|Hn].
  - rewrite nth_error_app1 in H by assumption. auto.
  - rewrite nth_error_app2 in H by assumption. destruct (n - Datatypes.length l)%nat as [|k] eqn:E; [|destruct k; discriminate].
    injection H as <-. right. split; [lia|reflexivity].
Qed.

Lemma winv_step r0 w cs pos w' : winv r0 w cs pos -> world_step offset d s0 w w' ->
  exists cs' pos', winv r0 w' cs' pos' /\ (forall n t t', w_regs w n = Some t -> w_regs w' n = Some t' -> rt_sha t' = rt_sha t /\ rt_name t' = rt_name t).
Proof.
  intros [I1 I2 I3 I4 I5] St.
  destruct St as [D ocs p regs n sha name Hn Hp|D ocs p p' regs Hp Hi|D ocs p p' regs n h m c k tx base delta Hn Hp Hs Hc'
    |D ocs p regs n h m c k a tx base delta Hn Hp|D D' ocs p regs n t t' Hn Hs|D D' ocs ocs' p regs Hs]; cbn [w_repo w_others w_proc w_regs] in *.
  - (* a thread starts *)
    exists (cs ++ [new_client offset (mkRequest d sha name s0)]).
    exists (fun x => match x with inl m => if Nat.eqb m n then Datatypes.length cs else pos x | inr _ => pos x end). split.
    + constructor; cbn [w_repo w_others w_proc w_regs].
      * eapply ss_step; [exact I1|]. apply sys_start; assumption.
      * exact I2.
      * intros m t. unfold set_reg. destruct (Nat.eqb_spec m n) as [->|Hm]; intros Ht.
        -- injection Ht as <-. eexists. split; [apply (nth_mid cs _ [])|]. now apply rel_new.
        -- destruct (I3 m t Ht) as (c & E & Hc'). exists c. split; [|exact Hc']. rewrite nth_error_app1; [exact E|exact (nth_len _ _ _ E)].
      * intros i c Hi. pose proof (I4 i c Hi) as E. rewrite nth_error_app1; [exact E|exact (nth_len _ _ _ E)].
      * assert (Hlt : forall x, there (mkWorld D ocs p (set_reg regs n (new_registrant d s0 sha name))) x -> x <> inl n ->
            (pos x < Datatypes.length cs)%nat /\ there (mkWorld D ocs p regs) x).
        { intros [m|i] Hx Hne; unfold there in *; cbn [w_regs w_others] in *.
          - unfold set_reg in Hx. destruct (Nat.eqb_spec m n) as [Em|Hm]; [exfalso; apply Hne; now rewrite Em|]. split; [|exact Hx].
            destruct (regs m) as [t|] eqn:E; [|congruence]. destruct (I3 m t E) as (c & E' & _). exact (nth_len _ _ _ E').
          - split; [|exact Hx]. destruct (nth_error ocs i) as [c|] eqn:E; [|congruence]. exact (nth_len _ _ _ (I4 i c E)). }
        set (pos' := fun x => match x with inl m => if Nat.eqb m n then Datatypes.length cs else pos x | inr _ => pos x end).
        assert (Hpos : forall x, (x = inl n /\ pos' x = Datatypes.length cs) \/ (x <> inl n /\ pos' x = pos x)).
        { intros [m|i]; unfold pos'; [destruct (Nat.eqb_spec m n) as [->|Hm]|]; [left; auto|right; split; congruence|right; split; congruence]. }
        intros x y Hx Hy. change (pos' x = pos' y -> x = y).
        destruct (Hpos x) as [[Ex ->]|[Ex ->]], (Hpos y) as [[Ey ->]|[Ey ->]].
        -- congruence.
        -- destruct (Hlt y Hy Ey). lia.
        -- destruct (Hlt x Hx Ex). lia.
        -- apply I5; [apply (Hlt x)|apply (Hlt y)]; assumption.
    + intros m t t'. unfold set_reg. destruct (Nat.eqb_spec m n) as [->|_]; [congruence|]. intros E E'. rewrite E in E'. now injection E' as <-.
  - exists cs, pos. split.
    + constructor; cbn [w_repo w_others w_proc w_regs]; try assumption; [eapply sc_step; eassumption|].
      intros n t Hn. destruct (I3 n t Hn) as (c & E & Hc'). exists c. split; [exact E|]. eapply rel_pstep; [exact Hp|apply (Hi n t Hn)|exact Hc'].
    + intros n t t' E E'. rewrite E in E'. now injection E' as <-.
  - exists cs, pos. split.
    + constructor; cbn [w_repo w_others w_proc w_regs]; try assumption; [eapply sc_step; eassumption|].
      intros n' t Hn'. destruct (I3 n' t Hn') as (cl & E & Hc''). exists cl. split; [exact E|].
      destruct (Nat.eq_dec n' n) as [->|Hne].
      * rewrite Hn in Hn'. injection Hn' as <-. eapply rel_call; eassumption.
      * destruct (pstep_one p p' Hs) as (m' & Hm'). destruct (Nat.eq_dec n m') as [->|Hne'].
        -- apply (rel_same p); [now apply Hm'|intros; eapply pstep_done; eassumption|exact Hc''].
        -- exfalso. rewrite (Hm' n Hne') in Hc'. congruence.
    + intros n' t t' E E'. rewrite E in E'. now injection E' as <-.
  - exists cs, pos. split.
    + constructor; cbn [w_repo w_others w_proc w_regs]; try assumption.
      * eapply sc_step; [exact I2|now apply ps_return].
      * intros n' t. unfold set_reg. destruct (Nat.eqb_spec n' n) as [->|Hne]; intros Hn'.
        -- injection Hn' as <-. destruct (I3 n _ Hn) as (cl & E & Hc''). exists cl. split; [exact E|]. now apply rel_answer.
        -- destruct (I3 n' t Hn') as (cl & E & Hc''). exists cl. split; [exact E|].
           apply (rel_same p); [cbn; now apply set_other|cbn; intros; apply in_or_app; auto|exact Hc''].
      * intros x y Hx Hy. apply I5; [destruct x as [m'|]|destruct y as [m'|]]; unfold there in *; cbn [w_regs] in *; try assumption;
          unfold set_reg in *; destruct (Nat.eqb_spec m' n) as [->|_]; congruence.
    + intros n' t t'. unfold set_reg. destruct (Nat.eqb_spec n' n) as [->|_]; intros E E'.
      * rewrite Hn in E. injection E as <-. injection E' as <-. auto.
      * rewrite E in E'. now injection E' as <-.
  - destruct (I3 n t Hn) as (c & E & Hc'). destruct (rel_repo p n t c D t' D' Hc' Hs) as (c' & St & Hc'' & S1 & S2).
    destruct (nth_error_split _ _ E) as (l1 & l2 & El & Ep). subst cs.
    exists (l1 ++ c' :: l2), pos. split.
    + constructor; cbn [w_repo w_others w_proc w_regs].
      * eapply ss_step; [exact I1|]. now apply sys_client.
      * exact I2.
      * intros n' t0. unfold set_reg. destruct (Nat.eqb_spec n' n) as [->|Hne]; intros Hn'.
        -- injection Hn' as <-. exists c'. split; [rewrite <- Ep; apply nth_mid|exact Hc''].
        -- destruct (I3 n' t0 Hn') as (cl & E' & Hcl). exists cl. split; [|exact Hcl]. rewrite (nth_mid_other l1 c' c); [exact E'|].
           rewrite Ep. intros Eq. apply I5 in Eq; [congruence| |]; unfold there; cbn [w_regs]; congruence.
      * intros i cl Hi. rewrite (nth_mid_other l1 c' c); [now apply I4|]. rewrite Ep. intros Eq. apply I5 in Eq; [discriminate| |]; unfold there; cbn [w_regs w_others]; congruence.
      * intros x y Hx Hy. apply I5; [destruct x as [m'|]|destruct y as [m'|]]; unfold there in *; cbn [w_regs] in *; try assumption;
          unfold set_reg in *; destruct (Nat.eqb_spec m' n) as [->|_]; congruence.
    + intros n' t0 t0'. unfold set_reg. destruct (Nat.eqb_spec n' n) as [->|_]; intros E' E''.
      * rewrite Hn in E'. injection E' as <-. injection E'' as <-. auto.
      * rewrite E' in E''. now injection E'' as <-.
  - inversion Hs; subst.
    + exists (cs ++ [new_client offset q]).
      exists (fun x => match x with inr i => if Nat.eqb i (Datatypes.length ocs) then Datatypes.length cs else pos x | inl _ => pos x end). split.
      * constructor; cbn [w_repo w_others w_proc w_regs].
        -- eapply ss_step; [exact I1|]. now apply sys_start.
        -- exact I2.
        -- intros m t Ht. destruct (I3 m t Ht) as (c & E & Hc'). exists c. split; [|exact Hc']. rewrite nth_error_app1; [exact E|exact (nth_len _ _ _ E)].
        -- intros i c Hi. destruct (Nat.eqb_spec i (Datatypes.length ocs)) as [->|Hne].
           ++ rewrite nth_mid in Hi. injection Hi as <-. apply nth_mid.
           ++ destruct (nth_snoc _ _ _ _ Hi) as [Hi'|[Hi' _]]; [|contradiction]. pose proof (I4 i c Hi') as E. rewrite nth_error_app1; [exact E|exact (nth_len _ _ _ E)].
        -- assert (Hlt : forall x, there (mkWorld D' (ocs ++ [new_client offset q]) p regs) x -> x <> inr (Datatypes.length ocs) ->
               (pos x < Datatypes.length cs)%nat /\ there (mkWorld D' ocs p regs) x).
           { intros [m|i] Hx Hne; unfold there in *; cbn [w_regs w_others] in *.
             - split; [|exact Hx]. destruct (regs m) as [t|] eqn:E; [|congruence]. destruct (I3 m t E) as (c & E' & _). exact (nth_len _ _ _ E').
             - destruct (nth_error (ocs ++ [new_client offset q]) i) as [c|] eqn:E; [|congruence].
               destruct (nth_snoc _ _ _ _ E) as [Hi'|[Hi' _]]; [|congruence]. rewrite Hi'. split; [exact (nth_len _ _ _ (I4 i c Hi'))|discriminate]. }
           set (pos' := fun x => match x with inr i => if Nat.eqb i (Datatypes.length ocs) then Datatypes.length cs else pos x | inl _ => pos x end).
           assert (Hpos : forall x, (x = inr (Datatypes.length ocs) /\ pos' x = Datatypes.length cs) \/ (x <> inr (Datatypes.length ocs) /\ pos' x = pos x)).
           { intros [m|i]; unfold pos'; [|destruct (Nat.eqb_spec i (Datatypes.length ocs)) as [->|Hm]]; [right; split; congruence|left; auto|right; split; congruence]. }
           intros x y Hx Hy. change (pos' x = pos' y -> x = y).
           destruct (Hpos x) as [[Ex ->]|[Ex ->]], (Hpos y) as [[Ey ->]|[Ey ->]].
           ++ congruence.
           ++ destruct (Hlt y Hy Ey). lia.
           ++ destruct (Hlt x Hx Ex). lia.
           ++ apply I5; [apply (Hlt x)|apply (Hlt y)]; assumption.
      * intros n t t' E E'. rewrite E in E'. now injection E' as <-.
    + pose proof (I4 (Datatypes.length cs1) c (nth_mid _ _ _)) as E.
      destruct (nth_error_split _ _ E) as (l1 & l2 & El & Ep). subst cs.
      exists (l1 ++ c' :: l2), pos. split.
      * constructor; cbn [w_repo w_others w_proc w_regs].
        -- eapply ss_step; [exact I1|]. now apply sys_client.
        -- exact I2.
        -- intros n' t0 Hn'. destruct (I3 n' t0 Hn') as (cl & E' & Hcl). exists cl. split; [|exact Hcl]. rewrite (nth_mid_other l1 c' c); [exact E'|].
           rewrite Ep. intros Eq. apply I5 in Eq; [discriminate| |]; unfold there; cbn [w_regs w_others]; [congruence|]. rewrite nth_mid. discriminate.
        -- intros i cl Hi. destruct (Nat.eq_dec i (Datatypes.length cs1)) as [->|Hne].
           ++ rewrite nth_mid in Hi. injection Hi as <-. rewrite <- Ep. apply nth_mid.
           ++ rewrite (nth_mid_other cs1 c' c) in Hi by exact Hne. rewrite (nth_mid_other l1 c' c); [now apply I4|].
              rewrite Ep. intros Eq. apply I5 in Eq; [congruence| |]; unfold there; cbn [w_regs w_others]; [congruence|]. rewrite nth_mid. discriminate.
        -- assert (Ht : forall x, there (mkWorld D' (cs1 ++ c' :: cs2) p regs) x -> there (mkWorld D (cs1 ++ c :: cs2) p regs) x).
           { intros [m|i]; unfold there; cbn [w_regs w_others]; auto. intros Hi. destruct (Nat.eq_dec i (Datatypes.length cs1)) as [->|Hne]; [rewrite nth_mid; discriminate|].
             now rewrite (nth_mid_other cs1 c c'). }
           intros x y Hx Hy. apply I5; apply Ht; assumption.
      * intros n t t' E' E''. rewrite E' in E''. now injection E'' as <-.
Qed.
Lemma happens_winv r0 w : happens offset d s0 r0 w -> exists cs pos, winv r0 w cs pos.
Proof.
  induction 1 as [|w w' _ (cs & pos & IH) St].
  - exists [], (fun _ => 0%nat). constructor; cbn [w_repo w_others w_proc w_regs].
    + apply ss_refl.
    + constructor.
    + discriminate.
    + intros i c. destruct i; discriminate.
    + intros [n|i] y H; unfold there in H; cbn [w_regs w_others] in H; [congruence|]. destruct i; cbn in H; congruence.
  - destruct (winv_step r0 w cs pos w' IH St) as (cs' & pos' & H & _). eauto.
Qed.

(** ** The threads can do whatever separate processes can *)
Definition wsteps := clos_refl_trans _ (world_step offset d s0).
Lemma happens_steps r0 w w' : happens offset d s0 r0 w -> wsteps w w' -> happens offset d s0 r0 w'.
Proof. intros H St. apply clos_rt_rtn1 in St. induction St; [exact H|]. eapply hp_step; [exact IHSt|exact H0]. Qed.
Lemma happens_schedule r0 w : happens offset d s0 r0 w -> schedule offset d s0 (w_proc w).
Proof. intros H. destruct (happens_winv r0 w H) as (cs & pos & W). apply W. Qed.

Definition idle (p : process (Sky := Sky)) : Prop := forall m, pr_threads p m = None.
(** A registering thread acts alone until its call is answered. *)
Lemma world_acts q : forall D ocs p (regs : nat -> option (registrant Sky)) n h m c k tx base delta,
  regs n = Some (mkRegistrant h m (JAsk c k) tx base delta None) -> pr_threads p n = Some (c, q) ->
  exists p' a, wsteps (mkWorld D ocs p regs) (mkWorld D ocs p' (set_reg regs n (mkRegistrant h m (k a) tx base delta None)))
    /\ pr_threads p' n = None /\ (forall m, m <> n -> pr_threads p' m = pr_threads p m) /\ pr_done p' = pr_done p ++ [(c, a)]
    /\ (schedule offset d s0 p -> schedule offset d s0 p').
Proof.
  induction q as [x|i k' IH|i t k' IH|i k' IH|v k' IH|v k' IH|k' IH|k' IH|k' IH|k' IH]; intros D ocs p regs n h m c k tx base delta Hn Hp.
  2-10: match type of Hp with pr_threads _ _ = Some (_, ?q) => assert (E : exists s' q', act q (pr_map p) = Some (s', q')) by (cbn; eauto) end;
    destruct E as (s' & q' & E); pose proof (ps_act offset d s0 p n c _ s' q' Hp E) as St; cbn [act] in E; injection E as <- <-;
    match type of St with pstep _ _ _ _ ?p1 =>
      assert (W : world_step offset d s0 (mkWorld D ocs p regs) (mkWorld D ocs p1 regs)) by
       (apply ws_threads; [exact St|]; intros n' t' Hn' _; cbn [pr_threads]; destruct (Nat.eq_dec n' n) as [->|Hne];
        [rewrite set_same, Hp; split; discriminate|rewrite set_other by assumption; tauto]);
      assert (K : exists p' a, wsteps (mkWorld D ocs p1 regs) (mkWorld D ocs p' (set_reg regs n (mkRegistrant h m (k a) tx base delta None)))
        /\ pr_threads p' n = None
        /\ (forall m, m <> n -> pr_threads p' m = pr_threads p1 m) /\ pr_done p' = pr_done p1 ++ [(c, a)]
        /\ (schedule offset d s0 p1 -> schedule offset d s0 p')) by (eapply IH; [exact Hn|apply set_same]);
      destruct K as (p' & a & K1 & K2 & K3 & K4 & K5)
    end;
    exists p', a; (split; [eapply rt_trans; [apply rt_step, W|exact K1]|]); (split; [exact K2|]); (split; [|split; [exact K4|]]);
    [intros m' Hm'; rewrite K3 by exact Hm'; cbn [pr_threads]; now apply set_other
    |intros Hs; apply K5; eapply sc_step; [exact Hs|exact St]].
  exists (mkProc (pr_map p) (set_thread (pr_threads p) n None) (pr_done p ++ [(c, x)])), x.
  split; [apply rt_step; eapply ws_answer; eassumption|]. cbn. split; [apply set_same|]. split; [intros m' Hm'; now apply set_other|].
  split; [reflexivity|]. intros Hs. eapply sc_step; [exact Hs|now apply ps_return].
Qed.
Lemma set_reg_same (regs : nat -> option (registrant Sky)) n t : set_reg regs n t n = Some t.
Proof. unfold set_reg. now rewrite Nat.eqb_refl. Qed.
Lemma set_reg_other (regs : nat -> option (registrant Sky)) n t m : m <> n -> set_reg regs n t m = regs m.
Proof. intros H. unfold set_reg. destruct (Nat.eqb_spec m n); [contradiction|reflexivity]. Qed.

Definition asks (j : job Sky) : Prop := exists c k, j = JAsk c k.
Lemma rel_after p p2 n h m c k a tx base delta cl :
  rel p n (mkRegistrant h m (JAsk c k) tx base delta None) cl -> schedule offset d s0 p2 -> pr_threads p2 n = None ->
  pr_done p2 = pr_done p ++ [(c, a)] -> rel p2 n (mkRegistrant h m (k a) tx base delta None) cl.
Proof.
  intros Hrel K5 K2 K4. destruct Hrel as (H1 & H2 & H3). split; [exact H1|]. split; [exact H2|]. intros _. destruct (H3 eq_refl) as (A1 & A2 & A3 & A4 & A5 & (L & A6 & A7) & A8).
    cbn [rt_out rt_tx rt_base rt_delta rt_job] in *. do 3 (split; [assumption|]).
    destruct A6 as (G1 & G2 & G3).
    assert (Hd : In (c, a) (pr_done p2)) by (rewrite K4; apply in_or_app; right; now left).
    pose proof (Hconc p2 c a K5 G2 Hd) as Ha.
    assert (Ce : call_eq c c) by (inversion A5; assumption).
    assert (Ae : ans_eq a (canon c)) by (destruct c; cbn in Ce; try contradiction; exact Ha).
    apply jeq_refl_l in A5. cbn [follows] in A4.
    assert (Ae' : ans_eq (canon c) a) by (destruct a as [[]| | | |], (canon c) as [[]| | | |]; cbn in Ae |- *; try congruence;
      unfold same_tract in *; destruct Ae as (? & ? & ? & ? & ? & ? & ? & ?); do 7 (split; [congruence|]); congruence).
    split; [exact (follows_jeq _ _ (A5 _ _ Ae') _ A4)|]. split; [apply A5, ans_eq_refl|]. split; [|now left].
    exists (obtained c a ++ L). split; [apply G3|]. intros t Ht. apply in_app_or in Ht. destruct Ht as [Ht|Ht].
    - destruct c as [i| | | | | |]; try contradiction. destruct a as [[t'|]| | | |]; try contradiction.
      destruct Ht as [<-|[]]. exists i. exact Hd.
    - destruct (A7 t Ht) as (i & Hin). exists i. rewrite K4. apply in_or_app. now left.
Qed.
(** It acts alone until it is about to use the repository. *)
Lemma world_resolve j : forall D ocs p (regs : nat -> option (registrant Sky)) n h m tx base delta cl,
  regs n = Some (mkRegistrant h m j tx base delta None) -> schedule offset d s0 p -> pr_threads p n = None ->
  rel p n (mkRegistrant h m j tx base delta None) cl ->
  exists p' j' regs', wsteps (mkWorld D ocs p regs) (mkWorld D ocs p' regs') /\ ~ asks j'
    /\ regs' n = Some (mkRegistrant h m j' tx base delta None) /\ (forall m, m <> n -> regs' m = regs m)
    /\ (forall m, pr_threads p' m = pr_threads p m) /\ (forall x, In x (pr_done p) -> In x (pr_done p'))
    /\ rel p' n (mkRegistrant h m j' tx base delta None) cl.
Proof.
  induction j as [r|c k IH|f k IH|j IH|j IH]; intros D ocs p regs n h m tx base delta cl Hn Hs Hp Hrel.
  1,3-5: match type of Hn with _ = Some (mkRegistrant _ _ ?x _ _ _ _) => exists p, x, regs end; (split; [apply rt_refl|]); (split; [intros (? & ? & E); discriminate|]);
    (split; [exact Hn|]); auto.
  set (p1 := mkProc (pr_map p) (set_thread (pr_threads p) n (Some (c, call_prog offset d c))) (pr_done p)).
  assert (St : pstep offset d s0 p p1).
  { apply ps_call; [exact Hp|]. intros t Ht. destruct Hrel as (_ & _ & H3). destruct (H3 eq_refl) as (_ & _ & _ & _ & _ & (L & (H1 & _) & Hg) & _).
    destruct (Hg t (H1 t Ht)) as (i & Hi). exists i. now left. }
  assert (Hp1 : pr_threads p1 n = Some (c, call_prog offset d c)) by apply set_same.
  assert (Hs1 : schedule offset d s0 p1) by (eapply sc_step; eassumption).
  destruct (world_acts (call_prog offset d c) D ocs p1 regs n h m c k tx base delta Hn Hp1) as (p2 & a & K1 & K2 & K3 & K4 & K5).
  specialize (K5 Hs1).
  assert (Hrel1 : rel p1 n (mkRegistrant h m (JAsk c k) tx base delta None) cl) by (eapply rel_call; eassumption).
  assert (Hrel2 : rel p2 n (mkRegistrant h m (k a) tx base delta None) cl) by (eapply rel_after; eassumption).
  destruct (IH a D ocs p2 _ n h m tx base delta cl (set_reg_same regs n _) K5 K2 Hrel2) as (p3 & j' & regs' & B1 & B2 & B3 & B4 & B5 & B6 & B7).
  exists p3, j', regs'. split.
  - eapply rt_trans; [apply rt_step; eapply ws_call; [exact Hn|exact Hp|exact St|exact Hp1]|]. eapply rt_trans; [exact K1|exact B1].
  - split; [exact B2|]. split; [exact B3|]. split; [intros m' Hm'; rewrite B4, set_reg_other; auto|].
    split; [|split; [|exact B7]].
    + intros m'. rewrite B5. destruct (Nat.eq_dec m' n) as [->|Hne]; [now rewrite K2|]. rewrite K3 by assumption. cbn. now apply set_other.
    + intros x Hx. apply B6. rewrite K4. apply in_or_app. now left.
Qed.
Lemma world_resolve_call D ocs p (regs : nat -> option (registrant Sky)) n h m j tx base delta cl :
  regs n = Some (mkRegistrant h m j tx base delta None) -> schedule offset d s0 p ->
  rel p n (mkRegistrant h m j tx base delta None) cl ->
  exists p' j' regs', wsteps (mkWorld D ocs p regs) (mkWorld D ocs p' regs') /\ ~ asks j'
    /\ regs' n = Some (mkRegistrant h m j' tx base delta None) /\ (forall m, m <> n -> regs' m = regs m)
    /\ (forall m, m <> n -> pr_threads p' m = pr_threads p m).
Proof.
  intros Hn Hs Hrel. pose proof Hrel as (_ & _ & H3). destruct (H3 eq_refl) as (_ & _ & _ & _ & _ & _ & [Hp|(c & k & q & Ej & Hp)]).
  - destruct (world_resolve j D ocs p regs n h m tx base delta cl Hn Hs Hp Hrel) as (p' & j' & regs' & B1 & B2 & B3 & B4 & B5 & _).
    exists p', j', regs'. auto 10.
  - cbn [rt_job] in Ej. subst j.
    destruct (world_acts q D ocs p regs n h m c k tx base delta Hn Hp) as (p2 & a & K1 & K2 & K3 & K4 & K5). specialize (K5 Hs).
    assert (Hrel2 : rel p2 n (mkRegistrant h m (k a) tx base delta None) cl) by (eapply rel_after; eassumption).
    destruct (world_resolve (k a) D ocs p2 _ n h m tx base delta cl (set_reg_same regs n _) K5 K2 Hrel2) as (p' & j' & regs' & B1 & B2 & B3 & B4 & B5 & _).
    exists p', j', regs'. split; [eapply rt_trans; [exact K1|exact B1]|]. split; [exact B2|]. split; [exact B3|].
    split; [intros x Hx; rewrite B4, set_reg_other; auto|]. intros x Hx. rewrite B5. auto.
Qed.
Lemma rel_intro p n t q pr tx base delta o :
  q = request_of t -> o = rt_out t ->
  (rt_out t = None -> tx = rt_tx t /\ base = rt_base t /\ delta = rt_delta t /\ follows (rt_job t) pr /\ jeq (rt_job t) (rt_job t)
      /\ (exists L, honest (sd_num d) L (rt_job t) /\ got L p) /\ pr_threads p n = None) ->
  rel p n t (mkClient q pr tx base delta o).
Proof. intros H1 H2 H3. split; [exact H1|]. split; [exact H2|]. intros Ho. destruct (H3 Ho) as (? & ? & ? & ? & ? & ? & ?). auto 10. Qed.

Lemma world_mimic D ocs p (regs : nat -> option (registrant Sky)) n t c D' c' :
  regs n = Some t -> schedule offset d s0 p -> idle p -> rel p n t c -> client_step D c D' c' ->
  exists p' regs' t', wsteps (mkWorld D ocs p regs) (mkWorld D' ocs p' regs') /\ idle p'
    /\ regs' n = Some t' /\ (forall m, m <> n -> regs' m = regs m) /\ (forall x, In x (pr_done p) -> In x (pr_done p')) /\ rel p' n t' c'.
Proof.
  intros Hn Hs Hid Hrel St.
  assert (Ho : c_out c = None) by (destruct St; try reflexivity; assumption).
  assert (Hko : rt_out t = None) by (destruct Hrel as (_ & E & _); congruence).
  destruct t as [h m j tx base delta o]. cbn [rt_out] in Hko. subst o.
  destruct (world_resolve j D ocs p regs n h m tx base delta c Hn Hs (Hid n) Hrel) as (p' & j' & regs' & B1 & B2 & B3 & B4 & B5 & B6 & B7).
  assert (Hid' : idle p') by (intros x; rewrite B5; apply Hid).
  destruct B7 as (H1 & H2 & H3). destruct (H3 eq_refl) as (A1 & A2 & A3 & A4 & A5 & (L & A6 & A7) & _).
  assert (Hgo : forall t' Dx cx, repo_step D (mkRegistrant h m j' tx base delta None) Dx t' -> rel p' n t' cx ->
    exists p2 regs2 t2, wsteps (mkWorld D ocs p regs) (mkWorld Dx ocs p2 regs2) /\ idle p2 /\ regs2 n = Some t2
      /\ (forall m, m <> n -> regs2 m = regs m) /\ (forall x, In x (pr_done p) -> In x (pr_done p2)) /\ rel p2 n t2 cx).
  { intros t' Dx cx Rx Cx. exists p', (set_reg regs' n t'), t'. split.
    - eapply rt_trans; [exact B1|]. apply rt_step. eapply ws_repo; eassumption.
    - split; [exact Hid'|]. split; [apply set_reg_same|]. split; [intros x Hx; rewrite set_reg_other by assumption; auto|]. split; [exact B6|exact Cx]. }
  cbn [rt_out rt_tx rt_base rt_delta rt_job rt_sha rt_name] in *.
  destruct St as [D q s x b' dl tx'|D q s e b' dl tx'|D q s f k b' dl D' b Ef|D q s f k b' dl e Ef|D q s f k b' dl w b Ef|D q s f k b' dl e Ef
    |D q pr b' dl|D q pr b' dl|D q s pr b' dl Hk|D c e N1 N2|D c N1];
    cbn [c_req c_out c_tx c_base c_delta c_prog] in *; subst; apply jeq_refl_l in A5.
  - destruct j' as [r|c k|f k|j'|j']; cbn [follows] in A4; [|exfalso; apply B2; unfold asks; eauto|destruct A4 as (? & ? & Ez & _); discriminate Ez|destruct A4 as (? & Ez & _); discriminate Ez|destruct A4 as (? & ? & Ez & _); discriminate Ez].
    destruct A4 as (s' & E). injection E as _ <-. eapply Hgo; [apply rs_return|]. apply rel_intro; [reflexivity|reflexivity|discriminate].
  - destruct j' as [r|c k|f k|j'|j']; cbn [follows] in A4; [|exfalso; apply B2; unfold asks; eauto|destruct A4 as (? & ? & Ez & _); discriminate Ez|destruct A4 as (? & Ez & _); discriminate Ez|destruct A4 as (? & ? & Ez & _); discriminate Ez].
    destruct A4 as (s' & E). injection E as _ <-. eapply Hgo; [apply rs_raise|]. apply rel_intro; [reflexivity|reflexivity|discriminate].
  - destruct j' as [r|c k0|f0 k0|j'|j']; cbn [follows] in A4; [destruct A4 as (? & Ez); discriminate Ez|exfalso; apply B2; unfold asks; eauto| |destruct A4 as (? & Ez & _); discriminate Ez|destruct A4 as (? & ? & Ez & _); discriminate Ez].
    destruct A4 as (s' & k' & E & A4). injection E as _ <- <-. eapply Hgo; [apply rs_direct; exact Ef|]. apply rel_intro; [reflexivity|reflexivity|].
    intros _. cbn. do 3 (split; [reflexivity|]). split; [apply A4|]. split; [apply A5|]. split; [exists L; split; [apply A6|exact A7]|apply Hid'].
  - destruct j' as [r|c k0|f0 k0|j'|j']; cbn [follows] in A4; [destruct A4 as (? & Ez); discriminate Ez|exfalso; apply B2; unfold asks; eauto| |destruct A4 as (? & Ez & _); discriminate Ez|destruct A4 as (? & ? & Ez & _); discriminate Ez].
    destruct A4 as (s' & k' & E & A4). injection E as _ <- <-. eapply Hgo; [apply rs_direct_raise; exact Ef|]. apply rel_intro; [reflexivity|reflexivity|discriminate].
  - destruct j' as [r|c k0|f0 k0|j'|j']; cbn [follows] in A4; [destruct A4 as (? & Ez); discriminate Ez|exfalso; apply B2; unfold asks; eauto| |destruct A4 as (? & Ez & _); discriminate Ez|destruct A4 as (? & ? & Ez & _); discriminate Ez].
    destruct A4 as (s' & k' & E & A4). injection E as _ <- <-. eapply Hgo; [apply rs_tx; exact Ef|]. apply rel_intro; [reflexivity|reflexivity|].
    intros _. cbn. do 3 (split; [reflexivity|]). split; [apply A4|]. split; [apply A5|]. split; [exists L; split; [apply A6|exact A7]|apply Hid'].
  - destruct j' as [r|c k0|f0 k0|j'|j']; cbn [follows] in A4; [destruct A4 as (? & Ez); discriminate Ez|exfalso; apply B2; unfold asks; eauto| |destruct A4 as (? & Ez & _); discriminate Ez|destruct A4 as (? & ? & Ez & _); discriminate Ez].
    destruct A4 as (s' & k' & E & A4). injection E as _ <- <-. eapply Hgo; [apply rs_tx_raise; exact Ef|]. apply rel_intro; [reflexivity|reflexivity|discriminate].
  - destruct j' as [r|c k0|f0 k0|j'|j']; cbn [follows] in A4; [destruct A4 as (? & Ez); discriminate Ez|exfalso; apply B2; unfold asks; eauto|destruct A4 as (? & ? & Ez & _); discriminate Ez| |destruct A4 as (? & ? & Ez & _); discriminate Ez].
    destruct A4 as (p2 & E & A4). injection E as <-. eapply Hgo; [apply rs_begin|]. apply rel_intro; [reflexivity|reflexivity|].
    intros _. cbn. do 3 (split; [reflexivity|]). split; [apply A4|]. split; [apply A5|]. split; [exists L; split; [apply A6|exact A7]|apply Hid'].
  - eapply Hgo; [apply rs_refresh|]. destruct (H3 eq_refl) as (_ & _ & _ & _ & A5' & _). apply rel_intro; [reflexivity|reflexivity|].
    intros _. cbn. do 3 (split; [reflexivity|]). split; [exact A4|]. split; [exact A5'|]. split; [eauto|apply Hid'].
  - destruct j' as [r|c k0|f0 k0|j'|j']; cbn [follows] in A4; [destruct A4 as (? & Ez); discriminate Ez|exfalso; apply B2; unfold asks; eauto|destruct A4 as (? & ? & Ez & _); discriminate Ez|destruct A4 as (? & Ez & _); discriminate Ez|].
    destruct A4 as (s' & p2 & E & A4). injection E as _ <-. eapply Hgo; [apply rs_commit; exact Hk|]. apply rel_intro; [reflexivity|reflexivity|].
    intros _. cbn. do 3 (split; [reflexivity|]). split; [apply A4|]. split; [apply A5|]. split; [exists L; split; [apply A6|exact A7]|apply Hid'].
  - eapply Hgo; [apply rs_fail|].
    + intros r E. subst j'. cbn [follows] in A4. destruct A4 as (s' & E). eapply N2. exact E.
    + intros x y E. apply B2. unfold asks. eauto.
    + apply rel_intro; [exact H1|reflexivity|discriminate].
  - eapply Hgo; [apply rs_crash|]. apply rel_intro; [exact H1|reflexivity|discriminate].
Qed.

Definition matches (w : world Sky) (cs : list (client Sky)) : Prop :=
  forall n, match w_regs w n, nth_error cs n with
            | Some t, Some c => rel (w_proc w) n t c | None, None => True | _, _ => False end.
Lemma processes_happen r0 D cs : sys_steps offset (r0, []) (D, cs) ->
  (forall c, In c cs -> rq_map (c_req c) = d /\ rq_start (c_req c) = s0) ->
  exists w, happens offset d s0 r0 w /\ w_repo w = D /\ w_others w = [] /\ idle (w_proc w) /\ matches w cs.
Proof.
  intros St. remember (r0, []) as x eqn:Ex. remember (D, cs) as y eqn:Ey. revert D cs Ey. induction St as [x|x y z St IH Hst]; intros D cs Ey Hall.
  - subst x. injection Ey as <- <-. eexists. split; [apply hp_start|]. cbn. split; [reflexivity|]. split; [reflexivity|]. split; [intros m; reflexivity|].
    intros n. cbn. now destruct n.
  - specialize (IH Ex). subst z. inversion Hst as [D0 cs0 q Hq1 Hq2 E1 [E2 E3]|D0 cs1 c cs2 D' c' Hcs E1 [E2 E3]]; subst y D cs.
    + destruct (IH D0 cs0 eq_refl) as ([Dw ow p regs] & W1 & W2 & W3 & W4 & W5).
      { intros c Hin. apply Hall, in_or_app. now left. }
      cbn [w_repo w_others w_proc] in *. subst Dw ow.
      destruct (Hall (new_client offset q)) as [Q1 Q2]; [apply in_or_app; right; now left|]. cbn [new_client c_req] in Q1, Q2.
      set (n := Datatypes.length cs0).
      assert (Hn : regs n = None).
      { specialize (W5 n). cbn [w_regs] in W5. assert (E : nth_error cs0 n = None) by (apply nth_error_None; unfold n; lia). rewrite E in W5. destruct (regs n); [contradiction|reflexivity]. }
      eexists. split; [eapply hp_step; [exact W1|]; apply ws_start with (n := n) (sha := rq_sha q) (name := rq_name q); [exact Hn|apply W4]|].
      cbn [w_repo w_others w_proc w_regs]. split; [reflexivity|]. split; [reflexivity|]. split; [exact W4|].
      intros n'. cbn [w_regs w_proc]. destruct (Nat.eq_dec n' n) as [->|Hne].
      * rewrite set_reg_same. unfold n. rewrite nth_mid. destruct q as [qd qs qn q0]. cbn in Q1, Q2 |- *. subst qd q0. apply rel_new, W4.
      * rewrite set_reg_other by exact Hne. specialize (W5 n'). cbn [w_regs w_proc] in W5.
        destruct (Nat.lt_ge_cases n' n) as [Hlt|Hge].
        -- rewrite nth_error_app1 by exact Hlt. exact W5.
        -- assert (E : nth_error cs0 n' = None) by (apply nth_error_None; exact Hge).
           assert (E' : nth_error (cs0 ++ [new_client offset q]) n' = None) by (apply nth_error_None; rewrite app_length; cbn; unfold n in *; lia).
           rewrite E in W5. rewrite E'. exact W5.
    + assert (Hreq : c_req c' = c_req c) by (destruct Hcs; reflexivity).
      destruct (IH D0 (cs1 ++ c :: cs2) eq_refl) as ([Dw ow p regs] & W1 & W2 & W3 & W4 & W5).
      { intros c0 Hin. apply in_app_or in Hin. destruct Hin as [Hin|[<-|Hin]].
        - apply Hall, in_or_app. now left.
        - rewrite <- Hreq. apply Hall, in_or_app. right. now left.
        - apply Hall, in_or_app. right. now right. }
      cbn [w_repo w_others w_proc] in *. subst Dw ow.
      pose proof (W5 (Datatypes.length cs1)) as Hc0. cbn [w_regs w_proc] in Hc0. rewrite nth_mid in Hc0.
      destruct (regs (Datatypes.length cs1)) as [t|] eqn:En; [|contradiction].
      destruct (world_mimic D0 [] p regs _ t c D' c' En (happens_schedule r0 _ W1) W4 Hc0 Hcs) as (p' & regs' & t' & M1 & M2 & M3 & M4 & M5 & M6).
      eexists. split; [eapply happens_steps; [exact W1|exact M1]|]. cbn [w_repo w_others w_proc w_regs]. split; [reflexivity|]. split; [reflexivity|]. split; [exact M2|].
      intros n'. cbn [w_regs w_proc]. destruct (Nat.eq_dec n' (Datatypes.length cs1)) as [->|Hne].
      * rewrite M3, nth_mid. exact M6.
      * rewrite M4 by exact Hne. rewrite (nth_mid_other cs1 c' c) by exact Hne. specialize (W5 n'). cbn [w_regs w_proc] in W5.
        destruct (regs n') as [t0|]; [|exact W5]. destruct (nth_error _ n') as [c0|]; [|exact W5].
        apply (rel_same p); [now rewrite M2, W4|exact M5|exact W5].
Qed.
End RegMany.
