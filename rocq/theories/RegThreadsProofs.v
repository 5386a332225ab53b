(** Proofs about a registration while other threads use the map. *)
From Coq Require Import Reals String Lia.
Require Import Verif.Py Verif.Geom Verif.PatchInfo Verif.TractBuilder Verif.TractInfo Verif.Spec.
Require Import Verif.SkyMap Verif.SkySpec Verif.PatchProofs Verif.TractProofs Verif.SkyProofs Verif.SkyProofs2.
Require Import Verif.Register Verif.RegSpec.
Require Import Verif.RegProofs Verif.RegProofs2 Verif.RegProofs3.
Require Verif.Concurrent Verif.ConcProofs.
Require Import Verif.Threads Verif.ThreadsProofs Verif.RegThreads.
Open Scope list_scope.
Open Scope Z_scope.
Local Arguments Z.mul : simpl never.

Section RegThreads.
Context {Sky : Type}.
Variable offset : Sky -> R -> R -> Sky.
Notation registry := (registry Sky).
Notation call := (call (Sky := Sky)).
Notation answer := (answer (Sky := Sky)).

(** ** The job of a thread that is alone is [register] *)
Section Adequate.
Variable faults : nat -> fault.
Variable d : skydef Sky.
Notation run_job := (run_job offset faults d).
Notation after := (ConcProofs.after).

Lemma run_get i k s u : run_job (job_get i k) s u =
  match sm_getitem offset d i s with
  | (s1, Ok t) => run_job (k t) s1 u
  | (s1, Raise e) => (s1, Concurrent.rolled_back u, Raised e)
  end.
Proof. cbn [job_get RegThreads.run_job seq_answer]. destruct (sm_getitem offset d i s) as [s1 [t|e]]; reflexivity. Qed.

Lemma run_list ids : forall acc k s u, run_job (job_list ids acc k) s u =
  match smmap (fun i => smbind (sm_getitem offset d i) smret) ids s with
  | (s1, Ok ts) => run_job (k (rev acc ++ ts)) s1 u
  | (s1, Raise e) => (s1, Concurrent.rolled_back u, Raised e)
  end.
Proof.
  set (f := fun i => smbind (sm_getitem offset d i) smret).
  induction ids as [|i ids IH]; intros acc k s u; cbn [job_list smmap].
  - unfold smret. now rewrite app_nil_r.
  - rewrite run_get. unfold smbind.
    assert (Ef : f i s = match sm_getitem offset d i s with (s', Ok t) => (s', Ok t) | (s', Raise e) => (s', Raise e) end)
      by (unfold f, smbind, smret; reflexivity).
    rewrite Ef. destruct (sm_getitem offset d i s) as [s1 [t|e]]; [|reflexivity].
    rewrite IH. destruct (smmap f ids s1) as [s2 [ts|e]]; [|reflexivity].
    cbn [rev smret]. unfold smret. rewrite <- app_assoc. reflexivity.
Qed.

Lemma run_patches name t ixs : forall acc k s u, run_job (job_patches name t ixs acc k) s u =
  match (ps <- mapM (fun i => tract_getPatchInfo (sm_builder s) t (IxIndex2D (fst i) (snd i))) ixs ;;
         mapM (patch_record name (sm_builder s) t) ps) with
  | Ok recs => run_job (k (rev acc ++ recs)) s u
  | Raise e => (s, Concurrent.rolled_back u, Raised e)
  end.
Proof.
  induction ixs as [|i ixs IH]; intros acc k s u; cbn [job_patches mapM].
  - cbn [bind mapM]. now rewrite app_nil_r.
  - cbn [job_patch RegThreads.run_job seq_answer patch_answer].
    destruct (tract_getPatchInfo (sm_builder s) t (IxIndex2D (fst i) (snd i))) as [p|e]; cbn [bind]; [|reflexivity].
    cbn [job_seq RegThreads.run_job seq_answer patch_answer].
    destruct (b_numPatches (sm_builder s)) as [nx ny] eqn:En.
    assert (E : getSequentialPatchIndexFromPair (sm_builder s) (IxIndex2D (fst (p_index p)) (snd (p_index p)))
       = Ok (nx * snd (p_index p) + fst (p_index p))).
    { unfold getSequentialPatchIndexFromPair. rewrite En. reflexivity. }
    rewrite E, IH. match goal with |- context [mapM ?f ixs] => destruct (mapM f ixs) as [ps|e] end; cbn [bind mapM]; [|reflexivity].
    assert (Er : patch_record name (sm_builder s) t p = Ok (mkPatchRec name (t_id t) (nx * snd (p_index p) + fst (p_index p))
        (fst (p_index p)) (snd (p_index p)) (patch_getOuterSkyPolygon p (Some (t_wcs t))))).
    { unfold patch_record, getSequentialPatchIndex. rewrite E. reflexivity. }
    rewrite Er. cbn [bind].
    destruct (mapM (patch_record name (sm_builder s) t) ps) as [recs|e]; cbn [bind]; [|reflexivity].
    cbn [rev]. rewrite <- app_assoc. reflexivity.
Qed.

Lemma run_tract name t k s u : run_job (job_tract name t k) s u =
  after (register_tract faults name t s u) (fun s' u' => run_job k s' u').
Proof.
  unfold job_tract, register_tract. cbn [RegThreads.run_job]. rewrite ConcProofs.bop_unit. unfold bbind at 1.
  destruct (ConcProofs.bop_state faults (insertTract (mkTractRec name (t_id t) (tract_getOuterSkyPolygon t))) s u) as [E1 E2].
  destruct (bop faults _ s u) as [[s1 u1] [x|e|]]; cbn [fst snd] in E1, E2; subst s1; [|reflexivity..].
  rewrite run_patches. unfold bbind, bsky, on_tract, smbind, sm_cur_builder, smlift, patch_records, tract_iter.
  destruct (t_numPatches t) as [nx ny].
  destruct (bind _ _) as [recs|e]; [|reflexivity]. cbn [rev app RegThreads.run_job]. rewrite ConcProofs.bop_unit.
  destruct (ConcProofs.bop_state faults (insertPatches recs) s u1) as [F1 F2].
  destruct (bop faults _ s u1) as [[s2 u2] [x'|e|]]; cbn [fst snd] in F1, F2; subst s2; reflexivity.
Qed.
Lemma run_for name ids : forall k s u, run_job (job_for name ids k) s u =
  after (bfor offset d (register_tract faults name) ids s u) (fun s' u' => run_job k s' u').
Proof.
  induction ids as [|i ids IH]; intros k s u; cbn [job_for bfor]; [reflexivity|].
  rewrite run_get. unfold bbind at 1, bsky. destruct (sm_getitem offset d i s) as [s1 [t|e]]; [|reflexivity].
  rewrite run_tract. unfold bbind. destruct (register_tract faults name t s1 u) as [[s2 u2] [x|e|]]; cbn [ConcProofs.after]; [apply IH|reflexivity..].
Qed.

Lemma run_tx name hash rec s u : u_in_tx u = false ->
  run_job (JBegin (JOp (syncSkymap rec) (fun inserted =>
        if inserted then
          job_for name (zrange 0 (sd_num d))
            (JOp (Concurrent.unit_op (putSkyMap name hash)) (fun _ => JCommit (JEnd (Ok tt))))
        else JCommit (JEnd (Ok tt))))) s u = register_tail offset faults d name hash rec s u.
Proof.
  intros Hu. unfold register_tail, transaction. cbn [RegThreads.run_job].
  set (u0 := mkButler (u_durable u) (u_work u) true (u_ops u)).
  unfold bbind at 1.
  destruct (ConcProofs.bop_state faults (syncSkymap rec) s u0) as [E1 E2].
  destruct (bop faults (syncSkymap rec) s u0) as [[s1 u1] [ins|e|]]; cbn [fst snd] in E1, E2; subst s1.
  2:{ unfold Concurrent.rolled_back. now rewrite E2. }
  2:{ reflexivity. }
  destruct ins.
  - rewrite run_for. pose proof (ConcProofs.bfor_tx_flag offset faults d name (zrange 0 (sd_num d)) s u1) as E3. rewrite E2 in E3. unfold bbind.
    destruct (bfor offset d (register_tract faults name) (zrange 0 (sd_num d)) s u1) as [[s2 u2] [x|e|]]; cbn [fst snd ConcProofs.after] in E3 |- *.
    2:{ unfold Concurrent.rolled_back. now rewrite E3. }
    2:{ reflexivity. }
    cbn [RegThreads.run_job]. rewrite ConcProofs.bop_unit.
    destruct (ConcProofs.bop_state faults (putSkyMap name hash) s2 u2) as [F1 F2]. rewrite E3 in F2.
    destruct (bop faults (putSkyMap name hash) s2 u2) as [[s3 u3] [y|e|]]; cbn [fst snd] in F1, F2; subst s3.
    2:{ unfold Concurrent.rolled_back. now rewrite F2. }
    2:{ reflexivity. }
    unfold commit. destruct (faults (u_ops u3)); try reflexivity. destruct y; reflexivity.
  - cbn [RegThreads.run_job]. unfold bret, commit. destruct (faults (u_ops u1)); reflexivity.
Qed.

Lemma run_register_job sha name len s u : u_in_tx u = false ->
  (forall s1 ts, sm_iter offset d s = (s1, Ok ts) -> sm_len d s1 = len) ->
  run_job (register_job (sd_num d) len sha name) s u = register offset faults d sha name s u.
Proof.
  intros Hu Hl. unfold register_job, register. rewrite run_list. unfold bbind at 1, bsky at 1.
  change (smmap (fun i => smbind (sm_getitem offset d i) smret) (zrange 0 (sd_num d))) with (sm_iter offset d).
  assert (R : Concurrent.rolled_back u = u) by (unfold Concurrent.rolled_back; now rewrite Hu).
  destruct (sm_iter offset d s) as [s1 [ts|e]]; [|now rewrite R]. specialize (Hl s1 ts eq_refl). cbn [rev app].
  unfold bbind at 1. destruct (py_max _) as [nxm|e]; cbn [blift]; cbv [bret braise]; [|cbn [RegThreads.run_job]; now rewrite R].
  unfold bbind at 1. destruct (py_max _) as [nym|e]; cbn [blift]; cbv [bret braise]; [|cbn [RegThreads.run_job]; now rewrite R].
  unfold bbind at 1. destruct sha as [hash|e]; cbn [blift]; cbv [bret braise]; [|cbn [RegThreads.run_job]; now rewrite R].
  unfold bbind at 1, bsky at 1. rewrite Hl.
  set (rec := mkSkyRec name hash len nxm nym).
  set (J := JBegin _). cbn [RegThreads.run_job]. rewrite ConcProofs.bop_unit. unfold bbind at 1.
  destruct (ConcProofs.bop_state faults (registerRun "skymaps"%string) s1 u) as [E1 E2]. rewrite Hu in E2.
  destruct (bop faults _ s1 u) as [[s2 u1] [x|e|]]; cbn [fst snd] in E1, E2; subst s2.
  2:{ unfold Concurrent.rolled_back. now rewrite E2. }
  2:{ reflexivity. }
  cbn [RegThreads.run_job]. rewrite ConcProofs.bop_unit. unfold bbind at 1.
  destruct (ConcProofs.bop_state faults (registerDatasetType "skyMap"%string) s1 u1) as [F1 F2]. rewrite E2 in F2.
  destruct (bop faults _ s1 u1) as [[s2 u2] [y|e|]]; cbn [fst snd] in F1, F2; subst s2.
  2:{ unfold Concurrent.rolled_back. now rewrite F2. }
  2:{ reflexivity. }
  exact (run_tx name hash rec s1 u2 F2).
Qed.
End Adequate.

(** ** Answers that differ only in the identity of tract objects *)
Definition call_eq (c c' : call) : Prop :=
  match c, c' with
  | CGet i, CGet i' => i = i'
  | CPatch t ix, CPatch t' ix' => same_tract t t' /\ ix = ix'
  | CSeq t ix, CSeq t' ix' => same_tract t t' /\ ix = ix'
  | _, _ => False
  end.
Definition ans_eq (a a' : answer) : Prop :=
  match a, a' with
  | ATract (Ok t), ATract (Ok t') => same_tract t t'
  | _, _ => a = a'
  end.
Lemma same_tract_refl (t : tract Sky) : same_tract t t.
Proof. repeat split. Qed.
Lemma ans_eq_refl a : ans_eq a a.
Proof. destruct a as [[t|e]| | | |]; cbn; try reflexivity. apply same_tract_refl. Qed.

Inductive jeq : job Sky -> job Sky -> Prop :=
| je_end r : jeq (JEnd r) (JEnd r)
| je_ask c c' k k' : call_eq c c' -> (forall a a', ans_eq a a' -> jeq (k a) (k' a')) -> jeq (JAsk c k) (JAsk c' k')
| je_op f k k' : (forall b, jeq (k b) (k' b)) -> jeq (JOp f k) (JOp f k')
| je_begin j j' : jeq j j' -> jeq (JBegin j) (JBegin j')
| je_commit j j' : jeq j j' -> jeq (JCommit j) (JCommit j').

Lemma je_get i k k' : (forall t t', same_tract t t' -> jeq (k t) (k' t')) -> jeq (job_get i k) (job_get i k').
Proof.
  intros H. constructor; [reflexivity|]. intros a a' E.
  destruct a as [[t|e]| | | |], a' as [[t'|e']| | | |]; cbn in E; try discriminate E; try (injection E as <-); try constructor; auto.
Qed.
Lemma je_patch t t' i k k' : same_tract t t' -> (forall p, jeq (k p) (k' p)) -> jeq (job_patch t i k) (job_patch t' i k').
Proof.
  intros Ht H. constructor; [now split|]. intros a a' E.
  destruct a as [[?|e]|[p|e]| | |], a' as [[?|e']|[p'|e']| | |]; cbn in E; try discriminate E; try (injection E as <-); try constructor; auto.
Qed.
Lemma je_seq t t' p k k' : same_tract t t' -> (forall n, jeq (k n) (k' n)) -> jeq (job_seq t p k) (job_seq t' p k').
Proof.
  intros Ht H. constructor; [now split|]. intros a a' E.
  destruct a as [[?|e]| |[n|e]| |], a' as [[?|e']| |[n'|e']| |]; cbn in E; try discriminate E; try (injection E as <-); try constructor; auto.
Qed.
Lemma je_list ids : forall acc acc' k k', Forall2 same_tract acc acc' ->
  (forall ts ts', Forall2 same_tract ts ts' -> jeq (k ts) (k' ts')) -> jeq (job_list ids acc k) (job_list ids acc' k').
Proof.
  induction ids as [|i ids IH]; intros acc acc' k k' Ha Hk; cbn [job_list].
  - apply Hk. clear -Ha. induction Ha; cbn; [constructor|]. apply Forall2_app; auto.
  - apply je_get. intros t t' Ht. apply IH; auto.
Qed.
Lemma je_patches name t t' ixs : same_tract t t' -> forall acc k k', (forall l, jeq (k l) (k' l)) ->
  jeq (job_patches name t ixs acc k) (job_patches name t' ixs acc k').
Proof.
  intros Ht. pose proof Ht as (T1 & _ & _ & _ & _ & _ & T7 & _).
  induction ixs as [|i ixs IH]; intros acc k k' Hk; cbn [job_patches]; [apply Hk|].
  apply je_patch; [exact Ht|]. intros p. apply je_seq; [exact Ht|]. intros n. rewrite T1, T7. apply IH, Hk.
Qed.
Lemma je_tract name t t' k k' : same_tract t t' -> jeq k k' -> jeq (job_tract name t k) (job_tract name t' k').
Proof.
  intros Ht Hk. pose proof Ht as (T1 & T2 & T3 & T4 & T5 & T6 & T7 & T8). unfold job_tract, tract_getOuterSkyPolygon. rewrite T1, T5, T6, T7.
  constructor. intros b. apply je_patches; [exact Ht|]. intros l. constructor. auto.
Qed.
Lemma je_for name ids : forall k k', jeq k k' -> jeq (job_for name ids k) (job_for name ids k').
Proof.
  induction ids as [|i ids IH]; intros k k' Hk; cbn [job_for]; [exact Hk|].
  apply je_get. intros t t' Ht. apply je_tract; auto.
Qed.
Lemma je_register num len sha name : jeq (register_job num len sha name) (register_job num len sha name).
Proof.
  unfold register_job. apply je_list; [constructor|]. intros ts ts' Hts.
  assert (E : map (fun t => fst (t_numPatches t)) ts = map (fun t => fst (t_numPatches t)) ts'
           /\ map (fun t => snd (t_numPatches t)) ts = map (fun t => snd (t_numPatches t)) ts').
  { induction Hts as [|t t' ts ts' Ht _ [IH1 IH2]]; [auto|]. destruct Ht as (_ & _ & _ & _ & T5 & _). cbn [map].
    rewrite T5, IH1, IH2. auto. }
  destruct E as [-> ->]. destruct (py_max _); [|constructor]. destruct (py_max _); [|constructor].
  destruct sha; [|constructor]. constructor. intros b. constructor. intros b'. constructor. constructor.
  intros [|]; [|constructor; constructor]. apply je_for. constructor. intros. constructor. constructor.
Qed.

(** ** A job asks only tracts that it has obtained *)
Definition obtained (c : call) (a : answer) : list (tract Sky) :=
  match c, a with CGet _, ATract (Ok t) => [t] | _, _ => [] end.
Fixpoint honest (num : Z) (L : list (tract Sky)) (j : job Sky) : Prop :=
  match j with
  | JEnd _ => True
  | JAsk c k => (forall t, call_tract c = Some t -> In t L) /\ (forall i, c = CGet i -> 0 <= i < num)
      /\ forall a, honest num (obtained c a ++ L) (k a)
  | JOp _ k => forall b, honest num L (k b)
  | JBegin j | JCommit j => honest num L j
  end.
Lemma ho_get num L i k : 0 <= i < num -> (forall t, honest num (t :: L) (k t)) -> honest num L (job_get i k).
Proof.
  intros Hi H. cbn. split; [discriminate|]. split; [intros ? [= <-]; exact Hi|].
  intros [[t|e]| | | |]; try exact I. apply H.
Qed.
Lemma ho_list num ids : forall L acc k, (forall i, In i ids -> 0 <= i < num) -> (forall L ts, honest num L (k ts)) ->
  honest num L (job_list ids acc k).
Proof.
  induction ids as [|i ids IH]; intros L acc k Hi Hk; cbn [job_list]; [apply Hk|].
  apply ho_get; [apply Hi; now left|]. intros t. apply IH; [|exact Hk]. intros; apply Hi; now right.
Qed.
Lemma ho_patches num name t ixs : forall L acc k, In t L -> (forall L l, In t L -> honest num L (k l)) ->
  honest num L (job_patches name t ixs acc k).
Proof.
  induction ixs as [|i ixs IH]; intros L acc k Ht Hk; cbn [job_patches]; [now apply Hk|].
  cbn. split; [intros t' [= <-]; exact Ht|]. split; [discriminate|]. intros [| [p|]| | |]; try exact I. cbn.
  split; [intros t' [= <-]; exact Ht|]. split; [discriminate|]. intros [| |[n|]| |]; try exact I. cbn [obtained app].
  apply IH; auto.
Qed.
Lemma ho_for num name ids : forall L k, (forall i, In i ids -> 0 <= i < num) -> (forall L, honest num L k) -> honest num L (job_for name ids k).
Proof.
  induction ids as [|i ids IH]; intros L k Hi Hk; cbn [job_for]; [apply Hk|].
  apply ho_get; [apply Hi; now left|]. intros t. unfold job_tract. cbn [honest]. intros _.
  apply ho_patches; [now left|]. intros L' l _. cbn [honest]. intros _. apply IH; [|exact Hk]. intros; apply Hi; now right.
Qed.
Lemma ho_register num len sha name : honest num [] (register_job num len sha name).
Proof.
  assert (Hz : forall i, In i (zrange 0 num) -> 0 <= i < num) by (intros i Hi; apply in_zrange in Hi; lia).
  unfold register_job. apply ho_list; [exact Hz|]. intros L ts.
  destruct (py_max _); [|exact I]. destruct (py_max _); [|exact I]. destruct sha; [|exact I].
  cbn [honest]. intros _ _ [|]; [|exact I]. apply ho_for; [exact Hz|]. cbn. auto.
Qed.

(** ** The result with given answers *)
Section Canon.
Variable faults : nat -> fault.
Variable d : skydef Sky.
Variable canon : call -> answer.
Hypothesis canon_eq : forall c c', call_eq c c' -> ans_eq (canon c) (canon c').

Fixpoint crun (j : job Sky) (u : butler Sky) : butler Sky * outcome unit :=
  match j with
  | JEnd (Ok x) => (u, Done x)
  | JEnd (Raise e) => (Concurrent.rolled_back u, Raised e)
  | JAsk c k => crun (k (canon c)) u
  | JOp f k =>
      match bop faults f (mkSM [] (builder_init (sd_cfg d)) 0 []) u with
      | (_, u', Done b) => crun (k b) u'
      | (_, u', Raised e) => (Concurrent.rolled_back u', Raised e)
      | (_, u', Crashed) => (u', Crashed)
      end
  | JBegin j => crun j (mkButler (u_durable u) (u_work u) true (u_ops u))
  | JCommit j => match commit faults u with (u', Done _) => crun j u' | (u', o) => (u', o) end
  end.
Lemma bop_any {A} (f : registry -> res (registry * A)) s s' u :
  bop faults f s u = (s, snd (fst (bop faults f s' u)), snd (bop faults f s' u)).
Proof. unfold bop. destruct (faults (u_ops u)); try reflexivity; destruct (f (u_work u)) as [[w a]|e]; reflexivity. Qed.

Lemma crun_jeq j j' : jeq j j' -> forall u, crun j u = crun j' u.
Proof.
  induction 1 as [r|c c' k k' Hc _ IH|f k k' _ IH|j j' _ IH|j j' _ IH]; intros u; cbn [crun]; auto.
  - destruct (bop _ _ _ _) as [[s1 u1] [b|e|]]; auto.
  - destruct (commit faults u) as [u' [x|e|]]; auto.
Qed.

(** One thread alone. *)
Variable Rs : smstate Sky -> list (tract Sky) -> Prop.
Hypothesis Hseq : forall s L c, Rs s L -> (forall t, call_tract c = Some t -> In t L) -> (forall i, c = CGet i -> 0 <= i < sd_num d) ->
  ans_eq (snd (seq_answer offset d c s)) (canon c)
  /\ Rs (fst (seq_answer offset d c s)) (obtained c (snd (seq_answer offset d c s)) ++ L).
Lemma jeq_refl_l j : jeq j j -> match j with
  | JAsk c k => forall a a', ans_eq a a' -> jeq (k a) (k a') | JOp _ k => forall b, jeq (k b) (k b)
  | JBegin j | JCommit j => jeq j j | JEnd _ => True end.
Proof. intros H. inversion H; subst; auto. Qed.
Lemma run_crun j : forall s L u, Rs s L -> honest (sd_num d) L j -> jeq j j ->
  exists s', run_job offset faults d j s u = (s', fst (crun j u), snd (crun j u)).
Proof.
  induction j as [r|c k IH|f k IH|j IH|j IH]; intros s L u HR Hh Hj; apply jeq_refl_l in Hj; cbn [run_job crun honest] in *.
  - destruct r; eauto.
  - destruct Hh as (H1 & H2 & H3). destruct (Hseq s L c HR H1 H2) as [K1 K2].
    destruct (seq_answer offset d c s) as [s1 a]. cbn [fst snd] in K1, K2.
    destruct (IH a s1 _ u K2 (H3 a) (Hj _ _ (ans_eq_refl a))) as (s' & ->). exists s'.
    now rewrite (crun_jeq _ _ (Hj _ _ K1)).
  - rewrite (bop_any f s (mkSM [] (builder_init (sd_cfg d)) 0 [])).
    destruct (bop faults f (mkSM _ _ _ _) u) as [[s1 u1] [b|e|]]; cbn [fst snd]; [eapply IH; eauto|eauto..].
  - eapply IH; eauto.
  - destruct (commit faults u) as [u' [x|e|]]; [eapply IH; eauto|eauto..].
Qed.

(** With the other threads. *)
Variable s0 : smstate Sky.
Variable n : nat.
Hypothesis Hconc : forall p c a, schedule offset d s0 p -> (forall i, c = CGet i -> 0 <= i < sd_num d) -> In (c, a) (pr_done p) ->
  match c with CGet _ | CPatch _ _ | CSeq _ _ => ans_eq a (canon c) | _ => True end.

Lemma registering_schedule sha name r J : registering offset faults d s0 n sha name r J -> schedule offset d s0 (j_proc J).
Proof.
  induction 1 as [p Hs Hn|J J' _ IH Hs]; [exact Hs|]. destruct Hs; cbn [j_proc] in *; auto; try (eapply sc_step; eassumption).
  eapply sc_step; [exact IH|]. now apply ps_return.
Qed.

Definition jinv (res : butler Sky * outcome unit) (J : jstate Sky) : Prop :=
  match j_out J with
  | Some o => (j_butler J, o) = res
  | None =>
      crun (j_job J) (j_butler J) = res /\ jeq (j_job J) (j_job J)
      /\ (exists L, honest (sd_num d) L (j_job J) /\ forall t, In t L -> exists i, In (CGet i, ATract (Ok t)) (pr_done (j_proc J)))
      /\ (pr_threads (j_proc J) n = None \/ exists c k q, j_job J = JAsk c k /\ pr_threads (j_proc J) n = Some (c, q))
  end.
Lemma pstep_done p p' x : pstep offset d s0 p p' -> In x (pr_done p) -> In x (pr_done p').
Proof. intros H. destruct H; cbn; auto. intros; apply in_or_app; auto. Qed.
Lemma pstep_call p p' c q : pstep offset d s0 p p' -> pr_threads p n = Some (c, q) -> pr_threads p' n <> None ->
  exists q', pr_threads p' n = Some (c, q').
Proof.
  intros H Hc Hn. destruct H as [p m c' Hm _|p m c' q0 s' q' Hm Ha|p m c' a Hm]; cbn in *; destruct (Nat.eq_dec n m) as [<-|Hne];
    try rewrite set_same in *; try rewrite set_other in * by auto; try congruence; eauto.
  rewrite Hm in Hc. injection Hc as <- <-. eauto.
Qed.
Lemma jinv_step res J J' : schedule offset d s0 (j_proc J) -> jinv res J -> jstep offset faults d s0 n J J' -> jinv res J'.
Proof.
  intros Hsc HI Hs. unfold jinv in *.
  destruct Hs as [p p' j u o Hp Hi|p p' c k u Hn Hp Hc|p c k a u Hn|p f k u s' u' b Hb|p f k u s' u' e Hb|p f k u s' u' Hb|p j u|p j u u' x Hb|p j u u' o Hb Ho|p x u|p e u];
    cbn [j_out j_job j_butler j_proc] in *.
  - destruct o; [exact HI|]. destruct HI as (H1 & H2 & (L & H3 & H4) & H5). split; [exact H1|]. split; [exact H2|]. split.
    + exists L. split; [exact H3|]. intros t Ht. destruct (H4 t Ht) as (i & Hin). exists i. eapply pstep_done; eassumption.
    + destruct H5 as [H5|(c & k & q & E & H5)]; [left; now apply Hi|right].
      destruct (pstep_call p p' c q Hp H5) as (q' & Hq'); [rewrite <- Hi, H5; discriminate|eauto].
  - destruct HI as (H1 & H2 & (L & H3 & H4) & H5). split; [exact H1|]. split; [exact H2|]. split; [|eauto 8].
    exists L. split; [exact H3|]. intros t Ht. destruct (H4 t Ht) as (i & Hin). exists i. eapply pstep_done; eassumption.
  - destruct HI as (H1 & H2 & (L & H3 & H4) & H5). destruct H3 as (G1 & G2 & G3).
    set (p' := mkProc (pr_map p) (set_thread (pr_threads p) n None) (pr_done p ++ [(c, a)])).
    assert (Hs' : schedule offset d s0 p') by (eapply sc_step; [exact Hsc|now apply ps_return]).
    assert (Hd : In (c, a) (pr_done p')) by (apply in_or_app; right; now left).
    pose proof (Hconc p' c a Hs' G2 Hd) as Ha.
    assert (Ce : call_eq c c) by (inversion H2; assumption).
    assert (Ae : ans_eq a (canon c)) by (destruct c; cbn in Ce; try contradiction; exact Ha).
    apply jeq_refl_l in H2. cbn [crun] in H1.
    split; [rewrite <- H1; apply crun_jeq, H2, Ae|]. split; [apply H2, ans_eq_refl|]. split.
    + exists (obtained c a ++ L). split; [apply G3|]. intros t Ht. apply in_app_or in Ht. destruct Ht as [Ht|Ht].
      * destruct c as [i| | | | | |]; try contradiction. destruct a as [[t'|]| | | |]; try contradiction.
        destruct Ht as [<-|[]]. exists i. exact Hd.
      * destruct (H4 t Ht) as (i & Hin). exists i. apply in_or_app. now left.
    + left. apply set_same.
  - destruct HI as (H1 & H2 & (L & H3 & H4) & H5). apply jeq_refl_l in H2. cbn [crun honest] in *.
    rewrite (bop_any f _ (pr_map p)), Hb in H1. cbn [fst snd] in H1. split; [exact H1|]. split; [apply H2|].
    split; [eauto|]. left. destruct H5 as [H5|(c & k' & q & E & _)]; [exact H5|discriminate].
  - destruct HI as (H1 & _). cbn [crun] in H1. rewrite (bop_any f _ (pr_map p)), Hb in H1. exact H1.
  - destruct HI as (H1 & _). cbn [crun] in H1. rewrite (bop_any f _ (pr_map p)), Hb in H1. exact H1.
  - destruct HI as (H1 & H2 & (L & H3 & H4) & H5). apply jeq_refl_l in H2. split; [exact H1|]. split; [exact H2|].
    split; [eauto|]. left. destruct H5 as [H5|(c & k' & q & E & _)]; [exact H5|discriminate].
  - destruct HI as (H1 & H2 & (L & H3 & H4) & H5). apply jeq_refl_l in H2. cbn [crun] in H1. rewrite Hb in H1. split; [exact H1|]. split; [exact H2|].
    split; [eauto|]. left. destruct H5 as [H5|(c & k' & q & E & _)]; [exact H5|discriminate].
  - destruct HI as (H1 & _). cbn [crun] in H1. rewrite Hb in H1. destruct o as [x|e|]; [now destruct (Ho x)|exact H1..].
  - destruct HI as (H1 & _). exact H1.
  - destruct HI as (H1 & _). exact H1.
Qed.
Lemma registering_inv sha name r J : registering offset faults d s0 n sha name r J ->
  jinv (crun (register_job (sd_num d) (sm_len d s0) sha name) (butler_on r)) J.
Proof.
  induction 1 as [p Hs Hn|J J' HJ IH Hs].
  - unfold jinv. cbn [j_out j_job j_butler j_proc]. split; [reflexivity|]. split; [apply je_register|]. split; [|now left].
    exists []. split; [apply ho_register|]. contradiction.
  - eapply jinv_step; [eapply registering_schedule; exact HJ|exact IH|exact Hs].
Qed.

Lemma registering_result sha name r J out : sm_reachable offset d s0 -> Rs s0 [] ->
  registering offset faults d s0 n sha name r J -> j_out J = Some out ->
  exists s', register offset faults d sha name s0 (butler_on r) = (s', j_butler J, out).
Proof.
  intros Hr HR HJ Ho. pose proof (registering_inv _ _ _ _ HJ) as HI. unfold jinv in HI. rewrite Ho in HI.
  destruct (run_crun (register_job (sd_num d) (sm_len d s0) sha name) s0 [] (butler_on r) HR (ho_register _ _ _ _) (je_register _ _ _ _)) as (s' & E).
  rewrite run_register_job in E; [|reflexivity|].
  - exists s'. rewrite E, <- HI. reflexivity.
  - intros s1 ts Hit. unfold sm_len. destruct (sd_kind d) eqn:Hk; [reflexivity|].
    pose proof (reachable_accesses _ _ _ _ Hr (proj1 (iter_spec _ _ _ _ _ Hr Hit))) as K.
    rewrite (si_len _ _ _ _ (reachable_inv _ _ _ Hr)), (si_len _ _ _ _ (reachable_inv _ _ _ K)). reflexivity.
Qed.
End Canon.
End RegThreads.
