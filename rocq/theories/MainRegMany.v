(** Several threads register the same sky map object (C97). *)
From Coq Require Import Reals String Lia Relations.
Require Import Verif.Py Verif.Geom Verif.PatchInfo Verif.TractBuilder Verif.TractInfo Verif.Spec.
Require Import Verif.SkyMap Verif.SkySpec Verif.PatchProofs Verif.TractProofs Verif.SkyProofs Verif.SkyProofs2 Verif.MainSky Verif.Examples.
Require Import Verif.Sphere Verif.Maps Verif.Rings Verif.RingsSpec Verif.Uniform Verif.MainRings2.
Require Import Verif.Register Verif.RegSpec Verif.RegProofs3 Verif.MainRegister.
Require Import Verif.Concurrent Verif.ConcProofs Verif.MainConcurrent.
Require Import Verif.Threads Verif.ThreadsProofs Verif.MainThreads Verif.RegThreads Verif.RegThreadsProofs Verif.MainRegThreads.
Require Import Verif.RegMany Verif.RegManyProofs.
Open Scope list_scope.
Open Scope Z_scope.
Local Arguments Z.mul : simpl never.

(** The answers that the calls made by [register] get do not depend on the other threads. *)
Definition steady {Sky} (offset : Sky -> R -> R -> Sky) d s0 (canon : call (Sky := Sky) -> answer (Sky := Sky)) (Rs : smstate Sky -> list (tract Sky) -> Prop) : Prop :=
  (forall c c', call_eq c c' -> ans_eq (canon c) (canon c'))
  /\ (forall s L c, Rs s L -> (forall t, call_tract c = Some t -> In t L) -> (forall i, c = CGet i -> 0 <= i < sd_num d) ->
        ans_eq (snd (seq_answer offset d c s)) (canon c)
        /\ Rs (fst (seq_answer offset d c s)) (obtained c (snd (seq_answer offset d c s)) ++ L))
  /\ (forall p c a, schedule offset d s0 p -> (forall i, c = CGet i -> 0 <= i < sd_num d) -> In (c, a) (pr_done p) ->
        match c with CGet _ | CPatch _ _ | CSeq _ _ => ans_eq a (canon c) | _ => True end)
  /\ Rs s0 [].

Lemma steady_uniform {Sky} (offset : Sky -> R -> R -> Sky) d cnt s0 :
  cfg_ok (sd_cfg d) -> sd_kind d = CachingMap -> sm_reachable offset d s0 -> uniform_counts offset d cnt ->
  exists canon Rs, steady offset d s0 canon Rs.
Proof.
  intros Hc Hk Hr Hu.
  set (b := builder_of_counts (sd_cfg d) cnt).
  set (canon := fun c : call (Sky := Sky) => match c with
     | CGet i => ATract (snd (sm_getitem offset d i s0))
     | _ => match patch_answer b c with Some a => a | None => ATract (Raise TypeError) end end).
  set (Rs := fun s (L : list (tract Sky)) => sm_reachable offset d s /\ forall t, In t L -> exists i, holds offset d i s t).
  exists canon, Rs. split; [|split; [|split]].
  - intros c c' E. destruct c as [i|t ix|t ix|t k|t co|t co|t], c' as [i'|t' ix'|t' ix'|t' k'|t' co'|t' co'|t']; cbn [call_eq] in E; try contradiction.
    + subst i'. apply ans_eq_refl.
    + destruct E as [(_ & _ & _ & _ & _ & _ & T7 & _) <-]. cbn [canon patch_answer]. unfold tract_getPatchInfo. rewrite T7. apply ans_eq_refl.
    + destruct E as [_ <-]. apply ans_eq_refl.
  - intros s L c [Hs HL] Ht Hi. destruct (call_tract c) as [t|] eqn:Et.
    + assert (E : seq_answer offset d c s = (s, match patch_answer (sm_builder s) c with Some a => a | None => ATract (Raise TypeError) end)).
      { destruct c; try discriminate Et; reflexivity. }
      rewrite E. cbn [fst snd]. assert (Eo : forall a, obtained c a = []) by (intros a; destruct c; try discriminate Et; reflexivity).
      rewrite Eo. cbn [app]. split; [|split; assumption].
      destruct (HL t (Ht t eq_refl)) as (i & Hh). rewrite (uniform_builder offset d cnt s Hc Hu Hs (holds_log_ne offset d s i t Hs Hh)).
      fold b. destruct c; try discriminate Et; apply ans_eq_refl.
    + destruct c as [i| | | | | |]; try discriminate Et. cbn [seq_answer canon]. specialize (Hi i eq_refl).
      destruct (getitem_stable offset d s i Hk Hs Hi) as (bb & Hg). pose proof (getitem_get_ok offset d s0 i bb _ Hk Hr Hg) as K.
      destruct (sm_getitem offset d i s) as [s' [t|e]] eqn:E; cbn [fst snd obtained app] in *.
      * split; [destruct (snd (sm_getitem offset d i s0)); [exact K|contradiction]|].
        destruct (getitem_holds offset d s i s' t Hs (proj1 Hi) E) as (Hs' & Ha & Hh). split; [exact Hs'|].
        intros t' [<-|Hin]; [eauto|]. destruct (HL t' Hin) as (j & Hj). exists j. exact (holds_accesses offset d s s' j t' Hs Ha Hj).
      * split; [destruct (snd (sm_getitem offset d i s0)); [contradiction|cbn; now rewrite K]|].
        assert (Ha : accesses offset d s s') by (econstructor; [constructor|exact E]).
        split; [exact (reachable_accesses offset d s s' Hs Ha)|].
        intros t' Hin. destruct (HL t' Hin) as (j & Hj). exists j. exact (holds_accesses offset d s s' j t' Hs Ha Hj).
  - intros p c a Hs Hi Hin. destruct (uniform_pinv offset d cnt s0 p Hc Hk Hr Hu Hs) as [_ _ _ D].
    destruct (D _ _ Hin) as (bb & _ & HQ). unfold uniform_call in HQ. destruct (call_tract c) as [t|] eqn:Et.
    + destruct HQ as [_ HQ]. fold b in HQ. destruct c; try discriminate Et; try exact I; cbn [canon]; rewrite HQ; apply ans_eq_refl.
    + destruct c as [i| | | | | |]; try discriminate Et. cbn [get_call canon] in *. destruct HQ as (x & -> & HQ).
      pose proof (getitem_get_ok offset d s0 i bb _ Hk Hr HQ) as K. destruct x as [t|e], (snd (sm_getitem offset d i s0)) as [t'|e']; cbn; try contradiction; [exact K|now rewrite K].
  - split; [exact Hr|]. contradiction.
Qed.
Lemma steady_full {Sky} (offset : Sky -> R -> R -> Sky) d s0 :
  sm_reachable offset d s0 -> (forall i, 0 <= i < sd_num d -> exists t, holds offset d i s0 t) ->
  exists canon Rs, steady offset d s0 canon Rs.
Proof.
  intros Hr Hf'. exists (fun c => snd (seq_answer offset d c s0)), (fun s _ => s = s0). split; [|split; [|split]].
  - intros c c' E. destruct c as [i|t ix|t ix|t k|t co|t co|t], c' as [i'|t' ix'|t' ix'|t' k'|t' co'|t' co'|t']; cbn [call_eq] in E; try contradiction.
    + subst i'. apply ans_eq_refl.
    + destruct E as [(_ & _ & _ & _ & _ & _ & T7 & _) <-]. cbn [seq_answer patch_answer snd]. unfold tract_getPatchInfo. rewrite T7. apply ans_eq_refl.
    + destruct E as [_ <-]. apply ans_eq_refl.
  - intros s L c -> Ht Hi. split; [apply ans_eq_refl|]. destruct c as [i| | | | | |]; try reflexivity.
    destruct (Hf' i (Hi i eq_refl)) as (t & _ & Hg). cbn [seq_answer]. now rewrite Hg.
  - intros p c a Hs Hi Hin. destruct (full_schedule offset d s0 p Hr Hf' Hs) as (_ & _ & D). pose proof (D c a Hin) as ->.
    destruct c; try exact I; apply ans_eq_refl.
  - reflexivity.
Qed.
Lemma shareable_steady {Sky} (offset : Sky -> R -> R -> Sky) d s0 : cfg_ok (sd_cfg d) -> sm_reachable offset d s0 -> shareable offset d s0 ->
  exists canon Rs, steady offset d s0 canon Rs.
Proof.
  intros Hc Hr [Hk|[Hf|[Hk (cnt & Hu)]]].
  - apply steady_full; [exact Hr|]. intros i Hi. destruct (reachable_full _ _ _ Hk Hr (Z.to_nat i)) as (t & Ht); [lia|].
    exists t. apply (holds_slot offset d s0 i t Hr). auto.
  - now apply steady_full.
  - eapply steady_uniform; eassumption.
Qed.

(*@ C97: any number of threads of a process register one sky map object (all tracts exist, or all have the same patch counts), while others
    of its threads use it and other processes register sky maps in the same repository.  Whatever is done and when, it is what could have been
    done by as many processes each with a sky map object of its own: the same repository, and each registration
    has ended in the same way. *)
Lemma shared_refines_proof : forall (Sky : Type) (offset : Sky -> R -> R -> Sky) d s0 r0 w,
  cfg_ok (sd_cfg d) -> sm_reachable offset d s0 -> shareable offset d s0 -> happens offset d s0 r0 w ->
  exists cs (pos opos : nat -> nat), sys_steps offset (r0, []) (w_repo w, cs)
    /\ (forall n t, w_regs w n = Some t ->
          exists c, nth_error cs (pos n) = Some c /\ c_req c = mkRequest d (rt_sha t) (rt_name t) s0 /\ c_out c = rt_out t)
    /\ (forall i c, nth_error (w_others w) i = Some c -> nth_error cs (opos i) = Some c)
    /\ (forall n m, w_regs w n <> None -> w_regs w m <> None -> pos n = pos m -> n = m)
    /\ (forall n i, w_regs w n <> None -> nth_error (w_others w) i <> None -> pos n <> opos i)
    /\ (forall i j, nth_error (w_others w) i <> None -> nth_error (w_others w) j <> None -> opos i = opos j -> i = j).
Proof.
  intros Sky offset d s0 r0 w Hc Hr Hsh Hw.
  destruct (shareable_steady offset d s0 Hc Hr Hsh) as (canon & Rs & S1 & S2 & S3 & S4).
  destruct (happens_winv offset d canon S1 Rs S2 s0 S3 Hr Hc S4 r0 w Hw) as (cs & pos & [I1 I2 I3 I4 I5]).
  exists cs, (fun n => pos (inl n)), (fun i => pos (inr i)). split; [exact I1|]. split; [|split; [exact I4|]].
  - intros n t Hn. destruct (I3 n t Hn) as (c & E & K1 & K2 & _). exists c. auto.
  - split; [|split].
    + intros n m Hn Hm E. specialize (I5 (inl n) (inl m) Hn Hm E). congruence.
    + intros n i Hn Hi E. specialize (I5 (inl n) (inr i) Hn Hi E). discriminate.
    + intros i j Hi Hj E. specialize (I5 (inr i) (inr j) Hi Hj E). congruence.
Qed.

(*@ C97: conversely, whatever processes that register this map from this state can do, threads that share the map object can do. *)
Lemma shared_complete_proof : forall (Sky : Type) (offset : Sky -> R -> R -> Sky) d s0 r0 D cs,
  cfg_ok (sd_cfg d) -> sm_reachable offset d s0 -> shareable offset d s0 -> sys_steps offset (r0, []) (D, cs) ->
  (forall c, In c cs -> rq_map (c_req c) = d /\ rq_start (c_req c) = s0) ->
  exists w, happens offset d s0 r0 w /\ w_repo w = D /\ w_others w = []
    /\ forall n, match nth_error cs n with
       | Some c => exists t, w_regs w n = Some t /\ rt_sha t = rq_sha (c_req c) /\ rt_name t = rq_name (c_req c) /\ rt_out t = c_out c
       | None => w_regs w n = None
       end.
Proof.
  intros Sky offset d s0 r0 D cs Hc Hr Hsh St Hall.
  destruct (shareable_steady offset d s0 Hc Hr Hsh) as (canon & Rs & S1 & S2 & S3 & S4).
  destruct (processes_happen offset d canon S1 Rs S2 s0 S3 Hr Hc S4 r0 D cs St Hall) as (w & W1 & W2 & W3 & _ & W5).
  exists w. split; [exact W1|]. split; [exact W2|]. split; [exact W3|]. intros n. specialize (W5 n).
  destruct (w_regs w n) as [t|], (nth_error cs n) as [c|]; try contradiction; [|reflexivity].
  destruct W5 as (K1 & K2 & _). exists t. rewrite K1. auto.
Qed.

(*@ C97: so the records of the repository are always those left by some history of registrations made one after the other; no
    registration's records are ever there in part. *)
Lemma shared_serialisable_proof : forall (Sky : Type) (offset : Sky -> R -> R -> Sky) d s0 r0 w,
  cfg_ok (sd_cfg d) -> sm_reachable offset d s0 -> shareable offset d s0 -> reg_history offset r0 -> happens offset d s0 r0 w ->
  (exists r, reg_history offset r /\ same_records r (w_repo w)) /\ sound (w_repo w).
Proof.
  intros Sky offset d s0 r0 w Hc Hr Hsh Hh Hw.
  destruct (shared_refines_proof Sky offset d s0 r0 w Hc Hr Hsh Hw) as (cs & pos & opos & St & _).
  exact (concurrent_serialisable_proof Sky offset r0 _ cs Hh St).
Qed.

(*@ C97: a use of the repository by a registering thread leaves the records as they are, or it adds the complete records of the
    map, whose name and hash were not there; after that the registration does nothing but return normally, unless the thread is killed.  So a
    registration that raises has added nothing. *)
Lemma shared_all_or_nothing_proof : forall (Sky : Type) (offset : Sky -> R -> R -> Sky) d s0 r0 w n t t' D',
  cfg_ok (sd_cfg d) -> sm_reachable offset d s0 -> shareable offset d s0 -> reg_history offset r0 -> happens offset d s0 r0 w ->
  w_regs w n = Some t -> repo_step (w_repo w) t D' t' ->
  same_records (w_repo w) D'
  \/ exists hash s1, rt_sha t = Ok hash
       /\ ~ In (rt_name t) (map k_name (g_skymaps (w_repo w))) /\ ~ In hash (map k_hash (g_skymaps (w_repo w)))
       /\ accesses offset d s0 s1 /\ completely_registered offset d (rt_name t) hash s1 (w_repo w) D'
       /\ rt_out t' = None
       /\ forall D1 D2 t2, repo_step D1 t' D2 t2 -> D2 = D1 /\ (rt_out t2 = Some (Done tt) \/ rt_out t2 = Some Crashed).
Proof.
  intros Sky offset d s0 r0 w n t t' D' Hc Hr Hsh Hh Hw Hn Hs.
  destruct (shareable_steady offset d s0 Hc Hr Hsh) as (canon & Rs & S1 & S2 & S3 & S4).
  destruct (happens_winv offset d canon S1 Rs S2 s0 S3 Hr Hc S4 r0 w Hw) as (cs & pos & [I1 I2 I3 I4 I5]).
  destruct (I3 n t Hn) as (c & E & Hrel).
  destruct (rel_repo d canon s0 (w_proc w) n t c (w_repo w) t' D' Hrel Hs) as (c' & Hcs & Hrel' & _).
  destruct (nth_error_split _ _ E) as (l1 & l2 & -> & _).
  destruct Hrel as (K1 & K2 & _).
  destruct (concurrent_all_or_nothing_proof Sky offset r0 _ l1 c l2 D' c' Hh I1 Hcs) as [H|(hash & s1 & H)]; [now left|right].
  rewrite K1 in H. cbn [request_of rq_sha rq_name rq_map rq_start] in H. destruct H as (A1 & A2 & A3 & A4 & A5 & _ & A7 & A8).
  exists hash, s1. do 5 (split; [assumption|]). split; [destruct Hrel' as (_ & <- & _); exact A7|].
  intros D1 D2 t2 Hs2. destruct (rel_repo d canon s0 (w_proc w) n t' c' D1 t2 D2 Hrel' Hs2) as (c2 & Hcs2 & (_ & K & _) & _).
  destruct (A8 D1 D2 c2 Hcs2) as [B1 B2]. split; [exact B1|]. rewrite <- K. exact B2.
Qed.

(*@ C97: from then on, a registration that has returned normally has the map in the repository: a skymap record with its name, hash and
    number of tracts.  Of the threads that register the map under different names at most one returns normally. *)
Lemma shared_returned_proof : forall (Sky : Type) (offset : Sky -> R -> R -> Sky) d s0 r0 w,
  cfg_ok (sd_cfg d) -> sm_reachable offset d s0 -> shareable offset d s0 -> reg_history offset r0 -> happens offset d s0 r0 w ->
  (forall n t, w_regs w n = Some t -> rt_out t = Some (Done tt) ->
     exists hash k, rt_sha t = Ok hash /\ In k (g_skymaps (w_repo w))
       /\ k_name k = rt_name t /\ k_hash k = hash /\ k_tract_max k = sd_num d)
  /\ (forall n1 n2 t1 t2 hash, w_regs w n1 = Some t1 -> w_regs w n2 = Some t2 -> rt_out t1 = Some (Done tt) -> rt_out t2 = Some (Done tt) ->
        rt_sha t1 = Ok hash -> rt_sha t2 = Ok hash -> rt_name t1 = rt_name t2).
Proof.
  intros Sky offset d s0 r0 w Hc Hr Hsh Hh Hw.
  destruct (shared_refines_proof Sky offset d s0 r0 w Hc Hr Hsh Hw) as (cs & pos & opos & St & H & _).
  destruct (concurrent_returned_proof Sky offset r0 _ cs Hh St) as [R1 R2]. split.
  - intros n t Hn Ho. destruct (H n t Hn) as (c & E & K1 & K2). apply nth_error_In in E.
    destruct (R1 c E) as (hash & k & A1 & A2 & A3 & A4 & A5); [congruence|]. rewrite K1 in A1, A3, A5. exists hash, k. auto.
  - intros n1 n2 t1 t2 hash Hn1 Hn2 Ho1 Ho2 Hs1 Hs2.
    destruct (H n1 t1 Hn1) as (c1 & E1 & K1 & K2). destruct (H n2 t2 Hn2) as (c2 & E2 & L1 & L2).
    apply nth_error_In in E1, E2.
    pose proof (R2 c1 c2 hash hash E1 E2) as R. rewrite K1, K2, L1, L2 in R. cbn in R. apply R; auto.
Qed.

(*@ C97: a registering thread never waits for another thread: in every state it can go on alone until it is about to use the repository or to
    end. *)
Lemma shared_never_blocks_proof : forall (Sky : Type) (offset : Sky -> R -> R -> Sky) d s0 r0 w n t,
  cfg_ok (sd_cfg d) -> sm_reachable offset d s0 -> shareable offset d s0 -> happens offset d s0 r0 w ->
  w_regs w n = Some t -> rt_out t = None ->
  exists w' t', clos_refl_trans _ (world_step offset d s0) w w' /\ w_repo w' = w_repo w /\ w_others w' = w_others w
    /\ w_regs w' n = Some t' /\ rt_out t' = None /\ (forall c k, rt_job t' <> JAsk c k)
    /\ (forall m, m <> n -> w_regs w' m = w_regs w m /\ pr_threads (w_proc w') m = pr_threads (w_proc w) m).
Proof.
  intros Sky offset d s0 r0 w n t Hc Hr Hsh Hw Hn Ho.
  destruct (shareable_steady offset d s0 Hc Hr Hsh) as (canon & Rs & S1 & S2 & S3 & S4).
  destruct (happens_winv offset d canon S1 Rs S2 s0 S3 Hr Hc S4 r0 w Hw) as (cs & pos & [I1 I2 I3 I4 I5]).
  destruct (I3 n t Hn) as (c & E & Hrel). destruct w as [D ocs p regs], t as [h m j tx base delta o]. cbn in Ho, Hn, I2, Hrel. subst o.
  destruct (world_resolve_call offset d canon S1 s0 S3 D ocs p regs n h m j tx base delta c Hn I2 Hrel) as (p' & j' & regs' & B1 & B2 & B3 & B4 & B5).
  eexists. eexists. split; [exact B1|]. cbn [w_repo w_others w_regs w_proc]. split; [reflexivity|]. split; [reflexivity|]. split; [exact B3|].
  split; [reflexivity|]. split; [|auto]. intros x y Ej. apply B2. cbn in Ej. unfold asks. eauto.
Qed.

(*@ C97: every Rings map with the TAN or STG projection can be shared in this way. *)
Lemma shared_rings_proof : forall c S mk ov g s0, cfg_ok c -> rings_wf g -> standard_wcs S mk ->
  shareable sphere_offset (rings_def c mk ov g) s0.
Proof.
  intros c S mk ov g s0 Hc W Hm. right. right. split; [reflexivity|].
  destruct (rings_uniform_proof c S mk ov g Hc W Hm) as [(cnt & Hu) _]. eauto.
Qed.

(*@ C97: the hypotheses are met by threads that really overlap: a map of two tracts with 3 x 2 patches each; two threads register it under the
    same name.  When the second has returned normally, leaving the complete records, the first has written all its
    records in a transaction that it has not committed; or the first has returned normally too and there is still one record of each. *)
Example shared_example_proof : exists d s0, cfg_ok (sd_cfg d) /\ sm_reachable flat_offset d s0 /\ shareable flat_offset d s0
  /\ reg_history flat_offset empty_reg
  /\ forall name hash, exists D s1, completely_registered flat_offset d name hash s1 empty_reg D
     /\ (exists w t0 t1, happens flat_offset d s0 empty_reg w /\ w_repo w = D /\ w_regs w 0%nat = Some t0 /\ w_regs w 1%nat = Some t1
           /\ rt_name t0 = name /\ rt_name t1 = name /\ rt_sha t0 = Ok hash /\ rt_sha t1 = Ok hash
           /\ rt_out t0 = None /\ rt_out t1 = Some (Done tt))
     /\ (exists w t0 t1, happens flat_offset d s0 empty_reg w /\ same_records D (w_repo w) /\ w_regs w 0%nat = Some t0 /\ w_regs w 1%nat = Some t1
           /\ rt_name t0 = name /\ rt_name t1 = name
           /\ rt_out t0 = Some (Done tt) /\ rt_out t1 = Some (Done tt)).
Proof.
  destruct registration_example_proof as (s0 & E & G & U & _).
  assert (Hc : cfg_ok (sd_cfg uniform_map)) by (cbn; lia).
  assert (Hr : sm_reachable flat_offset uniform_map s0) by (exists s0; split; [exact E|constructor]).
  assert (Hsh : shareable flat_offset uniform_map s0) by (right; right; split; [reflexivity|eauto]).
  exists uniform_map, s0. split; [exact Hc|]. split; [exact Hr|]. split; [exact Hsh|]. split; [constructor|]. intros name hash.
  destruct (concurrent_same_map_proof _ flat_offset uniform_map (3, 2) name hash s0 empty_reg Hc ltac:(cbn; lia) G U Hr ltac:(constructor) ltac:(intros []) ltac:(intros []))
    as (D & c1 & s1 & Q1 & O1 & Hcomp & (c2 & St & Q2 & O2 & _) & (c2' & D2 & St' & Hsame & Q2' & O2')).
  exists D, s1. split; [exact Hcomp|]. split.
  - destruct (shared_complete_proof _ flat_offset uniform_map s0 empty_reg D [c2; c1] Hc Hr Hsh St) as (w & W1 & W2 & _ & W3).
    { intros c [<-|[<-|[]]]; [rewrite Q2|rewrite Q1]; auto. }
    destruct (W3 0%nat) as (t0 & A1 & A2 & A3 & A4). destruct (W3 1%nat) as (t1 & B1 & B2 & B3 & B4).
    rewrite Q2 in A2, A3. rewrite Q1 in B2, B3. exists w, t0, t1. do 4 (split; [assumption|]). do 4 (split; [assumption|]). split; congruence.
  - destruct (shared_complete_proof _ flat_offset uniform_map s0 empty_reg D2 [c2'; c1] Hc Hr Hsh St') as (w & W1 & W2 & _ & W3).
    { intros c [<-|[<-|[]]]; [rewrite Q2'|rewrite Q1]; auto. }
    destruct (W3 0%nat) as (t0 & A1 & A2 & A3 & A4). destruct (W3 1%nat) as (t1 & B1 & B2 & B3 & B4).
    rewrite Q2' in A2, A3. rewrite Q1 in B2, B3. exists w, t0, t1. rewrite W2. do 6 (split; [assumption|]). split; congruence.
Qed.
