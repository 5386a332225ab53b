(** Registrations by several processes at the same time (C88). *)
From Coq Require Import Reals Lra String.
Require Import Verif.Py Verif.Geom Verif.PatchInfo Verif.TractBuilder Verif.TractInfo Verif.Spec.
Require Import Verif.PatchProofs Verif.TractProofs Verif.Examples.
Require Import Verif.SkyMap Verif.SkySpec Verif.SkyProofs Verif.SkyProofs2 Verif.MainSky.
Require Import Verif.Register Verif.RegSpec Verif.RegProofs Verif.RegProofs2 Verif.RegProofs3 Verif.MainRegister.
Require Import Verif.Concurrent Verif.ConcProofs.
Open Scope list_scope.
Open Scope Z_scope.
Local Arguments Z.mul : simpl never.

(*@ C88: any number of processes register any sky maps in the same repository; their butler operations interleave
    in any way, any of them may fail or crash at any time.  At every moment the skymap, tract and patch records and
    the datasets of the repository are, in the same order, those left by some history of registrations made one after
    the other; in particular the repository is sound: no process' records are ever there in part. *)
Lemma concurrent_serialisable_proof :
  forall (Sky : Type) (offset : Sky -> R -> R -> Sky) r0 D cs,
  reg_history offset r0 -> sys_steps offset (r0, []) (D, cs) ->
  (exists r, reg_history offset r /\ same_records r D) /\ sound D.
Proof.
  intros Sky offset r0 D cs Hh St. destruct (sys_steps_inv offset _ _ (sys_inv_start offset r0 Hh) St) as [(r & H & Hs) _].
  cbn [fst] in Hs. split; [eauto|]. eapply same_records_sound; [exact Hs|]. now apply (history_sound offset).
Qed.

(*@ C88: a step of any process leaves the records as they are, or it is the commit of that process: it adds the
    complete records of its map, whose name and hash were not there; after that the process does nothing but return
    normally, unless it crashes.  So a process that raises has added nothing. *)
Lemma concurrent_all_or_nothing_proof :
  forall (Sky : Type) (offset : Sky -> R -> R -> Sky) r0 D cs1 c cs2 D' c',
  reg_history offset r0 -> sys_steps offset (r0, []) (D, cs1 ++ c :: cs2) -> client_step D c D' c' ->
  same_records D D'
  \/ exists hash s1, let q := c_req c in
       rq_sha q = Ok hash /\ ~ In (rq_name q) (map k_name (g_skymaps D)) /\ ~ In hash (map k_hash (g_skymaps D))
       /\ accesses offset (rq_map q) (rq_start q) s1
       /\ completely_registered offset (rq_map q) (rq_name q) hash s1 D D'
       /\ c_req c' = q /\ c_out c' = None
       /\ forall D1 D2 c2, client_step D1 c' D2 c2 -> D2 = D1 /\ (c_out c2 = Some (Done tt) \/ c_out c2 = Some Crashed).
Proof.
  intros Sky offset r0 D cs1 c cs2 D' c' Hh St Sc. destruct (sys_steps_inv offset _ _ (sys_inv_start offset r0 Hh) St) as [_ Hf].
  cbn [fst snd] in Hf. apply Forall_app in Hf. destruct Hf as [_ Hf]. inversion Hf as [|? ? Hci _]; subst.
  destruct (client_step_inv offset D c D' c' Hci Sc) as (Eq & _ & _ & [Hs|Hcm]); [now left|right].
  destruct Hci as (Hc & Hr & _).
  destruct (commits_wrote offset D D' c c' Hcm Hr) as (s1 & hash & nxm & nym & P & Ep & Hx & Hy & W).
  destruct (prepared_facts offset _ _ _ _ Hr P) as (nxm' & nym' & _ & Ha & Hr1 & Hnum & Hall & _ & _ & Esha & _).
  exists hash, s1. cbv zeta. split; [exact Esha|]. pose proof W as (W1 & W2 & _). split; [exact W1|]. split; [exact W2|].
  split; [exact Ha|]. split; [eapply wrote_complete; eauto|]. split; [exact Eq|]. split; [exact (proj1 Hcm)|].
  destruct Hcm as (O & T & _). destruct c' as [q' p' tx' base' delta' o']. cbn in Ep, O, T. subst p' tx' o'.
  intros D1 D2 c2 St'. inversion St'; subst; cbn; try (split; [reflexivity|]); auto.
  match goal with H : forall s r, _ <> _ |- _ => exfalso; exact (H _ _ eq_refl) end.
Qed.

(*@ C88: from then on, a process that has returned normally has its map in the repository: a skymap record with
    its name, hash and number of tracts.  So of processes registering different maps (hashes)
    under one name, or one map under different names, at most one returns normally. *)
Lemma concurrent_returned_proof :
  forall (Sky : Type) (offset : Sky -> R -> R -> Sky) r0 D cs,
  reg_history offset r0 -> sys_steps offset (r0, []) (D, cs) ->
  (forall c, In c cs -> c_out c = Some (Done tt) ->
     exists hash k, rq_sha (c_req c) = Ok hash /\ In k (g_skymaps D)
       /\ k_name k = rq_name (c_req c) /\ k_hash k = hash /\ k_tract_max k = sd_num (rq_map (c_req c)))
  /\ (forall c1 c2 h1 h2, In c1 cs -> In c2 cs -> c_out c1 = Some (Done tt) -> c_out c2 = Some (Done tt) ->
        rq_sha (c_req c1) = Ok h1 -> rq_sha (c_req c2) = Ok h2 ->
        (rq_name (c_req c1) = rq_name (c_req c2) <-> h1 = h2)).
Proof.
  intros Sky offset r0 D cs Hh St.
  destruct (concurrent_serialisable_proof Sky offset r0 D cs Hh St) as [_ Hsnd].
  destruct (sys_steps_inv offset _ _ (sys_inv_start offset r0 Hh) St) as [_ Hf]. cbn [fst snd] in Hf.
  assert (A : forall c, In c cs -> c_out c = Some (Done tt) ->
     exists hash k, rq_sha (c_req c) = Ok hash /\ In k (g_skymaps D)
       /\ k_name k = rq_name (c_req c) /\ k_hash k = hash /\ k_tract_max k = sd_num (rq_map (c_req c))).
  { intros c Hc Ho. pose proof (proj1 (Forall_forall _ _) Hf c Hc) as (_ & Hr & H). rewrite Ho in H.
    destruct H as (s1 & hash & rec & P & Hin). destruct (prepared_facts offset _ _ _ _ Hr P) as (nxm & nym & -> & _ & _ & _ & _ & _ & _ & Esha & _).
    exists hash. eexists. split; [exact Esha|]. split; [exact Hin|]. auto. }
  split; [exact A|]. intros c1 c2 h1 h2 H1 H2 O1 O2 E1 E2.
  destruct (A c1 H1 O1) as (h1' & k1 & S1 & I1 & N1 & Q1 & _). destruct (A c2 H2 O2) as (h2' & k2 & S2 & I2 & N2 & Q2 & _).
  rewrite E1 in S1. injection S1 as <-. rewrite E2 in S2. injection S2 as <-. split; intros E.
  - assert (k1 = k2) by (apply (NoDup_map_inj k_name (g_skymaps D)); [apply Hsnd|assumption|assumption|congruence]). congruence.
  - assert (k1 = k2) by (apply (NoDup_map_inj k_hash (g_skymaps D)); [apply Hsnd|assumption|assumption|congruence]). congruence.
Qed.

(*@ C88: everything a process can do alone (Register.v: any failures, crashes, results) is among the executions of the
    system: whatever the other processes have done, it can run from its start to its end without interruption, with
    the same outcome and the same repository. *)
Lemma concurrent_alone_proof :
  forall (Sky : Type) (offset : Sky -> R -> R -> Sky) r0 D cs q faults s' u' out,
  reg_history offset r0 -> sys_steps offset (r0, []) (D, cs) ->
  cfg_ok (sd_cfg (rq_map q)) -> sm_reachable offset (rq_map q) (rq_start q) ->
  register offset faults (rq_map q) (rq_sha q) (rq_name q) (rq_start q) (butler_on D) = (s', u', out) ->
  exists c', c_req c' = q /\ c_out c' = Some out /\ sys_steps offset (r0, []) (u_durable u', cs ++ [c']).
Proof.
  intros Sky offset r0 D cs q faults s' u' out Hh St Hc Hr H.
  destruct (concurrent_serialisable_proof Sky offset r0 D cs Hh St) as [_ Hsnd].
  rewrite <- run_register in H by reflexivity.
  destruct (alone_steps faults q _ false empty_registry empty_registry (butler_on D) s' u' out (register_good offset _ _ _ _) eq_refl
    (conj eq_refl (sound_keys D Hsnd)) H) as (c' & S & E1 & E2).
  exists c'. split; [exact E1|]. split; [exact E2|].
  apply (client_steps_sys offset cs [] D (new_client offset q) _ c'); [exact S|].
  eapply ss_step; [exact St|]. now constructor.
Qed.

(** The process up to the begin of its transaction. *)
Lemma register_begins {Sky} (offset : Sky -> R -> R -> Sky) q s1 hash rec D :
  prepared offset q s1 hash rec ->
  let r1 := mkReg (add_name "skymaps" (g_runs D)) (add_name "skyMap" (g_types D)) (g_skymaps D) (g_tracts D) (g_patches D) (g_datasets D) in
  exists p, prog_tx offset (rq_map q) (rq_name q) hash rec s1 = PBegin p
    /\ client_steps D (new_client offset q) r1 (mkClient q p true r1 empty_registry None)
    /\ good_prog true p.
Proof.
  intros (ts & nxm & nym & Ei & Ex & Ey & Eh & ->) r1.
  pose proof (register_good offset (rq_map q) (rq_sha q) (rq_name q) (rq_start q)) as G.
  unfold new_client. unfold register_prog in G |- *. rewrite Ei, Ex, Ey, Eh in G |- *.
  eexists. split; [reflexivity|]. split.
  - eapply cs_step; [apply st_direct; reflexivity|]. eapply cs_step; [apply st_direct; reflexivity|].
    eapply cs_step; [apply st_begin|]. constructor.
  - cbn [good_prog] in G. destruct G as (_ & G). specialize (G true). destruct G as (_ & G). specialize (G true).
    exact (proj2 G).
Qed.

(*@ C88: the hypotheses are met by executions that really overlap.  Two processes register the same map (equal patch
    counts in all tracts) under the same new name.  The second begins its transaction, then the first registers the
    map and returns.  If the second does not see that, it writes all its records, but then its commit cannot succeed
    and the records stay as the first left them, complete; if it sees it, it returns normally and adds nothing. *)
Lemma concurrent_same_map_proof :
  forall (Sky : Type) (offset : Sky -> R -> R -> Sky) d n name hash s r,
  cfg_ok (sd_cfg d) -> 0 < sd_num d -> generable offset d -> uniform_counts offset d n ->
  sm_reachable offset d s -> reg_history offset r ->
  ~ In name (map k_name (g_skymaps r)) -> ~ In hash (map k_hash (g_skymaps r)) ->
  let q := mkRequest d (Ok hash) name s in
  exists D c1 s1, c_req c1 = q /\ c_out c1 = Some (Done tt)
    /\ completely_registered offset d name hash s1 r D
    /\ (exists c2, sys_steps offset (r, []) (D, [c2; c1]) /\ c_req c2 = q /\ c_out c2 = None
          /\ (exists s2 p, c_prog c2 = PCommit s2 p) /\ completely_registered offset d name hash s1 r (merge r (c_delta c2))
          /\ (forall D' c', client_step D c2 D' c' -> D' = D /\ c_out c' <> Some (Done tt))
          /\ (forall e, exists c', client_step D c2 D c' /\ c_out c' = Some (Raised e)))
    /\ (exists c2 D2, sys_steps offset (r, []) (D2, [c2; c1]) /\ same_records D D2 /\ c_req c2 = q /\ c_out c2 = Some (Done tt)).
Proof.
  intros Sky offset d n name hash s r Hc Hnum Hgen Hu Hr Hh Hn Hha q.
  destruct (iter_total offset d s) as (s1 & ts & Ei); [intros s2 i Ha Hi; apply Hgen; [exact (reachable_accesses _ _ _ _ Hr Ha)|exact Hi]|].
  destruct (iter_spec offset d s s1 _ Hr Ei) as [_ Hi].
  pose proof (Forall2_len _ _ _ Hi) as L. rewrite zrange_length in L.
  assert (Hne : ts <> []) by (intros ->; cbn in L; lia).
  destruct (max_ok (map (fun t => fst (t_numPatches t)) ts)) as (nxm & Ex); [now destruct ts|].
  destruct (max_ok (map (fun t => snd (t_numPatches t)) ts)) as (nym & Ey); [now destruct ts|].
  set (rec := mkSkyRec name hash (sm_len d s1) nxm nym).
  assert (P : prepared offset q s1 hash rec) by (exists ts, nxm, nym; auto).
  destruct (prepared_facts offset q s1 hash rec Hr P) as (nxm' & nym' & Erec & Ha1 & Hr1 & _ & Hall & Hx & Hy & _ & Ereg).
  cbn [q rq_map rq_sha rq_name rq_start] in Erec, Ha1, Hr1, Hall, Hx, Hy, Ereg.
  destruct (register_begins offset q s1 hash rec r P) as (p & Ep & B2 & Gp).
  set (r1 := mkReg (add_name "skymaps" (g_runs r)) (add_name "skyMap" (g_types r)) (g_skymaps r) (g_tracts r) (g_patches r) (g_datasets r)) in *.
  (* the second process begins *)
  set (c2 := mkClient q p true r1 empty_registry None) in *.
  assert (S0 : sys_steps offset (r, []) (r1, [] ++ [c2])).
  { apply (client_steps_sys offset [] [] r (new_client offset q) r1 c2 B2). eapply ss_step; [apply ss_refl|].
    apply (sys_start offset r [] q Hc Hr). }
  (* the first registers the map *)
  assert (Hs1 : same_records r r1) by (repeat split).
  destruct (concurrent_serialisable_proof Sky offset r r1 _ Hh S0) as [_ Snd1].
  assert (Tail : exists u', register offset no_faults d (Ok hash) name s (butler_on r1) = (s1, u', Done tt)
     /\ completely_registered offset d name hash s1 r (u_durable u')).
  { specialize (Ereg r1). cbv zeta in Ereg. set (r2 := mkReg (add_name "skymaps" (g_runs r1)) _ _ _ _ _) in Ereg.
    assert (Hs2 : same_records r r2) by (repeat split).
    rewrite Erec in Ereg. destruct (tail_new offset d name hash nxm' nym' s1 r2 2 Hc Hr1 Hnum) as (u' & Et); try assumption.
    - eapply same_records_sound; [exact Hs2|]. now apply (history_sound offset).
    - intros i Hi'. destruct (Hall i Hi') as (t & Ht).
      destruct (all_held_last offset d s1 Hc Hr1 Hnum Hall) as (u & Hlu & Hin).
      pose proof (holds_made offset d s1 i t Hr1 Ht) as Hm.
      destruct (t_numPatches t) as [nx ny] eqn:En. destruct (t_numPatches u) as [nxl nyl] eqn:Enu.
      destruct (proj1 (patch_records_ok offset (sd_cfg d) _ u t name nx ny nxl nyl Hc Hin Hm En Enu)) as (block & Eb); [|eauto].
      pose proof (uniform_holds offset d n s1 _ _ Hu Hr1 Hlu) as U1. pose proof (uniform_holds offset d n s1 _ _ Hu Hr1 Ht) as U2.
      rewrite Enu in U1. rewrite En in U2. rewrite <- U1 in U2. injection U2 as -> ->. lia.
    - rewrite Et in Ereg. exists u'. split; [exact Ereg|].
      destruct (register_spec offset no_faults d (Ok hash) name s r1 s1 u' (Done tt) Hr Ereg)
        as (_ & [[_ Hd]|(hash' & mx & my & Esha & _ & _ & Hx2 & Hy2 & Hout)]); [now destruct (Hd tt)|].
      injection Esha as <-. destruct Hout as [[_ Hin]|Hw].
      + exfalso. apply Hn. apply (in_map k_name) in Hin. exact Hin.
      + eapply wrote_complete; eauto. }
  destruct Tail as (u' & E1 & C1).
  destruct (concurrent_alone_proof Sky offset r r1 _ q no_faults s1 u' (Done tt) Hh S0 Hc Hr E1) as (c1 & Q1 & O1 & S1).
  set (D := u_durable u') in *. cbn [app] in S1.
  assert (Hrec : In rec (g_skymaps D)).
  { destruct C1 as (mx & my & _ & _ & _ & (Lx & ix & tx & Htx & Etx) & (Ly & iy & ty & Hty & Ety) & _ & -> & _).
    rewrite Erec. apply in_or_app. right. left. f_equal.
    - destruct Hx as (A & i & t & Ht & Et). pose proof (A _ _ Htx). pose proof (Lx _ _ Ht). lia.
    - destruct Hy as (A & i & t & Ht & Et). pose proof (A _ _ Hty). pose proof (Ly _ _ Ht). lia. }
  destruct (concurrent_serialisable_proof Sky offset r D _ Hh S1) as [_ SndD].
  exists D, c1, s1. split; [exact Q1|]. split; [exact O1|]. split; [exact C1|]. split.
  - (* not seen *)
    assert (Et1 : exists v, run_alone no_faults p (mkButler r1 r1 true 2) = (s1, v, Done tt)
       /\ completely_registered offset d name hash s1 r (u_durable v)).
    { specialize (Ereg r). cbv zeta in Ereg. fold r1 in Ereg.
      assert (T2 : exists v, register_tail offset no_faults d name hash rec s1 (mkButler r1 r1 false 2) = (s1, v, Done tt)
        /\ completely_registered offset d name hash s1 r (u_durable v)).
      { destruct (register_new_lemma Sky offset d name hash s r Hc Hnum Hgen Hr (history_sound offset r Hh) Hn Hha) as (sx & v & E & C).
        - intros s2 u t nx ny nxl nyl i Ha Hlu Ht Ent Enu. pose proof (reachable_accesses _ _ _ _ Hr Ha) as Hr2.
          pose proof (uniform_holds offset d n s2 _ _ Hu Hr2 Hlu) as U1. pose proof (uniform_holds offset d n s2 _ _ Hu Hr2 Ht) as U2.
          rewrite Enu in U1. rewrite Ent in U2. rewrite <- U1 in U2. injection U2 as -> ->. lia.
        - rewrite E in Ereg. pose proof (eq_sym Ereg) as Et.
          assert (sx = s1) as -> by (exact (proj1 (tail_spec offset no_faults d name hash rec s1 (mkButler r1 r1 false 2) sx v (Done tt) Hr1 Hall eq_refl eq_refl Et))).
          exists v. auto. }
      destruct T2 as (v & Et & C). exists v. split; [|exact C].
      rewrite <- run_tx in Et by reflexivity. change (prog_tx offset d name hash rec s1) with (prog_tx offset (rq_map q) (rq_name q) hash rec s1) in Et.
      rewrite Ep in Et. exact Et. }
    destruct Et1 as (v & Et1 & Cv).
    destruct (tx_run_stale q D p r1 empty_registry (mkButler r1 r1 true 2) s1 v Gp eq_refl eq_refl) as (s3 & delta & S & Ed).
    { cbn [u_work]. now rewrite merge_empty. }
    { exact Et1. }
    exists (mkClient q (PCommit s3 (PEnd s3 (Ok tt))) true r1 delta None).
    split; [exact (client_steps_sys offset [] [c1] D _ D _ S _ S1)|]. split; [reflexivity|]. split; [reflexivity|].
    split; [cbn [c_prog]; eauto|]. cbn [c_delta]. rewrite Ed in Cv.
    split; [|split].
    + destruct Cv as (mx & my & trs & blocks & lt & A1 & A2 & A3 & A4 & A5 & A6 & A7 & A8 & A9).
      exists mx, my, trs, blocks, lt. auto 12.
    + assert (Bad : ~ keys_valid (merge D delta)).
      { intros [K _ _ _ _ _ _]. destruct Cv as (mx & my & _ & _ & _ & _ & _ & _ & A4 & _). cbn in A4, K.
        apply app_inv_head in A4. rewrite A4, map_app in K. cbn in K. apply NoDup_snoc_not in K. apply K.
        apply (in_map k_name) in Hrec. exact Hrec. }
      intros D' c' St. inversion St; subst; cbn; try (split; [reflexivity|discriminate]). exfalso. auto.
    + intros e. eexists. split; [apply (st_fail D (mkClient q (PCommit s3 (PEnd s3 (Ok tt))) true r1 delta None) e); [reflexivity|discriminate]|reflexivity].
  - (* seen *)
    destruct (tail_known offset d name hash rec s1 D 2) as (v & Et & Ev).
    { rewrite (sync_known rec D rec); [|apply SndD|exact Hrec|reflexivity].
      assert (sky_rec_eqb rec rec = true) as -> by (now apply sky_rec_eqb_spec). reflexivity. }
    rewrite <- run_tx in Et by reflexivity. change (prog_tx offset d name hash rec s1) with (prog_tx offset (rq_map q) (rq_name q) hash rec s1) in Et.
    rewrite Ep in Et. cbn [run_alone u_durable u_work u_ops] in Et.
    destruct (alone_steps no_faults q p true D empty_registry (mkButler D D true 2) s1 v (Done tt) Gp eq_refl) as (c' & S & R1 & R2).
    { cbn. rewrite merge_empty. split; [reflexivity|]. split; [reflexivity|]. now apply sound_keys. }
    { exact Et. }
    exists c', (u_durable v). split; [|split; [rewrite Ev; repeat split|auto]].
    assert (S2 : client_steps D c2 (u_durable v) c').
    { eapply cs_step; [apply st_refresh|]. exact S. }
    exact (client_steps_sys offset [] [c1] D _ _ _ S2 _ S1).
Qed.

(*@ C88: the map of [registration_example] is such a map. *)
Example concurrent_example_proof :
  exists s0, cfg_ok (sd_cfg uniform_map) /\ 0 < sd_num uniform_map /\ generable flat_offset uniform_map
    /\ uniform_counts flat_offset uniform_map (3, 2) /\ sm_reachable flat_offset uniform_map s0
    /\ reg_history flat_offset (mkReg [] [] [] [] [] []).
Proof.
  destruct registration_example_proof as (s0 & E & G & U & _). exists s0. split; [cbn; lia|]. split; [cbn; lia|].
  split; [exact G|]. split; [exact U|]. split; [exists s0; split; [exact E|constructor]|constructor].
Qed.
