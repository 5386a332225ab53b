(** Proofs about concurrent registrations. *)
From Coq Require Import Reals String.
Require Import Verif.Py Verif.Geom Verif.PatchInfo Verif.TractBuilder Verif.TractInfo Verif.Spec.
Require Import Verif.PatchProofs Verif.TractProofs.
Require Import Verif.SkyMap Verif.SkySpec Verif.SkyProofs Verif.SkyProofs2 Verif.Register Verif.RegSpec.
Require Import Verif.RegProofs Verif.RegProofs2 Verif.RegProofs3 Verif.Concurrent.
Open Scope list_scope.
Open Scope Z_scope.
Local Arguments Z.mul : simpl never.

Section Concurrent.
Context {Sky : Type}.
Variable offset : Sky -> R -> R -> Sky.
Notation registry := (registry Sky).

(** ** The program is [register] *)
Section Adequate.
Variable faults : nat -> fault.

Lemma bop_unit (f : registry -> res (registry * unit)) s u :
  bop faults (unit_op f) s u = match bop faults f s u with
    | (s', u', Done _) => (s', u', Done true)
    | (s', u', Raised e) => (s', u', Raised e)
    | (s', u', Crashed) => (s', u', Crashed)
    end.
Proof.
  unfold bop, unit_op. destruct (faults (u_ops u)); try reflexivity;
    destruct (f (u_work u)) as [[w []]|e]; reflexivity.
Qed.
Lemma bop_state {A} (f : registry -> res (registry * A)) s u : fst (fst (bop faults f s u)) = s
  /\ u_in_tx (snd (fst (bop faults f s u))) = u_in_tx u.
Proof. unfold bop. destruct (faults (u_ops u)); try (split; reflexivity); destruct (f (u_work u)) as [[w a]|e]; split; reflexivity. Qed.

(** What follows a part of a transaction's body. *)
Definition after {A} (x : smstate Sky * butler Sky * outcome A) (k : smstate Sky -> butler Sky -> smstate Sky * butler Sky * outcome unit) :=
  match x with
  | (s', u', Done _) => k s' u'
  | (s', u', Raised e) => (s', rolled_back u', Raised e)
  | (s', u', Crashed) => (s', u', Crashed)
  end.

Lemma run_tract name t s k u :
  run_alone faults (prog_tract name t s k) u
  = after (register_tract faults name t s u) (fun s' u' => run_alone faults (k s') u').
Proof.
  unfold prog_tract, register_tract. cbn [run_alone]. rewrite bop_unit. unfold bbind at 1.
  destruct (bop_state (insertTract (mkTractRec name (t_id t) (tract_getOuterSkyPolygon t))) s u) as [E1 E2].
  destruct (bop faults _ s u) as [[s1 u1] [x|e|]]; cbn [fst snd] in E1, E2; subst s1; [|reflexivity..].
  unfold bbind, bsky. destruct (on_tract (patch_records name) t s) as [s1 [recs|e]]; [|reflexivity].
  cbn [run_alone]. rewrite bop_unit.
  destruct (bop_state (insertPatches recs) s1 u1) as [F1 F2].
  destruct (bop faults _ s1 u1) as [[s2 u2] [x'|e|]]; cbn [fst snd] in F1, F2; subst s2; reflexivity.
Qed.
Lemma run_for d name ids : forall s k u,
  run_alone faults (prog_for offset d name ids s k) u
  = after (bfor offset d (register_tract faults name) ids s u) (fun s' u' => run_alone faults (k s') u').
Proof.
  induction ids as [|i ids IH]; intros s k u; cbn [prog_for bfor]; [reflexivity|].
  unfold bbind at 1, bsky. destruct (sm_getitem offset d i s) as [s1 [t|e]]; [|reflexivity].
  rewrite run_tract. unfold bbind. destruct (register_tract faults name t s1 u) as [[s2 u2] [x|e|]]; cbn [after]; [apply IH|reflexivity..].
Qed.

Lemma bfor_tx_flag d name ids : forall s u, u_in_tx (snd (fst (bfor offset d (register_tract faults name) ids s u))) = u_in_tx u.
Proof.
  induction ids as [|i ids IH]; intros s u; cbn [bfor]; [reflexivity|].
  unfold bbind at 1, bsky. destruct (sm_getitem offset d i s) as [s1 [t|e]]; [|reflexivity].
  unfold bbind at 1.
  assert (K : u_in_tx (snd (fst (register_tract faults name t s1 u))) = u_in_tx u).
  { unfold register_tract. unfold bbind at 1.
    destruct (bop_state (insertTract (mkTractRec name (t_id t) (tract_getOuterSkyPolygon t))) s1 u) as [E1 E2].
    destruct (bop faults _ s1 u) as [[s2 u1] [x|e|]]; cbn [fst snd] in E1, E2; subst s2; try exact E2.
    unfold bbind, bsky. destruct (on_tract (patch_records name) t s1) as [s2 [recs|e]]; [|exact E2].
    destruct (bop_state (insertPatches recs) s2 u1) as [F1 F2]. now rewrite F2. }
  destruct (register_tract faults name t s1 u) as [[s2 u2] [x|e|]]; cbn [fst snd] in K |- *; [rewrite IH|..]; exact K.
Qed.

Lemma run_tx d name hash rec s u : u_in_tx u = false ->
  run_alone faults (prog_tx offset d name hash rec s) u = register_tail offset faults d name hash rec s u.
Proof.
  intros Hu. unfold prog_tx, register_tail, transaction. cbn [run_alone].
  set (u0 := mkButler (u_durable u) (u_work u) true (u_ops u)).
  unfold bbind at 1.
  destruct (bop_state (syncSkymap rec) s u0) as [E1 E2].
  destruct (bop faults (syncSkymap rec) s u0) as [[s1 u1] [ins|e|]]; cbn [fst snd] in E1, E2; subst s1.
  2:{ unfold rolled_back. now rewrite E2. }
  2:{ reflexivity. }
  destruct ins.
  - rewrite run_for. pose proof (bfor_tx_flag d name (zrange 0 (sd_num d)) s u1) as E3. rewrite E2 in E3. unfold bbind.
    destruct (bfor offset d (register_tract faults name) (zrange 0 (sd_num d)) s u1) as [[s2 u2] [x|e|]]; cbn [fst snd after] in E3 |- *.
    2:{ unfold rolled_back. now rewrite E3. }
    2:{ reflexivity. }
    cbn [run_alone]. rewrite bop_unit.
    destruct (bop_state (putSkyMap name hash) s2 u2) as [F1 F2]. rewrite E3 in F2.
    destruct (bop faults (putSkyMap name hash) s2 u2) as [[s3 u3] [y|e|]]; cbn [fst snd] in F1, F2; subst s3.
    2:{ unfold rolled_back. now rewrite F2. }
    2:{ reflexivity. }
    destruct (faults (u_ops u3)); try reflexivity. destruct y; reflexivity.
  - cbn [run_alone]. unfold bret. destruct (faults (u_ops u1)); reflexivity.
Qed.

Lemma run_register d sha name s u : u_in_tx u = false ->
  run_alone faults (register_prog offset d sha name s) u = register offset faults d sha name s u.
Proof.
  intros Hu. unfold register_prog, register. unfold bbind at 1, bsky at 1.
  assert (R : rolled_back u = u) by (unfold rolled_back; now rewrite Hu).
  destruct (sm_iter offset d s) as [s1 [ts|e]]; [|cbn [run_alone]; now rewrite R].
  unfold bbind at 1. destruct (py_max _) as [nxm|e]; cbn [blift]; cbv [bret braise]; [|cbn [run_alone]; now rewrite R].
  unfold bbind at 1. destruct (py_max _) as [nym|e]; cbn [blift]; cbv [bret braise]; [|cbn [run_alone]; now rewrite R].
  unfold bbind at 1. destruct sha as [hash|e]; cbn [blift]; cbv [bret braise]; [|cbn [run_alone]; now rewrite R].
  unfold bbind at 1, bsky at 1. cbn [run_alone]. rewrite bop_unit. unfold bbind at 1.
  destruct (bop_state (registerRun "skymaps"%string) s1 u) as [E1 E2]. rewrite Hu in E2.
  destruct (bop faults _ s1 u) as [[s2 u1] [x|e|]]; cbn [fst snd] in E1, E2; subst s2.
  2:{ unfold rolled_back. now rewrite E2. }
  2:{ reflexivity. }
  rewrite bop_unit. unfold bbind at 1.
  destruct (bop_state (registerDatasetType "skyMap"%string) s1 u1) as [F1 F2]. rewrite E2 in F2.
  destruct (bop faults _ s1 u1) as [[s2 u2] [y|e|]]; cbn [fst snd] in F1, F2; subst s2.
  2:{ unfold rolled_back. now rewrite F2. }
  2:{ reflexivity. }
  exact (run_tx d name hash (mkSkyRec name hash (sm_len d s1) nxm nym) s1 u2 F2).
Qed.
End Adequate.

(** ** Merging *)
Lemma since_merge (r x : registry) : since r (merge r x) = x.
Proof. destruct r, x. unfold since, merge. cbn. now rewrite !skipn_app, !skipn_all, !Nat.sub_diag. Qed.
Lemma merge_empty (r : registry) : merge r empty_registry = r.
Proof. destruct r. unfold merge. cbn. now rewrite !app_nil_r. Qed.
Lemma merge_assoc (a b c : registry) : merge (merge a b) c = merge a (merge b c).
Proof. unfold merge. cbn. now rewrite !app_assoc. Qed.

(** What each operation adds. *)
Definition add_tract (t : tract_rec Sky) : registry := mkReg [] [] [] [t] [] [].
Definition add_patches (ps : list (patch_rec Sky)) : registry := mkReg [] [] [] [] ps [].
Definition add_skymap (k : sky_rec) : registry := mkReg [] [] [k] [] [] [].
Definition add_dataset (name : string) (hash : list Z) : registry := mkReg [] [] [] [] [] [(name, hash)].
Ltac merge_eq r := destruct r; unfold merge; cbn; now rewrite ?app_nil_r.
Lemma insertTract_adds t (r r' : registry) u : insertTract t r = Ok (r', u) -> r' = merge r (add_tract t).
Proof. unfold insertTract. destruct (_ || _); [discriminate|]. intros H. injection H as <- _. merge_eq r. Qed.
Lemma insertPatches_adds ps (r r' : registry) u : insertPatches ps r = Ok (r', u) -> r' = merge r (add_patches ps).
Proof.
  unfold insertPatches. destruct (insertPatches0 ps r) as [r1|e] eqn:E; [|discriminate]. cbn [bind]. intros H. injection H as <- _.
  revert r E. induction ps as [|p ps IH]; intros r; cbn [insertPatches0].
  - intros H. injection H as <-. merge_eq r.
  - unfold insertPatch. destruct (_ || _); [discriminate|]. cbn [bind]. intros H. apply IH in H. rewrite H.
    destruct r. unfold merge, add_patches. cbn. now rewrite ?app_nil_r, <- app_assoc.
Qed.
Lemma sync_adds k (r r' : registry) ins : syncSkymap k r = Ok (r', ins) ->
  (ins = false /\ r' = r /\ In k (g_skymaps r)) \/ (ins = true /\ r' = merge r (add_skymap k)).
Proof.
  intros H. apply sync_spec in H. destruct H as [H|(-> & _ & _ & ->)]; [now left|right]. split; [reflexivity|]. merge_eq r.
Qed.
Lemma put_adds name hash (r r' : registry) u : putSkyMap name hash r = Ok (r', u) -> r' = merge r (add_dataset name hash).
Proof. unfold putSkyMap. destruct (existsb _ _); [discriminate|]. intros H. injection H as <- _. merge_eq r. Qed.
Lemma unit_op_ok (f : registry -> res (registry * unit)) r w b : unit_op f r = Ok (w, b) -> f r = Ok (w, tt).
Proof. unfold unit_op. destruct (f r) as [[w' []]|e]; [|discriminate]. cbn. intros H. injection H as <- _. reflexivity. Qed.

(** ** What a process can do *)

(** In a transaction: every way to the commit establishes [Q]. *)
Fixpoint tx_leads (Q : registry -> registry -> smstate Sky -> Prop) (p : prog Sky) (base delta : registry) : Prop :=
  match p with
  | PEnd _ (Ok _) => False
  | PEnd _ (Raise _) => True
  | POp _ f k => forall base' w b, incl (g_skymaps base) (g_skymaps base') ->
      f (merge base' delta) = Ok (w, b) -> tx_leads Q (k b) base' (since base' w)
  | PBegin _ => False
  | PCommit s p => p = PEnd s (Ok tt) /\ Q base delta s
  end.
Lemma tx_leads_mono (Q : registry -> registry -> smstate Sky -> Prop) (p : prog Sky) (base base' delta : registry) :
  (forall b b' x s, incl (g_skymaps b) (g_skymaps b') -> Q b x s -> Q b' x s) ->
  incl (g_skymaps base) (g_skymaps base') -> tx_leads Q p base delta -> tx_leads Q p base' delta.
Proof.
  intros HQ Hi. destruct p as [s [x|e]|s f k|p|s p]; cbn [tx_leads]; auto.
  - intros H b2 w b Hb. apply H. intros x Hx. auto.
  - intros [H1 H2]. split; [exact H1|]. eapply HQ; eauto.
Qed.

(** The records of the tracts [ids]. *)
Definition tract_recs (d : skydef Sky) (name : string) (s : smstate Sky) (ids : list Z) (trs : list (tract_rec Sky)) : Prop :=
  Forall2 (fun i tr => exists t, holds offset d i s t /\ tr = mkTractRec name i (tract_getOuterSkyPolygon t)) ids trs.
Definition patch_recs (d : skydef Sky) (name : string) (s : smstate Sky) (ids : list Z) (blocks : list (list (patch_rec Sky))) : Prop :=
  Forall2 (fun i block => exists t, holds offset d i s t /\ patch_records name (sm_builder s) t = Ok block) ids blocks.

Lemma for_leads d name s (Q : registry -> registry -> smstate Sky -> Prop) k : sm_reachable offset d s ->
  forall ids, (forall i, In i ids -> exists t, holds offset d i s t) ->
  forall base delta,
  (forall base' trs blocks, incl (g_skymaps base) (g_skymaps base') ->
     tract_recs d name s ids trs -> patch_recs d name s ids blocks ->
     tx_leads Q (k s) base' (merge delta (mkReg [] [] [] trs (concat blocks) []))) ->
  tx_leads Q (prog_for offset d name ids s k) base delta.
Proof.
  intros Hr. induction ids as [|i ids IH]; intros Hall base delta Hk; cbn [prog_for].
  - specialize (Hk base [] [] (incl_refl _) (Forall2_nil _) (Forall2_nil _)).
    change (mkReg [] [] [] [] (concat []) []) with (@empty_registry Sky) in Hk. now rewrite merge_empty in Hk.
  - destruct (Hall i (or_introl eq_refl)) as (t & Ht). rewrite (proj2 Ht). unfold prog_tract. cbn [tx_leads].
    intros b1 w1 x1 Hb1 E1. apply unit_op_ok, insertTract_adds in E1. rewrite merge_assoc in E1. subst w1. rewrite since_merge.
    unfold on_tract, smbind, sm_cur_builder, smlift.
    destruct (patch_records name (sm_builder s) t) as [recs|e] eqn:Er; cbn [tx_leads]; [|exact I].
    intros b2 w2 x2 Hb2 E2. apply unit_op_ok, insertPatches_adds in E2. rewrite merge_assoc in E2. subst w2. rewrite since_merge.
    apply IH; [intros j Hj; apply Hall; now right|]. intros b3 trs blocks Hb3 F1 F2.
    pose proof (holds_id offset d s i t Hr Ht) as Hid. rewrite Hid.
    specialize (Hk b3 (mkTractRec name i (tract_getOuterSkyPolygon t) :: trs) (recs :: blocks)).
    rewrite !merge_assoc. apply Hk.
    + intros y Hy. auto.
    + constructor; eauto.
    + constructor; eauto.
Qed.

(** What is known once the sky map is ready to be registered: the map's state, hash and skymap record. *)
Definition prepared (q : request Sky) (s1 : smstate Sky) (hash : list Z) (rec : sky_rec) : Prop :=
  exists ts nxm nym, sm_iter offset (rq_map q) (rq_start q) = (s1, Ok ts)
    /\ py_max (map (fun t => fst (t_numPatches t)) ts) = Ok nxm
    /\ py_max (map (fun t => snd (t_numPatches t)) ts) = Ok nym
    /\ rq_sha q = Ok hash /\ rec = mkSkyRec (rq_name q) hash (sm_len (rq_map q) s1) nxm nym.

Lemma prepared_facts q s1 hash rec : sm_reachable offset (rq_map q) (rq_start q) -> prepared q s1 hash rec ->
  exists nxm nym, rec = mkSkyRec (rq_name q) hash (sd_num (rq_map q)) nxm nym
    /\ accesses offset (rq_map q) (rq_start q) s1 /\ sm_reachable offset (rq_map q) s1
    /\ 0 < sd_num (rq_map q)
    /\ (forall i, 0 <= i < sd_num (rq_map q) -> exists t, holds offset (rq_map q) i s1 t)
    /\ largest_count offset fst (rq_map q) s1 nxm /\ largest_count offset snd (rq_map q) s1 nym
    /\ rq_sha q = Ok hash
    /\ forall r, register offset no_faults (rq_map q) (rq_sha q) (rq_name q) (rq_start q) (butler_on r)
         = register_tail offset no_faults (rq_map q) (rq_name q) hash rec s1
             (let r1 := mkReg (add_name "skymaps" (g_runs r)) (add_name "skyMap" (g_types r)) (g_skymaps r) (g_tracts r)
                              (g_patches r) (g_datasets r) in mkButler r1 r1 false 2).
Proof.
  intros Hr (ts & nxm & nym & Ei & Ex & Ey & Eh & ->). set (d := rq_map q) in *.
  destruct (iter_spec offset d _ s1 _ Hr Ei) as [Ha Hi].
  pose proof (reachable_accesses _ _ _ _ Hr Ha) as Hr1.
  pose proof (Forall2_len _ _ _ Hi) as L. rewrite zrange_length in L.
  assert (Hnum : 0 < sd_num d) by (destruct ts as [|t ts]; [cbn in Ex; discriminate|cbn in L; lia]).
  assert (Hlen : sm_len d s1 = sd_num d).
  { pose proof (reachable_inv _ _ _ Hr1) as Hinv. unfold sm_len. destruct (sd_kind d); [reflexivity|].
    rewrite (si_len _ _ _ _ Hinv). apply Z2Nat.id. lia. }
  assert (Hall : forall i, 0 <= i < sd_num d -> exists t, holds offset d i s1 t).
  { intros i Hin. apply in_zrange in Hin. destruct (Forall2_in_l _ _ _ _ Hi Hin) as (t & _ & Ht). eauto. }
  assert (Hmax : forall ax m, py_max (map (fun t => ax (t_numPatches t)) ts) = Ok m -> largest_count offset ax d s1 m).
  { intros ax m Em. apply py_max_spec in Em. destruct Em as [E1 E2]. split.
    - intros i t Ht. apply E2. apply in_map_iff. exists t. split; [reflexivity|].
      pose proof Ht as Ht'. apply (holds_slot _ _ _ _ _ Hr1) in Ht'. destruct Ht' as [Hrange _].
      apply in_zrange in Hrange. destruct (Forall2_in_l _ _ _ _ Hi Hrange) as (t' & Hin & Ht2).
      rewrite (holds_fun _ _ _ _ _ _ Ht Ht2). exact (in_combine_r _ _ _ _ Hin).
    - apply in_map_iff in E1. destruct E1 as (t & Et & Hin). clear -Hi Et Hin.
      induction Hi as [|i t' ids ts' H1 H2 IH]; [contradiction|]. destruct Hin as [->|Hin]; eauto. }
  exists nxm, nym. rewrite Hlen. split; [reflexivity|]. split; [exact Ha|]. split; [exact Hr1|]. split; [exact Hnum|].
  split; [exact Hall|]. split; [now apply Hmax|]. split; [now apply Hmax|]. split; [exact Eh|].
  intros r. unfold register. unfold bbind at 1, bsky at 1. rewrite Ei.
  unfold bbind at 1. rewrite Ex. cbn [blift]. unfold bret at 1.
  unfold bbind at 1. rewrite Ey. cbn [blift]. unfold bret at 1.
  unfold bbind at 1. rewrite Eh. cbn [blift]. unfold bret at 1.
  unfold bbind at 1, bsky at 1. rewrite Hlen. reflexivity.
Qed.

(** What has been written at the commit. *)
Definition commit_ready (q : request Sky) (s1 : smstate Sky) (hash : list Z) (rec : sky_rec)
    (base delta : registry) (s : smstate Sky) : Prop :=
  s = s1 /\ ((delta = empty_registry /\ In rec (g_skymaps base))
   \/ exists trs blocks, delta = mkReg [] [] [rec] trs (concat blocks) [(rq_name q, hash)]
        /\ tract_recs (rq_map q) (rq_name q) s1 (zrange 0 (sd_num (rq_map q))) trs
        /\ patch_recs (rq_map q) (rq_name q) s1 (zrange 0 (sd_num (rq_map q))) blocks).
Lemma commit_ready_mono q s1 hash rec b b' x s : incl (g_skymaps b) (g_skymaps b') ->
  commit_ready q s1 hash rec b x s -> commit_ready q s1 hash rec b' x s.
Proof. intros Hi [Hs [[H1 H2]|H]]; split; auto. Qed.

Lemma tx_body_leads q s1 hash rec base :
  sm_reachable offset (rq_map q) s1 ->
  (forall i, 0 <= i < sd_num (rq_map q) -> exists t, holds offset (rq_map q) i s1 t) ->
  match prog_tx offset (rq_map q) (rq_name q) hash rec s1 with
  | PBegin p => tx_leads (commit_ready q s1 hash rec) p base empty_registry
  | _ => False
  end.
Proof.
  intros Hr Hall. unfold prog_tx. cbn [tx_leads]. intros b1 w1 ins Hb1 E1. apply sync_adds in E1. rewrite merge_empty in E1.
  destruct E1 as [(-> & -> & Hin)|(-> & ->)].
  - cbn [tx_leads]. split; [reflexivity|]. split; [reflexivity|]. left. split; [|exact Hin].
    rewrite <- (merge_empty b1) at 2. apply since_merge.
  - rewrite since_merge. apply for_leads; [exact Hr|intros i Hi; apply Hall; now apply in_zrange|].
    intros b2 trs blocks Hb2 F1 F2. cbn [tx_leads]. intros b3 w3 x3 Hb3 E3. apply unit_op_ok, put_adds in E3.
    rewrite merge_assoc in E3. subst w3. rewrite since_merge. split; [reflexivity|]. split; [reflexivity|]. right.
    exists trs, blocks. split; [|split; [exact F1|exact F2]].
    unfold merge, add_skymap, add_dataset. cbn. now rewrite !app_nil_r.
Qed.

(** Outside the transaction. *)
Fixpoint leads (q : request Sky) (D : registry) (p : prog Sky) : Prop :=
  match p with
  | PEnd s (Ok _) => exists hash rec, prepared q s hash rec /\ In rec (g_skymaps D)
  | PEnd _ (Raise _) => True
  | POp _ f k => forall r r' b, f r = Ok (r', b) -> same_records r r' /\ leads q D (k b)
  | PBegin p => exists s1 hash rec, prepared q s1 hash rec
      /\ forall base, tx_leads (commit_ready q s1 hash rec) p base empty_registry
  | PCommit _ _ => False
  end.
Lemma leads_mono q D D' p : incl (g_skymaps D) (g_skymaps D') -> leads q D p -> leads q D' p.
Proof.
  intros Hi. induction p as [s [x|e]|s f k IH|p IH|s p IH]; cbn [leads]; auto.
  - intros (hash & rec & H1 & H2). eauto.
  - intros H r r' b E. destruct (H r r' b E). auto.
Qed.
Lemma register_leads q D : sm_reachable offset (rq_map q) (rq_start q) ->
  leads q D (register_prog offset (rq_map q) (rq_sha q) (rq_name q) (rq_start q)).
Proof.
  intros Hr. unfold register_prog. destruct (sm_iter offset (rq_map q) (rq_start q)) as [s1 [ts|e]] eqn:Ei; [|exact I].
  destruct (py_max (map (fun t => fst (t_numPatches t)) ts)) as [nxm|e] eqn:Ex; [|exact I].
  destruct (py_max (map (fun t => snd (t_numPatches t)) ts)) as [nym|e] eqn:Ey; [|exact I].
  destruct (rq_sha q) as [hash|e] eqn:Eh; [|exact I]. cbn [leads].
  intros r r' b E. apply unit_op_ok in E. unfold registerRun in E. injection E as <-. split; [repeat split|].
  intros r2 r2' b2 E. apply unit_op_ok in E. unfold registerDatasetType in E. injection E as <-. split; [repeat split|].
  set (rec := mkSkyRec (rq_name q) hash (sm_len (rq_map q) s1) nxm nym).
  assert (P : prepared q s1 hash rec) by (exists ts, nxm, nym; auto).
  destruct (prepared_facts q s1 hash rec Hr P) as (_ & _ & _ & _ & Hr1 & _ & Hall & _).
  exists s1, hash, rec. split; [exact P|]. intros base. exact (tx_body_leads q s1 hash rec base Hr1 Hall).
Qed.

(** ** The invariant *)
Definition client_inv (D : registry) (c : client Sky) : Prop :=
  cfg_ok (sd_cfg (rq_map (c_req c))) /\ sm_reachable offset (rq_map (c_req c)) (rq_start (c_req c))
  /\ match c_out c with
     | Some (Done _) => exists s1 hash rec, prepared (c_req c) s1 hash rec /\ In rec (g_skymaps D)
     | Some _ => True
     | None =>
         if c_tx c then incl (g_skymaps (c_base c)) (g_skymaps D)
            /\ exists s1 hash rec, prepared (c_req c) s1 hash rec
                 /\ tx_leads (commit_ready (c_req c) s1 hash rec) (c_prog c) (c_base c) (c_delta c)
         else leads (c_req c) D (c_prog c)
     end.
Lemma client_inv_mono D D' c : incl (g_skymaps D) (g_skymaps D') -> client_inv D c -> client_inv D' c.
Proof.
  intros Hi (H1 & H2 & H3). split; [exact H1|]. split; [exact H2|].
  destruct (c_out c) as [[x|e|]|]; auto.
  - destruct H3 as (s1 & hash & rec & P & Hin). exists s1, hash, rec. auto.
  - destruct (c_tx c).
    + destruct H3 as [H3 H4]. split; [|exact H4]. intros x Hx. auto.
    + eapply leads_mono; eauto.
Qed.

(** One step: the records stay, or the client commits its complete map. *)
Definition commits (D D' : registry) (c c' : client Sky) : Prop :=
  c_out c' = None /\ c_tx c' = false /\ exists s1 hash rec, prepared (c_req c) s1 hash rec
    /\ c_prog c' = PEnd s1 (Ok tt) /\ keys_valid D'
    /\ exists trs blocks, D' = merge D (mkReg [] [] [rec] trs (concat blocks) [(rq_name (c_req c), hash)])
        /\ tract_recs (rq_map (c_req c)) (rq_name (c_req c)) s1 (zrange 0 (sd_num (rq_map (c_req c)))) trs
        /\ patch_recs (rq_map (c_req c)) (rq_name (c_req c)) s1 (zrange 0 (sd_num (rq_map (c_req c)))) blocks.
Lemma same_refl (r : registry) : same_records r r.
Proof. repeat split. Qed.
Lemma client_step_inv D c D' c' : client_inv D c -> client_step D c D' c' ->
  c_req c' = c_req c /\ client_inv D' c' /\ incl (g_skymaps D) (g_skymaps D') /\ (same_records D D' \/ commits D D' c c').
Proof.
  intros (Hc & Hr & H) St. unfold client_inv.
  destruct St as [D q s x base delta tx|D q s e base delta tx|D q s f k base delta D' b E|D q s f k base delta e E|D q s f k base delta w b E
     |D q s f k base delta e E|D q p base delta|D q p base delta|D q s p base delta K|D c e Ho Hp|D c Ho];
    cbn [c_req c_prog c_tx c_base c_delta c_out] in *.
  - split; [reflexivity|]. split; [|split; [apply incl_refl|left; apply same_refl]]. split; [exact Hc|]. split; [exact Hr|].
    destruct tx; [destruct H as (_ & s1 & hash & rec & _ & []) |]. cbn [leads] in H. destruct H as (hash & rec & P & Hin). exists s, hash, rec. auto.
  - split; [reflexivity|]. split; [|split; [apply incl_refl|left; apply same_refl]]. auto.
  - destruct (H _ _ _ E) as [Hs Hl]. split; [reflexivity|].
    assert (Hi : incl (g_skymaps D) (g_skymaps D')) by (destruct Hs as [-> _]; apply incl_refl).
    split; [|split; [exact Hi|left; exact Hs]]. split; [exact Hc|]. split; [exact Hr|]. eapply leads_mono; eauto.
  - split; [reflexivity|]. split; [|split; [apply incl_refl|left; apply same_refl]]. auto.
  - split; [reflexivity|]. split; [|split; [apply incl_refl|left; apply same_refl]]. split; [exact Hc|]. split; [exact Hr|].
    destruct H as (Hi & s1 & hash & rec & P & Hl). split; [exact Hi|]. exists s1, hash, rec. split; [exact P|].
    exact (Hl base w b (incl_refl _) E).
  - split; [reflexivity|]. split; [|split; [apply incl_refl|left; apply same_refl]]. auto.
  - split; [reflexivity|]. split; [|split; [apply incl_refl|left; apply same_refl]]. split; [exact Hc|]. split; [exact Hr|].
    cbn [leads] in H. destruct H as (s1 & hash & rec & P & Hl). split; [apply incl_refl|]. exists s1, hash, rec. auto.
  - split; [reflexivity|]. split; [|split; [apply incl_refl|left; apply same_refl]]. split; [exact Hc|]. split; [exact Hr|].
    destruct H as (Hi & s1 & hash & rec & P & Hl). split; [apply incl_refl|]. exists s1, hash, rec. split; [exact P|].
    eapply tx_leads_mono; [|exact Hi|exact Hl]. intros b b' x s Hb. now apply commit_ready_mono.
  - split; [reflexivity|]. destruct H as (Hi & s1 & hash & rec & P & -> & -> & Hl).
    assert (Hinc : incl (g_skymaps D) (g_skymaps (merge D delta))) by (cbn; intros x Hx; apply in_or_app; now left).
    split; [split; [exact Hc|]; split; [exact Hr|]|split; [exact Hinc|]].
    + cbn [leads]. exists hash, rec. split; [exact P|]. destruct Hl as [[_ Hin]|(trs & blocks & -> & _)]; [auto|].
      cbn. apply in_or_app. right. now left.
    + destruct Hl as [[-> _]|(trs & blocks & -> & F1 & F2)]; [left; rewrite merge_empty; apply same_refl|right].
      split; [reflexivity|]. split; [reflexivity|]. cbn [c_req c_prog]. exists s1, hash, rec. split; [exact P|]. split; [reflexivity|]. split; [exact K|].
      exists trs, blocks. auto.
  - split; [reflexivity|]. split; [|split; [apply incl_refl|left; apply same_refl]]. auto.
  - split; [reflexivity|]. split; [|split; [apply incl_refl|left; apply same_refl]]. auto.
Qed.

(** A commit writes everything, as [register] alone does. *)
Lemma NoDup_app_l {A} (l1 l2 : list A) : NoDup (l1 ++ l2) -> NoDup l1.
Proof. induction l1 as [|x l1 IH]; [constructor|]. cbn. intros H. inversion H as [|? ? H1 H2]; subst. constructor; [|auto].
  intros Hx. apply H1. apply in_or_app. now left. Qed.
Lemma NoDup_snoc_not {A} (l : list A) x : NoDup (l ++ [x]) -> ~ In x l.
Proof. intros H Hx. apply NoDup_remove_2 in H. apply H. now rewrite app_nil_r. Qed.
Lemma commits_wrote D D' c c' : commits D D' c c' -> sm_reachable offset (rq_map (c_req c)) (rq_start (c_req c)) ->
  exists s1 hash nxm nym, let rec := mkSkyRec (rq_name (c_req c)) hash (sd_num (rq_map (c_req c))) nxm nym in
    prepared (c_req c) s1 hash rec /\ c_prog c' = PEnd s1 (Ok tt)
    /\ largest_count offset fst (rq_map (c_req c)) s1 nxm /\ largest_count offset snd (rq_map (c_req c)) s1 nym
    /\ wrote offset (rq_map (c_req c)) (rq_name (c_req c)) hash rec s1 D D'.
Proof.
  intros (_ & _ & s1 & hash & rec & P & Ep & K & trs & blocks & E & F1 & F2) Hr.
  destruct (prepared_facts _ _ _ _ Hr P) as (nxm & nym & -> & _ & _ & _ & _ & Hx & Hy & _).
  exists s1, hash, nxm, nym. cbv zeta. split; [exact P|]. split; [exact Ep|]. split; [exact Hx|]. split; [exact Hy|].
  destruct K as [K1 K2 K3 K4 _ _ _]. rewrite E in K1, K2. cbn in K1, K2. rewrite map_app in K1, K2. cbn in K1, K2.
  split; [now apply NoDup_snoc_not|]. split; [now apply NoDup_snoc_not|].
  exists trs, blocks. rewrite E at 1 2 3 4. cbn [merge g_skymaps g_tracts g_patches g_datasets].
  repeat (split; [reflexivity|]). split; [intros _; exact K3|]. split; [intros _; exact K4|]. split; [exact F1|exact F2].
Qed.

Lemma Forall2_det {A B} (P : A -> B -> Prop) l l1 l2 :
  (forall a b b', P a b -> P a b' -> b = b') -> Forall2 P l l1 -> Forall2 P l l2 -> l1 = l2.
Proof.
  intros HP H. revert l2. induction H as [|a b l l1 H1 _ IH]; intros l2 H2; inversion H2; subst; [reflexivity|].
  f_equal; [eapply HP; eauto|auto].
Qed.
Lemma commit_serial q s1 hash rec r D D' : cfg_ok (sd_cfg (rq_map q)) -> sm_reachable offset (rq_map q) (rq_start q) ->
  prepared q s1 hash rec -> reg_history offset r -> same_records r D ->
  wrote offset (rq_map q) (rq_name q) hash rec s1 D D' ->
  exists r', reg_history offset r' /\ same_records r' D'.
Proof.
  intros Hc Hr P Hh Hs W.
  destruct (prepared_facts _ _ _ _ Hr P) as (nxm & nym & -> & Ha & Hr1 & Hnum & Hall & Hx & Hy & Esha & Ereg).
  set (rec := mkSkyRec (rq_name q) hash (sd_num (rq_map q)) nxm nym) in *.
  pose proof (wrote_same offset _ _ _ _ _ _ _ _ Hs W) as (Wn & Wh & trs & blocks & E1 & E2 & E3 & E4 & _ & _ & F1 & F2).
  specialize (Ereg r). cbv zeta in Ereg.
  set (r1 := mkReg (add_name "skymaps" (g_runs r)) (add_name "skyMap" (g_types r)) (g_skymaps r) (g_tracts r) (g_patches r) (g_datasets r)) in *.
  destruct (tail_new offset (rq_map q) (rq_name q) hash nxm nym s1 r1 2 Hc Hr1 Hnum) as (u' & Et).
  - apply (same_records_sound r); [repeat split|]. now apply (history_sound offset).
  - intros i Hi. apply in_zrange in Hi. destruct (In_nth_error _ _ Hi) as (j & Hj).
    destruct (Forall2_nth_error _ _ _ _ _ F2 Hj) as (block & _ & t & Ht & Hb). eauto.
  - exact Wn.
  - exact Wh.
  - fold rec in Et. rewrite Et in Ereg. exists (u_durable u'). split; [exact (rh_register offset r no_faults _ _ _ _ _ _ _ Hh Hc Hr Ereg)|].
    destruct (tail_spec offset no_faults (rq_map q) (rq_name q) hash rec s1 (mkButler r1 r1 false 2) s1 u' (Done tt) Hr1 Hall eq_refl eq_refl Et)
      as (_ & [[_ Hin]|(_ & _ & trs' & blocks' & G1 & G2 & G3 & G4 & _ & _ & F1' & F2')]).
    + exfalso. apply Wn. cbn [u_durable r1 g_skymaps] in Hin. apply (in_map k_name) in Hin. exact Hin.
    + cbn [u_durable r1 g_skymaps g_tracts g_patches g_datasets] in G1, G2, G3, G4.
      assert (trs' = trs) as ->.
      { eapply Forall2_det; [|exact F1'|exact F1]. intros i a b (t & Ht & ->) (t' & Ht' & ->). now rewrite (holds_fun _ _ _ _ _ _ Ht Ht'). }
      assert (blocks' = blocks) as ->.
      { eapply Forall2_det; [|exact F2'|exact F2]. intros i a b (t & Ht & Eb) (t' & Ht' & Eb'). rewrite (holds_fun _ _ _ _ _ _ Ht Ht') in Eb. congruence. }
      unfold same_records. rewrite E1, E2, E3, E4, G1, G2, G3, G4. auto.
Qed.

Definition sys_inv (x : registry * list (client Sky)) : Prop :=
  (exists r, reg_history offset r /\ same_records r (fst x)) /\ Forall (client_inv (fst x)) (snd x).
Lemma sys_step_inv x y : sys_inv x -> sys_step offset x y -> sys_inv y.
Proof.
  intros [Hh Hf] St. destruct St as [D cs q Hc Hr|D cs1 c cs2 D' c' St]; cbn [fst snd] in *.
  - split; [exact Hh|]. cbn [snd fst]. apply Forall_app. split; [exact Hf|]. constructor; [|constructor].
    split; [exact Hc|]. split; [exact Hr|]. cbn. now apply register_leads.
  - apply Forall_app in Hf. destruct Hf as [Hf1 Hf2]. inversion Hf2 as [|? ? Hci Hf3]; subst.
    destruct (client_step_inv D c D' c' Hci St) as (Eq & Hci' & Hi & Hcase). unfold sys_inv. cbn [fst snd]. split.
    + destruct Hh as (r & Hh & Hs). destruct Hcase as [Hs'|Hcm].
      * exists r. split; [exact Hh|]. eapply same_records_trans; eauto.
      * destruct Hci as (Hc & Hr & _).
        destruct (commits_wrote D D' c c' Hcm Hr) as (s1 & hash & nxm & nym & P & _ & _ & _ & W).
        exact (commit_serial _ _ _ _ r D D' Hc Hr P Hh Hs W).
    + apply Forall_app. split; [|constructor; [exact Hci'|]].
      * eapply Forall_impl; [|exact Hf1]. intros a. now apply client_inv_mono.
      * eapply Forall_impl; [|exact Hf3]. intros a. now apply client_inv_mono.
Qed.
Lemma sys_steps_inv x y : sys_inv x -> sys_steps offset x y -> sys_inv y.
Proof. intros Hx H. induction H as [x|x y z _ IH St]; [exact Hx|]. exact (sys_step_inv _ _ (IH Hx) St). Qed.
Lemma sys_inv_start r : reg_history offset r -> sys_inv (r, []).
Proof. intros H. split; [exists r; split; [exact H|apply same_refl]|constructor]. Qed.

(** ** A process alone is one of the executions *)

(** Every operation of the program adds records and keeps the keys valid. *)
Definition good_op (f : registry -> res (registry * bool)) : Prop := forall r r' b, f r = Ok (r', b) ->
  (exists x, r' = merge r x) /\ (keys_valid r -> keys_valid r').
Definition keys_op (f : registry -> res (registry * bool)) : Prop := forall r r' b, f r = Ok (r', b) -> keys_valid r -> keys_valid r'.
Fixpoint good_prog (tx : bool) (p : prog Sky) : Prop :=
  match p with
  | PEnd _ (Ok _) => tx = false
  | PEnd _ (Raise _) => True
  | POp _ f k => (if tx then good_op f else keys_op f) /\ forall b, good_prog tx (k b)
  | PBegin p => tx = false /\ good_prog true p
  | PCommit s p => tx = true /\ p = PEnd s (Ok tt)
  end.

Lemma sync_good k : good_op (syncSkymap k).
Proof.
  intros r r' b H. pose proof (sync_spec _ _ _ _ H) as H1. apply sync_adds in H. split.
  - destruct H as [(_ & -> & _)|(_ & ->)]; [exists empty_registry; symmetry; apply merge_empty|eauto].
  - destruct H1 as [(_ & -> & _)|(_ & Hn & Hh & ->)]; [auto|]. intros [K1 K2 K3 K4 K5 K6 K7].
    constructor; cbn; try assumption.
    + rewrite map_app. cbn. now apply NoDup_snoc.
    + rewrite map_app. cbn. now apply NoDup_snoc.
    + intros t Ht. rewrite map_app. apply in_or_app. left. auto.
Qed.
Lemma insertTract_good t : good_op (unit_op (insertTract t)).
Proof.
  intros r r' b H. apply unit_op_ok in H. pose proof (insertTract_spec _ _ _ _ H) as (_ & _ & _ & _ & N & _). split; [exists (add_tract t); now apply insertTract_adds in H|].
  intros [K1 K2 K3 K4 K5 K6 K7]. specialize (N K3).
  unfold insertTract in H. destruct (existsb _ (g_tracts r)); cbn [orb] in H; [discriminate|].
  destruct (existsb _ (g_skymaps r)) eqn:E; cbn [negb] in H; [|discriminate]. injection H as <-.
  constructor; cbn; try assumption.
  - intros t' Ht'. apply in_app_or in Ht'. destruct Ht' as [Ht'|[<-|[]]]; [auto|].
    apply existsb_exists in E. destruct E as (k & Hk & En). apply String.eqb_eq in En. rewrite <- En. now apply in_map.
  - intros p Hp. rewrite map_app. apply in_or_app. left. auto.
Qed.
Lemma insertPatches_good ps : good_op (unit_op (insertPatches ps)).
Proof.
  intros r r' b H. apply unit_op_ok in H. split; [exists (add_patches ps); now apply insertPatches_adds in H|].
  unfold insertPatches in H. destruct (insertPatches0 ps r) as [r1|e] eqn:E; [|discriminate]. injection H as <-.
  revert r E. induction ps as [|p ps IH]; intros r; cbn [insertPatches0]; [intros H; injection H as <-; auto|].
  unfold insertPatch. destruct (existsb (same_patch_key p) (g_patches r)) eqn:E1; cbn [orb bind]; [discriminate|].
  destruct (existsb _ (g_tracts r)) eqn:E2; cbn [negb bind]; [|discriminate]. intros H K. apply IH in H; [exact H|].
  destruct K as [K1 K2 K3 K4 K5 K6 K7]. constructor; cbn; try assumption.
  - rewrite map_app. cbn. apply NoDup_snoc; [exact K4|]. intros Hin. apply in_map_iff in Hin. destruct Hin as (p' & Ek & Hin).
    assert (existsb (same_patch_key p) (g_patches r) = true); [|congruence]. apply existsb_exists. exists p'. split; [exact Hin|].
    apply same_patch_key_spec. symmetry. exact Ek.
  - intros p' Hp. apply in_app_or in Hp. destruct Hp as [Hp|[<-|[]]]; [auto|].
    apply existsb_exists in E2. destruct E2 as (t & Ht & En). apply andb_true_iff in En. destruct En as [En1 En2].
    apply String.eqb_eq in En1. apply Z.eqb_eq in En2. rewrite <- En1, <- En2.
    exact (in_map (fun t => (tr_skymap t, tr_tract t)) _ _ Ht).
Qed.
Lemma put_good name hash : good_op (unit_op (putSkyMap name hash)).
Proof.
  intros r r' b H. apply unit_op_ok in H. split; [exists (add_dataset name hash); now apply put_adds in H|].
  intros [K1 K2 K3 K4 K5 K6 K7]. unfold putSkyMap in H. destruct (existsb _ _) eqn:E; [discriminate|]. injection H as <-.
  constructor; cbn; try assumption. rewrite map_app. cbn. apply NoDup_snoc; [exact K5|]. intros Hin. apply in_map_iff in Hin.
  destruct Hin as ([n h] & En & Hin). cbn in En. subst n.
  assert (existsb (fun nh : string * list Z => String.eqb (fst nh) name) (g_datasets r) = true); [|congruence].
  apply existsb_exists. exists (name, h). split; [exact Hin|]. apply String.eqb_refl.
Qed.
Lemma register_good d sha name s : good_prog false (register_prog offset d sha name s).
Proof.
  unfold register_prog. destruct (sm_iter offset d s) as [s1 [ts|e]]; [|exact I].
  destruct (py_max _) as [nxm|e]; [|exact I]. destruct (py_max _) as [nym|e]; [|exact I]. destruct sha as [hash|e]; [|exact I].
  cbn [good_prog prog_tx].
  split; [intros r r' b H; apply unit_op_ok in H; injection H as <-; intros [K1 K2 K3 K4 K5 K6 K7]; constructor; assumption|]. intros _.
  split; [intros r r' b H; apply unit_op_ok in H; injection H as <-; intros [K1 K2 K3 K4 K5 K6 K7]; constructor; assumption|]. intros _.
  split; [reflexivity|]. split; [apply sync_good|]. intros [|]; [|split; reflexivity].
  generalize (zrange 0 (sd_num d)). intros ids. generalize s1 at 1. revert s1. induction ids as [|i ids IH]; intros s1 s2; cbn [prog_for].
  - cbn [good_prog]. split; [apply put_good|]. intros _. split; reflexivity.
  - destruct (sm_getitem offset d i s2) as [s3 [t|e]]; [|exact I]. unfold prog_tract. cbn [good_prog].
    split; [apply insertTract_good|]. intros _. destruct (on_tract (patch_records name) t s3) as [s4 [recs|e]]; [|exact I].
    cbn [good_prog]. split; [apply insertPatches_good|]. intros _. apply IH. exact s4.
Qed.

Inductive client_steps : registry -> client Sky -> registry -> client Sky -> Prop :=
| cs_refl D c : client_steps D c D c
| cs_step D c D1 c1 D2 c2 : client_step D c D1 c1 -> client_steps D1 c1 D2 c2 -> client_steps D c D2 c2.

Lemma sound_keys (r : registry) : sound r -> keys_valid r.
Proof.
  intros [B1 B2 B3 B4 B5 B6 B7]. constructor; try assumption.
  - rewrite B7, map_map. cbn. exact B1.
  - intros t Ht. apply (in_map tract_key) in Ht. unfold tract_key at 1 in Ht. apply B5 in Ht.
    destruct Ht as (k & Hk & <- & _). now apply in_map.
  - intros p Hp. destruct (B6 p Hp) as (k & Hk & En & Hi & _). apply B5. eauto.
Qed.

Lemma alone_steps faults q p : forall tx base delta u s' u' out,
  good_prog tx p -> u_in_tx u = tx ->
  (if tx then u_durable u = base /\ u_work u = merge base delta /\ keys_valid (u_work u)
   else u_work u = u_durable u /\ keys_valid (u_durable u)) ->
  run_alone faults p u = (s', u', out) ->
  exists c', client_steps (u_durable u) (mkClient q p tx base delta None) (u_durable u') c' /\ c_req c' = q /\ c_out c' = Some out.
Proof.
  assert (One : forall D c D1 c1, client_step D c D1 c1 -> client_steps D c D1 c1)
    by (intros; econstructor; [eassumption|constructor]).
  induction p as [s [x|e]|s f k IH|p IH|s p IH]; intros tx base delta u s' u' out G Hu Hb; cbn [run_alone good_prog] in *.
  - subst tx. intros H. injection H as <- <- <-. eexists. split; [apply One; constructor|]. split; reflexivity.
  - intros H. assert (u_durable u' = u_durable u) as -> by (injection H as _ <- _; unfold rolled_back; destruct (u_in_tx u); reflexivity).
    injection H as _ _ <-. eexists. split; [apply One; constructor|]. split; reflexivity.
  - destruct G as [Gf Gk].
    unfold bop. set (u1 := mkButler (u_durable u) (u_work u) (u_in_tx u) (S (u_ops u))).
    assert (Rd : u_durable (rolled_back u1) = u_durable u) by (unfold rolled_back; destruct (u_in_tx u1); reflexivity).
    assert (Fl : forall e, client_step (u_durable u) (mkClient q (POp s f k) tx base delta None) (u_durable u)
        (mkClient q (POp s f k) tx base delta (Some (Raised e)))).
    { intros e. apply (st_fail (u_durable u) (mkClient q (POp s f k) tx base delta None) e); [reflexivity|discriminate]. }
    (* the effect of the operation, done *)
    assert (Go : forall w b, f (u_work u) = Ok (w, b) ->
       let u2 := mkButler (if u_in_tx u then u_durable u else w) w (u_in_tx u) (S (u_ops u)) in
       exists base' delta', client_step (u_durable u) (mkClient q (POp s f k) tx base delta None) (u_durable u2) (mkClient q (k b) tx base' delta' None)
         /\ (if tx then u_durable u2 = base' /\ u_work u2 = merge base' delta' /\ keys_valid (u_work u2)
             else u_work u2 = u_durable u2 /\ keys_valid (u_durable u2))).
    { intros w b E. cbv zeta. cbn [u_durable u_work]. rewrite Hu. destruct tx.
      - destruct Hb as (Hb1 & Hb2 & Hb3). destruct (Gf _ _ _ E) as [(x & Ex) Kv]. exists base, (since base w).
        rewrite Hb1 in *. split; [rewrite Hb2 in E; now constructor|]. split; [reflexivity|]. split; [|auto].
        rewrite Ex, Hb2, merge_assoc, since_merge. reflexivity.
      - destruct Hb as (Hb1 & Hb2). exists base, delta. rewrite Hb1 in E. split; [now constructor|]. split; [reflexivity|].
        exact (Gf _ _ _ E Hb2). }
    destruct (faults (u_ops u)) as [|e| |] eqn:Ef.
    + destruct (f (u_work u)) as [[w b]|e] eqn:E.
      * intros H. destruct (Go w b eq_refl) as (base' & delta' & St & Hb'). cbv zeta in St, Hb'.
        set (u2 := mkButler (if u_in_tx u then u_durable u else w) w (u_in_tx u) (S (u_ops u))) in *.
        destruct (IH b tx base' delta' u2 s' u' out (Gk b) Hu Hb' H) as (c' & S' & R1 & R2).
        exists c'. split; [econstructor; [exact St|exact S']|auto].
      * intros H. injection H as _ <- <-. rewrite Rd. eexists. split; [apply One, Fl|]. split; reflexivity.
    + intros H. injection H as _ <- <-. rewrite Rd. eexists. split; [apply One, Fl|]. split; reflexivity.
    + intros H. injection H as _ <- <-. cbn [u1 u_durable]. eexists. split; [apply One; apply st_crash; reflexivity|]. split; reflexivity.
    + destruct (f (u_work u)) as [[w b]|e] eqn:E.
      * intros H. injection H as _ <- <-. destruct (Go w b eq_refl) as (base' & delta' & St & Hb'). cbv zeta in St.
        eexists. split; [econstructor; [exact St|apply One; apply st_crash; reflexivity]|]. split; reflexivity.
      * intros H. injection H as _ <- <-. rewrite Rd. eexists. split; [apply One, Fl|]. split; reflexivity.
  - destruct G as [-> G]. destruct Hb as [Hb1 Hb2]. intros H.
    destruct (IH true (u_durable u) empty_registry (mkButler (u_durable u) (u_work u) true (u_ops u)) s' u' out G eq_refl) as (c' & S' & R1 & R2).
    { cbn [u_durable u_work]. rewrite merge_empty, Hb1. auto. }
    { exact H. }
    exists c'. split; [|auto]. econstructor; [apply st_begin|exact S'].
  - destruct G as [-> G]. assert (G' : good_prog false p) by (rewrite G; reflexivity). clear G; rename G' into G.
    destruct Hb as (Hb1 & Hb2 & Hb3). cbv zeta. rewrite Hb2 in Hb3.
    assert (Cm : client_step (u_durable u) (mkClient q (PCommit s p) true base delta None) (u_work u) (mkClient q p false base delta None)).
    { rewrite Hb2, Hb1. now constructor. }
    destruct (faults (u_ops u)) as [|e| |].
    + intros H. destruct (IH false base delta (mkButler (u_work u) (u_work u) false (S (u_ops u))) s' u' out G eq_refl) as (c' & S' & R1 & R2).
      { cbn [u_durable u_work]. split; [reflexivity|]. now rewrite Hb2. }
      { exact H. }
      cbn [u_durable] in S'. exists c'. split; [|auto]. econstructor; [exact Cm|exact S'].
    + intros H. injection H as _ <- <-. cbn [u_durable]. eexists. split; [apply One; apply (st_fail (u_durable u) (mkClient q (PCommit s p) true base delta None) e); [reflexivity|discriminate]|].
      split; reflexivity.
    + intros H. injection H as _ <- <-. cbn [u_durable]. eexists. split; [apply One; apply st_crash; reflexivity|]. split; reflexivity.
    + intros H. injection H as _ <- <-. cbn [u_durable]. eexists. split; [econstructor; [exact Cm|apply One; apply st_crash; reflexivity]|]. split; reflexivity.
Qed.

Lemma client_steps_sys cs1 cs2 D c D' c' : client_steps D c D' c' ->
  forall x, sys_steps offset x (D, cs1 ++ c :: cs2) -> sys_steps offset x (D', cs1 ++ c' :: cs2).
Proof.
  induction 1 as [D c|D c D1 c1 D2 c2 St _ IH]; intros x H; [exact H|].
  apply IH. econstructor; [exact H|]. now constructor.
Qed.

(** The transaction of a process that does not see what has been committed since it began. *)
Lemma tx_run_stale q D p : forall base delta u s' u',
  good_prog true p -> u_in_tx u = true -> u_durable u = base -> u_work u = merge base delta ->
  run_alone no_faults p u = (s', u', Done tt) ->
  exists s1 delta1, client_steps D (mkClient q p true base delta None) D
      (mkClient q (PCommit s1 (PEnd s1 (Ok tt))) true base delta1 None)
    /\ u_durable u' = merge base delta1.
Proof.
  induction p as [s [x|e]|s f k IH|p IH|s p IH]; intros base delta u s' u' G Hu Hb Hw; cbn [run_alone good_prog] in *.
  - discriminate.
  - discriminate.
  - destruct G as [Gf Gk]. rewrite bop_nofault by exact Hu. destruct (f (u_work u)) as [[w b]|e] eqn:E; [|discriminate].
    intros H. destruct (Gf _ _ _ E) as [(x & Ex) _]. rewrite Hw in E.
    destruct (IH b base (since base w) (mkButler (u_durable u) w true (S (u_ops u))) s' u' (Gk b) eq_refl Hb) as (s1 & delta1 & S & R).
    { cbn [u_work]. rewrite Ex, Hw, merge_assoc, since_merge. reflexivity. }
    { exact H. }
    exists s1, delta1. split; [|exact R]. econstructor; [now apply (st_tx D q s f k base delta w b)|exact S].
  - destruct G as [G _]. discriminate.
  - destruct G as [_ ->]. unfold no_faults at 1. cbn [run_alone]. intros H. exists s, delta. split; [constructor|].
    injection H as _ <-. exact Hw.
Qed.
End Concurrent.
