(** Registration in a butler (C52-C55). *)
From Coq Require Import Reals Lra String.
Require Import Verif.Py Verif.Geom Verif.PatchInfo Verif.TractBuilder Verif.TractInfo Verif.Spec.
Require Import Verif.PatchProofs Verif.TractProofs Verif.Examples.
Require Import Verif.SkyMap Verif.SkySpec Verif.SkyProofs Verif.SkyProofs2 Verif.MainSky.
Require Import Verif.Packers Verif.MainPackers.
Require Import Verif.Register Verif.RegSpec Verif.RegProofs Verif.RegProofs2 Verif.RegProofs3.
Open Scope list_scope.
Open Scope Z_scope.
Local Arguments Z.mul : simpl never.

Lemma NoDup_map_inj {A B} (f : A -> B) l a b : NoDup (map f l) -> In a l -> In b l -> f a = f b -> a = b.
Proof.
  induction l as [|x l IH]; [contradiction|]. cbn. intros HN Ha Hb E. inversion HN as [|? ? Hx Hd]; subst.
  destruct Ha as [->|Ha], Hb as [->|Hb]; auto; exfalso; apply Hx; [rewrite E|rewrite <- E]; now apply in_map.
Qed.

(*@ C52: whatever fails and whenever the process crashes, afterwards the repository either has the
    same skymap, tract and patch records and datasets as before, or the complete records of the map
    in addition; the former if register raised; if it returned, the map is in the repository. *)
Lemma register_all_or_nothing_proof :
  forall (Sky : Type) (offset : Sky -> R -> R -> Sky) faults d sha name s r s' u' out,
  cfg_ok (sd_cfg d) -> sm_reachable offset d s ->
  register offset faults d sha name s (butler_on r) = (s', u', out) ->
  let r' := u_durable u' in
  (same_records r r'
   \/ exists hash, sha = Ok hash /\ ~ In name (map k_name (g_skymaps r)) /\ ~ In hash (map k_hash (g_skymaps r))
        /\ completely_registered offset d name hash s' r r')
  /\ (forall e, out = Raised e -> same_records r r')
  /\ (out = Done tt -> exists hash, sha = Ok hash
        /\ exists k, In k (g_skymaps r') /\ k_name k = name /\ k_hash k = hash /\ k_tract_max k = sd_num d).
Proof.
  intros Sky offset faults d sha name s r s' u' out Hc Hr H r'.
  destruct (register_spec offset faults d sha name s r s' u' out Hr H)
    as (Ha & [[Hs Hd]|(hash & nxm & nym & Esha & Hall & Hnum & Hx & Hy & Hout)]).
  - split; [now left|]. split; [auto|]. intros E. now apply Hd in E.
  - pose proof (reachable_accesses _ _ _ _ Hr Ha) as Hr'.
    set (rec := mkSkyRec name hash (sd_num d) nxm nym) in *.
    assert (W : wrote offset d name hash rec s' r r' -> exists hash, sha = Ok hash /\ ~ In name (map k_name (g_skymaps r))
        /\ ~ In hash (map k_hash (g_skymaps r)) /\ completely_registered offset d name hash s' r r').
    { intros Hw. exists hash. split; [exact Esha|]. pose proof Hw as (Q1 & Q2 & _). split; [exact Q1|]. split; [exact Q2|].
      eapply wrote_complete; eauto. }
    split; [destruct out; tauto|]. split; [intros e ->; exact Hout|].
    intros ->. exists hash. split; [exact Esha|]. exists rec.
    split; [|auto]. destruct Hout as [[(Q & _) Hin]|(_ & _ & trs & blocks & Q & _)]; unfold r'; rewrite Q; [exact Hin|].
    rewrite in_app_iff. right. now left.
Qed.

(** Predicates on repositories that no operation of the registration invalidates. *)
Section Keeps.
Context {Sky : Type}.
Variable offset : Sky -> R -> R -> Sky.
Variable faults : nat -> fault.
Variable Q : registry Sky -> Prop.
Definition butler_keeps {A} (m : BM (Sky := Sky) A) : Prop := forall s u s' u' out,
  m s u = (s', u', out) -> Q (u_durable u) -> Q (u_work u) -> Q (u_durable u') /\ Q (u_work u').
Lemma bret_keeps {A} (a : A) : butler_keeps (bret a).
Proof. intros s u s' u' out H. injection H as <- <- <-. auto. Qed.
Lemma blift_keeps {A} (r : res A) : butler_keeps (blift r).
Proof. destruct r; intros s u s' u' out H; injection H as <- <- <-; auto. Qed.
Lemma bsky_keeps {A} (m : SM Sky A) : butler_keeps (bsky m).
Proof. intros s u s' u' out H. unfold bsky in H. destruct (m s) as [s1 [a|e]]; injection H as <- <- <-; auto. Qed.
Lemma bbind_keeps {A B} (m : BM A) (f : A -> BM B) : butler_keeps m -> (forall a, butler_keeps (f a)) -> butler_keeps (bbind m f).
Proof.
  intros Hm Hf s u s' u' out H. unfold bbind in H. destruct (m s u) as [[s1 u1] o] eqn:E. intros D W.
  destruct (Hm _ _ _ _ _ E D W) as [D1 W1]. destruct o; [exact (Hf _ _ _ _ _ _ H D1 W1)| |]; injection H as <- <- <-; auto.
Qed.
Lemma bop_keeps {A} (f : registry Sky -> res (registry Sky * A)) :
  (forall r r' a, f r = Ok (r', a) -> Q r -> Q r') -> butler_keeps (bop faults f).
Proof.
  intros Hf s u s' u' out H D W. unfold bop in H.
  destruct (faults (u_ops u)); [|injection H as <- <- <-; auto..|].
  all: destruct (f (u_work u)) as [[w a]|e] eqn:E; [|injection H as <- <- <-; auto].
  all: pose proof (Hf _ _ _ E W); injection H as <- <- <-; cbn; destruct (u_in_tx u); auto.
Qed.
Lemma transaction_keeps {A} (m : BM A) : butler_keeps m -> butler_keeps (transaction faults m).
Proof.
  intros Hm s u s' u' out H D W. unfold transaction in H.
  destruct (m s (mkButler (u_durable u) (u_work u) true (u_ops u))) as [[s1 u1] o] eqn:E.
  destruct (Hm _ _ _ _ _ E D W) as [D1 W1]. destruct o; [destruct (faults (u_ops u1))| |]; injection H as <- <- <-; cbn; auto.
Qed.
End Keeps.

Lemma add_name_in n l x : In x (add_name n l) <-> In x l \/ x = n.
Proof.
  unfold add_name. destruct (existsb (String.eqb n) l) eqn:E.
  - apply existsb_exists in E. destruct E as (y & Hy & Ey). apply String.eqb_eq in Ey. subst y.
    split; [now left|]. intros [H| ->]; assumption.
  - rewrite in_app_iff. cbn [In]. intuition congruence.
Qed.
(** The records and datasets written in the transaction leave the collections and dataset types alone. *)
Lemma inserts_names {Sky} (r r' : registry Sky) :
  (forall k b, syncSkymap k r = Ok (r', b) -> g_runs r' = g_runs r /\ g_types r' = g_types r)
  /\ (forall t u, insertTract t r = Ok (r', u) -> g_runs r' = g_runs r /\ g_types r' = g_types r)
  /\ (forall n h u, putSkyMap n h r = Ok (r', u) -> g_runs r' = g_runs r /\ g_types r' = g_types r).
Proof.
  split; [|split].
  - intros k b H. unfold syncSkymap in H. destruct (find _ _) as [k'|]; [destruct (sky_rec_eqb k' k)|destruct (existsb _ _)];
      try discriminate; injection H as <- <-; auto.
  - intros t u H. unfold insertTract in H. destruct (_ || _); [discriminate|]. injection H as <- <-; auto.
  - intros n h u H. unfold putSkyMap in H. destruct (existsb _ _); [discriminate|]. injection H as <- <-; auto.
Qed.
Lemma insertPatches_names {Sky} ps : forall (r r' : registry Sky) u, insertPatches ps r = Ok (r', u) -> g_runs r' = g_runs r /\ g_types r' = g_types r.
Proof.
  intros r r' u H. unfold insertPatches in H. destruct (insertPatches0 ps r) as [r1|e] eqn:E; [|discriminate]. injection H as <- <-.
  revert r E. induction ps as [|p ps IH]; cbn [insertPatches0]; intros r E; [injection E as <-; auto|].
  destruct (insertPatch p r) as [r2|e] eqn:E2; [|discriminate]. cbn [bind] in E. destruct (IH _ E) as [-> ->].
  unfold insertPatch in E2. destruct (_ || _); [discriminate|]. injection E2 as <-. auto.
Qed.
Lemma register_keeps {Sky} (offset : Sky -> R -> R -> Sky) faults d sha name (Q : registry Sky -> Prop) :
  (forall r r' : registry Sky, (forall x, In x (g_runs r') <-> In x (g_runs r) \/ x = "skymaps"%string) -> g_types r' = g_types r -> Q r -> Q r') ->
  (forall r r' : registry Sky, (forall x, In x (g_types r') <-> In x (g_types r) \/ x = "skyMap"%string) -> g_runs r' = g_runs r -> Q r -> Q r') ->
  (forall r r' : registry Sky, g_types r' = g_types r -> g_runs r' = g_runs r -> Q r -> Q r') ->
  butler_keeps Q (register offset faults d sha name).
Proof.
  intros Q1 Q2 Q3. unfold register.
  repeat first [apply bbind_keeps; [first [apply bsky_keeps|apply blift_keeps]|intros ?]].
  apply bbind_keeps; [apply bop_keeps; intros r r' u H; injection H as <- <-; apply Q1; [apply add_name_in|reflexivity]|intros _].
  apply bbind_keeps; [apply bop_keeps; intros r r' u H; injection H as <- <-; apply Q2; [apply add_name_in|reflexivity]|intros _].
  apply transaction_keeps.
  apply bbind_keeps; [apply bop_keeps; intros r r' u H; destruct (inserts_names r r') as (K & _); destruct (K _ _ H); now apply Q3|intros b].
  destruct b; [|apply bret_keeps].
  apply bbind_keeps; [|intros _; apply bop_keeps; intros r r' u H; destruct (inserts_names r r') as (_ & _ & K); destruct (K _ _ _ H); now apply Q3].
  generalize (zrange 0 (sd_num d)). intros ids. induction ids as [|i ids IH]; cbn [bfor]; [apply bret_keeps|].
  apply bbind_keeps; [apply bsky_keeps|intros t]. apply bbind_keeps; [|intros _; exact IH].
  unfold register_tract.
  apply bbind_keeps; [apply bop_keeps; intros r r' u H; destruct (inserts_names r r') as (_ & K & _); destruct (K _ _ H); now apply Q3|intros _].
  apply bbind_keeps; [apply bsky_keeps|intros recs].
  apply bop_keeps. intros r r' u H. destruct (insertPatches_names _ _ _ _ H). now apply Q3.
Qed.

(*@ C52: whatever fails, registration removes no collection and no dataset type and adds at most the collection "skymaps" and
    the dataset type "skyMap"; both exist if it returned normally. *)
Lemma register_collections_proof :
  forall (Sky : Type) (offset : Sky -> R -> R -> Sky) faults d sha name s r s' u' out,
  register offset faults d sha name s (butler_on r) = (s', u', out) ->
  let r' := u_durable u' in
  (forall x, In x (g_runs r) -> In x (g_runs r')) /\ (forall x, In x (g_types r) -> In x (g_types r'))
  /\ (forall x, In x (g_runs r') -> In x (g_runs r) \/ x = "skymaps"%string)
  /\ (forall x, In x (g_types r') -> In x (g_types r) \/ x = "skyMap"%string)
  /\ (out = Done tt -> In "skymaps"%string (g_runs r') /\ In "skyMap"%string (g_types r')).
Proof.
  intros Sky offset faults d sha name s r s' u' out H r'.
  assert (K : forall Q : registry Sky -> Prop, butler_keeps Q (register offset faults d sha name) -> Q r -> Q r').
  { intros Q HQ Hq. exact (proj1 (HQ _ _ _ _ _ H Hq Hq)). }
  split; [|split; [|split; [|split]]].
  - intros x Hx. apply (K (fun q => In x (g_runs q))); [|exact Hx].
    apply register_keeps; intros q q' E; [rewrite E; tauto|intros -> ; auto|intros ->; auto].
  - intros x Hx. apply (K (fun q => In x (g_types q))); [|exact Hx].
    apply register_keeps; intros q q' E; [intros ->; auto|rewrite E; tauto|rewrite E; auto].
  - apply (K (fun q => forall x, In x (g_runs q) -> In x (g_runs r) \/ x = "skymaps"%string)); [|auto].
    apply register_keeps; intros q q' E E' Hq x Hx; [apply E in Hx; destruct Hx; auto|rewrite E' in Hx; auto..].
  - apply (K (fun q => forall x, In x (g_types q) -> In x (g_types r) \/ x = "skyMap"%string)); [|auto].
    apply register_keeps; intros q q' E E' Hq x Hx; [rewrite E' in Hx; auto|apply E in Hx; destruct Hx; auto|rewrite E in Hx; auto].
  - intros ->. clear K. unfold r'. clear r'.
    set (has := fun q : registry Sky => In "skymaps"%string (g_runs q) /\ In "skyMap"%string (g_types q)). change (has (u_durable u')).
    unfold register in H.
    set (tail := fun hash nxMax nyMax len => transaction faults (bbind (bop faults (syncSkymap (mkSkyRec name hash len nxMax nyMax)))
        (fun inserted : bool => if inserted then bbind (bfor offset d (register_tract faults name) (zrange 0 (sd_num d)))
           (fun _ => bop faults (putSkyMap name hash)) else bret tt))).
    assert (T : forall hash nxMax nyMax len s u s' u' out, tail hash nxMax nyMax len s u = (s', u', out) -> has (u_durable u) -> has (u_work u) -> has (u_durable u')).
    { intros hash a b c s1 u1 s2 u2 o E D W.
      assert (Q3 : forall q q' : registry Sky, g_types q' = g_types q -> g_runs q' = g_runs q -> has q -> has q') by (intros q q' E1 E2; unfold has; rewrite E1, E2; auto).
      cut (butler_keeps has (tail hash a b c)); [intros C; exact (proj1 (C _ _ _ _ _ E D W))|]. unfold tail.
      apply transaction_keeps.
      apply bbind_keeps; [apply bop_keeps; intros q q' u H'; destruct (inserts_names q q') as (K & _); destruct (K _ _ H'); now apply (Q3 q)|intros ins].
      destruct ins; [|apply bret_keeps].
      apply bbind_keeps; [|intros _; apply bop_keeps; intros q q' u H'; destruct (inserts_names q q') as (_ & _ & K); destruct (K _ _ _ H'); now apply (Q3 q)].
      generalize (zrange 0 (sd_num d)). intros ids. induction ids as [|i ids IH]; cbn [bfor]; [apply bret_keeps|].
      apply bbind_keeps; [apply bsky_keeps|intros t]. apply bbind_keeps; [|intros _; exact IH].
      unfold register_tract.
      apply bbind_keeps; [apply bop_keeps; intros q q' u H'; destruct (inserts_names q q') as (_ & K & _); destruct (K _ _ H'); now apply (Q3 q)|intros _].
      apply bbind_keeps; [apply bsky_keeps|intros recs].
      apply bop_keeps. intros q q' u H'. destruct (insertPatches_names _ _ _ _ H'). now apply (Q3 q). }
    unfold bbind at 1 in H. unfold bsky at 1 in H. destruct (sm_iter offset d s) as [s1 [ts|e]]; [|discriminate].
    unfold bbind at 1 in H. destruct (py_max _) as [nxMax|e]; unfold blift at 1 in H; unfold bret, braise in H; [|discriminate H].
    unfold bbind at 1 in H. destruct (py_max _) as [nyMax|e]; unfold blift at 1 in H; unfold bret, braise in H; [|discriminate H].
    unfold bbind at 1 in H. destruct sha as [hash|e]; unfold blift at 1 in H; unfold bret, braise in H; [|discriminate H].
    unfold bbind at 1 in H. unfold bsky at 1 in H.
    unfold bbind at 1 in H. destruct (bop faults (registerRun "skymaps") s1 (butler_on r)) as [[s2 u2] o2] eqn:E2.
    destruct o2 as [[]| |]; [|discriminate..].
    unfold bbind at 1 in H. destruct (bop faults (registerDatasetType "skyMap") s2 u2) as [[s3 u3] o3] eqn:E3.
    destruct o3 as [[]| |]; [|discriminate..].
    apply (T _ _ _ _ _ _ _ _ _ H).
    all: unfold bop in E2; cbn in E2; destruct (faults 0%nat); try discriminate; injection E2 as <- <-;
      unfold bop in E3; cbn in E3; destruct (faults 1%nat); try discriminate; injection E3 as <- <-; cbn;
      unfold has; cbn; split; apply add_name_in; auto.
Qed.

(*@ C52: in every repository reached from an empty one by any registrations with any failures and
    crashes: names and hashes are distinct; the tract records of each registered map are exactly one
    for each of 0 .. tract_max - 1; patch records have distinct numbers within a tract, belong to
    a registered tract and lie in the ranges given in the skymap record; exactly the registered maps
    are stored as datasets. *)
Lemma repository_sound_proof : forall (Sky : Type) (offset : Sky -> R -> R -> Sky) r,
  reg_history offset r -> sound r.
Proof. exact @history_sound. Qed.

(** Registration of a new map when nothing fails. *)
Lemma register_new_lemma (Sky : Type) (offset : Sky -> R -> R -> Sky) d name hash s r :
  cfg_ok (sd_cfg d) -> 0 < sd_num d -> generable offset d -> sm_reachable offset d s -> sound r ->
  ~ In name (map k_name (g_skymaps r)) -> ~ In hash (map k_hash (g_skymaps r)) ->
  (forall s1 u t nx ny nxl nyl i, accesses offset d s s1 -> holds offset d (last (sm_log s1) 0) s1 u -> holds offset d i s1 t ->
     t_numPatches t = (nx, ny) -> t_numPatches u = (nxl, nyl) -> nx <= nxl /\ ny <= nyl) ->
  exists s' u', register offset no_faults d (Ok hash) name s (butler_on r) = (s', u', Done tt)
    /\ completely_registered offset d name hash s' r (u_durable u').
Proof.
  intros Hc Hnum Hgen Hr Hsnd Hn Hh Hle.
  destruct (register_reaches offset d (Ok hash) name s r hash Hr eq_refl Hnum
     (fun s1 i Ha Hi => Hgen s1 i (reachable_accesses _ _ _ _ Hr Ha) Hi))
    as (s1 & nxm & nym & r1 & Ha & Hall & Hx & Hy & Hs & E).
  pose proof (reachable_accesses _ _ _ _ Hr Ha) as Hr1.
  pose proof Hs as (Q1 & _).
  destruct (tail_new offset d name hash nxm nym s1 r1 2 Hc Hr1 Hnum (same_records_sound _ _ Hs Hsnd)) as (u' & Et).
  - intros i Hi. destruct (Hall i Hi) as (t & Ht).
    destruct (all_held_last offset d s1 Hc Hr1 Hnum Hall) as (u & Hu & Hin).
    pose proof (holds_made offset d s1 i t Hr1 Ht) as Hm.
    destruct (t_numPatches t) as [nx ny] eqn:En. destruct (t_numPatches u) as [nxl nyl] eqn:Enu.
    destruct (proj1 (patch_records_ok offset (sd_cfg d) _ u t name nx ny nxl nyl Hc Hin Hm En Enu)) as (block & Eb); [|eauto].
    exact (Hle s1 u t nx ny nxl nyl i Ha Hu Ht En Enu).
  - now rewrite Q1.
  - now rewrite Q1.
  - rewrite Et in E. exists s1, u'. split; [exact E|].
    destruct (register_spec offset no_faults d (Ok hash) name s r s1 u' (Done tt) Hr E)
      as (_ & [[_ Hd]|(hash' & nxm' & nym' & Esha & Hall' & Hnum' & Hx' & Hy' & Hout)]); [now destruct (Hd tt)|].
    injection Esha as <-. destruct Hout as [[_ Hin]|Hw].
    + exfalso. apply Hn. apply (in_map k_name) in Hin. exact Hin.
    + eapply wrote_complete; eauto.
Qed.

(*@ C52: if nothing fails, a map with equal patch counts in all tracts, under a new name and with a new hash,
    is registered completely. *)
Lemma register_succeeds_proof :
  forall (Sky : Type) (offset : Sky -> R -> R -> Sky) d n name hash s r,
  cfg_ok (sd_cfg d) -> 0 < sd_num d -> generable offset d -> uniform_counts offset d n ->
  sm_reachable offset d s -> reg_history offset r ->
  ~ In name (map k_name (g_skymaps r)) -> ~ In hash (map k_hash (g_skymaps r)) ->
  exists s' u', register offset no_faults d (Ok hash) name s (butler_on r) = (s', u', Done tt)
    /\ completely_registered offset d name hash s' r (u_durable u').
Proof.
  intros Sky offset d n name hash s r Hc Hnum Hgen Hu Hr Hh Hn Hha.
  apply register_new_lemma; auto; [now apply (history_sound offset)|].
  intros s1 u t nx ny nxl nyl i Ha Hlu Ht Ent Enu. pose proof (reachable_accesses _ _ _ _ Hr Ha) as Hr1.
  pose proof (uniform_holds offset d n s1 _ _ Hu Hr1 Hlu). pose proof (uniform_holds offset d n s1 _ _ Hu Hr1 Ht).
  rewrite Enu in *. rewrite Ent in *. subst n. injection H0 as -> ->. lia.
Qed.

(*@ C53: registering the same map again under the same name, from any object of that map with any
    history of accesses: nothing is ever changed, and if nothing fails it returns normally. *)
Lemma register_again_proof :
  forall (Sky : Type) (offset : Sky -> R -> R -> Sky) d name hash s r r1 s2 faults s' u' out,
  cfg_ok (sd_cfg d) -> 0 < sd_num d -> sm_reachable offset d s -> sm_reachable offset d s2 ->
  (forall i, 0 <= i < sd_num d -> exists t, holds offset d i s t) ->
  reg_history offset r1 -> completely_registered offset d name hash s r r1 ->
  register offset faults d (Ok hash) name s2 (butler_on r1) = (s', u', out) ->
  same_records r1 (u_durable u') /\ (faults = no_faults -> out = Done tt).
Proof.
  intros Sky offset d name hash s r r1 s2 faults s' u' out Hc Hnum Hr Hr2 Hall Hh Hcr H.
  pose proof (history_sound offset r1 Hh) as Hsnd.
  destruct Hcr as (nxm & nym & trs & blocks & lt & Hx & Hy & _ & Q1 & _).
  set (rec := mkSkyRec name hash (sd_num d) nxm nym) in *.
  assert (Hrec : In rec (g_skymaps r1)) by (rewrite Q1, in_app_iff; right; now left).
  assert (L : forall ax s3 m m', sm_reachable offset d s3 -> (forall i, 0 <= i < sd_num d -> exists t, holds offset d i s3 t) ->
     largest_count offset ax d s m -> largest_count offset ax d s3 m' -> m = m').
  { intros ax s3 m m' Hr3 Hall3 [A (i & t & Ht & E)] [B (i' & t' & Ht' & E')].
    assert (C : forall j v, holds offset d j s v -> exists v', holds offset d j s3 v' /\ t_numPatches v = t_numPatches v').
    { intros j v Hv. pose proof Hv as Hv'. apply (holds_slot _ _ _ _ _ Hr) in Hv'. destruct (Hall3 j (proj1 Hv')) as (v' & Hw).
      exists v'. split; [exact Hw|]. apply (same_tract_held offset d s s3 j v v' Hr Hv Hr3 Hw). }
    assert (C' : forall j v, holds offset d j s3 v -> exists v', holds offset d j s v' /\ t_numPatches v = t_numPatches v').
    { intros j v Hv. pose proof Hv as Hv'. apply (holds_slot _ _ _ _ _ Hr3) in Hv'. destruct (Hall j (proj1 Hv')) as (v' & Hw).
      exists v'. split; [exact Hw|]. symmetry. apply (same_tract_held offset d s s3 j v' v Hr Hw Hr3 Hv). }
    destruct (C _ _ Ht) as (v & Hv & Ev). destruct (C' _ _ Ht') as (v' & Hv' & Ev').
    pose proof (B _ _ Hv) as B1. pose proof (A _ _ Hv') as A1. rewrite <- Ev, E in B1. rewrite <- Ev', E' in A1. lia. }
  split.
  - destruct (register_spec offset faults d (Ok hash) name s2 r1 s' u' out Hr2 H)
      as (Ha & [[Hs _]|(hash' & nxm' & nym' & Esha & Hall' & Hnum' & Hx' & Hy' & Hout)]); [exact Hs|].
    assert (K : same_records r1 (u_durable u') \/ wrote offset d name hash' (mkSkyRec name hash' (sd_num d) nxm' nym') s' r1 (u_durable u'))
      by (destruct out; tauto).
    destruct K as [K|(K & _)]; [exact K|]. exfalso. apply K. apply (in_map k_name) in Hrec. exact Hrec.
  - intros ->.
    destruct (register_reaches offset d (Ok hash) name s2 r1 hash Hr2 eq_refl Hnum) as (s1 & nxm1 & nym1 & r2 & Ha & Hall1 & Hx1 & Hy1 & Hs & E).
    { intros s1 i Ha Hi. destruct (Hall i Hi) as (t & Ht).
      destruct (regenerate offset d s s1 i t Hr Ht (reachable_accesses _ _ _ _ Hr2 Ha)) as (sx & tx & G & _). eauto. }
    pose proof (reachable_accesses _ _ _ _ Hr2 Ha) as Hr1.
    rewrite <- (L fst s1 nxm nxm1 Hr1 Hall1 Hx Hx1), <- (L snd s1 nym nym1 Hr1 Hall1 Hy Hy1) in E. fold rec in E.
    destruct (tail_known offset d name hash rec s1 r2 2) as (u2 & Et & _).
    { pose proof Hs as (S1 & _). rewrite (sync_known rec r2 rec).
      - assert (sky_rec_eqb rec rec = true) as -> by (now apply sky_rec_eqb_spec). reflexivity.
      - rewrite S1. apply Hsnd.
      - now rewrite S1.
      - reflexivity. }
    rewrite Et, H in E. now injection E.
Qed.

(*@ C53: if the name is registered with another hash, number of tracts or largest patch counts, or the hash is
    registered under another name, register changes nothing and does not return normally; if nothing else fails
    it raises ConflictingDefinitionError. *)
Lemma register_conflict_proof :
  forall (Sky : Type) (offset : Sky -> R -> R -> Sky) d name hash s r k faults s' u' out,
  cfg_ok (sd_cfg d) -> 0 < sd_num d -> generable offset d -> sm_reachable offset d s -> reg_history offset r ->
  In k (g_skymaps r) ->
  (k_name k = name /\ (k_hash k <> hash \/ k_tract_max k <> sd_num d
       \/ (forall s1, accesses offset d s s1 -> ~ largest_count offset fst d s1 (k_nx_max k))
       \/ (forall s1, accesses offset d s s1 -> ~ largest_count offset snd d s1 (k_ny_max k)))
   \/ k_name k <> name /\ k_hash k = hash) ->
  register offset faults d (Ok hash) name s (butler_on r) = (s', u', out) ->
  same_records r (u_durable u') /\ out <> Done tt
  /\ (faults = no_faults -> out = Raised ConflictingDefinitionError).
Proof.
  intros Sky offset d name hash s r k faults s' u' out Hc Hnum Hgen Hr Hh Hk Hconf H.
  pose proof (history_sound offset r Hh) as Hsnd.
  assert (Hne : forall s1 nxm nym, accesses offset d s s1 -> largest_count offset fst d s1 nxm -> largest_count offset snd d s1 nym ->
     k <> mkSkyRec name hash (sd_num d) nxm nym).
  { intros s1 nxm nym Ha Hx Hy ->. cbn in Hconf. destruct Hconf as [(_ & [?|[?|[Q|Q]]])|[? _]]; try congruence;
      (apply (Q s1 Ha); assumption). }
  destruct (register_spec offset faults d (Ok hash) name s r s' u' out Hr H)
      as (Ha & Hcase).
  assert (A : same_records r (u_durable u') /\ out <> Done tt).
  { destruct Hcase as [[Hs Hd]|(hash' & nxm' & nym' & Esha & Hall' & Hnum' & Hx' & Hy' & Hout)]; [split; [exact Hs|apply Hd]|].
    injection Esha as <-. set (rec := mkSkyRec name hash (sd_num d) nxm' nym') in *.
    assert (NW : ~ wrote offset d name hash rec s' r (u_durable u')).
    { intros (K1 & K2 & _). cbn in K1, K2. apply (in_map k_name) in Hk as Hk1. apply (in_map k_hash) in Hk as Hk2.
      destruct Hconf as [[<- _]|[_ <-]]; auto. }
    assert (NI : ~ In rec (g_skymaps r)).
    { intros Hin. assert (k <> rec) by (eapply Hne; eauto).
      destruct Hconf as [[E _]|[E1 E2]].
      - apply H0. exact (NoDup_map_inj k_name _ _ _ (sn_names _ Hsnd) Hk Hin E).
      - apply H0. exact (NoDup_map_inj k_hash _ _ _ (sn_hashes _ Hsnd) Hk Hin E2). }
    destruct out as [[]|e|].
    - exfalso. tauto.
    - split; [exact Hout|discriminate].
    - split; [tauto|discriminate]. }
  split; [apply A|]. split; [apply A|]. intros ->.
  destruct (register_reaches offset d (Ok hash) name s r hash Hr eq_refl Hnum
     (fun s1 i Ha Hi => Hgen s1 i (reachable_accesses _ _ _ _ Hr Ha) Hi))
    as (s1 & nxm & nym & r1 & Ha1 & Hall & Hx & Hy & Hs & E).
  pose proof Hs as (S1 & _).
  set (rec := mkSkyRec name hash (sd_num d) nxm nym) in *.
  destruct (tail_raises offset d name hash rec s1 r1 2 ConflictingDefinitionError) as (u2 & Et & _).
  { destruct Hconf as [[En _]|[E1 E2]].
    - rewrite (sync_known rec r1 k).
      + destruct (sky_rec_eqb k rec) eqn:Eq; [|reflexivity]. apply sky_rec_eqb_spec in Eq. exfalso. now apply (Hne s1 nxm nym Ha1 Hx Hy).
      + rewrite S1. apply Hsnd.
      + now rewrite S1.
      + exact En.
    - unfold syncSkymap. destruct (find _ (g_skymaps r1)) as [k2|] eqn:Ef.
      + destruct (sky_rec_eqb k2 rec) eqn:Eq; [|reflexivity]. apply sky_rec_eqb_spec in Eq. subst k2. exfalso.
        apply find_some in Ef. destruct Ef as [Hin _]. rewrite S1 in Hin.
        apply E1. now rewrite (NoDup_map_inj k_hash _ _ _ (sn_hashes _ Hsnd) Hk Hin E2).
      + assert (existsb (fun k' => hash_eqb (k_hash k') (k_hash rec)) (g_skymaps r1) = true) as ->; [|reflexivity].
        apply existsb_exists. exists k. rewrite S1. split; [exact Hk|]. now apply hash_eqb_spec. }
  rewrite Et, H in E. now injection E.
Qed.

(*@ C54: a packer made from the skymap record of a registered map, with no counts given, accepts
    every registered patch of that map (with any known band whose number is in range, if bands are
    packed), its packed id is in range, and distinct patch records get distinct ids. *)
Lemma registered_ids_pack_proof :
  forall (Sky : Type) (offset : Sky -> R -> R -> Sky) r k bands n_bands dims pk,
  reg_history offset r -> In k (g_skymaps r) ->
  packer_init (mkFixed (k_name k) (Some (mkSkymapRec (k_tract_max k) (k_nx_max k) (k_ny_max k)))) dims bands n_bands None None
    = Ok pk ->
  let id p band := mkDataId (k_name k) (pr_tract p) (pr_patch p) band in
  let known band := p_n_bands pk = 0 \/ exists b m, band = Some b /\ dict_get (p_bands pk) (Some b) = Some m /\ 0 <= m < p_n_bands pk in
  (forall p band, In p (g_patches r) -> pr_skymap p = k_name k -> known band ->
     exists n, packer_pack pk (id p band) = Ok n /\ 0 <= n < 2 ^ packer_maxBits pk)
  /\ (forall p q band n, In p (g_patches r) -> In q (g_patches r) -> pr_skymap p = k_name k -> pr_skymap q = k_name k ->
       known band -> packer_pack pk (id p band) = Ok n -> packer_pack pk (id q band) = Ok n -> p = q).
Proof.
  intros Sky offset r k bands nb dims pk Hh Hk Hi id known.
  pose proof (history_sound offset r Hh) as [B1 _ _ B4 _ B6 _].
  assert (P : f_skymap (p_fixed pk) = k_name k /\ p_n_tracts pk = k_tract_max k /\ p_n_patches pk = k_nx_max k * k_ny_max k).
  { unfold packer_init in Hi. destruct (packer_dims dims bands nb) as [[[b0 n0] d0]|]; [|discriminate].
    cbn in Hi. injection Hi as <-. auto. }
  destruct P as (P1 & P2 & P3).
  assert (R : forall p, In p (g_patches r) -> pr_skymap p = k_name k ->
     0 <= pr_tract p < p_n_tracts pk /\ 0 <= pr_patch p < p_n_patches pk).
  { intros p Hp En. destruct (B6 p Hp) as (k' & Hk' & En' & H1 & H2 & _).
    assert (k' = k) as ->.
    { apply (NoDup_map_inj k_name _ _ _ B1 Hk' Hk). congruence. }
    rewrite P2, P3. auto. }
  assert (NN : forall p band, In p (g_patches r) -> pr_skymap p = k_name k -> known band -> nonneg_id pk (id p band)).
  { intros p band Hp En Hkn. destruct (R p Hp En). split; [cbn; lia|]. split; [cbn; lia|].
    intros Hnz b m Eb Em. cbn in Eb. destruct Hkn as [?|(b' & m' & Eb' & Em' & Hm)]; [contradiction|].
    rewrite Eb in Eb'. injection Eb' as <-. rewrite Em in Em'. injection Em' as <-. lia. }
  split.
  - intros p band Hp En Hkn. destruct (R p Hp En) as [R1 R2].
    assert (exists n, packer_pack pk (id p band) = Ok n) as (n & E).
    { unfold packer_pack, packer_pack0, id. cbn [d_skymap d_tract d_patch d_band]. rewrite P1, String.eqb_refl. cbn [negb].
      destruct (Z.leb_spec (p_n_patches pk) (pr_patch p)); [lia|]. destruct (Z.leb_spec (p_n_tracts pk) (pr_tract p)); [lia|].
      destruct (Z.eqb_spec (p_n_bands pk) 0); cbn [negb]; [eauto|].
      destruct Hkn as [?|(b & m & -> & Em & Hm)]; [contradiction|]. rewrite Em.
      destruct (Z.leb_spec (p_n_bands pk) m); [lia|]. eauto. }
    exists n. split; [exact E|]. apply (packed_id_fits_proof pk (id p band) n E). now apply NN.
  - intros p q band n Hp Hq Enp Enq Hkn Ep Eq.
    destruct (pack_parts pk (id p band) n Ep (NN p band Hp Enp Hkn)) as (_ & _ & Q1).
    destruct (pack_parts pk (id q band) n Eq (NN q band Hq Enq Hkn)) as (_ & _ & Q2).
    assert (E : pr_tract p = pr_tract q /\ pr_patch p = pr_patch q).
    { cbn [id d_tract d_patch] in Q1, Q2.
      destruct Q1 as [(Z1 & T1 & T2)|(Z1 & k1 & _ & _ & _ & T1 & T2)];
      destruct Q2 as [(Z2 & U1 & U2)|(Z2 & k2 & _ & _ & _ & U1 & U2)]; try contradiction; split; congruence. }
    destruct E as [E1 E2]. assert (Ek : patch_key p = patch_key q) by (unfold patch_key; congruence).
    exact (NoDup_map_inj patch_key _ _ _ B4 Hp Hq Ek).
Qed.

Lemma Forall2_In_l {A B} (P : A -> B -> Prop) l1 l2 a : Forall2 P l1 l2 -> In a l1 -> exists b, In b l2 /\ P a b.
Proof.
  intros H. induction H as [|x y l1 l2 Hxy _ IH]; [intros []|]. cbn. intros [->|Hin]; [eauto|].
  destruct (IH Hin) as (b & Hb & Hp). eauto.
Qed.

(*@ C55, for maps whose tracts all have nx x ny patches: the patch records added by a registration are exactly
    one for each tract i and each patch (x, y) of it, with patch number y * nx + x (the number the tract itself
    gives to that patch), indices x and y and the sky region of the outer box of that very patch. *)
Lemma registered_patches_uniform_proof :
  forall (Sky : Type) (offset : Sky -> R -> R -> Sky) d nx ny name hash s r r',
  cfg_ok (sd_cfg d) -> sm_reachable offset d s -> uniform_counts offset d (nx, ny) ->
  completely_registered offset d name hash s r r' ->
  exists added, g_patches r' = g_patches r ++ added
    /\ Z.of_nat (List.length added) = Z.max 0 (sd_num d) * (nx * ny)
    /\ forall rec, In rec added <->
         exists i t x y p, holds offset d i s t /\ 0 <= x < nx /\ 0 <= y < ny
           /\ tract_getPatchInfo (sm_builder s) t (IxIndex2D x y) = Ok p
           /\ getSequentialPatchIndex (sm_builder s) p = Ok (y * nx + x)
           /\ rec = mkPatchRec name i (y * nx + x) x y (patch_getOuterSkyPolygon p (Some (t_wcs t))).
Proof.
  intros Sky offset d nx ny name hash s r r' Hc Hr Hu (nxm & nym & trs & blocks & lt & _ & _ & Hl & _ & _ & Hp & _ & _ & F).
  pose proof (uniform_holds offset d _ s _ _ Hu Hr Hl) as Enl.
  assert (Hn : 0 < sd_num d) by (apply (holds_slot offset d s _ _ Hr) in Hl; lia).
  assert (Hin : forall i t, holds offset d i s t -> in_use offset (sd_cfg d) (sm_builder s) t).
  { intros i t Ht. destruct (builder_last offset d s Hc Hr (holds_log_ne offset d s i t Hr Ht)) as (j & u & Hju & [U1 U2 U3 U4] & _).
    constructor; auto; [eapply holds_made; eauto|]. rewrite U4.
    now rewrite (uniform_holds offset d _ s _ _ Hu Hr Ht), (uniform_holds offset d _ s _ _ Hu Hr Hju). }
  exists (concat blocks). split; [exact Hp|]. rewrite Enl in F. cbn [fst] in F. split.
  - assert (K : forall ids bl, Forall2 (fun i block => exists t, holds offset d i s t /\ patch_block name (sm_builder s) nx i t block) ids bl ->
       Z.of_nat (List.length (concat bl)) = Z.of_nat (List.length ids) * (nx * ny)).
    { intros ids bl HF. induction HF as [|i b ids bl (t & Ht & a & b' & En & _ & _ & El & _) _ IH]; [reflexivity|].
      rewrite (uniform_holds offset d _ s _ _ Hu Hr Ht) in En. injection En as <- <-.
      cbn [concat List.length]. rewrite app_length, !Nat2Z.inj_add, Nat2Z.inj_succ, IH. lia. }
    rewrite (K _ _ F), zrange_length. f_equal. lia.
  - intros rec. split.
    + intros H. destruct (in_concat_Forall2 _ _ _ _ F H) as (i & block & Hi & (t & Ht & Hb) & Hrec).
      destruct (block_in _ _ _ _ _ _ _ Hb Hrec) as (a & b & x & y & p & En & Hx & Hy & Ep & ->).
      rewrite (uniform_holds offset d _ s _ _ Hu Hr Ht) in En. injection En as <- <-.
      exists i, t, x, y, p. split; [exact Ht|]. split; [exact Hx|]. split; [exact Hy|]. split; [exact Ep|]. split; [|reflexivity].
      destruct (in_use_spec _ _ _ _ Hc (Hin i t Ht)) as (nxl & nyl & Hii & Hinit & Hnb & Hnt & _).
      rewrite (uniform_holds offset d _ s _ _ Hu Hr Ht) in Hnt. injection Hnt as <- <-.
      destruct (getPatchInfo_pair_inv _ _ _ _ _ _ _ _ Hc Hii Hinit Hnb Ep) as (_ & _ & ->).
      unfold getSequentialPatchIndex, getSequentialPatchIndexFromPair. rewrite Hnb. cbn. f_equal. lia.
    + intros (i & t & x & y & p & Ht & Hx & Hy & Ep & _ & ->).
      apply (holds_slot offset d s _ _ Hr) in Ht as Hi.
      destruct (Forall2_In_l _ _ _ i F) as (block & Hbl & t' & Ht' & Hb); [apply in_zrange; lia|].
      pose proof (holds_fun offset d s i t' t Ht' Ht) as ->.
      apply in_concat. exists block. split; [exact Hbl|].
      destruct Hb as (a & b & En & _ & _ & _ & Hb). rewrite (uniform_holds offset d _ s _ _ Hu Hr Ht) in En. injection En as <- <-.
      destruct (Hb x y Hx Hy) as (p' & Ep' & Hnth). rewrite Ep in Ep'. injection Ep' as <-. eapply nth_error_In; eauto.
Qed.

(*@ C55: exactly, for every map: the patch records added by a registration are one for each patch (x, y) of each
    tract, with number y * w + x where w is the number of columns of the tract generated last; these are the
    tract's own numbers (y * nx + x with its own nx) exactly for the tracts with w columns or a single row. *)
Lemma registered_numbers_exact_proof :
  forall (Sky : Type) (offset : Sky -> R -> R -> Sky) d name hash s r r' u w h,
  cfg_ok (sd_cfg d) -> sm_reachable offset d s -> completely_registered offset d name hash s r r' ->
  holds offset d (last (sm_log s) 0) s u -> t_numPatches u = (w, h) ->
  exists added, g_patches r' = g_patches r ++ added
    /\ (forall rec, In rec added <->
         exists i t nx ny x y p, holds offset d i s t /\ t_numPatches t = (nx, ny) /\ 0 <= x < nx /\ 0 <= y < ny
           /\ tract_getPatchInfo (sm_builder s) t (IxIndex2D x y) = Ok p
           /\ rec = mkPatchRec name i (y * w + x) x y (patch_getOuterSkyPolygon p (Some (t_wcs t))))
    /\ (forall i t nx ny, holds offset d i s t -> t_numPatches t = (nx, ny) -> 0 < nx ->
         ((forall rec, In rec added -> pr_tract rec = i -> pr_patch rec = pr_y rec * nx + pr_x rec)
          <-> nx = w \/ ny <= 1)).
Proof.
  intros Sky offset d name hash s r r' u w h Hc Hr (nxm & nym & trs & blocks & lt & _ & _ & Hl & _ & _ & Hp & _ & _ & F) Hu Eu.
  pose proof (holds_fun offset d s _ lt u Hl Hu) as ->. rewrite Eu in F. cbn [fst] in F.
  assert (G : forall rec, In rec (concat blocks) <->
         exists i t nx ny x y p, holds offset d i s t /\ t_numPatches t = (nx, ny) /\ 0 <= x < nx /\ 0 <= y < ny
           /\ tract_getPatchInfo (sm_builder s) t (IxIndex2D x y) = Ok p
           /\ rec = mkPatchRec name i (y * w + x) x y (patch_getOuterSkyPolygon p (Some (t_wcs t)))).
  { intros rec. split.
    + intros H. destruct (in_concat_Forall2 _ _ _ _ F H) as (i & block & Hi & (t & Ht & Hb) & Hrec).
      destruct (block_in _ _ _ _ _ _ _ Hb Hrec) as (a & b & x & y & p & En & Hx & Hy & Ep & ->).
      exists i, t, a, b, x, y, p. tauto.
    + intros (i & t & nx & ny & x & y & p & Ht & En & Hx & Hy & Ep & ->).
      apply (holds_slot offset d s _ _ Hr) in Ht as Hi.
      destruct (Forall2_In_l _ _ _ i F) as (block & Hbl & t' & Ht' & Hb); [apply in_zrange; lia|].
      pose proof (holds_fun offset d s i t' t Ht' Ht) as ->.
      apply in_concat. exists block. split; [exact Hbl|].
      destruct Hb as (a & b & En' & _ & _ & _ & Hb). rewrite En in En'. injection En' as <- <-.
      destruct (Hb x y Hx Hy) as (p' & Ep' & Hnth). rewrite Ep in Ep'. injection Ep' as <-. eapply nth_error_In; eauto. }
  exists (concat blocks). split; [exact Hp|]. split; [exact G|].
  intros i t nx ny Ht En Hnx. split.
  - intros Hall. destruct (Z.le_gt_cases ny 1) as [|Hy]; [now right|left].
    apply (holds_slot offset d s _ _ Hr) in Ht as Hi.
    destruct (Forall2_In_l _ _ _ i F) as (block & Hbl & t' & Ht' & Hb); [apply in_zrange; lia|].
    pose proof (holds_fun offset d s i t' t Ht' Ht) as ->.
    destruct Hb as (a & b & En' & _ & _ & _ & Hb). rewrite En in En'. injection En' as <- <-.
    destruct (Hb 0 1 ltac:(lia) ltac:(lia)) as (p & Ep & Hnth).
    apply nth_error_In in Hnth.
    specialize (Hall _ (proj2 (in_concat _ _) (ex_intro _ block (conj Hbl Hnth))) eq_refl). cbn [pr_patch pr_y pr_x] in Hall. lia.
  - intros HH rec Hin Hti. apply G in Hin. destruct Hin as (j & t' & a & b & x & y & p & Ht' & En' & Hx & Hy & _ & ->).
    cbn [pr_tract pr_patch pr_y pr_x] in *. subst j. pose proof (holds_fun offset d s i t' t Ht' Ht) as ->.
    rewrite En in En'. injection En' as <- <-. destruct HH as [->|H1]; [reflexivity|]. assert (y = 0) by lia. subst y. lia.
Qed.

(*@ C55 REFUTED in general: once all tracts of a map exist, if some tract has more patches along an axis than
    the tract generated last, the map cannot be registered at all under a new name: register never returns
    normally, and nothing is registered. *)
Lemma unequal_tracts_not_registered_refuted_proof :
  forall (Sky : Type) (offset : Sky -> R -> R -> Sky) faults d name sha s r i t u s' u' out,
  cfg_ok (sd_cfg d) -> 0 < sd_num d -> sm_reachable offset d s ->
  (forall j, 0 <= j < sd_num d -> exists v, holds offset d j s v) ->
  holds offset d i s t -> holds offset d (last (sm_log s) 0) s u ->
  fst (t_numPatches u) < fst (t_numPatches t) \/ snd (t_numPatches u) < snd (t_numPatches t) ->
  ~ In name (map k_name (g_skymaps r)) ->
  register offset faults d sha name s (butler_on r) = (s', u', out) ->
  same_records r (u_durable u') /\ out <> Done tt.
Proof.
  intros Sky offset faults d name sha s r i t u s' u' out Hc Hnum Hr Hall Ht Hu Hlt Hnew H.
  destruct (register_spec offset faults d sha name s r s' u' out Hr H)
    as (Ha & [[Hs Hd]|(hash & nxm & nym & Esha & Hall' & Hnum' & Hx & Hy & Hout)]); [split; [exact Hs|apply Hd]|].
  pose proof (accesses_all offset d s s' Hr Hall Ha) as ->.
  assert (NW : ~ wrote offset d name hash (mkSkyRec name hash (sd_num d) nxm nym) s r (u_durable u')).
  { intros (_ & _ & trs & blocks & _ & _ & _ & _ & _ & _ & _ & F).
    apply (holds_slot offset d s _ _ Hr) in Ht as Hi.
    destruct (Forall2_In_l _ _ _ i F) as (block & _ & t' & Ht' & Hb); [apply in_zrange; lia|].
    pose proof (holds_fun offset d s i t' t Ht' Ht) as ->.
    destruct (all_held_last offset d s Hc Hr Hnum Hall) as (v & Hv & Hin).
    pose proof (holds_fun offset d s _ v u Hv Hu) as ->.
    destruct (t_numPatches t) as [nx ny] eqn:En. destruct (t_numPatches u) as [nxl nyl] eqn:Enu.
    destruct (patch_records_ok offset (sd_cfg d) _ u t name nx ny nxl nyl Hc Hin (holds_made offset d s i t Hr Ht) En Enu) as [_ Hb2].
    cbn [fst snd] in Hlt. rewrite Hb2 in Hb by exact Hlt. discriminate. }
  destruct out as [[]|e|].
  - destruct Hout as [[_ Hin]|Hw]; [|tauto]. exfalso. apply Hnew. apply (in_map k_name) in Hin. exact Hin.
  - split; [exact Hout|discriminate].
  - split; [tauto|discriminate].
Qed.

(*@ C55: exactly which maps can be registered: when all tracts exist and nothing fails, a map under a new name
    and with a new hash is registered exactly if no tract has more columns or rows of patches than the tract
    generated last. *)
Lemma register_exactly_proof :
  forall (Sky : Type) (offset : Sky -> R -> R -> Sky) d name hash s r u,
  cfg_ok (sd_cfg d) -> 0 < sd_num d -> generable offset d -> sm_reachable offset d s -> reg_history offset r ->
  (forall j, 0 <= j < sd_num d -> exists v, holds offset d j s v) ->
  holds offset d (last (sm_log s) 0) s u ->
  ~ In name (map k_name (g_skymaps r)) -> ~ In hash (map k_hash (g_skymaps r)) ->
  ((exists s' u', register offset no_faults d (Ok hash) name s (butler_on r) = (s', u', Done tt))
   <-> forall i t, holds offset d i s t ->
         fst (t_numPatches t) <= fst (t_numPatches u) /\ snd (t_numPatches t) <= snd (t_numPatches u)).
Proof.
  intros Sky offset d name hash s r u Hc Hnum Hgen Hr Hh Hall Hu Hn Hha. split.
  - intros (s' & u' & E) i t Ht.
    destruct (Z.le_gt_cases (fst (t_numPatches t)) (fst (t_numPatches u))) as [L1|L1];
      destruct (Z.le_gt_cases (snd (t_numPatches t)) (snd (t_numPatches u))) as [L2|L2]; [tauto| | |]; exfalso;
      destruct (unequal_tracts_not_registered_refuted_proof Sky offset no_faults d name (Ok hash) s r i t u s' u' (Done tt)
        Hc Hnum Hr Hall Ht Hu ltac:(lia) Hn E) as [_ K]; now apply K.
  - intros Hle.
    destruct (register_new_lemma Sky offset d name hash s r Hc Hnum Hgen Hr (history_sound offset r Hh) Hn Hha) as (s' & u' & E & _); [|eauto].
    intros s1 u1 t nx ny nxl nyl i Ha Hu1 Ht En Enu.
    pose proof (accesses_all offset d s s1 Hr Hall Ha) as ->.
    pose proof (holds_fun offset d s _ u1 u Hu1 Hu) as ->.
    specialize (Hle i t Ht). rewrite En, Enu in Hle. exact Hle.
Qed.

(** A map of two tracts with 3 x 2 and 1 x 2 patches. *)
Definition unequal_map : skydef flat := mkDef CachingMap legacy_default 2 (fun i =>
  Ok (if i =? 0 then PlainArgs (0, 0)%R (ex_verts 9999 4999) 0%R flat_wcs None
      else PlainArgs (0, 0)%R (ex_verts 999 4999) 0%R flat_wcs None)).

(*@ C55 REFUTED, a concrete map of two tracts with 3 x 2 and 1 x 2 patches.  If the tracts are used in the order
    0, 1 before registration, register always fails.  If they are used in the order 1, 0, registration in an empty
    repository succeeds, and patch (0, 1) of tract 1 is registered as number 3, although
    the tract itself numbered it 1 when it was made. *)
Lemma registered_numbers_refuted_proof :
  exists s0, sm_new flat_offset unequal_map = Ok s0
    /\ (exists s1 t s2 u, sm_getitem flat_offset unequal_map 0 s0 = (s1, Ok t) /\ sm_getitem flat_offset unequal_map 1 s1 = (s2, Ok u)
        /\ forall faults sha name s' u' out,
             register flat_offset faults unequal_map sha name s2 (butler_on (mkReg [] [] [] [] [] [])) = (s', u', out) ->
             out <> Done tt /\ g_patches (u_durable u') = [])
    /\ (exists s1 t s2 u, sm_getitem flat_offset unequal_map 1 s0 = (s1, Ok u) /\ sm_getitem flat_offset unequal_map 0 s1 = (s2, Ok t)
        /\ t_numPatches u = (1, 2) /\ getSequentialPatchIndexFromPair (sm_builder s1) (IxIndex2D 0 1) = Ok 1
        /\ forall name hash, exists s' u',
             register flat_offset no_faults unequal_map (Ok hash) name s2 (butler_on (mkReg [] [] [] [] [] [])) = (s', u', Done tt)
             /\ exists region, In (mkPatchRec name 1 3 0 1 region) (g_patches (u_durable u'))).
Proof.
  set (d := unequal_map).
  assert (Hc : cfg_ok legacy_default) by (cbn; lia).
  set (s0 := mkSM (repeat (@None (tract flat)) 2) (builder_init legacy_default) 0 []).
  assert (H0 : sm_new flat_offset d = Ok s0) by reflexivity.
  assert (Hr0 : sm_reachable flat_offset d s0) by (exists s0; split; [exact H0|constructor]).
  exists s0. split; [exact H0|]. split.
  - destruct (ex_tract legacy_default 0 0 9999 4999 (builder_init _) Hc (br_init _)) as (b & t & E & Hu & Hn); [lia|lia|].
    set (s1 := mkSM [Some t; None] b 1 [0]).
    assert (G0 : sm_getitem flat_offset d 0 s0 = (s1, Ok t)).
    { unfold sm_getitem, smbind, generateTract. cbn -[TractInfo_init ex_verts builder_init]. rewrite E. reflexivity. }
    destruct (getitem_holds flat_offset d s0 0 s1 t Hr0 ltac:(lia) G0) as (Hr1 & Ha1 & Hh1).
    destruct (ex_tract legacy_default 1 1 999 4999 b Hc (iu_reach _ _ _ _ Hu)) as (b' & u & E' & Hu' & Hn'); [lia|lia|].
    set (s2 := mkSM [Some t; Some u] b' 2 [0; 1]).
    assert (G1 : sm_getitem flat_offset d 1 s1 = (s2, Ok u)).
    { unfold sm_getitem, smbind, generateTract. cbn -[TractInfo_init ex_verts builder_init].
      change (Pos.to_nat 1) with 1%nat. cbn -[TractInfo_init ex_verts builder_init]. rewrite E'. reflexivity. }
    destruct (getitem_holds flat_offset d s1 1 s2 u Hr1 ltac:(lia) G1) as (Hr2 & Ha2 & Hh2).
    pose proof (holds_accesses flat_offset d s1 s2 0 t Hr1 Ha2 Hh1) as Hh1'.
    exists s1, t, s2, u. split; [exact G0|]. split; [exact G1|].
    intros faults sha name s' u' out H.
    assert (Hall : forall j, 0 <= j < sd_num d -> exists v, holds flat_offset d j s2 v).
    { intros j Hj. cbn in Hj. assert (j = 0 \/ j = 1) as [-> | ->] by lia; eauto. }
    destruct (unequal_tracts_not_registered_refuted_proof flat flat_offset faults d name sha s2 (mkReg [] [] [] [] [] []) 0 t u s' u' out) as [A B];
      try assumption; [cbn; lia| | |].
    + left. rewrite Hn, Hn'. cbn. lia.
    + intros [].
    + split; [exact B|]. destruct A as (_ & _ & A & _). exact A.
  - destruct (ex_tract legacy_default 0 1 999 4999 (builder_init _) Hc (br_init _)) as (b & u & E & Hu & Hn); [lia|lia|].
    set (s1 := mkSM [None; Some u] b 1 [1]).
    assert (G0 : sm_getitem flat_offset d 1 s0 = (s1, Ok u)).
    { unfold sm_getitem, smbind, generateTract. cbn -[TractInfo_init ex_verts builder_init].
      change (Pos.to_nat 1) with 1%nat. cbn -[TractInfo_init ex_verts builder_init]. rewrite E. reflexivity. }
    destruct (getitem_holds flat_offset d s0 1 s1 u Hr0 ltac:(lia) G0) as (Hr1 & Ha1 & Hh1).
    destruct (ex_tract legacy_default 1 0 9999 4999 b Hc (iu_reach _ _ _ _ Hu)) as (b' & t & E' & Hu' & Hn'); [lia|lia|].
    set (s2 := mkSM [Some t; Some u] b' 2 [1; 0]).
    assert (G1 : sm_getitem flat_offset d 0 s1 = (s2, Ok t)).
    { unfold sm_getitem, smbind, generateTract. cbn -[TractInfo_init ex_verts builder_init]. rewrite E'. reflexivity. }
    destruct (getitem_holds flat_offset d s1 0 s2 t Hr1 ltac:(lia) G1) as (Hr2 & Ha2 & Hh2).
    pose proof (holds_accesses flat_offset d s1 s2 1 u Hr1 Ha2 Hh1) as Hh1'.
    assert (Hall : forall j, 0 <= j < sd_num d -> exists v, holds flat_offset d j s2 v).
    { intros j Hj. cbn in Hj. assert (j = 0 \/ j = 1) as [-> | ->] by lia; eauto. }
    exists s1, t, s2, u. split; [exact G0|]. split; [exact G1|]. split; [rewrite Hn; reflexivity|]. split.
    { unfold getSequentialPatchIndexFromPair. cbn [s1 sm_builder]. rewrite (iu_sync _ _ _ _ Hu), Hn. reflexivity. }
    intros name hash.
    assert (Hnt : t_numPatches t = (3, 2)) by (rewrite Hn'; reflexivity).
    assert (Hnu : t_numPatches u = (1, 2)) by (rewrite Hn; reflexivity).
    destruct (register_new_lemma flat flat_offset d name hash s2 (mkReg [] [] [] [] [] [])) as (s' & u' & R & C);
      try assumption.
    + cbn; lia.
    + intros s i Hs Hi. destruct (Hall i Hi) as (v & Hv).
      destruct (regenerate flat_offset d s2 s i v Hr2 Hv Hs) as (sx & tx & G & _). eauto.
    + apply (history_sound flat_offset). constructor.
    + intros [].
    + intros [].
    + intros sx v w nx ny nxl nyl i Ha Hv Hw Ew Ev. pose proof (accesses_all flat_offset d s2 sx Hr2 Hall Ha) as ->.
      cbn [s2 sm_log last] in Hv. pose proof (holds_fun flat_offset d s2 0 v t Hv Hh2) as ->.
      rewrite Hnt in Ev. injection Ev as <- <-.
      apply (holds_slot flat_offset d s2 _ _ Hr2) in Hw as Hi. destruct Hi as [Hi _]. cbn in Hi.
      assert (i = 0 \/ i = 1) as [-> | ->] by lia.
      * pose proof (holds_fun flat_offset d s2 0 w t Hw Hh2) as ->. rewrite Hnt in Ew. injection Ew as <- <-. lia.
      * pose proof (holds_fun flat_offset d s2 1 w u Hw Hh1') as ->. rewrite Hnu in Ew. injection Ew as <- <-. lia.
    + exists s', u'. split; [exact R|].
      destruct (register_spec flat_offset no_faults d (Ok hash) name s2 _ s' u' _ Hr2 R) as (Ha & _).
      pose proof (accesses_all flat_offset d s2 s' Hr2 Hall Ha) as ->.
      destruct C as (_ & _ & trs & blocks & lt & _ & _ & Hl & _ & _ & Hp & _ & _ & F).
      cbn [s2 sm_log last] in Hl. pose proof (holds_fun flat_offset d s2 0 lt t Hl Hh2) as ->.
      rewrite Hnt in F. cbn [fst] in F.
      destruct (Forall2_In_l _ _ _ 1 F) as (block & Hbl & v & Hv & Hb); [apply in_zrange; cbn; lia|].
      pose proof (holds_fun flat_offset d s2 1 v u Hv Hh1') as ->.
      destruct Hb as (nx & ny & En & _ & _ & _ & Hb). rewrite Hnu in En. injection En as <- <-.
      destruct (Hb 0 1 ltac:(lia) ltac:(lia)) as (p & _ & Hnth). apply nth_error_In in Hnth.
      eexists. rewrite Hp. cbn [g_patches app]. apply in_concat. exists block. split; [exact Hbl|exact Hnth].
Qed.

(** A map of two tracts with 3 x 2 patches each. *)
Definition uniform_map : skydef flat := mkDef CachingMap legacy_default 2 (fun i =>
  Ok (PlainArgs (0, 0)%R (ex_verts 9999 4999) 0%R flat_wcs None)).

(*@ C52, C53, C54, C55: the hypotheses of the theorems above are met: a map of two tracts with 3 x 2 patches can be generated,
    is registered in an empty repository as 1 skymap, 2 tracts and 12 patches; registering it again returns
    normally; registering it under the same name with another hash raises ConflictingDefinitionError; a
    packer can be made from the skymap record. *)
Example registration_example_proof :
  exists s0, sm_new flat_offset uniform_map = Ok s0 /\ generable flat_offset uniform_map
    /\ uniform_counts flat_offset uniform_map (3, 2)
    /\ forall name hash, exists s1 u1,
         register flat_offset no_faults uniform_map (Ok hash) name s0 (butler_on (mkReg [] [] [] [] [] [])) = (s1, u1, Done tt)
         /\ reg_history flat_offset (u_durable u1)
         /\ completely_registered flat_offset uniform_map name hash s1 (mkReg [] [] [] [] [] []) (u_durable u1)
         /\ g_skymaps (u_durable u1) = [mkSkyRec name hash 2 3 2]
         /\ List.length (g_tracts (u_durable u1)) = 2%nat /\ List.length (g_patches (u_durable u1)) = 12%nat
         /\ (exists s2 u2, register flat_offset no_faults uniform_map (Ok hash) name s0 (butler_on (u_durable u1)) = (s2, u2, Done tt))
         /\ (forall hash', hash' <> hash -> exists s2 u2,
               register flat_offset no_faults uniform_map (Ok hash') name s0 (butler_on (u_durable u1))
               = (s2, u2, Raised ConflictingDefinitionError))
         /\ (exists pk, packer_init (mkFixed name (Some (mkSkymapRec 2 3 2))) None None None None None = Ok pk).
Proof.
  set (d := uniform_map).
  assert (Hc : cfg_ok legacy_default) by (cbn; lia).
  set (s0 := mkSM (repeat (@None (tract flat)) 2) (builder_init legacy_default) 0 []).
  assert (H0 : sm_new flat_offset d = Ok s0) by reflexivity.
  assert (Hr0 : sm_reachable flat_offset d s0) by (exists s0; split; [exact H0|constructor]).
  assert (Hcnt : forall oid i b, builder_reachable legacy_default b ->
     exists b' t, make_tract flat_offset b oid i (PlainArgs (0, 0)%R (ex_verts 9999 4999) 0%R flat_wcs None) = Ok (b', t)
       /\ in_use flat_offset legacy_default b' t /\ t_numPatches t = (3, 2)).
  { intros oid i b Hb. destruct (ex_tract legacy_default oid i 9999 4999 b Hc Hb) as (b' & t & E & Hu & Hn); [lia|lia|].
    exists b', t. split; [exact E|]. split; [exact Hu|]. rewrite Hn. reflexivity. }
  assert (Huni : uniform_counts flat_offset d (3, 2)).
  { intros i a b oid b' t Hi Ha Hb Hm. cbn in Ha. injection Ha as <-. destruct (Hcnt oid i b Hb) as (b2 & t2 & E & _ & Hn).
    rewrite E in Hm. injection Hm as _ <-. exact Hn. }
  destruct (Hcnt 0%nat 0 _ (br_init _)) as (b & t & E & Hu & Hn).
  set (s1 := mkSM [Some t; None] b 1 [0]).
  assert (G0 : sm_getitem flat_offset d 0 s0 = (s1, Ok t)).
  { unfold sm_getitem, smbind, generateTract. cbn -[TractInfo_init ex_verts builder_init]. cbn [make_tract] in E. rewrite E. reflexivity. }
  destruct (getitem_holds flat_offset d s0 0 s1 t Hr0 ltac:(lia) G0) as (Hr1 & Ha1 & Hh1).
  destruct (Hcnt 1%nat 1 b (iu_reach _ _ _ _ Hu)) as (b' & u & E' & Hu' & Hn').
  set (s2 := mkSM [Some t; Some u] b' 2 [0; 1]).
  assert (G1 : sm_getitem flat_offset d 1 s1 = (s2, Ok u)).
  { unfold sm_getitem, smbind, generateTract. cbn -[TractInfo_init ex_verts builder_init].
    change (Pos.to_nat 1) with 1%nat. cbn -[TractInfo_init ex_verts builder_init]. cbn [make_tract] in E'. rewrite E'. reflexivity. }
  destruct (getitem_holds flat_offset d s1 1 s2 u Hr1 ltac:(lia) G1) as (Hr2 & Ha2 & Hh2).
  pose proof (holds_accesses flat_offset d s1 s2 0 t Hr1 Ha2 Hh1) as Hh1'.
  assert (Hgen : generable flat_offset d).
  { intros s i Hs Hi. cbn in Hi. assert (exists v, holds flat_offset d i s2 v) as (v & Hv).
    { assert (i = 0 \/ i = 1) as [-> | ->] by lia; eauto. }
    destruct (regenerate flat_offset d s2 s i v Hr2 Hv Hs) as (sx & tx & G & _). eauto. }
  exists s0. split; [exact H0|]. split; [exact Hgen|]. split; [exact Huni|]. intros name hash.
  destruct (register_succeeds_proof flat flat_offset d (3, 2) name hash s0 (mkReg [] [] [] [] [] []))
    as (s' & u' & R & C); try assumption; [cbn; lia|constructor|intros []|intros []|].
  assert (Hh : reg_history flat_offset (u_durable u')) by (exact (rh_register flat_offset _ no_faults d (Ok hash) name s0 s' u' (Done tt) (rh_empty _) Hc Hr0 R)).
  destruct (register_spec flat_offset no_faults d (Ok hash) name s0 _ s' u' _ Hr0 R) as (Ha & [[_ Hd]|(_ & _ & _ & _ & Hall & _)]); [now destruct (Hd tt)|].
  pose proof (reachable_accesses _ _ _ _ Hr0 Ha) as Hr'.
  exists s', u'. split; [exact R|]. split; [exact Hh|]. split; [exact C|].
  assert (Esky : g_skymaps (u_durable u') = [mkSkyRec name hash 2 3 2]).
  { destruct C as (nxm & nym & trs & blocks & lt & (_ & ix & tx & Htx & Ex) & (_ & iy & ty & Hty & Ey) & _ & Q & _).
    rewrite Q. cbn [g_skymaps app]. rewrite (uniform_holds _ d _ s' _ _ Huni Hr' Htx) in Ex.
    rewrite (uniform_holds _ d _ s' _ _ Huni Hr' Hty) in Ey. cbn in Ex, Ey. now rewrite <- Ex, <- Ey. }
  split; [exact Esky|]. split.
  { destruct C as (nxm & nym & trs & blocks & lt & _ & _ & _ & _ & Q & _ & _ & F & _). rewrite Q. cbn [g_tracts app].
    apply Forall2_len in F. rewrite <- F. reflexivity. }
  split.
  { destruct (registered_patches_uniform_proof flat flat_offset d 3 2 name hash s' _ _ Hc Hr' Huni C) as (add & Q & L & _).
    rewrite Q. cbn [g_patches app]. cbn [sd_num d uniform_map] in L. lia. }
  split.
  { destruct (register flat_offset no_faults d (Ok hash) name s0 (butler_on (u_durable u'))) as [[sx ux] out] eqn:Ex.
    destruct (register_again_proof flat flat_offset d name hash s' (mkReg [] [] [] [] [] []) (u_durable u') s0 no_faults sx ux out) as [_ A];
      try assumption; [cbn; lia|]. rewrite (A eq_refl). eauto. }
  split.
  { intros hash' Hne. destruct (register flat_offset no_faults d (Ok hash') name s0 (butler_on (u_durable u'))) as [[sx ux] out] eqn:Ex.
    destruct (register_conflict_proof flat flat_offset d name hash' s0 (u_durable u') (mkSkyRec name hash 2 3 2) no_faults sx ux out) as (_ & _ & A);
      try assumption; [cbn; lia|rewrite Esky; now left|left; cbn; auto|]. rewrite (A eq_refl). eauto. }
  eexists. reflexivity.
Qed.
