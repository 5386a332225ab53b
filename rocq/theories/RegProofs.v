(** Proofs about registration. *)
From Coq Require Import Reals String.
Require Import Verif.Py Verif.Geom Verif.PatchInfo Verif.TractBuilder Verif.TractInfo Verif.Spec.
Require Import Verif.PatchProofs Verif.TractProofs.
Require Import Verif.SkyMap Verif.SkySpec Verif.SkyProofs Verif.SkyProofs2 Verif.Register Verif.RegSpec.
Open Scope list_scope.
Open Scope Z_scope.
Local Arguments Z.mul : simpl never.

Section Register.
Context {Sky : Type}.
Variable offset : Sky -> R -> R -> Sky.
Notation registry := (registry Sky).

(** Records added to a registry. *)
Definition added (r r' : registry) (trs : list (tract_rec Sky)) (prs : list (patch_rec Sky)) : Prop :=
  g_skymaps r' = g_skymaps r /\ g_tracts r' = g_tracts r ++ trs /\ g_patches r' = g_patches r ++ prs
  /\ g_datasets r' = g_datasets r
  /\ (NoDup (map tract_key (g_tracts r)) -> NoDup (map tract_key (g_tracts r')))
  /\ (NoDup (map patch_key (g_patches r)) -> NoDup (map patch_key (g_patches r'))).

Lemma added_nil r : added r r [] [].
Proof. unfold added. rewrite !app_nil_r. auto 10. Qed.
Lemma added_trans r1 r2 r3 t1 p1 t2 p2 :
  added r1 r2 t1 p1 -> added r2 r3 t2 p2 -> added r1 r3 (t1 ++ t2) (p1 ++ p2).
Proof.
  intros (A1 & A2 & A3 & A4 & A5 & A6) (B1 & B2 & B3 & B4 & B5 & B6). unfold added.
  rewrite B1, A1, B2, A2, B3, A3, B4, A4, <- !app_assoc. rewrite B2, A2, <- app_assoc in B5. rewrite B3, A3, <- app_assoc in B6.
  rewrite A2 in A5. rewrite A3 in A6. auto 10.
Qed.

Lemma NoDup_snoc {A} (l : list A) x : NoDup l -> ~ In x l -> NoDup (l ++ [x]).
Proof. intros Hl Hx. apply NoDup_app_iff || idtac. induction Hl as [|y l Hy Hl IH]; cbn.
  - constructor; [auto|constructor].
  - constructor.
    + rewrite in_app_iff. cbn. intros [?|[?|[]]]; [tauto|]. subst. apply Hx. now left.
    + apply IH. intros ?. apply Hx. now right.
Qed.

Lemma insertTract_spec t (r r' : registry) u :
  insertTract t r = Ok (r', u) -> added r r' [t] [].
Proof.
  unfold insertTract. destruct (existsb _ (g_tracts r)) eqn:E; cbn [orb]; [discriminate|].
  destruct (negb _); [discriminate|]. intros [= <- _]. unfold added. cbn. rewrite app_nil_r.
  split; [reflexivity|]. split; [reflexivity|]. split; [reflexivity|]. split; [reflexivity|]. split; [|auto].
  intros H. rewrite map_app. cbn. apply NoDup_snoc; [exact H|]. intros Hin. apply in_map_iff in Hin.
  destruct Hin as (t' & Ek & Hin). assert (E2 : existsb (fun t' => String.eqb (tr_skymap t') (tr_skymap t) && (tr_tract t' =? tr_tract t)) (g_tracts r) = true).
  { apply existsb_exists. exists t'. split; [exact Hin|]. unfold tract_key in Ek. injection Ek as -> ->.
    now rewrite String.eqb_refl, Z.eqb_refl. }
  congruence.
Qed.

Lemma same_patch_key_spec (p q : patch_rec Sky) : same_patch_key p q = true <-> patch_key p = patch_key q.
Proof.
  unfold same_patch_key, patch_key. rewrite !andb_true_iff, String.eqb_eq, !Z.eqb_eq. split.
  - intros [[-> ->] ->]. reflexivity.
  - intros [= -> -> ->]. auto.
Qed.

Lemma insertPatches0_spec ps : forall (r r' : registry), insertPatches0 ps r = Ok r' -> added r r' [] ps.
Proof.
  induction ps as [|p ps IH]; intros r r'; cbn [insertPatches0].
  - intros [= <-]. apply added_nil.
  - unfold insertPatch. destruct (existsb (same_patch_key p) (g_patches r)) eqn:E; cbn [orb bind]; [discriminate|].
    destruct (negb _); cbn [bind]; [discriminate|]. intros H. apply IH in H.
    change (p :: ps) with ([p] ++ ps). change (@nil (tract_rec Sky)) with (@nil (tract_rec Sky) ++ []).
    eapply added_trans; [|exact H]. unfold added. cbn. rewrite app_nil_r.
    split; [reflexivity|]. split; [reflexivity|]. split; [reflexivity|]. split; [reflexivity|]. split; [auto|].
    intros Hn. rewrite map_app. cbn. apply NoDup_snoc; [exact Hn|]. intros Hin. apply in_map_iff in Hin.
    destruct Hin as (q & Ek & Hin). assert (existsb (same_patch_key p) (g_patches r) = true).
    { apply existsb_exists. exists q. split; [exact Hin|]. now apply same_patch_key_spec. }
    congruence.
Qed.

Section Faults.
Variable faults : nat -> fault.

(** Inside a transaction nothing durable changes. *)
Lemma bop_tx {A} (f : registry -> res (registry * A)) s u s' u' out :
  u_in_tx u = true -> bop faults f s u = (s', u', out) ->
  s' = s /\ u_in_tx u' = true /\ u_durable u' = u_durable u
  /\ forall a, out = Done a -> f (u_work u) = Ok (u_work u', a).
Proof.
  intros Hu. unfold bop. rewrite Hu.
  destruct (faults (u_ops u)).
  - destruct (f (u_work u)) as [[w a]|e]; intros [= <- <- <-]; cbn; repeat split; try discriminate. now intros a' [= <-].
  - intros [= <- <- <-]. cbn. repeat split; discriminate.
  - intros [= <- <- <-]. cbn. repeat split; discriminate.
  - destruct (f (u_work u)) as [[w a]|e]; intros [= <- <- <-]; cbn; repeat split; discriminate.
Qed.

Lemma register_tract_tx name t s u s' u' out :
  u_in_tx u = true -> register_tract faults name t s u = (s', u', out) ->
  s' = s /\ u_in_tx u' = true /\ u_durable u' = u_durable u
  /\ forall x, out = Done x -> exists recs, patch_records name (sm_builder s) t = Ok recs
       /\ added (u_work u) (u_work u') [mkTractRec name (t_id t) (tract_getOuterSkyPolygon t)] recs.
Proof.
  intros Hu. unfold register_tract, bbind at 1.
  destruct (bop faults _ s u) as [[s1 u1] o1] eqn:E1.
  destruct (bop_tx _ _ _ _ _ _ Hu E1) as (-> & Hu1 & Hd1 & Hf1).
  destruct o1 as [x1|e|]; [|intros [= <- <- <-]; repeat split; auto; discriminate..].
  specialize (Hf1 x1 eq_refl). apply insertTract_spec in Hf1.
  unfold bbind, bsky, on_tract, smbind, sm_cur_builder, smlift.
  destruct (patch_records name (sm_builder s) t) as [recs|e] eqn:Er.
  2:{ intros [= <- <- <-]. repeat split; auto; discriminate. }
  intros E2. destruct (bop_tx _ _ _ _ _ _ Hu1 E2) as (-> & Hu2 & Hd2 & Hf2).
  split; [reflexivity|]. split; [exact Hu2|]. split; [congruence|]. intros x ->.
  exists recs. split; [reflexivity|]. specialize (Hf2 x eq_refl). unfold insertPatches in Hf2.
  destruct (insertPatches0 recs (u_work u1)) as [w|e] eqn:Ew; [|discriminate]. cbn in Hf2. injection Hf2 as Ew' _.
  apply insertPatches0_spec in Ew. rewrite Ew' in Ew.
  change [mkTractRec name (t_id t) (tract_getOuterSkyPolygon t)] with ([mkTractRec name (t_id t) (tract_getOuterSkyPolygon t)] ++ []).
  change recs with ([] ++ recs). eapply added_trans; eauto.
Qed.

(** All tracts exist: the loop does not change the map. *)
Lemma bfor_tx d name s : sm_reachable offset d s ->
  forall ids, (forall i, In i ids -> exists t, holds offset d i s t) ->
  forall u s' u' out, u_in_tx u = true ->
  bfor offset d (register_tract faults name) ids s u = (s', u', out) ->
  s' = s /\ u_in_tx u' = true /\ u_durable u' = u_durable u
  /\ forall x, out = Done x -> exists trs blocks, added (u_work u) (u_work u') trs (concat blocks)
     /\ Forall2 (fun i tr => exists t, holds offset d i s t
                  /\ tr = mkTractRec name i (tract_getOuterSkyPolygon t)) ids trs
     /\ Forall2 (fun i block => exists t, holds offset d i s t
                  /\ patch_records name (sm_builder s) t = Ok block) ids blocks.
Proof.
  intros Hr. induction ids as [|i ids IH]; intros Hall u s' u' out Hu; cbn [bfor].
  - intros [= <- <- <-]. repeat split; auto. intros _ _. exists [], []. split; [apply added_nil|]. split; constructor.
  - destruct (Hall i (or_introl eq_refl)) as (t & Ht). unfold bbind at 1, bsky at 1.
    rewrite (proj2 Ht). unfold bbind at 1.
    destruct (register_tract faults name t s u) as [[s1 u1] o1] eqn:E1.
    destruct (register_tract_tx _ _ _ _ _ _ _ Hu E1) as (-> & Hu1 & Hd1 & Hf1).
    destruct o1 as [x1|e|]; [|intros [= <- <- <-]; repeat split; auto; discriminate..].
    intros E2. destruct (IH (fun j Hj => Hall j (or_intror Hj)) u1 s' u' out Hu1 E2) as (-> & Hu2 & Hd2 & Hf2).
    split; [reflexivity|]. split; [exact Hu2|]. split; [congruence|]. intros x ->.
    destruct (Hf1 x1 eq_refl) as (recs & Er & Ha1). destruct (Hf2 x eq_refl) as (trs & blocks & Ha2 & F1 & F2).
    exists ([mkTractRec name (t_id t) (tract_getOuterSkyPolygon t)] ++ trs), (recs :: blocks).
    split; [cbn [concat]; eapply added_trans; eauto|].
    pose proof (holds_id offset d s i t Hr Ht) as Hid. rewrite Hid.
    split; constructor; eauto.
Qed.

(** What is left to do when the first loop over the tracts has succeeded. *)
Definition register_tail (d : skydef Sky) (name : string) (hash : list Z) (rec : sky_rec) : BM unit :=
  transaction faults (bbind (bop faults (syncSkymap rec)) (fun inserted : bool =>
    if inserted then
      bbind (bfor offset d (register_tract faults name) (zrange 0 (sd_num d))) (fun _ =>
      bop faults (putSkyMap name hash))
    else bret tt)).

Lemma hash_eqb_spec a b : hash_eqb a b = true <-> a = b.
Proof. unfold hash_eqb. destruct (list_eq_dec Z.eq_dec a b); split; auto; discriminate. Qed.
Lemma sky_rec_eqb_spec a b : sky_rec_eqb a b = true <-> a = b.
Proof.
  unfold sky_rec_eqb. rewrite !andb_true_iff, String.eqb_eq, hash_eqb_spec, !Z.eqb_eq.
  destruct a, b; cbn. split; [intros [[[[-> ->] ->] ->] ->]; reflexivity|intros [= -> -> -> -> ->]; auto 10].
Qed.

Lemma sync_spec k (r r' : registry) ins : syncSkymap k r = Ok (r', ins) ->
  (ins = false /\ r' = r /\ In k (g_skymaps r))
  \/ (ins = true /\ ~ In (k_name k) (map k_name (g_skymaps r)) /\ ~ In (k_hash k) (map k_hash (g_skymaps r))
      /\ r' = mkReg (g_runs r) (g_types r) (g_skymaps r ++ [k]) (g_tracts r) (g_patches r) (g_datasets r)).
Proof.
  unfold syncSkymap. destruct (find _ (g_skymaps r)) as [k'|] eqn:E.
  - destruct (sky_rec_eqb k' k) eqn:Ek; [|discriminate]. intros [= <- <-]. left.
    apply sky_rec_eqb_spec in Ek. subst. apply find_some in E. tauto.
  - destruct (existsb _ (g_skymaps r)) eqn:Eh; [discriminate|]. intros [= <- <-]. right. split; [reflexivity|].
    split; [|split; [|reflexivity]].
    + intros Hin. apply in_map_iff in Hin. destruct Hin as (k' & En & Hin).
      pose proof (find_none _ _ E _ Hin) as Hf. cbn in Hf. rewrite En, String.eqb_refl in Hf. discriminate.
    + intros Hin. apply in_map_iff in Hin. destruct Hin as (k' & En & Hin).
      assert (existsb (fun k' => hash_eqb (k_hash k') (k_hash k)) (g_skymaps r) = true); [|congruence].
      apply existsb_exists. exists k'. split; [exact Hin|]. now apply hash_eqb_spec.
Qed.

(** Everything was written. *)
Definition wrote (d : skydef Sky) (name : string) (hash : list Z) (rec : sky_rec) (s : smstate Sky)
    (r r' : registry) : Prop :=
  ~ In (k_name rec) (map k_name (g_skymaps r)) /\ ~ In (k_hash rec) (map k_hash (g_skymaps r))
  /\ exists trs blocks,
      g_skymaps r' = g_skymaps r ++ [rec] /\ g_tracts r' = g_tracts r ++ trs
   /\ g_patches r' = g_patches r ++ concat blocks /\ g_datasets r' = g_datasets r ++ [(name, hash)]
   /\ (NoDup (map tract_key (g_tracts r)) -> NoDup (map tract_key (g_tracts r')))
   /\ (NoDup (map patch_key (g_patches r)) -> NoDup (map patch_key (g_patches r')))
   /\ Forall2 (fun i tr => exists t, holds offset d i s t
                  /\ tr = mkTractRec name i (tract_getOuterSkyPolygon t)) (zrange 0 (sd_num d)) trs
   /\ Forall2 (fun i block => exists t, holds offset d i s t
                  /\ patch_records name (sm_builder s) t = Ok block) (zrange 0 (sd_num d)) blocks.

Lemma tail_spec d name hash rec s u s' u' out :
  sm_reachable offset d s -> (forall i, 0 <= i < sd_num d -> exists t, holds offset d i s t) ->
  u_in_tx u = false -> u_work u = u_durable u ->
  register_tail d name hash rec s u = (s', u', out) ->
  s' = s
  /\ match out with
     | Done _ => (same_records (u_durable u) (u_durable u') /\ In rec (g_skymaps (u_durable u)))
                 \/ wrote d name hash rec s (u_durable u) (u_durable u')
     | Raised _ => same_records (u_durable u) (u_durable u')
     | Crashed => same_records (u_durable u) (u_durable u')
                 \/ wrote d name hash rec s (u_durable u) (u_durable u')
     end.
Proof.
  intros Hr Hall Htx Hw. unfold register_tail, transaction.
  destruct (bbind _ _ s _) as [[s1 u1] o1] eqn:E.
  assert (K : s1 = s /\ u_durable u1 = u_durable u /\ forall x, o1 = Done x ->
     (same_records (u_durable u) (u_work u1) /\ In rec (g_skymaps (u_durable u)))
     \/ wrote d name hash rec s (u_durable u) (u_work u1)).
  { unfold bbind at 1 in E. set (u0 := mkButler (u_durable u) (u_work u) true (u_ops u)) in E.
    destruct (bop faults (syncSkymap rec) s u0) as [[s2 u2] o2] eqn:E2.
    destruct (bop_tx _ _ _ _ _ _ (eq_refl : u_in_tx u0 = true) E2) as (-> & Hu2 & Hd2 & Hf2).
    destruct o2 as [ins|e|]; [|injection E as <- <- <-; repeat split; auto; discriminate..].
    specialize (Hf2 ins eq_refl). apply sync_spec in Hf2. cbn [u0 u_work u_durable] in Hf2, Hd2. rewrite Hw in Hf2.
    destruct Hf2 as [(-> & Ew & Hin)|(-> & Hn & Hh & Ew)].
    - injection E as <- <- <-. split; [reflexivity|]. split; [exact Hd2|]. intros x _. left. rewrite Ew.
      split; [repeat split|exact Hin].
    - unfold bbind in E.
      destruct (bfor offset d (register_tract faults name) (zrange 0 (sd_num d)) s u2) as [[s3 u3] o3] eqn:E3.
      destruct (bfor_tx d name s Hr (zrange 0 (sd_num d)) (fun i Hi => Hall i (proj1 (in_zrange _ _ _) Hi)) _ _ _ _ Hu2 E3)
        as (-> & Hu3 & Hd3 & Hf3).
      destruct o3 as [x3|e|]; [|injection E as <- <- <-; split; [reflexivity|]; split; [congruence|]; discriminate..].
      destruct (bop_tx _ _ _ _ _ _ Hu3 E) as (-> & Hu4 & Hd4 & Hf4).
      split; [reflexivity|]. split; [congruence|]. intros x ->. right.
      destruct (Hf3 x3 eq_refl) as (trs & blocks & (A1 & A2 & A3 & A4 & A5 & A6) & F1 & F2). specialize (Hf4 x eq_refl).
      unfold putSkyMap in Hf4. destruct (existsb _ _) in Hf4; [discriminate|]. injection Hf4 as Ef _.
      rewrite Ew in A1, A2, A3, A4, A5, A6. cbn [g_skymaps g_tracts g_patches g_datasets] in *.
      split; [exact Hn|]. split; [exact Hh|]. exists trs, blocks. rewrite <- Ef. cbn [g_skymaps g_tracts g_patches g_datasets].
      rewrite A4. auto 10. }
  destruct K as (-> & Hd1 & Hf1).
  destruct o1 as [x|e|].
  - specialize (Hf1 x eq_refl). destruct (faults (u_ops u1)); intros [= <- <- <-]; (split; [reflexivity|]); cbn [u_durable];
      rewrite ?Hd1; try exact Hf1; try (left; repeat split; fail); try (repeat split; fail).
    destruct Hf1 as [[Hs _]|Hf1]; auto.
  - intros [= <- <- <-]. split; [reflexivity|]. cbn [u_durable]. rewrite Hd1. repeat split.
  - intros [= <- <- <-]. split; [reflexivity|]. left. rewrite Hd1. repeat split.
Qed.

Lemma py_max_spec l m : py_max l = Ok m -> In m l /\ forall x, In x l -> x <= m.
Proof.
  destruct l as [|a l]; [discriminate|]. cbn [py_max]. intros [= <-].
  assert (K : forall l a, (fold_left Z.max l a = a \/ In (fold_left Z.max l a) l)
     /\ a <= fold_left Z.max l a /\ forall x, In x l -> x <= fold_left Z.max l a).
  { clear. induction l as [|b l IH]; intros a; cbn [fold_left]; [repeat split; auto; [lia|intros x []]|].
    destruct (IH (Z.max a b)) as (H1 & H2 & H3). split; [|split; [lia|]].
    - destruct H1 as [H1|H1]; [|right; now right]. rewrite H1. destruct (Z.max_spec a b) as [[_ ->]|[_ ->]]; [right; now left|now left].
    - intros x [->|Hx]; [lia|auto]. }
  destruct (K l a) as (H1 & H2 & H3). split; [destruct H1; [left; congruence|now right]|].
  intros x [->|Hx]; auto.
Qed.

(** A failure outside the transaction leaves the records alone. *)
Lemma bop_out {A} (f : registry -> res (registry * A)) s u s' u' out :
  u_in_tx u = false -> u_work u = u_durable u ->
  (forall r r' a, f r = Ok (r', a) -> same_records r r') ->
  bop faults f s u = (s', u', out) ->
  s' = s /\ u_in_tx u' = false /\ u_work u' = u_durable u' /\ same_records (u_durable u) (u_durable u').
Proof.
  intros Hu Hw Hf. unfold bop. rewrite Hu. rewrite Hw.
  assert (R : forall r : registry, same_records r r) by (intros r; repeat split).
  destruct (faults (u_ops u)).
  - destruct (f (u_durable u)) as [[w a]|e] eqn:E; intros [= <- <- <-]; cbn; repeat split; eapply Hf; eauto.
  - intros [= <- <- <-]. cbn. repeat split.
  - intros [= <- <- <-]. cbn. repeat split.
  - destruct (f (u_durable u)) as [[w a]|e] eqn:E; intros [= <- <- <-]; cbn; repeat split; eapply Hf; eauto.
Qed.

Lemma same_records_trans (a b c : registry) : same_records a b -> same_records b c -> same_records a c.
Proof. intros (A1 & A2 & A3 & A4) (B1 & B2 & B3 & B4). unfold same_records. repeat split; congruence. Qed.
Lemma wrote_same d name hash rec s r1 r2 r' : same_records r1 r2 -> wrote d name hash rec s r2 r' -> wrote d name hash rec s r1 r'.
Proof. intros (A1 & A2 & A3 & A4). unfold wrote. now rewrite A1, A2, A3, A4. Qed.

(** The main lemma on registration. *)
Lemma register_spec d sha name s r s' u' out :
  sm_reachable offset d s ->
  register offset faults d sha name s (butler_on r) = (s', u', out) ->
  accesses offset d s s'
  /\ (same_records r (u_durable u') /\ (forall x, out <> Done x)
      \/ exists hash nxm nym, let rec := mkSkyRec name hash (sd_num d) nxm nym in
         sha = Ok hash
         /\ (forall i, 0 <= i < sd_num d -> exists t, holds offset d i s' t)
         /\ 0 < sd_num d
         /\ largest_count offset fst d s' nxm /\ largest_count offset snd d s' nym
         /\ match out with
            | Done _ => (same_records r (u_durable u') /\ In rec (g_skymaps r))
                        \/ wrote d name hash rec s' r (u_durable u')
            | Raised _ => same_records r (u_durable u')
            | Crashed => same_records r (u_durable u') \/ wrote d name hash rec s' r (u_durable u')
            end).
Proof.
  intros Hr. unfold register. unfold bbind at 1, bsky at 1.
  assert (R : forall r : registry, same_records r r) by (intros; repeat split).
  destruct (sm_iter offset d s) as [s1 [ts|e]] eqn:Ei;
    destruct (iter_spec offset d s s1 _ Hr Ei) as [Ha Hi].
  2:{ intros [= <- <- <-]. split; [exact Ha|]. left. split; [apply R|discriminate]. }
  pose proof (reachable_accesses _ _ _ _ Hr Ha) as Hr1.
  unfold bbind at 1. destruct (py_max (map (fun t => fst (t_numPatches t)) ts)) as [nxm|e] eqn:Ex; cbn [blift]; cbv [bret braise].
  2:{ intros [= <- <- <-]. split; [exact Ha|]. left. split; [apply R|discriminate]. }
  unfold bbind at 1. destruct (py_max (map (fun t => snd (t_numPatches t)) ts)) as [nym|e] eqn:Ey; cbn [blift]; cbv [bret braise].
  2:{ intros [= <- <- <-]. split; [exact Ha|]. left. split; [apply R|discriminate]. }
  unfold bbind at 1. destruct sha as [hash|e]; cbn [blift]; cbv [bret braise].
  2:{ intros [= <- <- <-]. split; [exact Ha|]. left. split; [apply R|discriminate]. }
  unfold bbind at 1, bsky at 1.
  assert (Hlen : sm_len d s1 = sd_num d).
  { pose proof (reachable_inv _ _ _ Hr1) as Hinv. unfold sm_len. destruct (sd_kind d); [reflexivity|].
    rewrite (si_len _ _ _ _ Hinv). apply Z2Nat.id.
    destruct ts as [|t ts]; [cbn in Ex; discriminate|]. pose proof (Forall2_len _ _ _ Hi) as L.
    rewrite zrange_length in L. cbn in L. lia. }
  rewrite Hlen.
  assert (Hall : forall i, 0 <= i < sd_num d -> exists t, holds offset d i s1 t).
  { intros i Hin. apply in_zrange in Hin. destruct (Forall2_in_l _ _ _ _ Hi Hin) as (t & _ & Ht). eauto. }
  assert (Hmax : forall ax m, py_max (map (fun t => ax (t_numPatches t)) ts) = Ok m -> largest_count offset ax d s1 m).
  { intros ax m Em. apply py_max_spec in Em. destruct Em as [E1 E2]. split.
    - intros i t Ht. apply E2. apply in_map_iff. exists t. split; [reflexivity|].
      pose proof Ht as Ht'. apply (holds_slot _ _ _ _ _ Hr1) in Ht'. destruct Ht' as [Hrange _].
      apply in_zrange in Hrange. destruct (Forall2_in_l _ _ _ _ Hi Hrange) as (t' & Hin & Ht2).
      rewrite (holds_fun _ _ _ _ _ _ Ht Ht2). exact (in_combine_r _ _ _ _ Hin).
    - apply in_map_iff in E1. destruct E1 as (t & Et & Hin). clear -Hi Et Hin.
      induction Hi as [|i t' ids ts' H1 H2 IH]; [contradiction|]. destruct Hin as [->|Hin]; eauto. }
  assert (Hnum : 0 < sd_num d).
  { destruct ts as [|t ts]; [cbn in Ex; discriminate|]. pose proof (Forall2_len _ _ _ Hi) as L.
    rewrite zrange_length in L. cbn in L. lia. }
  unfold bbind at 1. destruct (bop faults (registerRun "skymaps") s1 (butler_on r)) as [[s2 u2] o2] eqn:E2.
  assert (F1 : forall (r r' : registry) a, registerRun "skymaps" r = Ok (r', a) -> same_records r r').
  { unfold registerRun. intros r0 r0' a [= <- _]. repeat split. }
  destruct (bop_out _ s1 (butler_on r) s2 u2 o2 eq_refl eq_refl F1 E2) as (-> & Hu2 & Hw2 & Hs2). cbn [butler_on u_durable] in Hs2.
  destruct o2 as [[]|e|].
  2,3: intros [= <- <- <-]; split; [exact Ha|left; split; [exact Hs2|discriminate]].
  unfold bbind at 1. destruct (bop faults (registerDatasetType "skyMap") s1 u2) as [[s3 u3] o3] eqn:E3.
  assert (F2 : forall (r r' : registry) a, registerDatasetType "skyMap" r = Ok (r', a) -> same_records r r').
  { unfold registerDatasetType. intros r0 r0' a [= <- _]. repeat split. }
  destruct (bop_out _ _ _ _ _ _ Hu2 Hw2 F2 E3) as (-> & Hu3 & Hw3 & Hs3).
  pose proof (same_records_trans _ _ _ Hs2 Hs3) as Hs.
  destruct o3 as [[]|e|].
  2,3: intros [= <- <- <-]; split; [exact Ha|left; split; [exact Hs|discriminate]].
  intros E4. apply (tail_spec d name hash (mkSkyRec name hash (sd_num d) nxm nym) s1 u3 s' u' out Hr1 Hall Hu3 Hw3) in E4.
  destruct E4 as (-> & H4). split; [exact Ha|]. right. exists hash, nxm, nym.
  split; [reflexivity|]. split; [exact Hall|]. split; [exact Hnum|].
  split; [now apply Hmax|]. split; [now apply Hmax|].
  pose proof Hs as (Q1 & _).
  destruct out as [x|e|].
  - destruct H4 as [[H4 Hin]|H4]; [left|right].
    + split; [eapply same_records_trans; eauto|]. now rewrite <- Q1.
    + eapply wrote_same; eauto.
  - eapply same_records_trans; eauto.
  - destruct H4 as [H4|H4]; [left; eapply same_records_trans; eauto|right; eapply wrote_same; eauto].
Qed.
End Faults.
End Register.
