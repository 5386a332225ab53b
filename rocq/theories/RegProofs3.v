(** Registration without faults. *)
From Coq Require Import Reals String.
Require Import Verif.Py Verif.Geom Verif.PatchInfo Verif.TractBuilder Verif.TractInfo Verif.Spec.
Require Import Verif.PatchProofs Verif.TractProofs.
Require Import Verif.SkyMap Verif.SkySpec Verif.SkyProofs Verif.SkyProofs2 Verif.MainSky.
Require Import Verif.Register Verif.RegSpec Verif.RegProofs Verif.RegProofs2.
Open Scope list_scope.
Open Scope Z_scope.
Local Arguments Z.mul : simpl never.

Section Register.
Context {Sky : Type}.
Variable offset : Sky -> R -> R -> Sky.
Notation registry := (registry Sky).

(** A tract that exists in one object of a map can be had from every other one. *)
Lemma regenerate d s s2 i t :
  sm_reachable offset d s -> holds offset d i s t -> sm_reachable offset d s2 ->
  exists s2' t2, sm_getitem offset d i s2 = (s2', Ok t2) /\ same_tract t t2
    /\ holds offset d i s2' t2 /\ accesses offset d s2 s2' /\ sm_reachable offset d s2'.
Proof.
  intros Hr Hh Hr2. pose proof Hh as Hs. apply (holds_slot _ _ _ _ _ Hr) in Hs. destruct Hs as [Hi Hs].
  destruct (so_made _ _ _ _ _ (si_slots _ _ _ _ (reachable_inv _ _ _ Hr) _ _ Hs)) as (a & b0 & b1 & Ha & Hb & Hm).
  rewrite Z2Nat.id in Ha, Hm by lia.
  assert (S : forall s3 t3, sm_reachable offset d s3 -> holds offset d i s3 t3 -> same_tract t t3).
  { intros s3 t3 Hr3 Hh3. apply (holds_slot _ _ _ _ _ Hr3) in Hh3. destruct Hh3 as [_ Hs3].
    destruct (so_made _ _ _ _ _ (si_slots _ _ _ _ (reachable_inv _ _ _ Hr3) _ _ Hs3)) as (a3 & b3 & b4 & Ha3 & Hb3 & Hm3).
    rewrite Z2Nat.id in Ha3, Hm3 by lia. rewrite Ha in Ha3. injection Ha3 as <-.
    pose proof (make_tract_indep offset (sd_cfg d) b0 b3 (t_oid t) (t_oid t3) i a Hb Hb3) as K.
    rewrite Hm, Hm3 in K. apply K. }
  assert (exists s2' t2, sm_getitem offset d i s2 = (s2', Ok t2)) as (s2' & t2 & G).
  { destruct (sd_kind d) eqn:Hk.
    - destruct (caching_index_range_proof Sky offset d s2 i Hk Hr2) as [_ K].
      unfold sm_len in K. rewrite Hk in K. specialize (K Hi).
      destruct (sm_getitem offset d i s2) as [s2' [t2|e]]; [eauto|]. exfalso. destruct K as [_ K].
      rewrite Ha in K. cbn [bind] in K.
      pose proof (make_tract_indep offset (sd_cfg d) b0 (sm_builder s2) (t_oid t) (sm_next s2) i a Hb
                    (si_reach _ _ _ _ (reachable_inv _ _ _ Hr2))) as J.
      rewrite Hm in J. destruct (make_tract offset (sm_builder s2) (sm_next s2) i a) as [[? ?]|]; [discriminate|contradiction].
    - destruct (reachable_full offset d s2 Hk Hr2 (Z.to_nat i)) as (t2 & Et); [lia|].
      exists s2, t2. unfold sm_getitem. rewrite Hk. unfold smbind.
      rewrite (py_nth_in _ _ _ (proj1 Hi) Et). reflexivity. }
  destruct (getitem_holds offset d s2 i s2' t2 Hr2 (proj1 Hi) G) as (Hr2' & Ha2 & Hh2).
  exists s2', t2. split; [exact G|]. split; [exact (S _ _ Hr2' Hh2)|]. auto.
Qed.

Lemma same_tract_held d s s2 i t t2 :
  sm_reachable offset d s -> holds offset d i s t -> sm_reachable offset d s2 -> holds offset d i s2 t2 -> same_tract t t2.
Proof.
  intros Hr Hh Hr2 Hh2. destruct (regenerate d s s2 i t Hr Hh Hr2) as (s2' & t3 & G & S & _).
  destruct Hh2 as [_ G2]. rewrite G2 in G. now injection G as _ ->.
Qed.

(** Iteration succeeds if every tract can be generated. *)
Lemma iter_total d s :
  (forall s1 i, accesses offset d s s1 -> 0 <= i < sd_num d ->
     exists s2 t, sm_getitem offset d i s1 = (s2, Ok t)) ->
  exists s' ts, sm_iter offset d s = (s', Ok ts).
Proof.
  intros H. unfold sm_iter, sm_for.
  assert (K : forall ids s1, (forall i, In i ids -> 0 <= i < sd_num d) -> accesses offset d s s1 ->
     exists s' ts, smmap (fun i => smbind (sm_getitem offset d i) smret) ids s1 = (s', Ok ts)).
  { induction ids as [|i ids IH]; intros s1 Hids Ha; cbn [smmap]; [do 2 eexists; reflexivity|].
    destruct (H s1 i Ha (Hids i (or_introl eq_refl))) as (s2 & t & G). unfold smbind at 1. unfold smbind at 1. rewrite G.
    unfold smret at 1. unfold smbind at 1.
    destruct (IH s2 (fun j Hj => Hids j (or_intror Hj))) as (s' & ts & E); [econstructor; [exact Ha|exact G]|].
    rewrite E. do 2 eexists; reflexivity. }
  apply K; [|constructor]. intros i Hi. now apply in_zrange in Hi.
Qed.

Lemma max_ok l : l <> [] -> exists m, py_max l = Ok m.
Proof. destruct l; [congruence|]. intros _. eexists; reflexivity. Qed.

(** With no faults, registration gets as far as the transaction. *)
Lemma register_reaches d sha name s r hash :
  sm_reachable offset d s -> sha = Ok hash -> 0 < sd_num d ->
  (forall s1 i, accesses offset d s s1 -> 0 <= i < sd_num d ->
     exists s2 t, sm_getitem offset d i s1 = (s2, Ok t)) ->
  exists s1 nxm nym r1, accesses offset d s s1
    /\ (forall i, 0 <= i < sd_num d -> exists t, holds offset d i s1 t)
    /\ largest_count offset fst d s1 nxm /\ largest_count offset snd d s1 nym
    /\ same_records r r1
    /\ register offset no_faults d sha name s (butler_on r)
       = register_tail offset no_faults d name hash (mkSkyRec name hash (sd_num d) nxm nym) s1
           (mkButler r1 r1 false 2).
Proof.
  intros Hr -> Hnum Htot. destruct (iter_total d s Htot) as (s1 & ts & Ei).
  destruct (iter_spec offset d s s1 _ Hr Ei) as [Ha Hi].
  pose proof (reachable_accesses _ _ _ _ Hr Ha) as Hr1.
  pose proof (Forall2_len _ _ _ Hi) as L. rewrite zrange_length in L.
  assert (Hne : ts <> []) by (intros ->; cbn in L; lia).
  destruct (max_ok (map (fun t => fst (t_numPatches t)) ts)) as (nxm & Ex); [now destruct ts|].
  destruct (max_ok (map (fun t => snd (t_numPatches t)) ts)) as (nym & Ey); [now destruct ts|].
  assert (Hall : forall i, 0 <= i < sd_num d -> exists t, holds offset d i s1 t).
  { intros i Hin. apply in_zrange in Hin. destruct (Forall2_in_l _ _ _ _ Hi Hin) as (t & _ & Ht). eauto. }
  assert (Hmax : forall ax m, py_max (map (fun t => ax (t_numPatches t)) ts) = Ok m -> largest_count offset ax d s1 m).
  { intros ax m Em. apply py_max_spec in Em. destruct Em as [E1 E2]. split.
    - intros i t Ht. apply E2. apply in_map_iff. exists t. split; [reflexivity|].
      pose proof Ht as Ht'. apply (holds_slot _ _ _ _ _ Hr1) in Ht'. destruct Ht' as [Hrange _].
      apply in_zrange in Hrange. destruct (Forall2_in_l _ _ _ _ Hi Hrange) as (t' & Hin & Ht2).
      rewrite (holds_fun _ _ _ _ _ _ Ht Ht2). exact (in_combine_r _ _ _ _ Hin).
    - apply in_map_iff in E1. destruct E1 as (t & Et & Hin). clear -Hi Et Hin.
      induction Hi as [|i t' ids ts' H1 H2 IH]; [contradiction|]. destruct Hin as [->|Hin]; eauto. }
  assert (Hlen : sm_len d s1 = sd_num d).
  { pose proof (reachable_inv _ _ _ Hr1) as Hinv. unfold sm_len. destruct (sd_kind d); [reflexivity|].
    rewrite (si_len _ _ _ _ Hinv). apply Z2Nat.id. lia. }
  exists s1, nxm, nym, (mkReg (add_name "skymaps" (g_runs r)) (add_name "skyMap" (g_types r)) (g_skymaps r) (g_tracts r) (g_patches r) (g_datasets r)).
  split; [exact Ha|]. split; [exact Hall|]. split; [now apply Hmax|]. split; [now apply Hmax|].
  split; [repeat split|]. unfold register. unfold bbind at 1, bsky at 1. rewrite Ei.
  unfold bbind at 1. rewrite Ex. cbn [blift]. unfold bret at 1.
  unfold bbind at 1. rewrite Ey. cbn [blift]. unfold bret at 1.
  unfold bbind at 1. cbn [blift]. unfold bret at 1.
  unfold bbind at 1, bsky at 1. rewrite Hlen. reflexivity.
Qed.

(** Without faults an operation in a transaction does exactly its work. *)
Lemma bop_nofault {A} (f : registry -> res (registry * A)) s u :
  u_in_tx u = true ->
  bop no_faults f s u = match f (u_work u) with
    | Ok (w, a) => (s, mkButler (u_durable u) w true (S (u_ops u)), Done a)
    | Raise e => (s, mkButler (u_durable u) (u_work u) true (S (u_ops u)), Raised e)
    end.
Proof. intros Hu. unfold bop, no_faults. rewrite Hu. destruct (f (u_work u)) as [[w a]|e]; reflexivity. Qed.

Lemma existsb_false {A} (f : A -> bool) l : (forall x, In x l -> f x = false) -> existsb f l = false.
Proof.
  intros H. destruct (existsb f l) eqn:E; [|reflexivity]. apply existsb_exists in E.
  destruct E as (x & Hx & Ex). rewrite (H x Hx) in Ex. discriminate.
Qed.

Lemma insertTract_ok t (r : registry) :
  ~ In (tract_key t) (map tract_key (g_tracts r)) -> In (tr_skymap t) (map k_name (g_skymaps r)) ->
  insertTract t r = Ok (mkReg (g_runs r) (g_types r) (g_skymaps r) (g_tracts r ++ [t]) (g_patches r) (g_datasets r), tt).
Proof.
  intros Hn Hk. unfold insertTract. rewrite existsb_false; cbn [orb].
  - assert (existsb (fun k => String.eqb (k_name k) (tr_skymap t)) (g_skymaps r) = true) as ->; [|reflexivity].
    apply in_map_iff in Hk. destruct Hk as (k & Ek & Hk). apply existsb_exists. exists k. split; [exact Hk|].
    now rewrite Ek, String.eqb_refl.
  - intros t' Ht'. apply not_true_is_false. rewrite andb_true_iff, String.eqb_eq, Z.eqb_eq. intros [E1 E2].
    apply Hn. apply in_map_iff. exists t'. split; [unfold tract_key; congruence|exact Ht'].
Qed.

Lemma insertPatches0_ok ps : forall r : registry,
  NoDup (map patch_key ps) -> (forall p, In p ps -> ~ In (patch_key p) (map patch_key (g_patches r))) ->
  (forall p, In p ps -> In (pr_skymap p, pr_tract p) (map tract_key (g_tracts r))) ->
  insertPatches0 ps r = Ok (mkReg (g_runs r) (g_types r) (g_skymaps r) (g_tracts r) (g_patches r ++ ps) (g_datasets r)).
Proof.
  induction ps as [|p ps IH]; intros r Hd Hn Ht; cbn [insertPatches0].
  - rewrite app_nil_r. now destruct r.
  - inversion Hd as [|? ? Hp Hd']; subst. unfold insertPatch. rewrite existsb_false; cbn [orb].
    + assert (existsb (fun t => String.eqb (tr_skymap t) (pr_skymap p) && (tr_tract t =? pr_tract p)) (g_tracts r) = true) as ->.
      { destruct (proj1 (in_map_iff _ _ _) (Ht p (or_introl eq_refl))) as (t & Et & Hin). apply existsb_exists.
        exists t. split; [exact Hin|]. unfold tract_key in Et. injection Et as -> ->. now rewrite String.eqb_refl, Z.eqb_refl. }
      cbn [negb bind]. rewrite IH; cbn [g_runs g_types g_skymaps g_tracts g_patches g_datasets].
      * rewrite <- app_assoc. reflexivity.
      * exact Hd'.
      * intros q Hq. rewrite map_app, in_app_iff. intros [E|[E|[]]].
        -- exact (Hn q (or_intror Hq) E).
        -- apply Hp. rewrite E. now apply in_map.
      * intros q Hq. apply Ht. now right.
    + intros q Hq. apply not_true_is_false. rewrite same_patch_key_spec. intros E.
      apply (Hn p (or_introl eq_refl)). rewrite E. now apply in_map.
Qed.

(** The numbers of a block are distinct. *)
Lemma block_NoDup c b (u t : tract Sky) name i block :
  cfg_ok c -> in_use offset c b u ->
  patch_block name b (fst (t_numPatches u)) i t block -> NoDup (map patch_key block).
Proof.
  intros Hc Hu (nx & ny & Hn & Hx0 & Hy0 & Hl & Hb).
  destruct (in_use_spec offset c b u Hc Hu) as (nxl & nyl & Hbi & Hinit & Hnb & Hnu & Hnxl & Hnyl & _).
  rewrite Hnu in Hb. cbn [fst] in Hb.
  assert (K : forall k pr, nth_error block k = Some pr -> exists x y, 0 <= x < nxl /\ 0 <= x < nx /\ 0 <= y
      /\ Z.of_nat k = y * nx + x /\ pr_patch pr = y * nxl + x).
  { intros k pr Hk. assert (Hlt : (k < List.length block)%nat) by (apply nth_error_Some; congruence).
    assert (Hk2 : 0 <= Z.of_nat k < nx * ny) by lia. assert (Hx : 0 < nx) by nia.
    set (x := Z.of_nat k mod nx). set (y := Z.of_nat k / nx).
    assert (Hxr : 0 <= x < nx) by (apply Z.mod_pos_bound; lia).
    assert (Hyr : 0 <= y < ny) by (split; [apply Z.div_pos; lia|apply Z.div_lt_upper_bound; lia]).
    assert (E : y * nx + x = Z.of_nat k) by (unfold x, y; rewrite (Z.div_mod (Z.of_nat k) nx) at 3 by lia; lia).
    destruct (Hb x y Hxr Hyr) as (p & Hp & Hpr). rewrite E, Nat2Z.id, Hk in Hpr. injection Hpr as ->.
    unfold tract_getPatchInfo in Hp.
    destruct (getPatchInfo_pair_inv c b nxl nyl _ x y p Hc Hbi Hinit Hnb Hp) as (Hx' & Hy' & _).
    exists x, y. cbn. lia. }
  apply NoDup_nth_error. rewrite map_length. intros k k' Hlt E. rewrite !nth_error_map in E.
  destruct (nth_error block k) as [pr|] eqn:E1; [|apply nth_error_None in E1; lia].
  destruct (nth_error block k') as [pr'|] eqn:E2; [|discriminate]. cbn in E. injection E as _ _ E.
  destruct (K _ _ E1) as (x & y & A1 & A2 & A3 & A4 & A5). destruct (K _ _ E2) as (x' & y' & B1 & B2 & B3 & B4 & B5).
  assert (y = y') by nia. subst y'. assert (x = x') by lia. subst x'. lia.
Qed.

(** The loop over the tracts succeeds if every tract's records can be computed. *)
Lemma bfor_nofault d name s u0 : cfg_ok (sd_cfg d) -> sm_reachable offset d s -> in_use offset (sd_cfg d) (sm_builder s) u0 ->
  forall ids, NoDup ids -> (forall i, In i ids -> exists t block, holds offset d i s t /\ patch_records name (sm_builder s) t = Ok block) ->
  forall u, u_in_tx u = true -> In name (map k_name (g_skymaps (u_work u))) ->
  (forall i, In i ids -> ~ In (name, i) (map tract_key (g_tracts (u_work u)))) ->
  (forall p, In p (g_patches (u_work u)) -> pr_skymap p = name -> ~ In (pr_tract p) ids) ->
  exists u', bfor offset d (register_tract no_faults name) ids s u = (s, u', Done tt) /\ u_in_tx u' = true
    /\ g_datasets (u_work u') = g_datasets (u_work u).
Proof.
  intros Hc Hr Hin. induction ids as [|i ids IH]; intros Hnd Hall u Hu Hname Hfresh Hpf; cbn [bfor].
  - exists u. auto.
  - inversion Hnd as [|? ? Hni Hnd']; subst.
    destruct (Hall i (or_introl eq_refl)) as (t & block & Ht & Hb).
    unfold bbind at 1, bsky at 1. rewrite (proj2 Ht). unfold bbind at 1.
    pose proof (holds_id offset d s i t Hr Ht) as Hid.
    pose proof (patch_records_spec offset (sd_cfg d) (sm_builder s) u0 t name block Hc Hin (holds_made offset d s i t Hr Ht) Hb) as HB.
    rewrite Hid in HB.
    set (tr := mkTractRec name (t_id t) (tract_getOuterSkyPolygon t)).
    set (w := u_work u) in *.
    set (w1 := mkReg (g_runs w) (g_types w) (g_skymaps w) (g_tracts w ++ [tr]) (g_patches w) (g_datasets w)).
    set (w2 := mkReg (g_runs w) (g_types w) (g_skymaps w) (g_tracts w ++ [tr]) (g_patches w ++ block) (g_datasets w)).
    assert (E1 : insertTract tr w = Ok (w1, tt)).
    { apply insertTract_ok; [|exact Hname]. unfold tract_key, tr; cbn. rewrite Hid. apply Hfresh. now left. }
    assert (E2 : insertPatches block w1 = Ok (w2, tt)).
    { unfold insertPatches. rewrite insertPatches0_ok; [reflexivity| | |].
      - eapply block_NoDup; eauto.
      - intros p Hp Hk. cbn [w1 g_patches] in Hk. apply in_map_iff in Hk. destruct Hk as (q & Eq & Hq).
        destruct (block_in _ _ _ _ _ _ _ HB Hp) as (nx & ny & x & y & p' & _ & _ & _ & _ & ->).
        unfold patch_key in Eq. cbn in Eq. injection Eq as E1' E2' _. apply (Hpf q Hq E1'). left. congruence.
      - intros p Hp. cbn [w1 g_tracts]. rewrite map_app, in_app_iff. right. left.
        destruct (block_in _ _ _ _ _ _ _ HB Hp) as (nx & ny & x & y & p' & _ & _ & _ & _ & ->).
        unfold tract_key, tr. cbn. now rewrite Hid. }
    unfold register_tract. unfold bbind at 1. rewrite bop_nofault by exact Hu. fold tr. fold w. rewrite E1.
    unfold bbind at 1, bsky, on_tract, smbind, sm_cur_builder, smlift. rewrite Hb.
    rewrite bop_nofault by reflexivity. cbn [u_work]. rewrite E2.
    destruct (IH Hnd' (fun j Hj => Hall j (or_intror Hj)) (mkButler (u_durable u) w2 true (S (S (u_ops u)))))
      as (u' & E & Hu' & Hd').
    + reflexivity.
    + exact Hname.
    + intros j Hj. cbn [u_work w2 g_tracts]. rewrite map_app, in_app_iff. intros [H|[H|[]]].
      * exact (Hfresh j (or_intror Hj) H).
      * unfold tract_key, tr in H. cbn in H. injection H as H. rewrite Hid in H. congruence.
    + intros p Hp Hpn Hpi. cbn [u_work w2 g_patches] in Hp. rewrite in_app_iff in Hp. destruct Hp as [Hp|Hp].
      * apply (Hpf p Hp Hpn). now right.
      * destruct (block_in _ _ _ _ _ _ _ HB Hp) as (nx & ny & x & y & p' & _ & _ & _ & _ & ->). cbn in Hpi. contradiction.
    + exists u'. cbn [u_durable u_ops] in *. split; [exact E|]. split; [exact Hu'|exact Hd'].
Qed.

(** [find] by name in a repository with distinct names. *)
Lemma sync_known k (r : registry) k' :
  NoDup (map k_name (g_skymaps r)) -> In k' (g_skymaps r) -> k_name k' = k_name k ->
  syncSkymap k r = if sky_rec_eqb k' k then Ok (r, false) else Raise ConflictingDefinitionError.
Proof.
  intros Hd Hin Hn. unfold syncSkymap.
  destruct (find _ (g_skymaps r)) as [k2|] eqn:E.
  - apply find_some in E. destruct E as [Hin2 E]. apply String.eqb_eq in E.
    assert (k2 = k') as ->; [|reflexivity].
    clear -Hd Hin Hin2 Hn E. induction (g_skymaps r) as [|x l IH]; [contradiction|]. cbn in Hd. inversion Hd as [|? ? Hx Hd']; subst.
    destruct Hin as [->|Hin], Hin2 as [->|Hin2]; auto; exfalso; apply Hx; [rewrite Hn, <- E|rewrite E, <- Hn]; now apply in_map.
  - exfalso. pose proof (find_none _ _ E _ Hin) as F. cbn in F. rewrite Hn, String.eqb_refl in F. discriminate.
Qed.
Lemma sync_new k (r : registry) :
  ~ In (k_name k) (map k_name (g_skymaps r)) ->
  syncSkymap k r = if existsb (fun k' => hash_eqb (k_hash k') (k_hash k)) (g_skymaps r)
      then Raise ConflictingDefinitionError
      else Ok (mkReg (g_runs r) (g_types r) (g_skymaps r ++ [k]) (g_tracts r) (g_patches r) (g_datasets r), true).
Proof.
  intros Hn. unfold syncSkymap. destruct (find _ (g_skymaps r)) as [k2|] eqn:E; [|reflexivity].
  apply find_some in E. destruct E as [Hin E]. apply String.eqb_eq in E. exfalso. apply Hn. rewrite <- E. now apply in_map.
Qed.

Lemma tail_raises d name hash rec s r1 n e :
  syncSkymap rec r1 = Raise e ->
  exists u', register_tail offset no_faults d name hash rec s (mkButler r1 r1 false n) = (s, u', Raised e) /\ u_durable u' = r1.
Proof.
  intros E. unfold register_tail, transaction. unfold bbind at 1. rewrite bop_nofault by reflexivity. cbn [u_work]. rewrite E.
  eexists. split; reflexivity.
Qed.
Lemma tail_known d name hash rec s r1 n :
  syncSkymap rec r1 = Ok (r1, false) ->
  exists u', register_tail offset no_faults d name hash rec s (mkButler r1 r1 false n) = (s, u', Done tt) /\ u_durable u' = r1.
Proof.
  intros E. unfold register_tail, transaction. unfold bbind at 1. rewrite bop_nofault by reflexivity. cbn [u_work]. rewrite E.
  eexists. split; reflexivity.
Qed.
Lemma sound_same (r r1 : registry) : same_records r r1 -> sound r -> sound r1.
Proof. apply same_records_sound. Qed.

Lemma tail_new d name hash nxm nym s r1 n :
  cfg_ok (sd_cfg d) -> sm_reachable offset d s -> 0 < sd_num d -> sound r1 ->
  (forall i, 0 <= i < sd_num d -> exists t block, holds offset d i s t /\ patch_records name (sm_builder s) t = Ok block) ->
  ~ In name (map k_name (g_skymaps r1)) -> ~ In hash (map k_hash (g_skymaps r1)) ->
  exists u', register_tail offset no_faults d name hash (mkSkyRec name hash (sd_num d) nxm nym) s (mkButler r1 r1 false n)
     = (s, u', Done tt).
Proof.
  intros Hc Hr Hnum [B1 B2 B3 B4 B5 B6 B7] Hall Hn Hh.
  destruct (all_held_last offset d s Hc Hr Hnum) as (u0 & _ & Hin).
  { intros i Hi. destruct (Hall i Hi) as (t & _ & Ht & _). eauto. }
  unfold register_tail, transaction. unfold bbind at 1. rewrite bop_nofault by reflexivity. cbn [u_work].
  rewrite sync_new by exact Hn. cbn [k_hash]. rewrite existsb_false.
  2:{ intros k Hk. apply not_true_is_false. rewrite hash_eqb_spec. intros E. apply Hh. rewrite <- E. now apply in_map. }
  cbn [u_durable u_ops]. unfold bbind at 1.
  match goal with |- context [bfor _ _ _ _ _ ?u] => set (u1 := u) end.
  destruct (bfor_nofault d name s u0 Hc Hr Hin (zrange 0 (sd_num d)) (zrange_NoDup _ _)
     (fun i Hi => Hall i (proj1 (in_zrange _ _ _) Hi)) u1 eq_refl) as (u2 & E & Hu2 & Hd2).
  - cbn. rewrite map_app, in_app_iff. right. now left.
  - intros i Hi. cbn. rewrite B5. intros (k & Hk & En & _). apply Hn. rewrite <- En. now apply in_map.
  - intros p Hp En _. cbn in Hp. destruct (B6 p Hp) as (k & Hk & Ek & _). apply Hn. rewrite <- En, <- Ek. now apply in_map.
  - rewrite E. rewrite bop_nofault by exact Hu2. unfold putSkyMap. rewrite existsb_false.
    + unfold no_faults. eexists. reflexivity.
    + rewrite Hd2. cbn. rewrite B7. intros [n' h'] Hk. apply in_map_iff in Hk. destruct Hk as (k & Ek & Hk).
      injection Ek as <- _. cbn. apply String.eqb_neq. intros E'. apply Hn. rewrite <- E'. now apply in_map.
Qed.
End Register.
