(** Sky maps as objects: caching, identity, shared tract builder, searches (C20-C22, C35, C36). *)
From Coq Require Import Reals Lra Sorted.
From Flocq Require Import Raux.
Require Import Verif.Py Verif.Geom Verif.PatchInfo Verif.TractBuilder Verif.TractInfo Verif.Spec.
Require Import Verif.SkyMap Verif.SkySpec Verif.PatchProofs Verif.TractProofs Verif.SkyProofs Verif.SkyProofs2 Verif.Examples.
Open Scope Z_scope.
Local Arguments Z.mul : simpl never.

(*@ C20: if all tracts of a map have the same patch counts, a tract answers every question about
    its patches in the same way after any further accesses to the map, and the answers are those
    proved in PropsPatch and PropsTract ([in_use] holds). *)
Lemma tract_answers_stable_proof : forall (Sky : Type) (offset : Sky -> R -> R -> Sky) d n s i t s',
  cfg_ok (sd_cfg d) -> uniform_counts offset d n -> sm_reachable offset d s ->
  holds offset d i s t -> accesses offset d s s' ->
  same_answers t (sm_builder s) (sm_builder s')
  /\ in_use offset (sd_cfg d) (sm_builder s') t.
Proof.
  intros Sky offset d n s i t s' Hc Hu Hr Hh Ha.
  rewrite (uniform_stable offset d n s i t s' Hc Hu Hr Hh Ha). split.
  - repeat split.
  - eapply uniform_in_use; eauto.
Qed.

(*@ C20: for every map, the answers are governed by the patch counts of the tract that was
    generated last: they are right for a tract (in the sense of [in_use]) exactly when its counts
    are those of the last generated tract. *)
Lemma tract_answers_last_generated_proof : forall (Sky : Type) (offset : Sky -> R -> R -> Sky) d s i t,
  cfg_ok (sd_cfg d) -> sm_reachable offset d s -> holds offset d i s t ->
  exists j u, holds offset d j s u /\ last (sm_log s) 0 = j
    /\ in_use offset (sd_cfg d) (sm_builder s) u
    /\ (in_use offset (sd_cfg d) (sm_builder s) t <-> t_numPatches t = t_numPatches u).
Proof.
  intros Sky offset d s i t Hc Hr Hh.
  destruct (builder_last offset d s Hc Hr (holds_log_ne _ _ _ _ _ Hr Hh)) as (j & u & Hu & Hin & _ & Hl).
  exists j, u. split; [exact Hu|]. split; [exact Hl|]. split; [exact Hin|]. split.
  - intros [_ _ _ E]. rewrite <- E. apply Hin.
  - intros E. destruct Hin as [A B C D]. constructor; auto.
    + eapply holds_made; eauto.
    + congruence.
Qed.

(*@ C20: exactly when the answers of a tract change: between two moments s and s' (s' later) a tract answers all
    questions about its patches in the same way exactly if the tracts generated last before s and before s'
    have the same patch counts (provided that the former has a patch at all). *)
Lemma tract_answers_exact_proof : forall (Sky : Type) (offset : Sky -> R -> R -> Sky) d s i t s' u u' nx ny,
  cfg_ok (sd_cfg d) -> sm_reachable offset d s -> holds offset d i s t -> accesses offset d s s' ->
  holds offset d (last (sm_log s) 0) s u -> holds offset d (last (sm_log s') 0) s' u' ->
  t_numPatches u = (nx, ny) -> 0 < nx -> 0 < ny ->
  (same_answers t (sm_builder s) (sm_builder s') <-> t_numPatches u' = t_numPatches u).
Proof.
  intros Sky offset d s i t s' u u' nx ny Hc Hr Hh Ha Hu Hu' En Hnx Hny.
  pose proof (reachable_accesses _ _ _ _ Hr Ha) as Hr'.
  pose proof (holds_accesses offset d s s' i t Hr Ha Hh) as Hh'.
  destruct (builder_last offset d s Hc Hr (holds_log_ne _ _ _ _ _ Hr Hh)) as (j & v & Hv & Hin & Eb & <-).
  destruct (builder_last offset d s' Hc Hr' (holds_log_ne _ _ _ _ _ Hr' Hh')) as (j' & v' & Hv' & Hin' & Eb' & <-).
  pose proof (holds_fun _ _ _ _ _ _ Hv Hu) as ->. pose proof (holds_fun _ _ _ _ _ _ Hv' Hu') as ->.
  destruct (in_use_spec _ _ _ _ Hc Hin) as (a & b & Hi & Hinit & Hn & Hnt & Ha0 & Hb0 & Hz & HB).
  destruct (in_use_spec _ _ _ _ Hc Hin') as (a' & b' & Hi' & Hinit' & Hn' & Hnt' & Ha0' & Hb0' & Hz' & HB').
  rewrite En in Hnt. injection Hnt as <- <-. rewrite En, Hnt'. split.
  - intros (G & Hs & _).
    assert (Ex : a' = nx).
    { specialize (Hs (IxIndex2D 0 1)). unfold getSequentialPatchIndexFromPair in Hs. rewrite Hn, Hn' in Hs. cbn in Hs.
      injection Hs as Hs. lia. }
    subst a'. f_equal. unfold tract_getPatchInfo in G.
    destruct (Z.lt_trichotomy b' ny) as [L|[E|L]]; [exfalso|exact E|exfalso].
    + specialize (G (IxIndex2D 0 b')).
      rewrite (getPatchInfo_pair (sd_cfg d) (sm_builder s) nx ny) in G by (assumption || lia).
      rewrite (getPatchInfo_pair_out (sm_builder s') nx b') in G by (assumption || lia). discriminate.
    + specialize (G (IxIndex2D 0 ny)).
      rewrite (getPatchInfo_pair_out (sm_builder s) nx ny) in G by (assumption || lia).
      rewrite (getPatchInfo_pair (sd_cfg d) (sm_builder s') nx b') in G by (assumption || lia). discriminate.
  - intros E. injection E as -> ->.
    assert (EB : sm_builder s' = sm_builder s).
    { rewrite Eb, Eb'. unfold builder_for. rewrite En, Hnt', HB, HB'. reflexivity. }
    rewrite EB. unfold same_answers. repeat split.
Qed.

(*@ C20 REFUTED, in general: whenever a tract with fewer patches in x is generated after a tract in
    use, the latter loses its last column of patches (IndexError) and renumbers its second row. *)
Lemma tract_answers_change_refuted_proof : forall (Sky : Type) (offset : Sky -> R -> R -> Sky) d s i t j s' u nx ny nx' ny',
  cfg_ok (sd_cfg d) -> sm_reachable offset d s -> holds offset d i s t ->
  in_use offset (sd_cfg d) (sm_builder s) t ->
  0 <= j -> ~ In j (sm_log s) -> sm_getitem offset d j s = (s', Ok u) ->
  t_numPatches t = (nx, ny) -> t_numPatches u = (nx', ny') -> 0 < nx' < nx ->
  (exists p, tract_getPatchInfo (sm_builder s) t (IxIndex2D (nx - 1) 0) = Ok p)
  /\ tract_getPatchInfo (sm_builder s') t (IxIndex2D (nx - 1) 0) = Raise IndexError
  /\ getSequentialPatchIndexFromPair (sm_builder s) (IxIndex2D 0 1) = Ok nx
  /\ getSequentialPatchIndexFromPair (sm_builder s') (IxIndex2D 0 1) = Ok nx'.
Proof.
  intros Sky offset d s i t j s' u nx ny nx' ny' Hc Hr Hh Hin Hj Hnew Hg Ht Hu Hlt.
  destruct (getitem_holds offset d s j s' u Hr Hj Hg) as (Hr' & Ha & Hhu).
  assert (El : last (sm_log s') 0 = j /\ sm_log s' <> []).
  { pose proof Hhu as Hl. assert (Hinj : In j (sm_log s')) by (apply (holds_log offset d s' j Hr'); eauto).
    split; [|intros E; rewrite E in Hinj; exact Hinj].
    destruct (sd_kind d) eqn:Hk.
    - unfold sm_getitem in Hg. rewrite Hk in Hg.
      destruct ((j <? 0) || (sd_num d <? j)); [discriminate|].
      unfold smbind at 1 in Hg. destruct (py_nth (sm_tracts s) j) as [[x|]|e] eqn:En; [| |discriminate].
      + exfalso. apply Hnew, (holds_log offset d s j Hr). exists x. split; [exact Hj|].
        unfold sm_getitem. rewrite Hk. destruct (Z.ltb_spec j 0); [lia|].
        cbn in Hg. injection Hg as <- <-.
        apply (holds_slot offset d s j x Hr') in Hl.
        destruct (Z.ltb_spec (sd_num d) j); [lia|]. cbn [orb]. unfold smbind. rewrite En. reflexivity.
      + unfold smbind at 1 in Hg. destruct (generateTract offset d j s) as [s1 [y|e]] eqn:Eg; [|discriminate].
        pose proof (generate_spec _ _ _ _ _ _ _ (reachable_inv _ _ _ Hr) Eg) as (a & _ & _ & -> & _).
        cbn in Hg. injection Hg as <- _. cbn. apply last_last.
    - pose proof (getitem_eager _ _ _ _ _ _ Hk Hg) as ->. exfalso. apply Hnew.
      apply (holds_log offset d s j Hr). eauto. }
  destruct El as [El Hne].
  destruct (builder_last offset d s' Hc Hr' Hne) as (k & v & Hv & Hinv & _ & Ek).
  rewrite El in Ek. subst k.
  pose proof (holds_fun offset d s' j v u Hv Hhu) as ->.
  destruct (in_use_spec _ _ _ _ Hc Hin) as (a & b & Hi & Hinit & Hn & Hnt & Ha0 & Hb0 & Hz & HB).
  destruct (in_use_spec _ _ _ _ Hc Hinv) as (a' & b' & Hi' & Hinit' & Hn' & Hnt' & Ha0' & Hb0' & Hz' & HB').
  rewrite Ht in Hnt. injection Hnt as <- <-. rewrite Hu in Hnt'. injection Hnt' as <- <-.
  split; [|split; [|split]].
  - exists (the_patch (sd_cfg d) nx ny (t_wcs t) (nx - 1) 0).
    unfold tract_getPatchInfo. apply getPatchInfo_pair; auto; lia.
  - unfold tract_getPatchInfo. eapply getPatchInfo_pair_out; eauto. lia.
  - unfold getSequentialPatchIndexFromPair. rewrite Hn. cbn. f_equal. lia.
  - unfold getSequentialPatchIndexFromPair. rewrite Hn'. cbn. f_equal. lia.
Qed.

(*@ C20 REFUTED, a concrete map: two tracts of 3 x 2 and 1 x 1 patches; after skymap[0], skymap[1]
    the patch (2, 0) of tract 0 is gone. *)
Lemma tract_answers_example_refuted_proof :
  exists d s t s', cfg_ok (sd_cfg d) /\ sd_num d = 2 /\ sm_reachable flat_offset d s
    /\ holds flat_offset d 0 s t /\ accesses flat_offset d s s' /\ t_numPatches t = (3, 2)
    /\ (exists p, tract_getPatchInfo (sm_builder s) t (IxIndex2D 2 0) = Ok p)
    /\ tract_getPatchInfo (sm_builder s') t (IxIndex2D 2 0) = Raise IndexError
    /\ ~ same_answers t (sm_builder s) (sm_builder s').
Proof.
  set (d := mkDef CachingMap legacy_default 2 (fun i =>
     Ok (if i =? 0 then PlainArgs (0, 0)%R (ex_verts 9999 4999) 0%R flat_wcs None
         else PlainArgs (0, 0)%R (ex_verts 999 999) 0%R flat_wcs None))).
  assert (Hc : cfg_ok legacy_default) by (cbn; lia).
  set (s0 := mkSM (repeat (@None (tract flat)) 2) (builder_init legacy_default) 0 []).
  assert (H0 : sm_new flat_offset d = Ok s0) by reflexivity.
  assert (Hr0 : sm_reachable flat_offset d s0) by (exists s0; split; [exact H0|constructor]).
  destruct (ex_tract legacy_default 0 0 9999 4999 (builder_init _) Hc (br_init _)) as (b & t & E & Hu & Hn); [lia|lia|].
  set (s1 := mkSM [Some t; None] b 1 [0]).
  assert (G0 : sm_getitem flat_offset d 0 s0 = (s1, Ok t)).
  { unfold sm_getitem, smbind, generateTract. cbn -[TractInfo_init ex_verts builder_init].
    rewrite E. reflexivity. }
  destruct (getitem_holds flat_offset d s0 0 s1 t Hr0 ltac:(lia) G0) as (Hr1 & Ha1 & Hh1).
  destruct (ex_tract legacy_default 1 1 999 999 b Hc (iu_reach _ _ _ _ Hu)) as (b' & u & E' & Hu' & Hn'); [lia|lia|].
  set (s2 := mkSM [Some t; Some u] b' 2 [0; 1]).
  assert (G1 : sm_getitem flat_offset d 1 s1 = (s2, Ok u)).
  { unfold sm_getitem, smbind, generateTract. cbn -[TractInfo_init ex_verts builder_init].
    change (Pos.to_nat 1) with 1%nat. cbn -[TractInfo_init ex_verts builder_init].
    rewrite E'. reflexivity. }
  assert (Hn3 : t_numPatches t = (3, 2)) by (rewrite Hn; reflexivity).
  assert (Hn1 : t_numPatches u = (1, 1)) by (rewrite Hn'; reflexivity).
  destruct (tract_answers_change_refuted_proof flat flat_offset d s1 0 t 1 s2 u 3 2 1 1) as (A1 & A2 & A3 & A4);
    try assumption; try lia.
  { cbn. intuition lia. }
  exists d, s1, t, s2. split; [exact Hc|]. split; [reflexivity|]. split; [exact Hr1|]. split; [exact Hh1|].
  split; [econstructor; [constructor|exact G1]|]. split; [exact Hn3|]. split; [exact A1|]. split; [exact A2|].
  intros (_ & Hs & _). specialize (Hs (IxIndex2D 0 1)). rewrite A3, A4 in Hs. discriminate.
Qed.

(*@ C21: once an access to a valid index has returned a tract, every later access to that index
    returns the identical object without changing anything, and its id is the index. *)
Lemma tract_identity_proof : forall (Sky : Type) (offset : Sky -> R -> R -> Sky) d s i s1 t s2,
  sm_reachable offset d s -> 0 <= i -> sm_getitem offset d i s = (s1, Ok t) ->
  accesses offset d s1 s2 ->
  sm_getitem offset d i s2 = (s2, Ok t) /\ t_id t = i.
Proof.
  intros Sky offset d s i s1 t s2 Hr Hi Hg Ha.
  destruct (getitem_holds offset d s i s1 t Hr Hi Hg) as (Hr1 & Ha1 & Hh1).
  split; [|eapply holds_id; eauto]. eapply holds_accesses; eauto.
Qed.

(*@ C21: in any history each index is generated at most once, and it is generated exactly when
    an access to it has returned a tract; the tracts of different indices are different objects. *)
Lemma tract_generated_once_proof : forall (Sky : Type) (offset : Sky -> R -> R -> Sky) d s,
  sm_reachable offset d s ->
  NoDup (sm_log s)
  /\ (forall i, In i (sm_log s) <-> exists t, holds offset d i s t)
  /\ (forall i j t u, holds offset d i s t -> holds offset d j s u -> t_oid t = t_oid u -> i = j).
Proof.
  intros Sky offset d s Hr. split; [apply (si_log _ _ _ _ (reachable_inv _ _ _ Hr))|]. split.
  - intros i. now apply holds_log.
  - intros. eapply holds_inj; eauto.
Qed.

(*@ C21: iterating over a sky map gives, in order, the very tracts that indexing gives. *)
Lemma sky_map_iteration_proof : forall (Sky : Type) (offset : Sky -> R -> R -> Sky) d s s' ts,
  sm_reachable offset d s -> sm_iter offset d s = (s', Ok ts) ->
  accesses offset d s s' /\ Z.of_nat (length ts) = Z.max 0 (sd_num d)
  /\ forall i, 0 <= i < sd_num d ->
       exists t, nth_error ts (Z.to_nat i) = Some t /\ holds offset d i s' t.
Proof.
  intros Sky offset d s s' ts Hr H. destruct (iter_spec offset d s s' (Ok ts) Hr H) as [Ha H1].
  split; [exact Ha|]. pose proof (Forall2_len _ _ _ H1) as Hl. rewrite zrange_length in Hl.
  split; [lia|]. intros i Hi.
  assert (Hz : nth_error (zrange 0 (sd_num d)) (Z.to_nat i) = Some i).
  { rewrite zrange_nth_error by lia. f_equal. lia. }
  clear -H1 Hz. revert Hz. generalize (Z.to_nat i) as k.
  induction H1 as [|a t l ts' Ha _ IH]; intros [|k]; cbn; try discriminate.
  - intros [= <-]. eauto.
  - auto.
Qed.

(*@ C22: a caching sky map raises IndexError, changing nothing, for every index outside
    [0, len); any other index gives a tract of that id unless its generation itself fails. *)
Lemma caching_index_range_proof : forall (Sky : Type) (offset : Sky -> R -> R -> Sky) d s i,
  sd_kind d = CachingMap -> sm_reachable offset d s ->
  (i < 0 \/ sm_len d s <= i -> sm_getitem offset d i s = (s, Raise IndexError))
  /\ (0 <= i < sm_len d s ->
      match sm_getitem offset d i s with
      | (s', Ok t) => t_id t = i /\ holds offset d i s' t
      | (s', Raise e) => s' = s /\
          (a <- sd_args d i ;; make_tract offset (sm_builder s) (sm_next s) i a) = Raise e
      end).
Proof.
  intros Sky offset d s i Hk Hr. unfold sm_len. rewrite Hk.
  pose proof (reachable_inv _ _ _ Hr) as Hinv. split.
  - intros Hi. destruct (sm_getitem offset d i s) as [s' [t|e]] eqn:Hg;
      pose proof (getitem_caching _ _ _ _ _ _ Hk Hinv Hg) as (_ & _ & H); [lia|].
    destruct H as [-> [[-> _]|[H _]]]; [reflexivity|lia].
  - intros Hi. destruct (sm_getitem offset d i s) as [s' [t|e]] eqn:Hg.
    + destruct (getitem_holds offset d s i s' t Hr ltac:(lia) Hg) as (Hr1 & Ha1 & Hh1).
      split; [eapply holds_id; eauto|exact Hh1].
    + pose proof (getitem_caching _ _ _ _ _ _ Hk Hinv Hg) as (_ & _ & [-> [[_ H]|[_ H]]]); [lia|].
      split; [reflexivity|]. unfold sm_getitem in Hg. rewrite Hk in Hg.
      destruct (Z.ltb_spec i 0); [lia|]. destruct (Z.ltb_spec (sd_num d) i); [lia|]. cbn [orb] in Hg.
      unfold smbind at 1 in Hg.
      assert (Hl : (Z.to_nat i < length (sm_tracts s))%nat) by (rewrite (si_len _ _ _ _ Hinv); lia).
      destruct (nth_error (sm_tracts s) (Z.to_nat i)) as [[x|]|] eqn:En.
      * exfalso. eapply H; eauto.
      * rewrite (py_nth_in _ _ _ (proj1 Hi) En) in Hg.
        unfold smbind at 1, generateTract in Hg.
        destruct (a <- sd_args d i;; make_tract offset (sm_builder s) (sm_next s) i a) as [[b t]|e'];
          [discriminate|]. injection Hg as ->. reflexivity.
      * apply nth_error_None in En. lia.
Qed.

(*@ C22: the maps that build all tracts in the constructor accept Python list indices: every index
    in [-len, len) gives the tract of that position, all others raise IndexError. *)
Lemma eager_index_range_proof : forall (Sky : Type) (offset : Sky -> R -> R -> Sky) d s i,
  sd_kind d = EagerMap -> sm_reachable offset d s -> 0 <= sd_num d ->
  sm_len d s = sd_num d
  /\ (i < - sm_len d s \/ sm_len d s <= i -> sm_getitem offset d i s = (s, Raise IndexError))
  /\ (0 <= i < sm_len d s -> exists t, sm_getitem offset d i s = (s, Ok t) /\ t_id t = i)
  /\ (- sm_len d s <= i < 0 -> sm_getitem offset d i s = sm_getitem offset d (sm_len d s + i) s).
Proof.
  intros Sky offset d s i Hk Hr Hn. unfold sm_len. rewrite Hk.
  pose proof (reachable_inv _ _ _ Hr) as Hinv. rewrite (si_len _ _ _ _ Hinv), Z2Nat.id by lia.
  split; [reflexivity|]. split; [|split].
  - intros Hi. unfold sm_getitem. rewrite Hk. unfold smbind, py_nth.
    rewrite (si_len _ _ _ _ Hinv), Z2Nat.id by lia.
    destruct (Z.ltb_spec i 0).
    + destruct (Z.leb_spec 0 (i + sd_num d)); [lia|reflexivity].
    + destruct (Z.ltb_spec i (sd_num d)); [lia|]. now rewrite andb_false_r.
  - intros Hi. destruct (reachable_full offset d s Hk Hr (Z.to_nat i)) as (t & Ht); [lia|].
    exists t. pose proof (getitem_filled offset d s (Z.to_nat i) t Ht ltac:(lia)) as H.
    rewrite Z2Nat.id in H by lia. split; [exact H|].
    eapply holds_id; eauto. split; [lia|exact H].
  - intros Hi. unfold sm_getitem. rewrite Hk. unfold smbind, py_nth.
    rewrite (si_len _ _ _ _ Hinv), Z2Nat.id by lia.
    destruct (Z.ltb_spec i 0); [|lia]. destruct (Z.ltb_spec (sd_num d + i) 0); [lia|].
    rewrite (Z.add_comm i). reflexivity.
Qed.

(*@ C35: the default findTract returns the tract of the map whose centre is nearest the coordinate,
    the lowest index among equally near ones; on an empty map it raises IndexError; otherwise it
    fails only if some tract cannot be generated. *)
Lemma base_findTract_nearest_proof : forall (Sky : Type) (offset : Sky -> R -> R -> Sky) sep d coord s s' r,
  sm_reachable offset d s -> base_findTract offset sep d coord s = (s', r) ->
  accesses offset d s s'
  /\ (sd_num d <= 0 -> r = Raise IndexError)
  /\ (forall t, r = Ok t ->
       exists i, 0 <= i < sd_num d /\ holds offset d i s' t
         /\ forall j, 0 <= j < sd_num d -> exists u, holds offset d j s' u
              /\ (sep coord (t_ctr t) <= sep coord (t_ctr u))%R
              /\ (sep coord (t_ctr u) = sep coord (t_ctr t) -> i <= j))
  /\ (forall e, r = Raise e -> 0 < sd_num d ->
       exists i s1, 0 <= i < sd_num d /\ accesses offset d s s1
         /\ sm_getitem offset d i s1 = (s', Raise e)).
Proof.
  intros Sky offset sep d coord s s' r Hr H.
  pose proof (base_findTract_spec offset sep d coord s s' r Hr H) as [Ha Hs].
  pose proof (reachable_accesses _ _ _ _ Hr Ha) as Hr'.
  split; [exact Ha|]. split; [|split].
  - intros Hn. destruct r as [t|e].
    + destruct Hs as (i & Hi & _). apply (holds_slot offset d s' i t Hr') in Hi. lia.
    + destruct Hs as [[_ ->]|(i & s1 & Hi & _)]; [reflexivity|lia].
  - intros t ->. destruct Hs as (i & Hi & Hall & Hmin). exists i.
    split; [apply (holds_slot offset d s' i t Hr') in Hi; lia|]. split; [exact Hi|].
    intros j Hj. destruct (Hall j Hj) as (u & Hu). exists u. split; [exact Hu|].
    destruct (Hmin j u Hu) as [Hm|[Hm1 Hm2]]; split; try lra; auto.
  - intros e -> Hn. destruct Hs as [[? _]|Hs]; [lia|exact Hs].
Qed.

(*@ C36: findTractPatchList handles the tracts of the map in order and returns those with a
    non-empty patch list, each with the list its findPatchList gave at that moment. *)
Lemma findTractPatchList_correct_proof : forall (Sky : Type) (offset : Sky -> R -> R -> Sky) d coords s s' l,
  sm_reachable offset d s -> base_findTractPatchList offset d coords s = (s', Ok l) ->
  accesses offset d s s'
  /\ exists all, Forall2 (fun i tp => exists s1, accesses offset d s s1 /\ accesses offset d s1 s'
                            /\ holds offset d i s1 (fst tp)
                            /\ findPatchList (sm_builder s1) (fst tp) coords = Ok (snd tp))
                         (zrange 0 (sd_num d)) all
     /\ l = filter (fun tp => match snd tp with [] => false | _ => true end) all.
Proof. exact @patch_list_general. Qed.

(*@ C36: hence, on a map whose builder is settled, it returns exactly the tracts with a non-empty
    patch list, each with the list that tract.findPatchList gives, in order of tract id. *)
Lemma findTractPatchList_settled_proof : forall (Sky : Type) (offset : Sky -> R -> R -> Sky) d coords s s' l,
  settled offset d s -> sm_reachable offset d s ->
  base_findTractPatchList offset d coords s = (s', Ok l) ->
  (forall i, 0 <= i < sd_num d -> exists t pl, holds offset d i s' t
        /\ findPatchList (sm_builder s') t coords = Ok pl)
  /\ (forall t pl, In (t, pl) l <->
        (exists i, holds offset d i s' t) /\ findPatchList (sm_builder s') t coords = Ok pl /\ pl <> [])
  /\ StronglySorted (fun p q => t_id (fst p) < t_id (fst q)) l.
Proof.
  intros Sky offset d coords s s' l Hst Hr H.
  pose proof (patch_list_spec offset d coords s s' (Ok l) Hst Hr H) as [_ Hs].
  apply Hs. reflexivity.
Qed.

(*@ C20, C36: a map is settled when all its tracts have equal patch counts, and when all its tracts
    exist already (always, for the maps that build their tracts in the constructor). *)
Lemma settled_maps_proof : forall (Sky : Type) (offset : Sky -> R -> R -> Sky) d s,
  sm_reachable offset d s ->
  (forall n, cfg_ok (sd_cfg d) -> uniform_counts offset d n -> settled offset d s)
  /\ ((forall i, 0 <= i < sd_num d -> exists t, holds offset d i s t) -> settled offset d s)
  /\ (sd_kind d = EagerMap -> settled offset d s).
Proof.
  intros Sky offset d s Hr. split; [|split].
  - intros n Hc Hu. eapply settled_uniform; eauto.
  - intros Hall. now apply settled_all.
  - intros Hk. apply settled_all; [exact Hr|]. intros i Hi.
    destruct (reachable_full offset d s Hk Hr (Z.to_nat i)) as (t & Ht); [lia|].
    exists t. apply (holds_slot offset d s i t Hr). auto.
Qed.

(*@ C36: on every map and with every findTract method: findClosestTractPatchList looks up the tract of each
    coordinate in turn, takes the patch list it gives at that moment, and returns the non-empty
    (tract, list) pairs in order of first occurrence, without repeating an equal pair (the same tract and lists of pairwise equal patches). *)
Lemma findClosestTractPatchList_correct_proof : forall (Sky : Type) (offset : Sky -> R -> R -> Sky) d ft coords s s' l,
  sm_reachable offset d s -> search offset d ft ->
  findClosestTractPatchList ft coords s = (s', Ok l) ->
  accesses offset d s s'
  /\ exists all same, Forall2 (fun c tp => exists s1, accesses offset d s s1 /\ accesses offset d s1 s'
                            /\ ft c s1 = (s1, Ok (fst tp))
                            /\ findPatchList (sm_builder s1) (fst tp) coords = Ok (snd tp))
                         coords all
     /\ (forall ps qs, same ps qs = true <-> Forall2 (fun p q => patch_eqb p q = true) ps qs)
     /\ l = first_occurrences (fun x y => Nat.eqb (t_oid (fst y)) (t_oid (fst x)) && same (snd y) (snd x))
               (filter (fun tp => match snd tp with [] => false | _ => true end) all).
Proof.
  intros Sky offset d ft coords s s' l Hr [S1 S2 S3] H.
  assert (G : forall todo acc s, sm_reachable offset d s -> closest_loop ft coords todo acc s = (s', Ok l) ->
    accesses offset d s s' /\ exists all,
      Forall2 (fun c tp => exists s1, accesses offset d s s1 /\ accesses offset d s1 s'
                            /\ ft c s1 = (s1, Ok (fst tp))
                            /\ findPatchList (sm_builder s1) (fst tp) coords = Ok (snd tp)) todo all
      /\ l = fold_left (fun acc x => if existsb (fun y => Nat.eqb (t_oid (fst y)) (t_oid (fst x))
                                                        && patches_eqb (snd y) (snd x)) acc
                                     then acc else acc ++ [x])
               (filter (fun tp => match snd tp with [] => false | _ => true end) all) acc).
  { clear s Hr H. induction todo as [|c todo IH]; intros acc s Hr; cbn [closest_loop].
    - intros H. injection H as <- <-. split; [constructor|]. exists []. split; [constructor|reflexivity].
    - unfold smbind at 1. destruct (ft c s) as [s1 [t|e]] eqn:Ef; [|discriminate].
      pose proof (S1 _ _ _ _ Hr Ef) as Ha1.
      pose proof (reachable_accesses _ _ _ _ Hr Ha1) as Hr1.
      unfold smbind at 1. unfold add_tract at 1. unfold smbind at 1.
      destruct (on_tract _ t s1) as [s2 r2] eqn:Eo. apply on_tract_pure in Eo. destruct Eo as [-> ->].
      destruct (findPatchList (sm_builder s1) t coords) as [pl|e] eqn:Ep; [|discriminate].
      cbn -[closest_loop]. intros H. apply IH in H; [|exact Hr1].
      destruct H as (Ha2 & all & H1 & H2).
      split; [exact (accesses_trans _ _ _ _ _ Ha1 Ha2)|]. exists ((t, pl) :: all). split.
      + constructor.
        * exists s1. split; [exact Ha1|]. split; [exact Ha2|]. split; [|exact Ep].
          exact (S3 c s s1 t s1 Hr Ef (acc_none _ _ _)).
        * eapply Forall2_impl; [|exact H1]. cbn. intros a b (s3 & A & B & C).
          exists s3. split; [exact (accesses_trans _ _ _ _ _ Ha1 A)|]. split; [exact B|exact C].
      + rewrite H2. destruct pl as [|p pl]; cbn [nonempty filter snd andb fold_left]; [reflexivity|].
        f_equal. unfold pair_mem. cbn [fst snd]. now destruct (existsb _ acc). }
  destruct (G coords [] s Hr H) as (Ha & all & H1 & H2). split; [exact Ha|]. exists all, patches_eqb. split; [exact H1|]. split; [|exact H2].
  induction ps as [|p ps IH]; intros [|q qs]; cbn [patches_eqb].
  - split; [constructor|reflexivity].
  - split; [discriminate|]. intros K. inversion K.
  - split; [discriminate|]. intros K. inversion K.
  - rewrite andb_true_iff, IH. split; [intros [A B]; now constructor|]. intros K. inversion K. auto.
Qed.

(*@ C36: looking up an index computed from the coordinate is a search; so is the default findTract. *)
Lemma index_search_proof : forall (Sky : Type) (offset : Sky -> R -> R -> Sky) d (f : Sky -> Z),
  (forall c, 0 <= f c) -> search offset d (fun c => sm_getitem offset d (f c)).
Proof.
  intros Sky offset d f Hf. constructor.
  - intros c s s' r _ H. econstructor; [constructor|exact H].
  - intros c s s' t Hr H. exists (f c). exact (proj2 (proj2 (getitem_holds offset d s (f c) s' t Hr (Hf c) H))).
  - intros c s s' t s1 Hr H Ha.
    destruct (getitem_holds offset d s (f c) s' t Hr (Hf c) H) as (Hr1 & _ & Hh).
    exact (proj2 (holds_accesses offset d s' s1 (f c) t Hr1 Ha Hh)).
Qed.

(*@ C36: findClosestTractPatchList returns exactly the tracts that findTract finds for some of the
    coordinates and that have a non-empty patch list, in order of first occurrence, each once, each
    with the list that tract.findPatchList gives (settled maps, any findTract method). *)
Lemma findClosestTractPatchList_settled_proof : forall (Sky : Type) (offset : Sky -> R -> R -> Sky) d ft coords s s' l,
  settled offset d s -> sm_reachable offset d s -> search offset d ft ->
  findClosestTractPatchList ft coords s = (s', Ok l) ->
  exists ts, Forall2 (fun c t => ft c s' = (s', Ok t)) coords ts
    /\ (forall t pl, In (t, pl) l <->
         In t ts /\ findPatchList (sm_builder s') t coords = Ok pl /\ pl <> [])
    /\ map fst l = filter (fun t => match findPatchList (sm_builder s') t coords with
                                    | Ok (_ :: _) => true | _ => false end)
                     (first_occurrences (fun t u => Nat.eqb (t_oid t) (t_oid u)) ts)
    /\ NoDup (map (fun tp => t_id (fst tp)) l).
Proof.
  intros Sky offset d ft coords s s' l Hst Hr Hse H.
  apply (closest_loop_spec offset d ft coords Hse coords [] s s' l Hr Hst) in H.
  destruct H as (Ha & ts & H1 & H2 & H3).
  pose proof (reachable_accesses _ _ _ _ Hr Ha) as Hr'.
  assert (Hhold : forall t, In t ts -> exists i, holds offset d i s' t).
  { clear -H1. induction H1 as [|c t l ts [Hi _] _ IH]; intros t' []; [subst; exact Hi|auto]. }
  destruct (collect_spec offset d s' coords ts Hr' Hhold H2) as (C1 & C2 & C3).
  rewrite <- H3 in C1, C2, C3.
  exists ts. split; [eapply Forall2_impl; [|exact H1]; cbn; tauto|].
  split; [exact C1|]. split; [exact C2|].
  clear C2.
  assert (C4 : forall tp, In tp l -> exists i, holds offset d i s' (fst tp)).
  { intros [t pl] Hin. apply Hhold. now apply C1 in Hin. }
  clear -C3 C4 Hr'. induction l as [|[t pl] l IH]; [constructor|].
  cbn [map] in *. inversion C3; subst. constructor.
  - rewrite in_map_iff. intros ([u pl'] & E & Hin). cbn in E.
    apply H1. apply in_map_iff. exists (u, pl'). split; [|exact Hin]. cbn.
    destruct (C4 (t, pl) (or_introl eq_refl)) as (i & Hi). destruct (C4 _ (or_intror Hin)) as (j & Hj).
    cbn in *. pose proof (holds_id _ _ _ _ _ Hr' Hi). pose proof (holds_id _ _ _ _ _ Hr' Hj).
    assert (Hij : i = j) by congruence. rewrite <- Hij in Hj. rewrite (holds_fun _ _ _ _ _ _ Hi Hj). reflexivity.
  - apply IH; [exact H2|]. intros tp Hin. apply C4. now right.
Qed.

(** The tract of [ex_tract] whose region fills its patches exactly is not shifted. *)
Lemma ex_tract_exact w h b oid id b' t :
  builder_reachable legacy_default b -> 0 < w < 2 ^ 40 -> 0 < h < 2 ^ 40 ->
  TractInfo_init flat_offset b oid id (0, 0)%R (ex_verts (4000 * w - 1) (4000 * h - 1)) 0 flat_wcs None = Ok (b', t) ->
  t_bbox t = Box 0 0 (4000 * w) (4000 * h) ->
  forall c, skyToPixel (t_wcs t) c = Pix (fst c) (snd c).
Proof.
  intros Hb Hw Hh E EB.
  assert (Hc : cfg_ok legacy_default) by (cbn; lia).
  destruct (tract_samples_lemma _ _ _ _ _ _ _ _ _ _ _ _ _ Hc Hb E) as (_ & Hs & (dx & dy & Hd) & _).
  pose proof (Hs (0, 0)%R _ _ (or_introl eq_refl) eq_refl eq_refl) as C1.
  pose proof (Hs (IZR (4000 * w - 1), IZR (4000 * h - 1)) _ _ (or_intror (or_introl eq_refl)) eq_refl eq_refl) as C2.
  apply contains_lemma in C1, C2. destruct C1 as (x1 & y1 & P1 & B1). destruct C2 as (x2 & y2 & P2 & B2).
  assert (R : forall a b : Z, (IZR a - / 2 <= IZR b < IZR a + / 2)%R -> a = b).
  { intros m n [L U].
    assert (IZR m < IZR (n + 1))%R by (rewrite plus_IZR; lra).
    assert (IZR n < IZR (m + 1))%R by (rewrite plus_IZR; lra).
    apply lt_IZR in H, H0. lia. }
  unfold pixel_of in P1, P2. destruct P1 as (u1 & v1 & P1 & F1 & G1). destruct P2 as (u2 & v2 & P2 & F2 & G2).
  rewrite Hd in P1, P2. cbn -[Z.mul Z.sub] in P1, P2. injection P1 as <- <-. injection P2 as <- <-.
  rewrite <- plus_IZR in F1, G1, F2, G2. apply R in F1, G1, F2, G2. subst.
  rewrite EB in B1, B2. unfold in_box, maxx, maxy in B1, B2. cbn -[Z.mul Z.sub] in B1, B2.
  assert (dx = 0 /\ dy = 0) as [-> ->] by lia.
  intros c. rewrite Hd. cbn. now rewrite !Rplus_0_r.
Qed.

(** The box of three positions in a line, on the flat sky. *)
Lemma ex_coords_box (w : wcs flat) :
  (forall c, skyToPixel w c = Pix (fst c) (snd c)) ->
  exists m, fold_left (include_caught w) [(11000, 100); (11800, 100); (11000, 100)]%R (Ok Box2DEmpty) = Ok m
    /\ box_of_box2d m = Box 11000 100 801 1.
Proof.
  intros Hw. unfold include_caught. cbn [fold_left bind]. rewrite !Hw. cbn [fst snd bind box2d_include].
  pose proof box2d_eps_pos as He.
  assert (He2 : (box2d_eps <= / 1000000)%R).
  { unfold box2d_eps. apply Rinv_le; [lra|]. apply IZR_le. lia. }
  assert (Ht : forall n : R, (0 < n)%R -> tweak_max n = (n * (1 + box2d_eps))%R).
  { intros n Hn. unfold tweak_max. destruct (Rlt_bool_spec n 0); [lra|]. destruct (Rlt_bool_spec 0 n); [reflexivity|lra]. }
  assert (I : forall lo hi p, (lo <= p)%R -> (0 < p)%R ->
            include_axis lo hi p = (lo, if Rle_bool hi p then (p * (1 + box2d_eps))%R else hi)).
  { intros lo hi q L P. unfold include_axis. destruct (Rlt_bool_spec q lo); [lra|]. rewrite Ht by exact P.
    now destruct (Rle_bool hi q). }
  rewrite !Ht by lra. rewrite !I by lra. cbn [fst snd bind box2d_include]. rewrite !I by lra.
  destruct (Rle_bool_spec (11000 * (1 + box2d_eps)) 11800); [|lra].
  destruct (Rle_bool_spec (100 * (1 + box2d_eps)) 100); [lra|].
  destruct (Rle_bool_spec (100 * (1 + box2d_eps)) 100); [lra|].
  destruct (Rle_bool_spec (11800 * (1 + box2d_eps)) 11000); [lra|].
  eexists; split; [reflexivity|]. cbn [box_of_box2d].
  assert (Zfloor (11000 + / 2) = 11000) as -> by (apply Zfloor_imp; cbn; lra).
  assert (Zfloor (100 + / 2) = 100) as -> by (apply Zfloor_imp; cbn; lra).
  assert (Zceil (11800 * (1 + box2d_eps) - / 2) = 11800) as -> by (apply Zceil_imp; cbn; lra).
  assert (Zceil (100 * (1 + box2d_eps) - / 2) = 100) as -> by (apply Zceil_imp; cbn; lra).
  reflexivity.
Qed.

(** What findPatchList gives for these positions in a builder with enough patches. *)
Lemma ex_coords_list b nx ny (t : tract flat) :
  builder_reachable legacy_default b -> b_initialized b = true -> b_numPatches b = (nx, ny) -> 3 <= nx -> 0 < ny ->
  (forall c, skyToPixel (t_wcs t) c = Pix (fst c) (snd c)) ->
  (exists w h, t_bbox t = Box 0 0 (4000 * w) (4000 * h) /\ 3 <= w < 2 ^ 40 /\ 0 < h < 2 ^ 40) ->
  findPatchList b t [(11000, 100); (11800, 100); (11000, 100)]%R = Ok [the_patch legacy_default nx ny (t_wcs t) 2 0].
Proof.
  intros Hb Hi Hn Hx Hy Hw (w & h & EB & H1 & H2).
  assert (Hc : cfg_ok legacy_default) by (cbn; lia).
  pose proof (builder_reachable_inv _ b Hc Hb) as Hinv.
  destruct (ex_coords_box _ Hw) as (m & Em & Eb).
  unfold findPatchList. rewrite Em. cbn [bind]. rewrite Eb, EB.
  rewrite (bi_border _ _ Hinv), (bi_inner _ _ Hinv). cbn [fst snd cfg_border cfg_inner legacy_default].
  assert (EC : box_clip (box_grow (Box 11000 100 801 1) 100) (Box 0 0 (4000 * w) (4000 * h)) = Box 10900 0 1001 201).
  { change (box_grow (Box 11000 100 801 1) 100) with (Box 10900 0 1001 201).
    unfold box_clip. change (box_isEmpty (Box 10900 0 1001 201)) with false. cbv iota.
    replace (box_isEmpty (Box 0 0 (4000 * w) (4000 * h))) with false.
    - change (maxx (Box 10900 0 1001 201)) with 11900. change (maxy (Box 10900 0 1001 201)) with 200.
      unfold maxx, maxy. cbn [minx miny dimx dimy].
      rewrite Z.max_l, Z.max_l, Z.min_l, Z.min_l by lia. reflexivity.
    - unfold box_isEmpty. cbn [dimx dimy]. symmetry. apply andb_false_iff. lia. }
  rewrite EC. cbn [box_isEmpty].
  change (box_isEmpty (Box 10900 0 1001 201)) with false. cbv iota.
  change (minx (Box 10900 0 1001 201)) with 10900. change (miny (Box 10900 0 1001 201)) with 0.
  change (maxx (Box 10900 0 1001 201)) with 11900. change (maxy (Box 10900 0 1001 201)) with 200.
  replace (Verif.Float64.py_int_truediv 10900 4000) with (Ok 2) by (vm_compute; reflexivity).
  replace (Verif.Float64.py_int_truediv 0 4000) with (Ok 0) by (vm_compute; reflexivity).
  replace (Verif.Float64.py_int_truediv 11900 4000) with (Ok 2) by (vm_compute; reflexivity).
  replace (Verif.Float64.py_int_truediv 200 4000) with (Ok 0) by (vm_compute; reflexivity).
  cbn [bind]. change (zrange 2 (2 + 1)) with [2]. change (zrange 0 (0 + 1)) with [0]. cbn [flat_map map app mapM fst snd].
  unfold tract_getPatchInfo. rewrite getPatchInfo_seq.
  rewrite (getPatchInfo_pair legacy_default b nx ny (t_wcs t) 2 0) by (assumption || lia). reflexivity.
Qed.

(*@ C36 REFUTED, the claim that each tract is listed once: on a map with tracts of different patch counts
    one call can list a tract twice, when a tract with other counts is generated in between. *)
Lemma closest_lists_tract_twice_refuted_proof :
  exists d s ft coords s' t u p q r, cfg_ok (sd_cfg d) /\ sd_num d = 2 /\ sm_reachable flat_offset d s
    /\ search flat_offset d ft
    /\ findClosestTractPatchList ft coords s = (s', Ok [(t, [p]); (u, [q]); (t, [r])])
    /\ t_id t = 0 /\ t_id u = 1 /\ p_index p = p_index r
    /\ box_contains_box (t_bbox t) (p_outer p) = true /\ box_contains_box (t_bbox t) (p_outer r) = false.
Proof.
  set (d := mkDef CachingMap legacy_default 2 (fun i =>
     Ok (if i =? 0 then PlainArgs (0, 0)%R (ex_verts (4000 * 3 - 1) (4000 * 2 - 1)) 0%R flat_wcs None
         else PlainArgs (0, 0)%R (ex_verts (4000 * 4 - 1) (4000 * 2 - 1)) 0%R flat_wcs None))).
  assert (Hc : cfg_ok legacy_default) by (cbn; lia).
  set (s0 := mkSM (repeat (@None (tract flat)) 2) (builder_init legacy_default) 0 []).
  assert (H0 : sm_new flat_offset d = Ok s0) by reflexivity.
  assert (Hr0 : sm_reachable flat_offset d s0) by (exists s0; split; [exact H0|constructor]).
  destruct (ex_tract legacy_default 0 0 (4000 * 3 - 1) (4000 * 2 - 1) (builder_init _) Hc (br_init _)) as (b & t & E & Hu & Hn); [lia|lia|].
  set (s1 := mkSM [Some t; None] b 1 [0]).
  assert (G0 : sm_getitem flat_offset d 0 s0 = (s1, Ok t)).
  { unfold sm_getitem, smbind, generateTract. cbn -[TractInfo_init ex_verts builder_init Z.mul Z.sub].
    rewrite E. reflexivity. }
  destruct (getitem_holds flat_offset d s0 0 s1 t Hr0 ltac:(lia) G0) as (Hr1 & Ha1 & Hh1).
  destruct (ex_tract legacy_default 1 1 (4000 * 4 - 1) (4000 * 2 - 1) b Hc (iu_reach _ _ _ _ Hu)) as (b' & u & E' & Hu' & Hn'); [lia|lia|].
  set (s2 := mkSM [Some t; Some u] b' 2 [0; 1]).
  assert (G1 : sm_getitem flat_offset d 1 s1 = (s2, Ok u)).
  { unfold sm_getitem, smbind, generateTract. cbn -[TractInfo_init ex_verts builder_init Z.mul Z.sub].
    change (Pos.to_nat 1) with 1%nat. cbn -[TractInfo_init ex_verts builder_init Z.mul Z.sub].
    rewrite E'. reflexivity. }
  destruct (getitem_holds flat_offset d s1 1 s2 u Hr1 ltac:(lia) G1) as (Hr2 & Ha2 & Hh2).
  pose proof (holds_accesses flat_offset d s1 s2 0 t Hr1 Ha2 Hh1) as Hh3.
  destruct (in_use_spec _ _ _ _ Hc Hu) as (x & y & Hi & Hinit & Hnb & Hnt & _ & _ & _ & HB).
  destruct (in_use_spec _ _ _ _ Hc Hu') as (x' & y' & Hi' & Hinit' & Hnb' & Hnt' & _ & _ & _ & HB').
  rewrite Hnt in Hn. rewrite Hnt' in Hn'. cbn in Hn, Hn'. injection Hn as -> ->. injection Hn' as -> ->.
  cbn -[Z.mul] in HB, HB'.
  pose proof (ex_tract_exact 3 2 _ _ _ _ _ (br_init _) ltac:(lia) ltac:(lia) E ltac:(rewrite HB; f_equal; lia)) as Wt.
  pose proof (ex_tract_exact 4 2 _ _ _ _ _ (iu_reach _ _ _ _ Hu) ltac:(lia) ltac:(lia) E' ltac:(rewrite HB'; f_equal; lia)) as Wu.
  set (f := fun c : flat => if Rlt_bool (fst c) 11500 then 0 else 1).
  assert (F0 : f (11000, 100)%R = 0).
  { unfold f. cbn. destruct (Rlt_bool_spec 11000 11500); [reflexivity|lra]. }
  assert (F1 : f (11800, 100)%R = 1).
  { unfold f. cbn. destruct (Rlt_bool_spec 11800 11500); [lra|reflexivity]. }
  exists d, s0, (fun c => sm_getitem flat_offset d (f c)), [(11000, 100); (11800, 100); (11000, 100)]%R, s2, t, u.
  exists (the_patch legacy_default 3 2 (t_wcs t) 2 0), (the_patch legacy_default 4 2 (t_wcs u) 2 0), (the_patch legacy_default 4 2 (t_wcs t) 2 0).
  split; [exact Hc|]. split; [reflexivity|]. split; [exact Hr0|].
  split; [apply index_search_proof; intros c; unfold f; destruct (Rlt_bool _ _); lia|].
  split.
  { unfold findClosestTractPatchList. cbn [closest_loop]. rewrite F0, F1.
    assert (L0 : findPatchList b t [(11000, 100); (11800, 100); (11000, 100)]%R = Ok [the_patch legacy_default 3 2 (t_wcs t) 2 0]).
    { apply ex_coords_list; [apply Hu|assumption|assumption|lia|lia|exact Wt|exists 3, 2; rewrite HB; split; [f_equal; lia|lia]]. }
    assert (L1 : findPatchList b' u [(11000, 100); (11800, 100); (11000, 100)]%R = Ok [the_patch legacy_default 4 2 (t_wcs u) 2 0]).
    { apply ex_coords_list; [apply Hu'|assumption|assumption|lia|lia|exact Wu|exists 4, 2; rewrite HB'; split; [f_equal; lia|lia]]. }
    assert (L2 : findPatchList b' t [(11000, 100); (11800, 100); (11000, 100)]%R = Ok [the_patch legacy_default 4 2 (t_wcs t) 2 0]).
    { apply ex_coords_list; [apply Hu'|assumption|assumption|lia|lia|exact Wt|exists 3, 2; rewrite HB; split; [f_equal; lia|lia]]. }
    assert (On : t_oid t <> t_oid u).
    { intros O. pose proof (tract_generated_once_proof _ _ _ _ Hr2) as (_ & _ & D).
      specialize (D 0 1 t u Hh3 Hh2 O). discriminate D. }
    apply Nat.eqb_neq in On. pose proof On as On'. rewrite Nat.eqb_sym in On'.
    unfold add_tract, on_tract, sm_cur_builder, smbind, smlift, smret. rewrite G0.
    change (sm_builder s1) with b. rewrite L0. cbn [nonempty pair_mem existsb andb negb app].
    rewrite G1. change (sm_builder s2) with b'. rewrite L1.
    cbn [nonempty pair_mem existsb andb orb negb app fst snd]. rewrite On. cbn [andb orb negb app].
    rewrite (proj2 Hh3). change (sm_builder s2) with b'. rewrite L2.
    cbn [nonempty pair_mem existsb andb orb negb app fst snd]. rewrite On', Nat.eqb_refl.
    replace (patches_eqb _ _) with false by (vm_compute; reflexivity). reflexivity. }
  split; [exact (holds_id _ _ _ _ _ Hr1 Hh1)|]. split; [exact (holds_id _ _ _ _ _ Hr2 Hh2)|].
  split; [reflexivity|]. rewrite HB. split; vm_compute; reflexivity.
Qed.

(*@ C36: the default findTract is such a method. *)
Lemma base_findTract_search_proof : forall (Sky : Type) (offset : Sky -> R -> R -> Sky) sep d,
  search offset d (base_findTract offset sep d).
Proof. exact @base_search. Qed.

(*@ C20-C22, C35, C36, non-vacuity: a map of two tracts of 3 x 2 patches each, reached by accesses,
    on which findTract and both patch list searches succeed with non-empty results. *)
Example sky_map_hypotheses_met_proof :
  exists d s t, cfg_ok (sd_cfg d) /\ sd_kind d = CachingMap /\ sd_num d = 2
    /\ uniform_counts flat_offset d (3, 2)
    /\ sm_reachable flat_offset d s /\ holds flat_offset d 0 s t
    /\ tract_contains t (9999, 4999)%R = Ok true
    /\ (exists s1 u, sm_getitem flat_offset d 1 s = (s1, Ok u) /\ s1 <> s).
Proof.
  set (d := mkDef CachingMap legacy_default 2 (fun i =>
     Ok (PlainArgs (IZR i, 0)%R (ex_verts 9999 4999) 0%R flat_wcs None))).
  assert (Hc : cfg_ok legacy_default) by (cbn; lia).
  assert (Hex : forall b oid i, builder_reachable legacy_default b ->
     exists b' t, make_tract flat_offset b oid i (PlainArgs (IZR i, 0)%R (ex_verts 9999 4999) 0%R flat_wcs None) = Ok (b', t)
       /\ t_numPatches t = (3, 2) /\ tract_contains t (9999, 4999)%R = Ok true).
  { intros b oid i Hb.
    destruct (ex_tract legacy_default oid i 9999 4999 b Hc Hb) as (b' & t & E & Hu & Hn); [lia|lia|].
    assert (G : exists b2 t2, make_tract flat_offset b oid i (PlainArgs (IZR i, 0)%R (ex_verts 9999 4999) 0%R flat_wcs None) = Ok (b2, t2)
               /\ t_numPatches t2 = t_numPatches t).
    { cbn. unfold TractInfo_init, tract_build in *. destruct (include_all _ _) as [m|]; [|discriminate].
      cbn [bind] in *. destruct (setupPatches _ _) as [[b1 [bb np]]|]; [|discriminate]. cbn [bind] in *.
      destruct (finalOrientation _ _) as [x y]. injection E as <- <-. do 2 eexists; split; reflexivity. }
    destruct G as (b2 & t2 & E2 & En2). exists b2, t2. split; [exact E2|].
    split; [rewrite En2, Hn; reflexivity|].
    cbn in E2. destruct (tract_samples_lemma _ _ _ _ _ _ _ _ _ _ _ _ _ Hc Hb E2) as (_ & Hs & _).
    eapply Hs; [right; left; reflexivity|reflexivity|reflexivity]. }
  set (s0 := mkSM (repeat (@None (tract flat)) 2) (builder_init legacy_default) 0 []).
  assert (H0 : sm_new flat_offset d = Ok s0) by reflexivity.
  assert (Hr0 : sm_reachable flat_offset d s0) by (exists s0; split; [exact H0|constructor]).
  destruct (Hex (builder_init legacy_default) 0%nat 0 (br_init _)) as (b & t & E & Hn & Hcont).
  set (s1 := mkSM [Some t; None] b 1 [0]).
  assert (G0 : sm_getitem flat_offset d 0 s0 = (s1, Ok t)).
  { unfold sm_getitem, smbind, generateTract. cbn -[TractInfo_init ex_verts builder_init].
    cbn [make_tract] in E. rewrite E. reflexivity. }
  destruct (getitem_holds flat_offset d s0 0 s1 t Hr0 ltac:(lia) G0) as (Hr1 & Ha1 & Hh1).
  assert (Hb1 : builder_reachable legacy_default b) by apply (si_reach _ _ _ _ (reachable_inv _ _ _ Hr1)).
  destruct (Hex b 1%nat 1 Hb1) as (b2 & u & E2 & Hn2 & _).
  exists d, s1, t. split; [exact Hc|]. split; [reflexivity|]. split; [reflexivity|]. split.
  { intros i a b' oid b'' t' Hi Ha Hb Hm. cbn in Ha. injection Ha as <-.
    destruct (Hex b' oid i Hb) as (b3 & t3 & E3 & Hn3 & _). rewrite E3 in Hm. injection Hm as _ <-. exact Hn3. }
  split; [exact Hr1|]. split; [exact Hh1|]. split; [exact Hcont|].
  assert (G1 : sm_getitem flat_offset d 1 s1 = (mkSM [Some t; Some u] b2 2 [0; 1], Ok u)).
  { unfold sm_getitem, smbind, generateTract. cbn -[TractInfo_init ex_verts builder_init].
    change (Pos.to_nat 1) with 1%nat. cbn -[TractInfo_init ex_verts builder_init].
    cbn [make_tract] in E2. rewrite E2. reflexivity. }
  do 2 eexists. split; [exact G1|]. unfold s1. intros H. injection H as H _. discriminate.
Qed.
