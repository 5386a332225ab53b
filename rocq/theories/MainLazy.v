(** Which tracts a look-up generates (C98). *)
From Coq Require Import Reals Lia.
Require Import Verif.Py Verif.Geom Verif.PatchInfo Verif.TractBuilder Verif.TractInfo Verif.Spec.
Require Import Verif.SkyMap Verif.SkySpec Verif.SkyProofs Verif.SkyProofs2 Verif.MainSky.
Require Import Verif.Sphere Verif.Maps Verif.Rings Verif.RingsSpec Verif.Examples Verif.RingsProofs Verif.RingsProofs2 Verif.RingsProofs3 Verif.RingsNear Verif.RingsNum Verif.SphereProofs Verif.Uniform Verif.TractBox Verif.MainMaps Verif.MainRings Verif.MainRings2 Verif.MainRings3.
Open Scope list_scope.
Open Scope Z_scope.
Local Arguments Z.mul : simpl never.

(** Between the states [s] and [s'] of a map no tracts have been generated but those of the indices in [l]. *)
Definition generates_only {Sky} (offset : Sky -> R -> R -> Sky) (d : skydef Sky) (s s' : smstate Sky) (l : list Z) : Prop :=
  accesses offset d s s' /\ forall i t, holds offset d i s' t -> (exists t0, holds offset d i s t0) \/ In i l.

Section Lazy.
Context {Sky : Type} (offset : Sky -> R -> R -> Sky) (d : skydef Sky).
Notation only := (generates_only offset d).
Lemma only_refl s l : only s s l.
Proof. split; [constructor|]. eauto. Qed.
Lemma accesses_trans' s s1 s2 : accesses offset d s s1 -> accesses offset d s1 s2 -> accesses offset d s s2.
Proof. intros H1 H2. induction H2; [exact H1|]. econstructor; eassumption. Qed.
Lemma only_trans s s1 s2 l l' : only s s1 l -> only s1 s2 l' -> only s s2 (l ++ l').
Proof.
  intros [A1 B1] [A2 B2]. split; [eapply accesses_trans'; eassumption|].
  intros i t H. destruct (B2 i t H) as [(t0 & H0)|H0]; [destruct (B1 i t0 H0); [now left|]|]; right; apply in_or_app; auto.
Qed.
Lemma only_mono s s1 l l' : incl l l' -> only s s1 l -> only s s1 l'.
Proof. intros Hi [A B]. split; [exact A|]. intros i t H. destruct (B i t H); auto. Qed.
Lemma only_reach s s1 l : sm_reachable offset d s -> only s s1 l -> sm_reachable offset d s1.
Proof. intros Hr [A _]. eapply reachable_accesses; eassumption. Qed.

Lemma getitem_log s i s' r : sm_getitem offset d i s = (s', r) ->
  match r with Ok t => sm_log s' = sm_log s \/ sm_log s' = sm_log s ++ [i] | Raise _ => s' = s end.
Proof.
  unfold sm_getitem. destruct (sd_kind d).
  - destruct (_ || _); [intros H; injection H as <- <-; reflexivity|]. unfold smbind. destruct (py_nth (sm_tracts s) i) as [[t|]|e].
    + intros H. injection H as <- <-. now left.
    + unfold generateTract. destruct (bind _ _) as [[b t]|e]; intros H; [injection H as <- <-; now right|injection H as <- <-; reflexivity].
    + intros H. injection H as <- <-. reflexivity.
  - unfold smbind. destruct (py_nth (sm_tracts s) i) as [[t|]|e]; intros H; injection H as <- <-; auto.
Qed.
Lemma getitem_only s i s' r : sm_reachable offset d s -> sm_getitem offset d i s = (s', r) ->
  only s s' (match r with Ok _ => [i] | Raise _ => [] end).
Proof.
  intros Hr E. assert (Ha : accesses offset d s s') by (econstructor; [constructor|exact E]). split; [exact Ha|].
  pose proof (getitem_log s i s' r E) as HL. pose proof (reachable_accesses offset d s s' Hr Ha) as Hr'.
  intros j t Hj. assert (Hin : In j (sm_log s')) by (apply (holds_log offset d s' j Hr'); eauto).
  destruct r as [t'|e].
  - destruct HL as [HL|HL]; rewrite HL in Hin.
    + left. now apply (holds_log offset d s j Hr).
    + apply in_app_or in Hin. destruct Hin as [Hin|Hin]; [left; now apply (holds_log offset d s j Hr)|right; exact Hin].
  - subst s'. left. eauto.
Qed.

(** A search that looks one tract up. *)
Definition looks_up_one (ft : Sky -> SM Sky (tract Sky)) : Prop := forall c s s' r, sm_reachable offset d s -> ft c s = (s', r) ->
  match r with Ok t => exists i, only s s' [i] /\ (0 <= i -> holds offset d i s' t) | Raise _ => only s s' [] end.
Lemma getitem_looks_up (f : Sky -> res Z) : looks_up_one (fun c => i <-- smlift (f c) ;; sm_getitem offset d i).
Proof.
  intros c s s' r Hr E. unfold smbind, smlift in E. destruct (f c) as [i|e].
  - pose proof (getitem_only s i s' r Hr E) as K. destruct r as [t|e]; [|exact K].
    exists i. split; [exact K|]. intros Hi. eapply getitem_holds; eassumption.
  - injection E as <- <-. apply only_refl.
Qed.
Lemma add_tract_state (coords : list Sky) (t : tract Sky) acc s : fst (add_tract coords t acc s) = s.
Proof. unfold add_tract, on_tract, smbind, sm_cur_builder, smlift. destruct (findPatchList _ _ _); reflexivity. Qed.
Lemma closest_only ft coords todo : looks_up_one ft -> forall acc s s' r, sm_reachable offset d s -> closest_loop ft coords todo acc s = (s', r) ->
  exists l, (Datatypes.length l <= Datatypes.length todo)%nat /\ only s s' l.
Proof.
  intros Hft. induction todo as [|c todo IH]; intros acc s s' r Hr E; cbn [closest_loop] in E.
  - injection E as <- <-. exists []. split; [apply le_n|apply only_refl].
  - unfold smbind at 1 in E. destruct (ft c s) as [s1 [t|e]] eqn:E1; pose proof (Hft c s s1 _ Hr E1) as K; cbn in K.
    + destruct K as (i & K & _). unfold smbind in E. pose proof (add_tract_state coords t acc s1) as Es.
      destruct (add_tract coords t acc s1) as [s2 [acc'|e]]; cbn [fst] in Es; subst s2.
      * destruct (IH acc' s1 s' r (only_reach _ _ _ Hr K) E) as (l & Hl & Ho). exists (i :: l). split; [cbn; lia|]. exact (only_trans _ _ _ [i] l K Ho).
      * injection E as <- <-. exists [i]. split; [cbn; lia|exact K].
    + injection E as <- <-. exists []. split; [cbn; lia|exact K].
Qed.
End Lazy.

Section RingsLazy.
Variable d : skydef sphere.
Notation only := (generates_only sphere_offset d).
Lemma try_tracts_only coord ixs : forall acc s s' r, sm_reachable sphere_offset d s ->
  try_tracts sphere_offset d coord ixs acc s = (s', r) -> only s s' ixs.
Proof.
  induction ixs as [|i ixs IH]; intros acc s s' r Hr E; cbn [try_tracts] in E.
  - injection E as <- <-. apply only_refl.
  - unfold smbind at 1 in E. unfold try_tract at 1 in E. unfold smbind at 1 in E.
    destruct (sm_getitem sphere_offset d i s) as [s1 [t|e]] eqn:E1; pose proof (getitem_only sphere_offset d s i s1 _ Hr E1) as K.
    + unfold smbind, smlift, smret in E. destruct (tract_contains t coord) as [b|e].
      * change (i :: ixs) with ([i] ++ ixs). eapply only_trans; [exact K|]. eapply IH; [exact (only_reach _ _ _ _ _ Hr K)|exact E].
      * injection E as <- <-. eapply only_mono; [|exact K]. intros x [<-|[]]. now left.
    + injection E as <- <-. eapply only_mono; [|exact K]. intros x [].
Qed.
Lemma try_rings_only g coord rs : forall acc s s' r, sm_reachable sphere_offset d s ->
  try_rings sphere_offset d g coord rs acc s = (s', r) -> exists l, (Datatypes.length l <= 3 * Datatypes.length rs)%nat /\ only s s' l.
Proof.
  induction rs as [|k rs IH]; intros acc s s' r Hr E; cbn [try_rings] in E.
  - injection E as <- <-. exists []. split; [cbn; lia|apply only_refl].
  - destruct (_ || _).
    + destruct (IH acc s s' r Hr E) as (l & Hl & Ho). exists l. split; [cbn [Datatypes.length]; lia|exact Ho].
    + unfold smbind at 1, smlift at 1 in E. destruct (raToTractNum g (fst coord) k) as [tn|e]; [|injection E as <- <-; exists []; split; [cbn; lia|apply only_refl]].
      unfold smbind at 1, smlift at 1 in E. destruct (py_nth (rg_nums g) k) as [n|e]; [|injection E as <- <-; exists []; split; [cbn; lia|apply only_refl]].
      unfold smbind at 1 in E. set (ixs := ring_candidates g k tn n) in *.
      assert (Li : Datatypes.length ixs = 3%nat) by reflexivity.
      destruct (try_tracts sphere_offset d coord ixs acc s) as [s1 [acc'|e]] eqn:E1; pose proof (try_tracts_only coord ixs acc s s1 _ Hr E1) as K.
      * destruct (IH acc' s1 s' r (only_reach _ _ _ _ _ Hr K) E) as (l & Hl & Ho). exists (ixs ++ l). split; [rewrite app_length, Li; cbn [Datatypes.length]; lia|]. eapply only_trans; eassumption.
      * injection E as <- <-. exists ixs. split; [rewrite Li; cbn [Datatypes.length]; lia|exact K].
Qed.
Lemma findAll_only g coord s s' r : sm_reachable sphere_offset d s ->
  rings_findAllTracts sphere_offset d g coord s = (s', r) -> exists l, (Datatypes.length l <= 11)%nat /\ only s s' l.
Proof.
  intros Hr E. unfold rings_findAllTracts in E. unfold smbind at 1 in E.
  destruct (try_rings _ _ _ _ _ _ s) as [s1 [acc|e]] eqn:E1; destruct (try_rings_only g coord _ [] s s1 _ Hr E1) as (l & Hl & Ho).
  - pose proof (try_tracts_only coord [0; sd_num d - 1] acc s1 s' r (only_reach _ _ _ _ _ Hr Ho) E) as K.
    exists (l ++ [0; sd_num d - 1]). split; [rewrite app_length; cbn in *; lia|]. eapply only_trans; eassumption.
  - injection E as <- <-. exists l. split; [cbn in *; lia|exact Ho].
Qed.
Lemma fold_add_state coords ts : forall m (s : smstate sphere),
  (forall s, fst (m s) = s) -> fst (fold_left (fun m t => acc <-- m ;; add_tract coords t acc) ts m s) = s.
Proof.
  induction ts as [|t ts IH]; intros m s Hm; cbn [fold_left]; [apply Hm|]. apply IH. intros s'. unfold smbind.
  specialize (Hm s'). destruct (m s') as [s1 [acc|e]]; cbn [fst] in *; subst s1; [apply add_tract_state|reflexivity].
Qed.
Lemma patch_loop_only g coords todo : forall acc s s' r, sm_reachable sphere_offset d s ->
  rings_patch_loop sphere_offset d g coords todo acc s = (s', r) -> exists l, (Datatypes.length l <= 11 * Datatypes.length todo)%nat /\ only s s' l.
Proof.
  induction todo as [|c todo IH]; intros acc s s' r Hr E; cbn [rings_patch_loop] in E.
  - injection E as <- <-. exists []. split; [cbn; lia|apply only_refl].
  - unfold smbind at 1 in E. destruct (rings_findAllTracts sphere_offset d g c s) as [s1 [ts|e]] eqn:E1; destruct (findAll_only g c s s1 _ Hr E1) as (l & Hl & Ho).
    + unfold smbind at 1 in E. pose proof (fold_add_state coords ts (smret acc) s1 (fun _ => eq_refl)) as Es.
      destruct (fold_left _ ts (smret acc) s1) as [s2 [acc'|e]]; cbn [fst] in Es; subst s2.
      * destruct (IH acc' s1 s' r (only_reach _ _ _ _ _ Hr Ho) E) as (l' & Hl' & Ho'). exists (l ++ l').
        split; [rewrite app_length; cbn [Datatypes.length]; lia|]. eapply only_trans; eassumption.
      * injection E as <- <-. exists l. split; [cbn [Datatypes.length]; lia|exact Ho].
    + injection E as <- <-. exists l. split; [cbn [Datatypes.length]; lia|exact Ho].
Qed.
End RingsLazy.

(*@ C98: a new Rings, HEALPix or Discrete map has no tracts; a new Equat or Dodeca map has all, and no operation on it makes another. *)
Lemma lazy_new_proof : forall (Sky : Type) (offset : Sky -> R -> R -> Sky) d s, sm_new offset d = Ok s ->
  match sd_kind d with
  | CachingMap => forall i t, ~ holds offset d i s t
  | EagerMap => (forall i, 0 <= i < sd_num d -> exists t, holds offset d i s t)
                /\ forall s', accesses offset d s s' -> s' = s
  end.
Proof.
  intros Sky offset d s E. assert (Hr : sm_reachable offset d s) by (exists s; split; [exact E|constructor]).
  destruct (sd_kind d) eqn:Hk.
  - intros i t H. unfold sm_new in E. rewrite Hk in E. injection E as <-.
    assert (Hin : In i (@nil Z)) by (apply (holds_log offset d _ i Hr); eauto). destruct Hin.
  - split.
    + intros i Hi. destruct (reachable_full _ _ _ Hk Hr (Z.to_nat i)) as (t & Ht); [lia|]. exists t. apply (holds_slot offset d s i t Hr). auto.
    + intros s' Ha. induction Ha as [|s1 i s2 r Ha IH G]; [reflexivity|]. subst s1. unfold sm_getitem in G. rewrite Hk in G. unfold smbind in G.
      destruct (py_nth (sm_tracts s) i) as [[t|]|e]; injection G as <- _; reflexivity.
Qed.

(*@ C98: an access to a tract generates at most that tract, and none if it raises. *)
Lemma lazy_getitem_proof : forall (Sky : Type) (offset : Sky -> R -> R -> Sky) d s i s' r, sm_reachable offset d s ->
  sm_getitem offset d i s = (s', r) -> generates_only offset d s s' (match r with Ok _ => [i] | Raise _ => [] end).
Proof. intros Sky offset d s i s' r. apply getitem_only. Qed.

(*@ C98: findTract of a Rings or HEALPix map generates at most the tract it returns, and none if it raises. *)
Lemma lazy_findTract_proof : forall d g coord s s' r, sm_reachable sphere_offset d s ->
  rings_findTract sphere_offset d g coord s = (s', r) ->
  match r with
  | Ok t => exists i, generates_only sphere_offset d s s' [i] /\ (0 <= i -> holds sphere_offset d i s' t)
  | Raise _ => generates_only sphere_offset d s s' []
  end.
Proof. intros d g coord s s' r Hr E. exact (getitem_looks_up sphere_offset d (rings_findIndex g) coord s s' r Hr E). Qed.

(*@ C98: the same on a HEALPix map. *)
Lemma lazy_findTract_healpix_proof : forall angle_to_pixel d nside nest coord s s' r, sm_reachable sphere_offset d s ->
  healpix_findTract angle_to_pixel sphere_offset d nside nest coord s = (s', r) ->
  match r with
  | Ok t => exists i, generates_only sphere_offset d s s' [i] /\ (0 <= i -> holds sphere_offset d i s' t)
  | Raise _ => generates_only sphere_offset d s s' []
  end.
Proof.
  intros a2p d nside nest coord s s' r Hr E.
  exact (getitem_looks_up sphere_offset d (fun c => Ok (a2p nside nest (coordToAng c))) coord s s' r Hr E).
Qed.

(*@ C98: however many tracts the map has, findAllTracts of a Rings map generates at most eleven (three in each of three rings, and the caps), and
    findTractPatchList of n coordinates at most 11 n, also if they raise. *)
Lemma lazy_findAllTracts_proof : forall d g coord s s' r, sm_reachable sphere_offset d s ->
  rings_findAllTracts sphere_offset d g coord s = (s', r) ->
  exists l, (Datatypes.length l <= 11)%nat /\ generates_only sphere_offset d s s' l.
Proof. exact findAll_only. Qed.

(*@ C98: findTractPatchList of a Rings map. *)
Lemma lazy_findTractPatchList_proof : forall d g coords s s' r, sm_reachable sphere_offset d s ->
  rings_findTractPatchList sphere_offset d g coords s = (s', r) ->
  exists l, (Datatypes.length l <= 11 * Datatypes.length coords)%nat /\ generates_only sphere_offset d s s' l.
Proof. intros d g coords s s' r Hr E. exact (patch_loop_only d g coords coords [] s s' r Hr E). Qed.

(*@ C98: findClosestTractPatchList of n coordinates generates at most n tracts on a Rings or HEALPix map. *)
Lemma lazy_closest_proof : forall d g coords s s' r, sm_reachable sphere_offset d s ->
  findClosestTractPatchList (rings_findTract sphere_offset d g) coords s = (s', r) ->
  exists l, (Datatypes.length l <= Datatypes.length coords)%nat /\ generates_only sphere_offset d s s' l.
Proof.
  intros d g coords s s' r Hr E.
  exact (closest_only sphere_offset d _ coords coords (getitem_looks_up sphere_offset d (rings_findIndex g)) [] s s' r Hr E).
Qed.

(*@ C98: the same on a HEALPix map. *)
Lemma lazy_closest_healpix_proof : forall angle_to_pixel d nside nest coords s s' r, sm_reachable sphere_offset d s ->
  findClosestTractPatchList (healpix_findTract angle_to_pixel sphere_offset d nside nest) coords s = (s', r) ->
  exists l, (Datatypes.length l <= Datatypes.length coords)%nat /\ generates_only sphere_offset d s s' l.
Proof.
  intros a2p d nside nest coords s s' r Hr E.
  exact (closest_only sphere_offset d _ coords coords (getitem_looks_up sphere_offset d (fun c => Ok (a2p nside nest (coordToAng c)))) [] s s' r Hr E).
Qed.

(*@ C98: a Discrete map, whose findTract and findTractPatchList are those of the base class, generates all its tracts in the first of them that succeeds. *)
Lemma lazy_base_proof : forall (Sky : Type) (offset : Sky -> R -> R -> Sky) d s, sm_reachable offset d s ->
  (forall sep coord s' t, base_findTract offset sep d coord s = (s', Ok t) -> forall i, 0 <= i < sd_num d -> exists u, holds offset d i s' u)
  /\ (forall coords s' l, base_findTractPatchList offset d coords s = (s', Ok l) -> forall i, 0 <= i < sd_num d -> exists u, holds offset d i s' u).
Proof.
  intros Sky offset d s Hr. split.
  - intros sep coord s' t E. unfold base_findTract, smbind at 1 in E.
    destruct (sm_iter offset d s) as [s1 [ts|e]] eqn:E1; [|discriminate].
    unfold smlift in E. injection E as <- _. destruct (sky_map_iteration_proof _ offset d s s1 ts Hr E1) as (_ & _ & H).
    intros i Hi. destruct (H i Hi) as (u & _ & Hu). eauto.
  - intros coords s' l E. unfold base_findTractPatchList in E. unfold smbind at 1 in E. destruct (sm_for _ _ _ s) as [s1 [x|e]] eqn:E1; [|discriminate].
    injection E as <- _. unfold sm_for in E1.
    assert (G : forall ids s s1 x, sm_reachable offset d s ->
       smmap (fun i => t <-- sm_getitem offset d i ;; (pl <-- on_tract (fun b t => findPatchList b t coords) t ;; smret (t, pl))) ids s = (s1, Ok x) ->
       accesses offset d s s1 /\ forall i, In i ids -> 0 <= i -> exists u, holds offset d i s1 u).
    { clear. induction ids as [|i ids IH]; intros s s1 x Hr E; cbn [smmap] in E.
      - injection E as <- <-. split; [constructor|]. intros i [].
      - unfold smbind at 1 2 in E. destruct (sm_getitem offset d i s) as [s2 [t|e]] eqn:E1; [|discriminate].
        assert (Ha : accesses offset d s s2) by (econstructor; [constructor|exact E1]).
        unfold on_tract in E. unfold smbind at 1 2 3 in E. cbn [sm_cur_builder] in E. unfold sm_cur_builder, smlift, smret in E.
        destruct (findPatchList (sm_builder s2) t coords) as [pl|e]; [|discriminate].
        unfold smbind in E. match type of E with context [smmap ?F ids s2] => destruct (smmap F ids s2) as [s3 [y|e]] eqn:E2 end; [|discriminate].
        injection E as <- _. destruct (IH s2 s3 y (reachable_accesses _ _ _ _ Hr Ha) E2) as [Ha2 H2].
        split; [eapply accesses_trans'; eassumption|]. intros j [<-|Hj] Hj0; [|now apply H2].
        destruct (getitem_holds offset d s i s2 t Hr Hj0 E1) as (Hr2 & _ & Hh). exists t. exact (holds_accesses offset d s2 s3 i t Hr2 Ha2 Hh). }
    destruct (G _ _ _ _ Hr E1) as [_ H]. intros i Hi. apply H; [now apply in_zrange|lia].
Qed.

(*@ C98: the hypotheses can be met: in a new Rings map of the default configuration with three rings, findTract makes one tract, and
    findAllTracts thereafter succeeds. *)
Example lazy_example_proof :
  exists g, rings_init 3 0 1 = Ok g /\
    let d := rings_def legacy_default (stg_wcs (arcsec_scale (333 / 1000))) 1 g in
    sd_num d = 26 /\
    exists s s' t s'' l, sm_new sphere_offset d = Ok s /\ rings_findTract sphere_offset d g (0, 0)%R s = (s', Ok t)
      /\ (forall i u, holds sphere_offset d i s' u <-> i = t_id t /\ u = t)
      /\ rings_findAllTracts sphere_offset d g (0, 0)%R s' = (s'', Ok l).
Proof.
  destruct (rings_init 3 0 1) as [g|] eqn:Eg; [|discriminate].
  exists g. split; [reflexivity|].
  destruct (rings_init_wf 3 0 1 g ltac:(lia) Eg) as (W & A & HN & Hra & V).
  destruct (three_rings 0 1 g Eg) as (Hnums & Hsize). intros d.
  split; [unfold d, rings_def; cbn [sd_num]; unfold rings_numTracts; rewrite Hnums; reflexivity|].
  set (s := mkSM (repeat None (Z.to_nat (sd_num d))) (builder_init legacy_default) 0 [] : smstate sphere).
  assert (E0 : sm_new sphere_offset d = Ok s) by reflexivity.
  assert (Hr : sm_reachable sphere_offset d s) by (exists s; split; [reflexivity|constructor]).
  assert (Hc : cfg_ok legacy_default) by (cbn; lia).
  assert (Hm : standard_wcs (arcsec_scale (333 / 1000)) (stg_wcs (arcsec_scale (333 / 1000)))) by now right.
  destruct (rings_uniform_proof legacy_default _ _ 1 g Hc W Hm) as (_ & K). fold d in K.
  destruct (proj2 (proj2 (K s Hr)) (0, 0)%R) as (s' & t & E).
  destruct (rings_findTract_total_proof sphere_offset legacy_default (stg_wcs (arcsec_scale (333 / 1000))) 1 g (0, 0)%R s W) as (i & _ & Hi & E' & _). fold d in E'.
  rewrite E in E'. symmetry in E'. destruct (getitem_holds sphere_offset d s i s' t Hr (proj1 Hi) E') as (Hr' & _ & Hh).
  destruct (rings_findAllTracts_succeeds_proof legacy_default _ _ 1 g (0, 0)%R s' Hc W A Hm Hr') as (s'' & l & E2).
  exists s, s', t, s'', l. split; [exact E0|]. split; [exact E|]. split; [|exact E2].
  rewrite (holds_id sphere_offset d s' i t Hr' Hh). intros j u. split.
  - intros Hj. destruct (lazy_getitem_proof _ sphere_offset d s i s' _ Hr E') as [_ K2].
    destruct (K2 j u Hj) as [(t0 & H0)|[<-|[]]]; [exfalso; exact (lazy_new_proof _ sphere_offset d s E0 j t0 H0)|].
    split; [reflexivity|]. exact (holds_fun sphere_offset d s' i u t Hj Hh).
  - intros [-> ->]. exact Hh.
Qed.
