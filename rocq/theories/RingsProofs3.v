(** [findAllTracts] and [findTractPatchList] of the rings sky map. *)
From Coq Require Import Reals Lra Sorted.
From Flocq Require Import Raux.
Require Import Verif.Py Verif.Geom Verif.PatchInfo Verif.TractBuilder Verif.TractInfo Verif.Spec.
Require Import Verif.SkyMap Verif.SkySpec Verif.SkyProofs Verif.SkyProofs2.
Require Import Verif.Rings Verif.RingsSpec Verif.RingsProofs Verif.RingsProofs2.
Open Scope Z_scope.
Local Arguments Z.mul : simpl never.

Definition has_it (coord : sphere) (t : tract sphere) : bool :=
  match tract_contains t coord with Ok b => b | Raise _ => false end.

(** The indices tried, in order. *)
Definition ring_tried (g : rings) (coord : sphere) (r : Z) : list Z :=
  if (r <? 0) || (rg_numRings g <=? r) then []
  else match raToTractNum g (fst coord) r, py_nth (rg_nums g) r with
       | Ok t, Ok n => ring_candidates g r t n
       | _, _ => []
       end.
Definition tried (g : rings) (coord : sphere) : list Z :=
  let R := decToRingNum g (snd coord) in
  flat_map (ring_tried g coord) [R - 1; R; R + 1] ++ [0; rings_numTracts g - 1].

Section Methods.
Variable offset : sphere -> R -> R -> sphere.

Lemma try_tracts_app d coord l1 l2 acc s :
  try_tracts offset d coord (l1 ++ l2) acc s
  = (acc' <-- try_tracts offset d coord l1 acc ;; try_tracts offset d coord l2 acc') s.
Proof.
  revert acc s. induction l1 as [|i l1 IH]; intros acc s; [reflexivity|].
  cbn [app try_tracts]. unfold smbind.
  destruct (try_tract offset d coord i acc s) as [s1 [a|e]]; [|reflexivity]. rewrite IH. reflexivity.
Qed.

Lemma try_rings_tried d g coord rs acc s : rings_wf g ->
  try_rings offset d g coord rs acc s = try_tracts offset d coord (flat_map (ring_tried g coord) rs) acc s.
Proof.
  intros W. revert acc s. induction rs as [|r rs IH]; intros acc s; [reflexivity|].
  cbn [try_rings flat_map]. rewrite try_tracts_app. unfold ring_tried at 1.
  destruct (Z.ltb_spec r 0); cbn [orb]; [apply IH|].
  destruct (Z.leb_spec (rg_numRings g) r); [apply IH|].
  destruct (ring_has_ex g W r ltac:(lia)) as (n & Hn).
  destruct (raToTract_spec g W (fst coord) r n Hn) as (t & Et & _). rewrite Et, (ring_has_nth g r n Hn).
  unfold smbind, smlift. destruct (try_tracts _ _ _ _ _ _) as [s1 [a|e]]; [|reflexivity]. apply IH.
Qed.

Lemma findAll_tried d g coord s : rings_wf g -> sd_num d = rings_numTracts g ->
  rings_findAllTracts offset d g coord s = try_tracts offset d coord (tried g coord) [] s.
Proof.
  intros W Hd. unfold rings_findAllTracts, tried. rewrite Hd, try_tracts_app.
  unfold smbind. rewrite try_rings_tried by exact W. reflexivity.
Qed.

Lemma try_tracts_spec d coord l : (forall i, In i l -> 0 <= i) -> forall acc s s' r,
  sm_reachable offset d s -> try_tracts offset d coord l acc s = (s', r) ->
  accesses offset d s s' /\
  match r with
  | Ok res => exists ts, Forall2 (fun i t => holds offset d i s' t) l ts
       /\ (forall t, In t ts -> exists b, tract_contains t coord = Ok b)
       /\ res = acc ++ filter (has_it coord) ts
  | Raise e => exists i s1, In i l /\ accesses offset d s s1 /\
       (sm_getitem offset d i s1 = (s', Raise e)
        \/ exists t, sm_getitem offset d i s1 = (s', Ok t) /\ tract_contains t coord = Raise e)
  end.
Proof.
  intros Hl. induction l as [|i l IH]; intros acc s s' r Hr; cbn [try_tracts].
  - intros H. injection H as <- <-. split; [constructor|]. exists []. split; [constructor|]. split; [intros ? []|].
    cbn. now rewrite app_nil_r.
  - unfold smbind at 1. unfold try_tract, smbind at 1.
    destruct (sm_getitem offset d i s) as [s1 [t|e]] eqn:Eg.
    2:{ intros H. injection H as <- <-. split; [econstructor; [constructor|exact Eg]|].
        exists i, s. split; [now left|]. split; [constructor|]. now left. }
    destruct (getitem_holds offset d s i s1 t Hr (Hl i (or_introl eq_refl)) Eg) as (Hr1 & Ha1 & Hh1).
    unfold smbind at 1, smlift. destruct (tract_contains t coord) as [b|e] eqn:Ec.
    2:{ intros H. injection H as <- <-. split; [exact Ha1|].
        exists i, s. split; [now left|]. split; [constructor|]. right. eauto. }
    cbn [smret]. intros H. unfold smret in H.
    destruct (IH (fun j Hj => Hl j (or_intror Hj)) _ _ _ _ Hr1 H) as [Ha2 H2].
    split; [exact (accesses_trans _ _ _ _ _ Ha1 Ha2)|].
    destruct r as [res|e].
    + destruct H2 as (ts & F & Hc & ->). exists (t :: ts). split; [|split].
      * constructor; [exact (holds_accesses _ _ _ _ _ _ Hr1 Ha2 Hh1)|exact F].
      * intros t' [<-|Ht']; eauto.
      * cbn [filter]. unfold has_it at 2. rewrite Ec. destruct b; [|reflexivity].
        rewrite <- app_assoc. reflexivity.
    + destruct H2 as (j & s2 & Hj & Ha & H2). exists j, s2. split; [now right|].
      split; [exact (accesses_trans _ _ _ _ _ Ha1 Ha)|exact H2].
Qed.

Lemma try_tracts_held d coord l ts : forall acc s,
  Forall2 (fun i t => holds offset d i s t) l ts ->
  (forall t, In t ts -> exists b, tract_contains t coord = Ok b) ->
  try_tracts offset d coord l acc s = (s, Ok (acc ++ filter (has_it coord) ts)).
Proof.
  intros acc s F. revert acc. induction F as [|i t l ts [Hi Hh] F IH]; intros acc Hc; cbn [try_tracts].
  - cbn. now rewrite app_nil_r.
  - unfold smbind at 1. unfold try_tract, smbind at 1. rewrite Hh.
    destruct (Hc t (or_introl eq_refl)) as (b & Eb). unfold smbind, smlift, smret at 1. rewrite Eb.
    rewrite IH by (intros; apply Hc; now right). cbn [filter]. unfold has_it at 2. rewrite Eb.
    destruct b; [|reflexivity]. now rewrite <- app_assoc.
Qed.
End Methods.

(** ** The indices tried *)
Section Tried.
Variable g : rings.
Hypothesis W : rings_wf g.
Notation N := (rg_numRings g).
Notation len := (rings_numTracts g).

Definition idx (r t : Z) : Z :=
  nominal_index g (if (rg_version g =? 0) && (t =? 0) && negb (r =? 0) then r + 1 else r) t.
Definition around (t n : Z) : list Z :=
  map (fun t => if t <? 0 then t + n else if n - 1 <? t then t - n else t) [t - 1; t; t + 1].

Lemma candidates_idx r t n : ring_candidates g r t n = map (idx r) (around t n).
Proof.
  unfold ring_candidates, around. rewrite map_map. apply map_ext. intros x. cbv zeta.
  set (t' := if x <? 0 then _ else _). unfold idx.
  destruct ((rg_version g =? 0) && (t' =? 0) && negb (r =? 0)); unfold ring_index, nominal_index, before, py_prefix;
    rewrite ?Z.add_0_r; lia.
Qed.
Lemma around_range t n x : 2 <= n -> 0 <= t < n -> In x (around t n) -> 0 <= x < n.
Proof.
  intros Hn Ht. unfold around. rewrite in_map_iff. intros (y & <- & [<-|[<-|[<-|[]]]]);
    destruct (Z.ltb_spec (t - 1) 0); destruct (Z.ltb_spec t 0); destruct (Z.ltb_spec (t + 1) 0);
    destruct (Z.ltb_spec (n - 1) (t - 1)); destruct (Z.ltb_spec (n - 1) t); destruct (Z.ltb_spec (n - 1) (t + 1)); lia.
Qed.
Lemma around_NoDup t n : 3 <= n -> 0 <= t < n -> NoDup (around t n).
Proof.
  intros Hn Ht. unfold around. cbn [map].
  destruct (Z.ltb_spec (t - 1) 0); destruct (Z.ltb_spec t 0); destruct (Z.ltb_spec (t + 1) 0);
    destruct (Z.ltb_spec (n - 1) (t - 1)); destruct (Z.ltb_spec (n - 1) t); destruct (Z.ltb_spec (n - 1) (t + 1)); try lia;
  repeat (constructor; [cbn; intuition lia|]); constructor.
Qed.
Lemma around_self t n : 0 <= t < n -> In t (around t n).
Proof.
  intros Ht. unfold around. rewrite in_map_iff. exists t. split; [|cbn; tauto].
  destruct (Z.ltb_spec t 0); [lia|]. destruct (Z.ltb_spec (n - 1) t); lia.
Qed.

(** The pairs (ring, tract) tried. *)
Definition ring_pairs (coord : sphere) (r : Z) : list (Z * Z) :=
  if (r <? 0) || (N <=? r) then []
  else match raToTractNum g (fst coord) r, py_nth (rg_nums g) r with
       | Ok t, Ok n => map (pair r) (around t n)
       | _, _ => []
       end.
Definition pairs (coord : sphere) : list (Z * Z) :=
  let R := decToRingNum g (snd coord) in flat_map (ring_pairs coord) [R - 1; R; R + 1].

Lemma tried_pairs coord : tried g coord = map (fun rt => idx (fst rt) (snd rt)) (pairs coord) ++ [0; len - 1].
Proof.
  unfold tried, pairs. f_equal. cbv zeta. generalize [decToRingNum g (snd coord) - 1; decToRingNum g (snd coord); decToRingNum g (snd coord) + 1].
  intros rs. induction rs as [|r rs IH]; [reflexivity|]. cbn [flat_map]. rewrite map_app, IH. f_equal.
  unfold ring_tried, ring_pairs. destruct ((r <? 0) || (N <=? r)); [reflexivity|].
  destruct (raToTractNum g (fst coord) r) as [t|]; [|reflexivity]. destruct (py_nth (rg_nums g) r) as [n|]; [|reflexivity].
  rewrite candidates_idx, map_map. reflexivity.
Qed.

Lemma ring_pairs_spec coord r : 0 <= r < N ->
  exists n t, ring_has g r n /\ raToTractNum g (fst coord) r = Ok t /\ 0 <= t < n
    /\ ring_pairs coord r = map (pair r) (around t n).
Proof.
  intros Hr. destruct (ring_has_ex g W r Hr) as (n & Hn).
  destruct (raToTract_spec g W (fst coord) r n Hn) as (t & Et & Ht & _). exists n, t.
  split; [exact Hn|]. split; [exact Et|]. split; [exact Ht|].
  unfold ring_pairs. destruct (Z.ltb_spec r 0); [lia|]. destruct (Z.leb_spec N r); [lia|].
  rewrite Et, (ring_has_nth g r n Hn). reflexivity.
Qed.
Lemma ring_pairs_in coord r rt : at_least 2 g -> In rt (ring_pairs coord r) ->
  fst rt = r /\ exists n, ring_has g r n /\ 0 <= snd rt < n.
Proof.
  intros A. destruct (Z_lt_ge_dec r 0) as [H|H]; [unfold ring_pairs; destruct (Z.ltb_spec r 0); [intros []|lia]|].
  destruct (Z_lt_ge_dec r N) as [H'|H'].
  2:{ unfold ring_pairs. destruct (Z.leb_spec N r); [|lia]. now rewrite orb_true_r. }
  destruct (ring_pairs_spec coord r ltac:(lia)) as (n & t & Hn & _ & Ht & ->).
  rewrite in_map_iff. intros (x & <- & Hx). split; [reflexivity|]. exists n. split; [exact Hn|].
  eapply around_range; eauto. apply A. destruct Hn. eapply nth_error_In; eauto.
Qed.
Lemma ring_pairs_NoDup coord r : at_least 3 g -> NoDup (ring_pairs coord r).
Proof.
  intros A. destruct (Z_lt_ge_dec r 0) as [H|H]; [unfold ring_pairs; destruct (Z.ltb_spec r 0); [constructor|lia]|].
  destruct (Z_lt_ge_dec r N) as [H'|H'].
  2:{ unfold ring_pairs. destruct (Z.leb_spec N r); [|lia]. rewrite orb_true_r. constructor. }
  destruct (ring_pairs_spec coord r ltac:(lia)) as (n & t & Hn & _ & Ht & ->).
  apply FinFun.Injective_map_NoDup; [intros x y E; congruence|]. apply around_NoDup; [|exact Ht].
  apply A. destruct Hn. eapply nth_error_In; eauto.
Qed.
Lemma at_least_2 : at_least 3 g -> at_least 2 g.
Proof. intros A n Hn. apply A in Hn. lia. Qed.

Lemma NoDup_app_intro {A} (l1 l2 : list A) :
  NoDup l1 -> NoDup l2 -> (forall x, In x l1 -> In x l2 -> False) -> NoDup (l1 ++ l2).
Proof.
  induction l1 as [|a l1 IH]; intros H1 H2 H; [exact H2|]. inversion H1; subst. cbn. constructor.
  - rewrite in_app_iff. intros [?|?]; [auto|]. eapply H; [left; reflexivity|eauto].
  - apply IH; auto. intros x Hx. apply H. now right.
Qed.
Lemma pairs_NoDup coord : at_least 3 g -> NoDup (pairs coord).
Proof.
  intros A. unfold pairs. cbn [flat_map]. rewrite app_nil_r. set (R := decToRingNum g (snd coord)).
  assert (D : forall r x, In x (ring_pairs coord r) -> fst x = r)
    by (intros r x Hx; apply (ring_pairs_in coord r x (at_least_2 A) Hx)).
  apply NoDup_app_intro; [now apply ring_pairs_NoDup| |].
  - apply NoDup_app_intro; try (now apply ring_pairs_NoDup).
    intros x H1 H2. apply D in H1, H2. lia.
  - intros x H1 H2. apply in_app_iff in H2. destruct H2 as [H2|H2]; apply D in H1, H2; lia.
Qed.
Lemma pairs_in coord rt : at_least 2 g -> In rt (pairs coord) ->
  exists n, ring_has g (fst rt) n /\ 0 <= snd rt < n.
Proof.
  intros A. unfold pairs. rewrite in_flat_map. intros (r & _ & H).
  destruct (ring_pairs_in coord r rt A H) as (<- & n & H1 & H2). eauto.
Qed.

Lemma idx_range r n t : ring_has g r n -> 0 <= t < n -> 0 < idx r t < len.
Proof.
  intros H Ht. unfold idx. pose proof (nominal_inner g W r n t H Ht).
  destruct ((rg_version g =? 0) && (t =? 0) && negb (r =? 0)) eqn:E; [|lia].
  apply andb_true_iff in E. destruct E as [E _]. apply andb_true_iff in E. destruct E as [_ E].
  apply Z.eqb_eq in E. subst t. rewrite (nominal_next g r n H). unfold nominal_index in *.
  pose proof (before_lt g W r n n H ltac:(lia)). lia.
Qed.
Lemma idx_v1 r t : rg_version g = 1 -> idx r t = nominal_index g r t.
Proof. intros V. unfold idx. rewrite V. reflexivity. Qed.

Lemma idx_inj r n t r' n' t' :
  ring_has g r n -> 0 <= t < n -> ring_has g r' n' -> 0 <= t' < n' ->
  idx r t = idx r' t' -> r = r' /\ t = t'.
Proof.
  intros H Ht H' Ht'.
  destruct (rw_version g W) as [V|V]; [|rewrite !idx_v1 by assumption; now apply (nominal_inj g W r n t r' n' t')].
  assert (K : forall r n t, ring_has g r n -> 0 <= t < n ->
     exists k, idx r t = 1 + before g r + k /\ (t = 0 /\ r = 0 /\ k = 0 \/ t = 0 /\ 0 < r /\ k = n \/ 0 < t /\ k = t)).
  { clear r n t r' n' t' H Ht H' Ht'. intros r n t H Ht. pose proof (ring_has_lt g W r n H) as [Hr _].
    unfold idx. rewrite V. cbn [Z.eqb andb].
    destruct (Z.eqb_spec t 0) as [->|]; cbn [andb].
    - destruct (Z.eqb_spec r 0) as [->|]; cbn [negb].
      + exists 0. unfold nominal_index. split; [lia|]. auto.
      + rewrite (nominal_next g r n H). exists n. unfold nominal_index. split; [lia|]. right; left. lia.
    - exists t. unfold nominal_index. split; [lia|]. right; right. lia. }
  destruct (K r n t H Ht) as (k & -> & Hk). destruct (K r' n' t' H' Ht') as (k' & -> & Hk').
  clear K. intros E.
  assert (M : forall r n k r' k', ring_has g r n -> k <= n -> 0 < k' -> r < r' -> before g r + k < before g r' + k').
  { clear -W. intros r n k r' k' H Hk Hk' Hr. pose proof (before_S g r n H).
    pose proof (before_mono g W (r + 1) r' ltac:(lia)). lia. }
  pose proof (ring_has_lt g W r n H) as [Hr _]. pose proof (ring_has_lt g W r' n' H') as [Hr' _].
  destruct (Z.eq_dec r r') as [->|].
  - assert (n = n') by (eapply ring_has_fun; eauto). subst n'. lia.
  - exfalso. destruct (Z_lt_ge_dec r r').
    + pose proof (M r n k r' k' H). lia.
    + pose proof (M r' n' k' r k H'). lia.
Qed.

Lemma map_NoDup_in {A B} (f : A -> B) l :
  (forall x y, In x l -> In y l -> f x = f y -> x = y) -> NoDup l -> NoDup (map f l).
Proof.
  intros Hi. induction 1 as [|x l Hx Hn IH]; cbn; constructor.
  - rewrite in_map_iff. intros (y & E & Hy). apply Hx. rewrite (Hi x y); auto; [now left|now right].
  - apply IH. intros a b Ha Hb. apply Hi; now right.
Qed.

Lemma tried_NoDup coord : at_least 3 g -> rg_version g = 1 -> NoDup (tried g coord).
Proof.
  intros A V. rewrite tried_pairs. pose proof (len_pos g W) as HL.
  assert (P : forall rt, In rt (pairs coord) -> exists n, ring_has g (fst rt) n /\ 0 <= snd rt < n)
    by (intros rt; apply pairs_in; now apply at_least_2).
  apply NoDup_app_intro.
  - apply map_NoDup_in; [|now apply pairs_NoDup]. intros [r t] [r' t'] Hx Hy E. cbn [fst snd] in E.
    destruct (P _ Hx) as (n & H1 & H2). destruct (P _ Hy) as (n' & H1' & H2'). cbn [fst snd] in *.
    rewrite !idx_v1 in E by assumption. destruct (nominal_inj g W r n t r' n' t' H1 H2 H1' H2' E). congruence.
  - constructor; [cbn; lia|]. constructor; [intros []|constructor].
  - intros x Hx Hy. apply in_map_iff in Hx. destruct Hx as ([r t] & <- & Hx). cbn [fst snd] in Hy.
    destruct (P _ Hx) as (n & H1 & H2). cbn [fst snd] in *. rewrite idx_v1 in Hy by assumption.
    pose proof (nominal_inner g W r n t H1 H2). cbn in Hy. lia.
Qed.
Lemma tried_range coord i : at_least 2 g -> In i (tried g coord) -> 0 <= i < len.
Proof.
  intros A. rewrite tried_pairs, in_app_iff, in_map_iff. pose proof (len_pos g W).
  intros [(rt & <- & Hx)|[<-|[<-|[]]]]; [|lia|lia].
  destruct (pairs_in coord rt A Hx) as (n & H1 & H2). pose proof (idx_range _ _ _ H1 H2). lia.
Qed.
Lemma tried_main coord i : rings_findIndex g coord = Ok i -> In i (tried g coord).
Proof.
  rewrite tried_pairs, in_app_iff.
  destruct (find_cases g W coord) as [[_ E]|[[_ E]|(r & n & t & H & Ht & Ed & Et & _ & _ & E)]];
    rewrite E; intros HH; injection HH as <-.
  - right. now left.
  - right. right. now left.
  - left. apply in_map_iff. exists (r, t). split; [reflexivity|].
    unfold pairs. cbn zeta. rewrite Ed. apply in_flat_map. exists r. split; [cbn; tauto|].
    destruct (ring_has_lt g W r n H) as [Hr _].
    destruct (ring_pairs_spec coord r Hr) as (n' & t' & Hn' & Et' & Ht' & ->).
    rewrite Et in Et'. injection Et' as <-. apply in_map, around_self. exact Ht'.
Qed.
Lemma tried_caps coord : In 0 (tried g coord) /\ In (len - 1) (tried g coord).
Proof. rewrite tried_pairs, !in_app_iff. cbn. tauto. Qed.
End Tried.

(** ** findTractPatchList *)
Section PatchList.
Variable offset : sphere -> R -> R -> sphere.

Lemma findAll_spec d g coord s s' ts : rings_wf g -> at_least 3 g -> sd_num d = rings_numTracts g ->
  sm_reachable offset d s -> rings_findAllTracts offset d g coord s = (s', Ok ts) ->
  accesses offset d s s' /\ (forall t, In t ts -> exists i, holds offset d i s' t)
  /\ forall s1, accesses offset d s' s1 -> rings_findAllTracts offset d g coord s1 = (s1, Ok ts).
Proof.
  intros W A Hd Hr H. rewrite (findAll_tried offset d g coord s W Hd) in H.
  assert (Hpos : forall i, In i (tried g coord) -> 0 <= i)
    by (intros i Hi; pose proof (tried_range g W coord i (at_least_2 g A) Hi); lia).
  destruct (try_tracts_spec offset d coord _ Hpos _ _ _ _ Hr H) as (Ha & us & F & Hc & ->). cbn [app].
  pose proof (reachable_accesses _ _ _ _ Hr Ha) as Hr'.
  split; [exact Ha|]. split.
  - intros t Ht. apply filter_In in Ht. destruct Ht as [Hin _].
    clear -F Hin. induction F as [|i t' l' ts' Hh F IH]; [destruct Hin|]. destruct Hin as [->|Hin]; [eauto|auto].
  - intros s1 Ha1. rewrite (findAll_tried offset d g coord s1 W Hd).
    rewrite (try_tracts_held offset d coord _ us); [reflexivity| |exact Hc].
    eapply Forall2_impl; [|exact F]. intros i t Hh. exact (holds_accesses offset d s' s1 i t Hr' Ha1 Hh).
Qed.

Lemma add_tracts_spec (coords : list sphere) ts : forall m s s' r,
  fold_left (fun m t => acc <-- m ;; add_tract coords t acc) ts m s = (s', r) ->
  match m s with
  | (s1, Ok acc) =>
      s' = s1 /\ (forall l, r = Ok l ->
         (forall t, In t ts -> exists pl, findPatchList (sm_builder s1) t coords = Ok pl)
         /\ l = fold_left (collect (sm_builder s1) coords) ts acc)
  | (s1, Raise e) => s' = s1 /\ r = Raise e
  end.
Proof.
  induction ts as [|t ts IH]; intros m s s' r H; cbn [fold_left] in H.
  - rewrite H. destruct r as [l|e]; [|auto]. split; [reflexivity|]. intros l' E. injection E as <-.
    split; [intros ? []|reflexivity].
  - apply IH in H. unfold smbind in H. destruct (m s) as [s1 [acc|e]]; [|exact H].
    unfold add_tract at 1, smbind at 1 in H. destruct (on_tract _ t s1) as [s2 r2] eqn:Eo.
    apply on_tract_pure in Eo. destruct Eo as [-> ->].
    destruct (findPatchList (sm_builder s1) t coords) as [pl|e] eqn:Ep.
    + unfold smret in H. destruct H as [-> H]. split; [reflexivity|]. intros l El. destruct (H l El) as [H1 H2].
      split.
      * intros t' [<-|Ht']; eauto.
      * rewrite H2. cbn [fold_left]. f_equal. unfold collect. rewrite Ep. reflexivity.
    + destruct H as [-> ->]. split; [reflexivity|]. discriminate.
Qed.

Lemma rings_patch_loop_spec d g coords : rings_wf g -> at_least 3 g -> sd_num d = rings_numTracts g ->
  forall todo acc s s' l, sm_reachable offset d s -> settled offset d s ->
  rings_patch_loop offset d g coords todo acc s = (s', Ok l) ->
  accesses offset d s s' /\
  exists tss, Forall2 (fun c ts => rings_findAllTracts offset d g c s' = (s', Ok ts)) todo tss
    /\ (forall t, In t (concat tss) -> exists i, holds offset d i s' t)
    /\ (forall t, In t (concat tss) -> exists pl, findPatchList (sm_builder s') t coords = Ok pl)
    /\ l = fold_left (collect (sm_builder s') coords) (concat tss) acc.
Proof.
  intros W A Hd. induction todo as [|c todo IH]; intros acc s s' l Hr Hst; cbn [rings_patch_loop].
  - intros H. injection H as <- <-. split; [constructor|]. exists [].
    split; [constructor|]. split; [intros ? []|]. split; [intros ? []|reflexivity].
  - unfold smbind at 1. destruct (rings_findAllTracts offset d g c s) as [s1 [ts|e]] eqn:Ef; [|discriminate].
    destruct (findAll_spec d g c s s1 ts W A Hd Hr Ef) as (Ha1 & Hh & Hstab).
    pose proof (reachable_accesses _ _ _ _ Hr Ha1) as Hr1.
    unfold smbind at 1. match goal with |- context [fold_left ?f ts ?m s1] => destruct (fold_left f ts m s1) as [s2 r2] eqn:El end.
    apply add_tracts_spec in El. cbn in El. destruct El as [-> El]. destruct r2 as [acc'|e]; [|discriminate].
    destruct (El acc' eq_refl) as [P1 P2]. intros H.
    apply IH in H; [|exact Hr1|exact (settled_accesses _ _ _ _ Hst Ha1)].
    destruct H as (Ha2 & tss & H1 & H2 & H3 & H4).
    split; [exact (accesses_trans _ _ _ _ _ Ha1 Ha2)|]. exists (ts :: tss).
    assert (Eb : ts <> [] -> sm_builder s' = sm_builder s1).
    { destruct ts as [|t ts]; [congruence|]. intros _. destruct (Hh t (or_introl eq_refl)) as (i & Hi).
      exact (Hst s1 s' i t Ha1 Hi Ha2). }
    split; [|split; [|split]].
    + constructor; [exact (Hstab s' Ha2)|exact H1].
    + intros t Ht. cbn in Ht. apply in_app_iff in Ht. destruct Ht as [Ht|Ht]; [|auto].
      destruct (Hh t Ht) as (i & Hi). exists i. exact (holds_accesses _ _ _ _ _ _ Hr1 Ha2 Hi).
    + intros t Ht. cbn in Ht. apply in_app_iff in Ht. destruct Ht as [Ht|Ht]; [|auto].
      rewrite Eb by (intros ->; destruct Ht). auto.
    + cbn [concat]. rewrite fold_left_app, H4, P2. f_equal.
      destruct ts as [|t ts]; [reflexivity|]. rewrite Eb by congruence. reflexivity.
Qed.
End PatchList.
