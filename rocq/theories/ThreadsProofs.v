(** Threads: runs of one thread, read-only programs, and the invariant of a process. *)
From Coq Require Import Reals Lia.
Require Import Verif.Py Verif.Float64 Verif.Geom Verif.PatchInfo Verif.TractBuilder Verif.TractInfo Verif.Spec.
Require Import Verif.SkyMap Verif.SkySpec Verif.PatchProofs Verif.TractProofs Verif.SkyProofs Verif.SkyProofs2.
Require Import Verif.Threads.
Open Scope Z_scope.
Local Arguments Z.mul : simpl never.

Section Threads.
Context {Sky : Type}.
Variable offset : Sky -> R -> R -> Sky.

Lemma run_bind {A B} (p : prog (Sky := Sky) A) (f : A -> prog B) s :
  run (pbind p f) s = let '(s', a) := run p s in run (f a) s'.
Proof. revert s. induction p as [| | | | | | | | |]; intros s; cbn; auto. Qed.

Lemma act_run {A} (p : prog (Sky := Sky) A) s s' p' : act p s = Some (s', p') -> run p s = run p' s'.
Proof. destruct p; cbn [act]; intros H; try discriminate; injection H as <- <-; reflexivity. Qed.

(** Programs that only read the builder. *)
Fixpoint reads {A} (p : prog (Sky := Sky) A) : Prop :=
  match p with
  | PRet _ => True
  | PInit k => forall b, reads (k b)
  | PNum k => forall n, reads (k n)
  | PBox k => forall b, reads (k b)
  | _ => False
  end.
Lemma reads_bind {A B} (p : prog (Sky := Sky) A) (f : A -> prog B) :
  reads p -> (forall a, reads (f a)) -> reads (pbind p f).
Proof. intros H F. induction p; cbn in *; auto; contradiction. Qed.
Lemma reads_run {A} (p : prog (Sky := Sky) A) s : reads p -> fst (run p s) = s.
Proof. intros H. induction p; cbn in *; auto; contradiction. Qed.
Lemma reads_pair {A} (p : prog (Sky := Sky) A) s a : reads p -> snd (run p s) = a -> run p s = (s, a).
Proof. intros H E. pose proof (reads_run p s H). destruct (run p s). cbn in *. now subst. Qed.
Lemma reads_try {A B} (p : prog (Sky := Sky) (res A)) (f : A -> prog (res B)) :
  reads p -> (forall a, reads (f a)) -> reads (ptry p f).
Proof. intros H F. apply reads_bind; [exact H|]. intros [a|e]; [apply F|exact I]. Qed.

Lemma seqFromPair_reads ix : reads (seqFromPair_p ix).
Proof. destruct ix as [x y|n|[|x [|y [|z l]]]|]; cbn; auto. Qed.
Lemma getPatchInfo_reads {W} c ix (w : W) : reads (getPatchInfo_p c ix w).
Proof.
  unfold getPatchInfo_p. cbn [reads]. intros [|]; cbn [negb]; [|exact I].
  apply reads_try; [destruct ix; cbn; auto|]. intros [x y]. cbn [reads]. intros n1.
  destruct (negb _); [exact I|]. cbn [reads]. intros n2. destruct (negb _); [exact I|]. cbn [reads].
  intros b1. destruct (negb _); [exact I|]. destruct c as [? ?|[? ?] ? ? ?].
  - cbn [reads]. intros b2. apply reads_try; [apply seqFromPair_reads|]. intros. exact I.
  - apply reads_try; [apply seqFromPair_reads|]. intros. exact I.
Qed.
Lemma mapM_reads {A B} (f : A -> prog (Sky := Sky) (res B)) l : (forall x, reads (f x)) -> reads (mapM_p f l).
Proof.
  intros H. induction l as [|x l IH]; cbn; [exact I|]. apply reads_try; [apply H|]. intros y.
  apply reads_try; [exact IH|]. intros. exact I.
Qed.
Lemma call_reads d c t : call_tract c = Some t -> reads (call_prog offset d c).
Proof.
  destruct c; cbn [call_tract call_prog]; intros H; try discriminate; apply reads_bind; try (intros; exact I).
  - apply getPatchInfo_reads.
  - apply seqFromPair_reads.
  - cbn. auto.
  - unfold findPatch_p. destruct (skyToPixel _ _) as [[]| |]; try exact I.
    + destruct (point2I_of_pix _). destruct (negb _); [exact I|]. destruct (bind _ _); [apply getPatchInfo_reads|exact I].
    + destruct (point2I_of_pix _). destruct (negb _); [exact I|]. destruct (bind _ _); [apply getPatchInfo_reads|exact I].
  - unfold findPatchList_p. destruct (fold_left _ _ _); [|exact I]. destruct (box_isEmpty _); [exact I|].
    destruct (bind _ _); [|exact I]. apply mapM_reads. intros. apply getPatchInfo_reads.
  - apply mapM_reads. intros. apply getPatchInfo_reads.
Qed.

(** Uninterrupted runs. *)
Lemma run_try {A B} (p : prog (Sky := Sky) (res A)) (f : A -> prog (res B)) s :
  run (ptry p f) s = let '(s', r) := run p s in match r with Ok a => run (f a) s' | Raise e => (s', Raise e) end.
Proof. unfold ptry. rewrite run_bind. destruct (run p s) as [s' [a|e]]; reflexivity. Qed.

Lemma seqFromPair_run ix s :
  run (Sky := Sky) (seqFromPair_p ix) s = (s, getSequentialPatchIndexFromPair (sm_builder s) ix).
Proof.
  unfold getSequentialPatchIndexFromPair.
  destruct ix as [x y|n|[|x [|y [|z l]]]|]; cbn; try reflexivity; destruct (b_numPatches (sm_builder s)); reflexivity.
Qed.
Lemma indexPair_run n s : run (Sky := Sky) (indexPair_p n) s = (s, getPatchIndexPair (sm_builder s) n).
Proof. unfold getPatchIndexPair. cbn. destruct (b_numPatches (sm_builder s)); reflexivity. Qed.

Lemma getPatchInfo_run {W} c ix (w : W) s :
  static_of c (sm_builder s) -> run (Sky := Sky) (getPatchInfo_p c ix w) s = (s, getPatchInfo (sm_builder s) ix w).
Proof.
  intros (S1 & S2 & S3). unfold getPatchInfo_p, getPatchInfo. cbn [run].
  destruct (b_initialized (sm_builder s)); cbn [negb]; [|reflexivity].
  rewrite run_try.
  assert (E : run (match ix with
             | IxIndex2D x y => PRet (Ok (x, y))
             | IxNum n => indexPair_p n
             | IxSeq _ | IxOther => PRet (index2D_of_star ix)
             end) s = (s, match ix with
         | IxIndex2D x y => Ok (x, y)
         | IxNum n => getPatchIndexPair (sm_builder s) n
         | IxSeq _ | IxOther => index2D_of_star ix
         end)) by (destruct ix; try reflexivity; apply indexPair_run).
  rewrite E. clear E.
  destruct (match ix with IxIndex2D x y => Ok (x, y) | IxNum n => _ | _ => _ end) as [[x y]|e]; cbn [bind]; [|reflexivity].
  cbn [run]. destruct (b_numPatches (sm_builder s)) as [nx ny] eqn:En. cbn [fst snd].
  destruct (negb ((0 <=? x) && (x <? nx))); cbn [orb run]; [reflexivity|]. rewrite En. cbn [snd].
  destruct (negb ((0 <=? y) && (y <? ny))); cbn [run]; [reflexivity|].
  unfold inner_of, border_of. rewrite <- S2, <- S3.
  destruct (negb (box_contains_box _ _)); cbn [run]; [reflexivity|]. rewrite S1.
  destruct c as [? ?|[cw ch] ? ? ?].
  - cbn [run]. rewrite run_try, seqFromPair_run. cbn. rewrite En. reflexivity.
  - rewrite run_try, seqFromPair_run. cbn. rewrite En. reflexivity.
Qed.

Lemma mapM_run {A B} (f : A -> prog (Sky := Sky) (res B)) (g : A -> res B) l s :
  (forall x, run (f x) s = (s, g x)) -> run (mapM_p f l) s = (s, mapM g l).
Proof.
  intros H. induction l as [|x l IH]; cbn; [reflexivity|]. rewrite run_try, H.
  destruct (g x); cbn [bind]; [|reflexivity]. rewrite run_try, IH. destruct (mapM g l); reflexivity.
Qed.

Lemma patch_run d c a s : static_of (sd_cfg d) (sm_builder s) ->
  patch_answer (sm_builder s) c = Some a -> run (call_prog offset d c) s = (s, a).
Proof.
  intros S H. pose proof S as (S1 & S2 & S3).
  destruct c as [i|t ix|t ix|t n|t coord|t coords|t]; cbn [patch_answer] in H; try discriminate; injection H as <-;
    cbn [call_prog]; rewrite run_bind.
  - rewrite getPatchInfo_run by exact S. reflexivity.
  - rewrite seqFromPair_run. reflexivity.
  - rewrite indexPair_run. reflexivity.
  - unfold findPatch_p, findPatch. destruct (skyToPixel (t_wcs t) coord) as [[]| |]; try reflexivity.
    + destruct (point2I_of_pix _) as [px py]. destruct (negb _); [reflexivity|]. unfold inner_of. rewrite <- S2.
      destruct (py_int_truediv px _); cbn [bind]; [|reflexivity]. destruct (py_int_truediv py _); cbn [bind]; [|reflexivity].
      rewrite getPatchInfo_run by exact S. reflexivity.
    + destruct (point2I_of_pix _) as [px py]. destruct (negb _); [reflexivity|]. unfold inner_of. rewrite <- S2.
      destruct (py_int_truediv px _); cbn [bind]; [|reflexivity]. destruct (py_int_truediv py _); cbn [bind]; [|reflexivity].
      rewrite getPatchInfo_run by exact S. reflexivity.
  - unfold findPatchList_p, findPatchList. destruct (fold_left _ _ _) as [b2|]; cbn [bind]; [|reflexivity].
    unfold border_of, inner_of. rewrite <- S2, <- S3. destruct (box_isEmpty _); [reflexivity|].
    repeat (destruct (py_int_truediv _ _); cbn [bind]; [|reflexivity]).
    rewrite (mapM_run _ (fun i => tract_getPatchInfo (sm_builder s) t (IxSeq [fst i; snd i]))); [reflexivity|].
    intros x. apply getPatchInfo_run, S.
  - unfold tract_iter_p, tract_iter. destruct (t_numPatches t) as [nx ny].
    rewrite (mapM_run _ (fun i => tract_getPatchInfo (sm_builder s) t (IxIndex2D (fst i) (snd i)))); [reflexivity|].
    intros x. apply getPatchInfo_run, S.
Qed.

Lemma with_oid_indep c b1 b2 o1 o2 id a b1' t :
  static_of c b1 -> static_of c b2 -> make_tract offset b1 o1 id a = Ok (b1', t) ->
  make_tract offset b2 o2 id a = Ok (b1', with_oid t o2).
Proof.
  intros (A1 & A2 & A3) (B1 & B2 & B3). destruct a as [ctr verts ov w cor|ctr rad ov w cor]; cbn.
  - unfold TractInfo_init, tract_build. destruct (include_all w _) as [m|]; cbn [bind]; [|discriminate].
    unfold setupPatches. rewrite A1, A2, A3, B1, B2, B3.
    destruct (setup_axis (minx _) _ _) as [[[x0 w0] nx]|]; cbn [bind]; [|discriminate].
    destruct (setup_axis (miny _) _ _) as [[[y0 h0] ny]|]; cbn [bind]; [|discriminate].
    unfold finalOrientation. intros H. injection H as <- <-. reflexivity.
  - unfold ExplicitTractInfo_init, tract_build. destruct (include_all w _) as [m|]; cbn [bind]; [|discriminate].
    unfold setupPatches. rewrite A1, A2, A3, B1, B2, B3.
    destruct (setup_axis (minx _) _ _) as [[[x0 w0] nx]|]; cbn [bind]; [|discriminate].
    destruct (setup_axis (miny _) _ _) as [[[y0 h0] ny]|]; cbn [bind]; [|discriminate].
    unfold finalOrientation. cbn [bind]. intros H. injection H as <- <-. reflexivity.
Qed.
Lemma make_raise_indep c b1 b2 o1 o2 id a e :
  builder_reachable c b1 -> builder_reachable c b2 -> make_tract offset b1 o1 id a = Raise e -> make_tract offset b2 o2 id a = Raise e.
Proof.
  intros H1 H2 E. pose proof (make_tract_indep offset c b1 b2 o1 o2 id a H1 H2) as K. rewrite E in K.
  destruct (make_tract offset b2 o2 id a) as [[? ?]|]; [contradiction|congruence].
Qed.

Lemma getitem_run d i s : sm_reachable offset d s -> run (getitem_p offset d i) s = sm_getitem offset d i s.
Proof.
  intros Hr. pose proof (reachable_inv _ _ _ Hr) as Hi. pose proof (si_reach _ _ _ _ Hi) as Hb.
  pose proof (static_reachable _ _ Hb) as Hs. pose proof (static_reachable _ _ (br_init (sd_cfg d))) as Hs0.
  unfold getitem_p, sm_getitem. destruct (sd_kind d).
  - destruct (_ || _); [reflexivity|]. unfold smbind at 1. cbn [run].
    destruct (py_nth (sm_tracts s) i) as [[t|]|e] eqn:En; cbn [run].
    + rewrite En. reflexivity.
    + unfold smbind, generateTract. destruct (sd_args d i) as [a|e]; cbn [bind]; [|reflexivity].
      destruct (make_tract offset (builder_init (sd_cfg d)) 0 i a) as [[b' t]|e] eqn:E.
      * rewrite (with_oid_indep _ _ _ _ (sm_next s) _ _ _ _ Hs0 Hs E). cbn [run].
        pose proof (with_oid_indep _ _ _ _ (sm_next s) _ _ _ _ Hs0 Hs E) as E'.
        destruct (make_tract_static _ _ _ _ _ _ _ _ Hb E') as (_ & Eb & _).
        unfold sm_store, with_builder. cbn. rewrite Eb. unfold builder_for. cbn. destruct Hs as (S1 & S2 & S3).
        rewrite S1, S2, S3. reflexivity.
      * rewrite (make_raise_indep _ _ _ _ (sm_next s) _ _ _ (br_init _) Hb E). reflexivity.
    + reflexivity.
  - unfold smbind. cbn [run]. destruct (py_nth (sm_tracts s) i) as [[t|]|e]; reflexivity.
Qed.

Lemma call_run d c s : sm_reachable offset d s -> run (call_prog offset d c) s = seq_answer offset d c s.
Proof.
  intros Hr. pose proof (static_reachable _ _ (si_reach _ _ _ _ (reachable_inv _ _ _ Hr))) as Hs.
  destruct c; cbn [seq_answer].
  - cbn [call_prog]. rewrite run_bind, getitem_run by exact Hr. destruct (sm_getitem offset d i s). reflexivity.
  - now apply patch_run.
  - now apply patch_run.
  - now apply patch_run.
  - now apply patch_run.
  - now apply patch_run.
  - now apply patch_run.
Qed.

(** ** Nothing is written *)
Fixpoint ro {A} (s : smstate Sky) (p : prog A) : Prop :=
  match p with
  | PRet _ => True
  | PSlot i k => ro s (k (py_nth (sm_tracts s) i))
  | PInit k => ro s (k (b_initialized (sm_builder s)))
  | PNum k => ro s (k (b_numPatches (sm_builder s)))
  | PBox k => ro s (k (b_tractBBox (sm_builder s)))
  | _ => False
  end.
Lemma reads_ro {A} s (p : prog A) : reads p -> ro s p.
Proof. intros H. induction p; cbn in *; auto; contradiction. Qed.
Lemma act_ro {A} s (p : prog A) s' p' : ro s p -> act p s = Some (s', p') -> s' = s /\ ro s p'.
Proof. destruct p; cbn [act ro]; intros H E; try discriminate; try contradiction; injection E as <- <-; auto. Qed.

Lemma slot_out {A} (l : list A) i : 0 <= i -> py_nth l i = Raise IndexError \/ exists x, py_nth l i = Ok x /\ nth_error l (Z.to_nat i) = Some x.
Proof.
  intros Hi. unfold py_nth. destruct (Z.ltb_spec i 0); [lia|]. destruct (_ && _); [|auto].
  destruct (nth_error l (Z.to_nat i)); [right; eauto|auto].
Qed.

Lemma full_ro d c s : sm_reachable offset d s -> (forall i, 0 <= i < sd_num d -> exists t, holds offset d i s t) ->
  ro s (call_prog offset d c).
Proof.
  intros Hr Hf. destruct c; try (apply reads_ro; eapply call_reads; reflexivity).
  cbn [call_prog]. unfold getitem_p. destruct (sd_kind d) eqn:Hk.
  - destruct (_ || _) eqn:E; [exact I|]. apply Bool.orb_false_iff in E. destruct E as [E1 E2].
    apply Z.ltb_ge in E1, E2. cbn [pbind ro].
    destruct (slot_out (sm_tracts s) i E1) as [->|(x & Ex & En)]; [exact I|]. rewrite Ex.
    assert (Hl : (Z.to_nat i < length (sm_tracts s))%nat) by (apply nth_error_Some; congruence).
    rewrite (si_len _ _ _ _ (reachable_inv _ _ _ Hr)) in Hl.
    destruct (Hf i) as (t & Ht); [lia|]. apply (holds_slot offset d s _ _ Hr) in Ht. destruct Ht as [_ Ht].
    rewrite En in Ht. injection Ht as ->. cbn. exact I.
  - cbn [pbind ro]. exact I.
Qed.

Lemma set_same f n v : set_thread (Sky := Sky) f n v n = v.
Proof. unfold set_thread. now rewrite Nat.eqb_refl. Qed.
Lemma set_other f n v m : m <> n -> set_thread (Sky := Sky) f n v m = f m.
Proof. unfold set_thread. intros H. apply Nat.eqb_neq in H. now rewrite H. Qed.

Lemma full_schedule d s0 p : sm_reachable offset d s0 -> (forall i, 0 <= i < sd_num d -> exists t, holds offset d i s0 t) ->
  schedule offset d s0 p ->
  pr_map p = s0
  /\ (forall n c q, pr_threads p n = Some (c, q) -> ro s0 q /\ run q s0 = seq_answer offset d c s0)
  /\ (forall c a, In (c, a) (pr_done p) -> a = snd (seq_answer offset d c s0)).
Proof.
  intros Hr Hf. induction 1 as [|p p' _ (M & T & D) Hs].
  - cbn. split; [reflexivity|]. split; [discriminate|contradiction].
  - destruct Hs as [p n c Hn Hc|p n c q s' q' Hn Ha|p n c a Hn]; cbn [pr_map pr_threads pr_done].
    + split; [exact M|]. split; [|exact D]. intros m c' q'. destruct (Nat.eq_dec m n) as [->|Hm].
      * rewrite set_same. intros [= <- <-]. split; [now apply full_ro|now apply call_run].
      * rewrite set_other by exact Hm. apply T.
    + rewrite M in Ha. destruct (T _ _ _ Hn) as [T1 T2]. destruct (act_ro _ _ _ _ T1 Ha) as [-> T1'].
      split; [reflexivity|]. split; [|exact D]. intros m c' q2. destruct (Nat.eq_dec m n) as [->|Hm].
      * rewrite set_same. intros [= <- <-]. split; [exact T1'|]. now rewrite <- (act_run _ _ _ _ Ha).
      * rewrite set_other by exact Hm. apply T.
    + split; [exact M|]. split.
      * intros m c' q'. destruct (Nat.eq_dec m n) as [->|Hm]; [rewrite set_same; discriminate|].
        rewrite set_other by exact Hm. apply T.
      * intros c' a' [H|[[= <- <-]|[]]]%in_app_iff; [now apply D|]. destruct (T _ _ _ Hn) as [_ T2]. now rewrite <- T2.
Qed.

(** ** The invariant of a process *)
Section Inv.
Variable d : skydef Sky.
Variable okNum : pair2 -> Prop.
Variable okBox : box -> Prop.
Notation N := (sd_num d).

(** A tract made for index [i]. *)
Definition good (i : Z) (t : tract Sky) : Prop :=
  exists a b0 b1, sd_args d i = Ok a /\ builder_reachable (sd_cfg d) b0
    /\ make_tract offset b0 (t_oid t) i a = Ok (b1, t).

(** What a thread knows about the shared state. *)
Record facts := mkF { f_num : bool; f_box : bool; f_init : bool; f_slots : list Z }.
Definition known (l : list Z) : facts := mkF true true true l.

Fixpoint safe {A} (Q : bool -> A -> Prop) (f : facts) (p : prog (Sky := Sky) A) : Prop :=
  match p with
  | PRet a => Q (f_init f) a
  | PSlot i k =>
      0 <= i
      /\ (i < N -> (forall t, good i t -> safe Q (known (i :: f_slots f)) (k (Ok (Some t))))
                   /\ (~ In i (f_slots f) -> safe Q f (k (Ok None))))
      /\ (N <= i -> safe Q f (k (Raise IndexError)))
  | PStore i t k => 0 <= i < N /\ good i t /\ f_init f = true /\ safe Q (known (i :: f_slots f)) k
  | PNew i k => forall n, safe Q f (k n)
  | PSetNum v k => okNum v /\ safe Q (mkF true (f_box f) (f_init f) (f_slots f)) k
  | PSetBox v k => okBox v /\ safe Q (mkF (f_num f) true (f_init f) (f_slots f)) k
  | PSetInit k => f_num f = true /\ f_box f = true /\ safe Q (known (f_slots f)) k
  | PInit k => safe Q (known (f_slots f)) (k true) /\ (f_init f = false -> safe Q f (k false))
  | PNum k => forall v, (f_num f = true -> okNum v) -> safe Q f (k v)
  | PBox k => forall v, (f_box f = true -> okBox v) -> safe Q f (k v)
  end.

Record inv (s : smstate Sky) : Prop := {
  iv_len : length (sm_tracts s) = Z.to_nat N;
  iv_slots : forall k t, nth_error (sm_tracts s) k = Some (Some t) -> good (Z.of_nat k) t /\ b_initialized (sm_builder s) = true;
  iv_static : static_of (sd_cfg d) (sm_builder s);
  iv_init : b_initialized (sm_builder s) = true -> okNum (b_numPatches (sm_builder s)) /\ okBox (b_tractBBox (sm_builder s)) }.
Definition sat (f : facts) (s : smstate Sky) : Prop :=
  (f_num f = true -> okNum (b_numPatches (sm_builder s)))
  /\ (f_box f = true -> okBox (b_tractBBox (sm_builder s)))
  /\ (f_init f = true -> b_initialized (sm_builder s) = true)
  /\ (forall i, In i (f_slots f) -> exists t, nth_error (sm_tracts s) (Z.to_nat i) = Some (Some t)).

Lemma act_safe {A} (Q : bool -> A -> Prop) f p s s' p' :
  inv s -> sat f s -> safe Q f p -> act p s = Some (s', p') ->
  inv s' /\ (forall g, sat g s -> sat g s') /\ exists f', sat f' s' /\ safe Q f' p'.
Proof.
  intros Hv Hf Hs Ha. pose proof Hv as [I1 I2 I3 I4]. pose proof Hf as (F1 & F2 & F3 & F4).
  destruct p as [a|i k|i t k|i k|v k|v k|k|k|k|k]; cbn [act] in Ha; [discriminate|..]; injection Ha as <- <-; cbn [safe] in Hs.
  - split; [exact Hv|]. split; [auto|]. destruct Hs as (Hi & H1 & H2).
    destruct (Z.lt_ge_cases i N) as [Hlt|Hge].
    + destruct (H1 Hlt) as [Ha Hb].
      assert (Hl : (Z.to_nat i < length (sm_tracts s))%nat) by (rewrite I1; lia).
      destruct (nth_error (sm_tracts s) (Z.to_nat i)) as [[t|]|] eqn:En; [| |apply nth_error_None in En; lia].
      * assert (Ep : py_nth (sm_tracts s) i = Ok (Some t)) by now apply py_nth_in. rewrite Ep.
        destruct (I2 _ _ En) as [G Gi]. rewrite Z2Nat.id in G by lia. destruct (I4 Gi) as [O1 O2].
        exists (known (i :: f_slots f)). split; [|now apply Ha]. split; [auto|]. split; [auto|]. split; [auto|].
        cbn. intros j [<-|Hj]; [eauto|now apply F4].
      * assert (Ep : py_nth (sm_tracts s) i = Ok None) by now apply py_nth_in. rewrite Ep.
        exists f. split; [exact Hf|]. apply Hb. intros Hin. destruct (F4 _ Hin) as (t & Ht). congruence.
    + rewrite py_nth_ge by (rewrite I1; lia). exists f. split; [exact Hf|now apply H2].
  - destruct Hs as (Hi & G & Gi & Hs). assert (Hl : (Z.to_nat i < length (sm_tracts s))%nat) by (rewrite I1; lia).
    unfold sm_store. cbn [fst].
    assert (Mono : forall j, (exists u, nth_error (sm_tracts s) (Z.to_nat j) = Some (Some u)) ->
       exists u, nth_error (list_set (sm_tracts s) (Z.to_nat i) (Some t)) (Z.to_nat j) = Some (Some u)).
    { intros j (u & Hu). destruct (Nat.eq_dec (Z.to_nat i) (Z.to_nat j)) as [<-|Hne].
      - exists t. now apply list_set_eq. - exists u. now rewrite list_set_neq. }
    split; [constructor; cbn [sm_tracts sm_builder]|split].
    + now rewrite list_set_length.
    + intros k' u Hu. split; [|now apply F3]. destruct (Nat.eq_dec (Z.to_nat i) k') as [<-|Hne].
      * rewrite list_set_eq in Hu by exact Hl. injection Hu as <-. now rewrite Z2Nat.id by lia.
      * rewrite list_set_neq in Hu by exact Hne. now apply I2.
    + exact I3.
    + exact I4.
    + intros g (G1 & G2 & G3 & G4). split; [exact G1|]. split; [exact G2|]. split; [exact G3|]. cbn [sm_tracts].
      intros j Hj. apply Mono. now apply G4.
    + exists (known (i :: f_slots f)). split; [|exact Hs]. destruct (I4 (F3 Gi)). split; [auto|]. split; [auto|]. split; [auto|].
      cbn. intros j [<-|Hj]; [exists t; now apply list_set_eq|apply Mono; now apply F4].
  - split; [constructor; assumption|]. split; [auto|]. exists f. split; [exact Hf|apply Hs].
  - destruct Hs as [Hv' Hs]. split; [constructor; cbn; auto; intros H; split; [exact Hv'|now apply I4]|]. split.
    + intros g (G1 & G2 & G3 & G4). split; [intros; exact Hv'|]. split; [exact G2|]. split; [exact G3|exact G4].
    + eexists. split; [|exact Hs]. cbn. split; [auto|]. split; [exact F2|]. split; [exact F3|exact F4].
  - destruct Hs as [Hv' Hs]. split; [constructor; cbn; auto; intros H; split; [now apply I4|exact Hv']|]. split.
    + intros g (G1 & G2 & G3 & G4). split; [exact G1|]. split; [intros; exact Hv'|]. split; [exact G3|exact G4].
    + eexists. split; [|exact Hs]. cbn. split; [exact F1|]. split; [auto|]. split; [exact F3|exact F4].
  - destruct Hs as (Hn & Hb & Hs). specialize (F1 Hn). specialize (F2 Hb).
    split; [constructor; cbn; auto|].
    { intros k' u Hu. split; [now apply (I2 k' u)|reflexivity]. }
    split.
    + intros g (G1 & G2 & G3 & G4). split; [exact G1|]. split; [exact G2|]. split; [reflexivity|exact G4].
    + eexists. split; [|exact Hs]. cbn. split; [auto|]. split; [auto|]. split; [auto|exact F4].
  - split; [exact Hv|]. split; [auto|]. destruct Hs as [H1 H2]. destruct (b_initialized (sm_builder s)) eqn:E.
    + destruct (I4 eq_refl). exists (known (f_slots f)). split; [|exact H1]. split; [auto|]. split; [auto|]. split; [auto|exact F4].
    + exists f. split; [exact Hf|]. apply H2. destruct (f_init f); [|reflexivity]. specialize (F3 eq_refl). congruence.
  - split; [exact Hv|]. split; [auto|]. exists f. split; [exact Hf|]. apply Hs, F1.
  - split; [exact Hv|]. split; [auto|]. exists f. split; [exact Hf|]. apply Hs, F2.
Qed.

Lemma safe_bind_ret {A B} (Q : bool -> B -> Prop) f (p : prog A) (g : A -> B) :
  safe (fun b a => Q b (g a)) f p -> safe Q f (pbind p (fun a => PRet (g a))).
Proof.
  revert f. induction p as [a|i k IH|i t k IH|i k IH|v k IH|v k IH|k IH|k IH|k IH|k IH]; intros f H; cbn [pbind safe] in *; auto.
  - destruct H as (H0 & H1 & H2). split; [exact H0|]. split.
    + intros Hl. destruct (H1 Hl) as [Ha Hb]. split; [intros t Ht; now apply IH, Ha|intros Hn; now apply IH, Hb].
    + intros Hl. now apply IH, H2.
  - destruct H as (H0 & H1 & H2 & H3). split; [exact H0|]. split; [exact H1|]. split; [exact H2|now apply IH].
  - destruct H as [H0 H1]. split; [exact H0|now apply IH].
  - destruct H as [H0 H1]. split; [exact H0|now apply IH].
  - destruct H as (H0 & H1 & H2). split; [exact H0|]. split; [exact H1|now apply IH].
  - destruct H as (H0 & H1). split; [now apply IH|]. intros E. now apply IH, H1.
Qed.

(** A program that reads gives the same answer under all schedules if all values it can read are the same. *)
Lemma safe_reads {A} (Q : bool -> A -> Prop) l (p : prog A) s :
  (forall v, okNum v -> v = b_numPatches (sm_builder s)) -> (forall v, okBox v -> v = b_tractBBox (sm_builder s)) ->
  b_initialized (sm_builder s) = true ->
  reads p -> Q true (snd (run p s)) -> safe Q (known l) p.
Proof.
  intros H1 H2 H3. induction p as [a|i k IH|i t k IH|i k IH|v k IH|v k IH|k IH|k IH|k IH|k IH]; intros R H; cbn [safe reads run known f_init f_num f_box f_slots] in *; try contradiction.
  - exact H.
  - split; [|discriminate]. rewrite H3 in H. now apply IH.
  - intros v Hv. rewrite (H1 v (Hv eq_refl)). now apply IH.
  - intros v Hv. rewrite (H2 v (Hv eq_refl)). now apply IH.
Qed.
Lemma safe_any {A} (Q : bool -> A -> Prop) f (p : prog A) : reads p -> (forall b a, Q b a) -> safe Q f p.
Proof.
  intros R H. revert f. induction p as [a|i k IH|i t k IH|i k IH|v k IH|v k IH|k IH|k IH|k IH|k IH]; intros f; cbn [safe reads] in *; try contradiction; auto.
Qed.

(** The result of computing tract [i]. *)
Definition computed (i : Z) : res (builder * tract Sky) :=
  a <- sd_args d i ;; make_tract offset (builder_init (sd_cfg d)) 0 i a.
Definition get_ok (i : Z) (init : bool) (r : res (tract Sky)) : Prop :=
  match r with
  | Ok t => init = true /\ 0 <= i < N /\ good i t
  | Raise e => (i < 0 \/ N <= i) /\ e = IndexError \/ 0 <= i < N /\ computed i = Raise e
  end.
Lemma good_computed i t b' oid : computed i = Ok (b', t) -> good i (with_oid t oid).
Proof.
  unfold computed. destruct (sd_args d i) as [a|] eqn:Ea; [|discriminate]. cbn [bind]. intros E.
  pose proof (static_reachable _ _ (br_init (sd_cfg d))) as Hs.
  exists a, (builder_init (sd_cfg d)), b'. split; [exact Ea|]. split; [constructor|].
  exact (with_oid_indep _ _ _ _ oid _ _ _ _ Hs Hs E).
Qed.

Lemma safe_getitem i f : sd_kind d = CachingMap ->
  (forall b' t, 0 <= i < N -> computed i = Ok (b', t) -> okNum (b_numPatches b') /\ okBox (b_tractBBox b')) ->
  safe (get_ok i) f (getitem_p offset d i).
Proof.
  intros Hk HW. unfold getitem_p. rewrite Hk.
  destruct (Z.ltb_spec i 0); cbn [orb]; [cbn; left; split; [lia|reflexivity]|].
  destruct (Z.ltb_spec N i); [cbn; left; split; [lia|reflexivity]|]. cbn [safe]. split; [lia|]. split.
  - intros Hl. split.
    + intros t Ht. cbn [safe known f_slots f_init]. split; [lia|]. split.
      * intros _. split; [|intros Hn; exfalso; apply Hn; now left].
        intros u Hu. cbn. split; [reflexivity|]. split; [lia|exact Hu].
      * lia.
    + intros _. fold (computed i). destruct (computed i) as [[b' t]|e] eqn:E.
      * destruct (HW b' t) as [W1 W2]; [lia|reflexivity|]. cbn [safe f_num f_box f_init f_slots known].
        intros n. split; [exact W1|]. split; [exact W2|]. split; [reflexivity|]. split; [reflexivity|]. split; [lia|].
        split; [eapply good_computed; exact E|]. split; [reflexivity|]. cbn. split; [reflexivity|]. split; [lia|].
        eapply good_computed; exact E.
      * cbn. right. split; [lia|exact E].
  - intros Hl. cbn. left. split; [lia|reflexivity].
Qed.

(** The whole process. *)
Variable s0 : smstate Sky.
Variable Qc : call (Sky := Sky) -> bool -> answer (Sky := Sky) -> Prop.
Hypothesis Qget : forall i b a, Qc (CGet i) b a -> exists r, a = ATract r /\ get_ok i b r.
Hypothesis Hget : forall i, safe (Qc (CGet i)) (mkF false false false []) (call_prog offset d (CGet i)).
Hypothesis Hpatch : forall c t j, call_tract c = Some t -> 0 <= j < N -> good j t -> safe (Qc c) (known []) (call_prog offset d c).
Hypothesis H0 : sm_reachable offset d s0.
Hypothesis Hinv0 : inv s0.

Record pinv (p : process (Sky := Sky)) : Prop := {
  pi_inv : inv (pr_map p);
  pi_start : forall i t, holds offset d i s0 t -> b_initialized (sm_builder (pr_map p)) = true;
  pi_threads : forall n c q, pr_threads p n = Some (c, q) -> exists f, sat f (pr_map p) /\ safe (Qc c) f q;
  pi_done : forall c a, In (c, a) (pr_done p) ->
     exists b, (b = true -> b_initialized (sm_builder (pr_map p)) = true) /\ Qc c b a }.

Lemma holds_good i t : holds offset d i s0 t -> 0 <= i < N /\ good i t /\ b_initialized (sm_builder s0) = true.
Proof.
  intros H. apply (holds_slot offset d s0 _ _ H0) in H. destruct H as [Hi H]. split; [exact Hi|].
  destruct (iv_slots _ Hinv0 _ _ H) as [G Gi]. rewrite Z2Nat.id in G by lia. auto.
Qed.

Lemma schedule_inv p : schedule offset d s0 p -> pinv p.
Proof.
  induction 1 as [|p p' _ [P1 P2 P3 P4] Hs].
  - constructor; cbn; auto; [|discriminate|contradiction]. intros i t Ht. now apply (holds_good i t).
  - destruct Hs as [p n c Hn Hc|p n c q s' q' Hn Ha|p n c a Hn].
    + constructor; cbn [pr_map pr_threads pr_done]; auto. intros m c' q'. destruct (Nat.eq_dec m n) as [->|Hm];
        [rewrite set_same|rewrite set_other by exact Hm; apply P3]. intros [= <- <-].
      destruct (call_tract c) as [t|] eqn:Et.
      * destruct (Hc t eq_refl) as (j & Hj).
        assert (K : 0 <= j < N /\ good j t /\ b_initialized (sm_builder (pr_map p)) = true).
        { destruct Hj as [Hj|Hj].
          - destruct (P4 _ _ Hj) as (b & Hb & HQ). apply Qget in HQ. destruct HQ as (r & Er & HQ). injection Er as <-.
            destruct HQ as (-> & HQ1 & HQ2). auto.
          - destruct (holds_good j t Hj) as (K1 & K2 & _). split; [exact K1|]. split; [exact K2|]. now apply (P2 j t). }
        destruct K as (K1 & K2 & K3). exists (known []). split; [|eapply Hpatch; eauto].
        destruct (iv_init _ P1 K3). split; [auto|]. split; [auto|]. split; [auto|]. intros ? [].
      * destruct c; try discriminate. exists (mkF false false false []). split; [|apply Hget].
        split; [discriminate|]. split; [discriminate|]. split; [discriminate|]. intros ? [].
    + destruct (P3 _ _ _ Hn) as (f & Hf & Hs). destruct (act_safe _ _ _ _ _ _ P1 Hf Hs Ha) as (I' & Mono & f' & Hf' & Hs').
      assert (Mi : b_initialized (sm_builder (pr_map p)) = true -> b_initialized (sm_builder s') = true).
      { intros E. destruct (Mono (mkF false false true [])) as (_ & _ & K & _); [|now apply K].
        split; [discriminate|]. split; [discriminate|]. split; [auto|]. intros ? []. }
      constructor; cbn [pr_map pr_threads pr_done]; auto.
      * intros i t Ht. apply Mi. now apply (P2 i t).
      * intros m c' q2. destruct (Nat.eq_dec m n) as [->|Hm]; [rewrite set_same; intros [= <- <-]; eauto|].
        rewrite set_other by exact Hm. intros Hm'. destruct (P3 _ _ _ Hm') as (g & Hg & Hgs). eauto.
      * intros c' a Hin. destruct (P4 _ _ Hin) as (b & Hb & HQ). exists b. split; [auto|exact HQ].
    + constructor; cbn [pr_map pr_threads pr_done]; auto.
      * intros m c' q'. destruct (Nat.eq_dec m n) as [->|Hm]; [rewrite set_same; discriminate|].
        rewrite set_other by exact Hm. apply P3.
      * intros c' a' [Hin|[[= <- <-]|[]]]%in_app_iff; [now apply P4|].
        destruct (P3 _ _ _ Hn) as (f & (_ & _ & F3 & _) & Hs). cbn [safe] in Hs. exists (f_init f). auto.
Qed.
End Inv.

(** The outcome of [skymap[i]] by one thread alone. *)
Lemma getitem_get_ok d s i b r : sd_kind d = CachingMap -> sm_reachable offset d s -> get_ok d i b r ->
  match r, snd (sm_getitem offset d i s) with
  | Ok t, Ok t' => same_tract t t'
  | Raise e, Raise e' => e = e'
  | _, _ => False
  end.
Proof.
  intros Hk Hr H. pose proof (reachable_inv _ _ _ Hr) as Hi. pose proof (si_reach _ _ _ _ Hi) as Hb.
  assert (Hin : 0 <= i < sd_num d -> (exists t, nth_error (sm_tracts s) (Z.to_nat i) = Some (Some t) /\ sm_getitem offset d i s = (s, Ok t) /\ good d i t)
     \/ snd (sm_getitem offset d i s) = (a <- sd_args d i ;; r <- make_tract offset (sm_builder s) (sm_next s) i a ;; Ok (snd r))).
  { intros Hlt. destruct (nth_error (sm_tracts s) (Z.to_nat i)) as [[t|]|] eqn:En.
    - left. exists t. split; [reflexivity|]. split.
      + apply (proj2 (proj2 (holds_slot offset d s i t Hr) (conj Hlt En))).
      + destruct (so_made _ _ _ _ _ (si_slots _ _ _ _ Hi _ _ En)) as (a & b0 & b1 & A1 & A2 & A3). rewrite Z2Nat.id in A1, A3 by lia.
        exists a, b0, b1. auto.
    - right. unfold sm_getitem. rewrite Hk. destruct (Z.ltb_spec i 0); [lia|]. destruct (Z.ltb_spec (sd_num d) i); [lia|]. cbn [orb].
      unfold smbind at 1. rewrite (py_nth_in _ i None) by (lia || exact En). unfold smbind, generateTract.
      destruct (sd_args d i) as [a|]; cbn [bind]; [|reflexivity]. destruct (make_tract _ _ _ _ _) as [[b' t]|]; reflexivity.
    - apply nth_error_None in En. rewrite (si_len _ _ _ _ Hi) in En. lia. }
  destruct r as [t|e]; cbn [get_ok] in H.
  - destruct H as (_ & Hlt & a & b0 & b1 & A1 & A2 & A3).
    destruct (Hin Hlt) as [(u & _ & -> & a' & b0' & b1' & A1' & A2' & A3')| ->].
    + cbn [snd]. rewrite A1 in A1'. injection A1' as <-. pose proof (make_tract_indep offset _ b0 b0' (t_oid t) (t_oid u) i a A2 A2') as K.
      rewrite A3, A3' in K. apply K.
    + rewrite A1. cbn [bind]. pose proof (make_tract_indep offset _ b0 (sm_builder s) (t_oid t) (sm_next s) i a A2 Hb) as K.
      rewrite A3 in K. destruct (make_tract offset (sm_builder s) (sm_next s) i a) as [[? ?]|]; [|contradiction]. apply K.
  - destruct H as [[Ho ->]|[Hlt He]].
    + unfold sm_getitem. rewrite Hk. destruct (Z.ltb_spec i 0); [reflexivity|]. destruct (Z.ltb_spec (sd_num d) i); [reflexivity|]. cbn [orb].
      unfold smbind at 1. rewrite py_nth_ge; [reflexivity|]. rewrite (si_len _ _ _ _ Hi). lia.
    + unfold computed in He. destruct (Hin Hlt) as [(u & _ & -> & a & b0 & b1 & A1 & A2 & A3)| ->].
      * rewrite A1 in He. cbn [bind] in He. apply (make_raise_indep (sd_cfg d) _ b0 _ (t_oid u)) in He; [congruence|constructor|exact A2].
      * destruct (sd_args d i) as [a|]; cbn [bind] in *; [|congruence].
        apply (make_raise_indep (sd_cfg d) _ (sm_builder s) _ (sm_next s)) in He; [now rewrite He|constructor|exact Hb].
Qed.
End Threads.
