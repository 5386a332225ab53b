(** getSha1, hash(), == and != of sky maps used by several threads (C94). *)
From Coq Require Import Reals Lia Relations.
Require Import Verif.Py Verif.Sphere Verif.SkyMap Verif.SkySpec.
Require Import Verif.Config Verif.ConfigSpec Verif.ConfigProofs Verif.MainConfig Verif.ShaThreads.
Open Scope list_scope.
Open Scope Z_scope.

(** The objects are sky maps that were constructed and then used in any way. *)
Definition live_maps offset skyWcs p2a bnd order sha1 (objs : nat -> skymap) : Prop :=
  forall i, exists c ver m, construct offset skyWcs p2a bnd order c ver = Ok m /\ used offset sha1 m (objs i).

Section Safe.
Variable sha1 : bytes -> bytes.
Variable pyhash : bytes -> Z.
Variable objs : nat -> skymap.
Definition okv (i : nat) (v : bytes) : Prop := exists b, hashed_bytes (m_config (objs i)) = Ok b /\ v = sha1 b.
Hypothesis Hok : forall i v, m_sha1 (objs i) = Some v -> okv i v.
Notation alone := (answer_alone sha1 pyhash objs).

Fixpoint safe (c : scall) (K : list nat) (q : sprog sanswer) : Prop :=
  match q with
  | SRet a => a = alone c
  | SRead i k => (forall v, okv i v -> safe c (i :: K) (k (Some v))) /\ (~ In i K -> safe c K (k None))
  | SWrite i b k => okv i b /\ safe c (i :: K) k
  end.

Definition digest (i : nat) : res (option bytes) := b <- snd (getSha1 sha1 (objs i)) ;; Ok (Some b).
Lemma digest_ok i v : okv i v -> snd (getSha1 sha1 (objs i)) = Ok v.
Proof.
  intros (b & Hb & ->). unfold getSha1. destruct (m_sha1 (objs i)) as [h|] eqn:E; cbn.
  - destruct (Hok i h E) as (b' & Hb' & ->). congruence.
  - now rewrite Hb.
Qed.
Lemma digest_raise i e : hashed_bytes (m_config (objs i)) = Raise e -> snd (getSha1 sha1 (objs i)) = Raise e.
Proof.
  intros H. unfold getSha1. destruct (m_sha1 (objs i)) as [h|] eqn:E; cbn.
  - destruct (Hok i h E) as (b' & Hb' & _). congruence.
  - now rewrite H.
Qed.
Lemma safe_getSha1 c i k : (forall K, safe c K (k (digest i))) -> forall K, safe c K (getSha1_p sha1 objs i k).
Proof.
  intros H K. unfold getSha1_p. cbn [safe].
  assert (D : forall v, okv i v -> digest i = Ok (Some v)) by (intros v Hv; unfold digest; now rewrite (digest_ok i v Hv)).
  split.
  - intros v _. cbn [safe]. split; [|intros N; exfalso; apply N; now left]. intros v' Hv'. rewrite <- (D v' Hv'). apply H.
  - intros _. destruct (hashed_bytes (m_config (objs i))) as [b|e] eqn:E.
    + cbn [safe]. split; [now exists b|]. split; [|intros N; exfalso; apply N; now left]. intros v Hv. rewrite <- (D v Hv). apply H.
    + assert (De : digest i = Raise e) by (unfold digest; now rewrite (digest_raise i e E)). rewrite <- De. apply H.
Qed.
Lemma safe_eq c i j k :
  (forall K, safe c K (k (snd (py_eq sha1 (objs i) (match j with Some j => OMap (objs j) | None => OOther end))))) ->
  forall K, safe c K (eq_p sha1 objs i j k).
Proof.
  intros H K. unfold eq_p. apply safe_getSha1. intros K1. unfold digest, py_eq in *.
  destruct (getSha1 sha1 (objs i)) as [m1 [h|e]]; cbn [snd bind] in *; [|apply H].
  destruct j as [j|]; [|apply H]. apply safe_getSha1. intros K2. unfold digest.
  destruct (getSha1 sha1 (objs j)) as [m2 [h2|e]]; cbn [snd bind opt_eqb] in *; apply H.
Qed.
Lemma safe_call c K : safe c K (scall_prog sha1 pyhash objs c).
Proof.
  destruct c as [i|i|i j|i j]; cbn [scall_prog].
  - apply safe_getSha1. intros K1. reflexivity.
  - apply safe_getSha1. intros K1. cbn [safe answer_alone]. unfold map_hash, digest.
    destruct (getSha1 sha1 (objs i)) as [m' [b|e]]; reflexivity.
  - apply safe_eq. intros K1. reflexivity.
  - apply safe_eq. intros K1. cbn [safe answer_alone]. unfold py_ne.
    destruct (py_eq sha1 (objs i) _) as [[m' o'] r]. reflexivity.
Qed.

Definition sinv (p : sprocess) : Prop :=
  (forall i v, sp_attr p i = Some v -> okv i v)
  /\ (forall n c q, sp_threads p n = Some (c, q) -> exists K, (forall i, In i K -> sp_attr p i <> None) /\ safe c K q)
  /\ (forall c a, In (c, a) (sp_done p) -> a = alone c).
Lemma sinv_reachable p : sp_reachable sha1 pyhash objs p -> sinv p.
Proof.
  induction 1 as [|p p' _ (I1 & I2 & I3) Hs].
  - split; [exact Hok|]. split; [discriminate|]. intros c a [].
  - destruct Hs as [p n c Hn|p n c i k Hn|p n c i b k Hn|p n c a Hn]; unfold sinv; cbn [sp_attr sp_threads sp_done].
    + split; [exact I1|]. split; [|exact I3]. intros m c' q'. unfold upd. destruct (Nat.eqb_spec m n); [|apply I2].
      intros [= <- <-]. exists []. split; [intros i []|apply safe_call].
    + split; [exact I1|]. split; [|exact I3]. intros m c' q'. unfold upd. destruct (Nat.eqb_spec m n); [|apply I2].
      intros [= <- <-]. destruct (I2 _ _ _ Hn) as (K & HK & [S1 S2]). destruct (sp_attr p i) as [v|] eqn:E.
      * exists (i :: K). split; [|apply S1, I1, E]. intros x [<-|Hx]; [congruence|now apply HK].
      * exists K. split; [exact HK|]. apply S2. intros Hin. now apply (HK i Hin).
    + destruct (I2 _ _ _ Hn) as (K & HK & [S1 S2]).
      assert (Hu : forall x, sp_attr p x <> None -> upd (sp_attr p) i (Some b) x <> None).
      { intros x Hx. unfold upd. destruct (Nat.eqb x i); [discriminate|exact Hx]. }
      split; [|split; [|exact I3]].
      * intros x v. unfold upd. destruct (Nat.eqb_spec x i) as [->|]; [|apply I1]. intros [= <-]. exact S1.
      * intros m c' q'. unfold upd at 1. destruct (Nat.eqb_spec m n).
        -- intros [= <- <-]. exists (i :: K). split; [|exact S2]. intros x [<-|Hx].
           ++ unfold upd. rewrite Nat.eqb_refl. discriminate.
           ++ now apply Hu, HK.
        -- intros Hm. destruct (I2 _ _ _ Hm) as (K' & HK' & S'). exists K'. split; [|exact S']. intros x Hx. now apply Hu, HK'.
    + split; [exact I1|]. split.
      * intros m c' q'. unfold upd. destruct (Nat.eqb_spec m n); [discriminate|apply I2].
      * intros c' a' Hin. apply in_app_or in Hin. destruct Hin as [Hin|[[= <- <-]|[]]]; [now apply I3|].
        destruct (I2 _ _ _ Hn) as (K & _ & S). exact S.
Qed.
End Safe.

Lemma live_ok offset skyWcs p2a bnd order sha1 objs : live_maps offset skyWcs p2a bnd order sha1 objs ->
  forall i v, m_sha1 (objs i) = Some v -> okv sha1 objs i v.
Proof.
  intros H i v E. destruct (H i) as (c & ver & m & C & U). pose proof (getSha1_used _ _ _ _ _ _ _ _ _ _ C U) as G.
  unfold getSha1 in G. rewrite E in G. cbn in G.
  pose proof (construct_ok _ _ _ _ _ _ _ _ C) as (_ & Cm & _ & _). apply used_fields in U. destruct U as (A & _).
  unfold okv. rewrite A, Cm. destruct (hashed_bytes c) as [b|e]; [|discriminate]. cbn in G. injection G as ->. eauto.
Qed.

(*@ C94: sky maps of any kind, used before in any way, and any number of threads that call getSha1, hash(), == and != on them: whatever
    the interleaving, each call that has ended has returned or raised what it does when no other thread is there. *)
Lemma sha_threads_alone_proof : forall offset skyWcs p2a bnd order sha1 pyhash objs p c a,
  live_maps offset skyWcs p2a bnd order sha1 objs ->
  sp_reachable sha1 pyhash objs p -> In (c, a) (sp_done p) -> a = answer_alone sha1 pyhash objs c.
Proof.
  intros offset skyWcs p2a bnd order sha1 pyhash objs p c a HL Hp.
  destruct (sinv_reachable sha1 pyhash objs (live_ok _ _ _ _ _ _ _ HL) p Hp) as (_ & _ & H). apply H.
Qed.

(*@ C94: in particular getSha1 never returns None; the calls that have ended agree with each other: all getSha1 calls on one object gave the
    same result, == is reflexive, symmetric and transitive, != is its negation, and objects found equal have the same hash(). *)
Lemma sha_threads_coherent_proof : forall offset skyWcs p2a bnd order sha1 pyhash objs p,
  live_maps offset skyWcs p2a bnd order sha1 objs -> sp_reachable sha1 pyhash objs p ->
  let said c a := In (c, a) (sp_done p) in
  (forall i, ~ said (CSha i) (RBytes (Ok None)))
  /\ (forall i a a', said (CSha i) a -> said (CSha i) a' -> a = a')
  /\ (forall i b, said (CEq i (Some i)) (RBool (Ok b)) -> b = true)
  /\ (forall i j b b', said (CEq i (Some j)) (RBool (Ok b)) -> said (CEq j (Some i)) (RBool (Ok b')) -> b = b')
  /\ (forall i j k b, said (CEq i (Some j)) (RBool (Ok true)) -> said (CEq j (Some k)) (RBool (Ok true)) ->
        said (CEq i (Some k)) (RBool (Ok b)) -> b = true)
  /\ (forall i o b b', said (CEq i o) (RBool (Ok b)) -> said (CNe i o) (RBool (Ok b')) -> b' = negb b)
  /\ (forall i b, said (CEq i None) (RBool (Ok b)) -> b = false)
  /\ (forall i j a a', said (CEq i (Some j)) (RBool (Ok true)) -> said (CHash i) a -> said (CHash j) a' ->
        a = a' /\ exists h, a = RInt (Ok h)).
Proof.
  intros offset skyWcs p2a bnd order sha1 pyhash objs p HL Hp said.
  assert (H : forall c a, said c a -> a = answer_alone sha1 pyhash objs c)
    by (intros c a; exact (sha_threads_alone_proof _ _ _ _ _ _ _ _ _ _ _ HL Hp)).
  assert (E : forall i j b, said (CEq i (Some j)) (RBool (Ok b)) ->
    exists h h', snd (getSha1 sha1 (objs i)) = Ok h /\ snd (getSha1 sha1 (objs j)) = Ok h' /\ b = bytes_eqb h h').
  { intros i j b S. apply H in S. cbn [answer_alone] in S. unfold py_eq in S.
    destruct (getSha1 sha1 (objs i)) as [m1 [h|e]]; cbn [snd] in *; [|discriminate].
    destruct (getSha1 sha1 (objs j)) as [m2 [h2|e]]; cbn [snd bind] in *; [|discriminate]. injection S as ->. eauto. }
  split; [|split; [|split; [|split; [|split; [|split; [|split]]]]]].
  - intros i S. apply H in S. cbn [answer_alone] in S. destruct (snd (getSha1 sha1 (objs i))); discriminate.
  - intros i a a' S S'. rewrite (H _ _ S). symmetry. exact (H _ _ S').
  - intros i b S. destruct (E _ _ _ S) as (h & h' & A & B & ->). rewrite A in B. injection B as <-. now apply bytes_eqb_eq.
  - intros i j b b' S S'. destruct (E _ _ _ S) as (h & h' & A & B & ->), (E _ _ _ S') as (h1 & h1' & A' & B' & ->).
    rewrite A in B'. rewrite B in A'. injection B' as <-. injection A' as <-.
    apply eq_true_iff_eq. rewrite !bytes_eqb_eq. split; congruence.
  - intros i j k b S S1 S2. destruct (E _ _ _ S) as (h & h' & A & B & X), (E _ _ _ S1) as (h1 & h1' & A1 & B1 & X1), (E _ _ _ S2) as (h2 & h2' & A2 & B2 & ->).
    symmetry in X, X1. apply bytes_eqb_eq in X, X1. apply bytes_eqb_eq. congruence.
  - intros i o b b' S S'. apply H in S, S'. cbn [answer_alone] in S, S'. unfold py_ne in S'.
    destruct (py_eq sha1 (objs i) _) as [[m' o'] [r|e]]; cbn [snd bind] in *; congruence.
  - intros i b S. apply H in S. cbn [answer_alone] in S. unfold py_eq in S. destruct (getSha1 sha1 (objs i)) as [m1 [h|e]]; cbn [snd] in S; congruence.
  - intros i j a a' S S1 S2. destruct (E _ _ _ S) as (h & h' & A & B & X). symmetry in X. apply bytes_eqb_eq in X. subst h'.
    apply H in S1, S2. cbn [answer_alone] in S1, S2. unfold map_hash in S1, S2.
    destruct (getSha1 sha1 (objs i)) as [m1 r1], (getSha1 sha1 (objs j)) as [m2 r2]. cbn [snd bind] in *. subst r1 r2 a a'. split; [reflexivity|]. now exists (pyhash h).
Qed.

(*@ C94: the kept digest: whatever a thread finds in the attribute is the digest of the map, and once there it stays the same. *)
Lemma sha_threads_kept_proof : forall offset skyWcs p2a bnd order sha1 pyhash objs p,
  live_maps offset skyWcs p2a bnd order sha1 objs -> sp_reachable sha1 pyhash objs p ->
  (forall i h, sp_attr p i = Some h -> snd (getSha1 sha1 (objs i)) = Ok h)
  /\ (forall p' i h, sp_step sha1 pyhash objs p p' -> sp_attr p i = Some h -> sp_attr p' i = Some h).
Proof.
  intros offset skyWcs p2a bnd order sha1 pyhash objs p HL Hp.
  pose proof (live_ok _ _ _ _ _ _ _ HL) as Hok.
  assert (D : forall q, sp_reachable sha1 pyhash objs q -> forall i h, sp_attr q i = Some h -> snd (getSha1 sha1 (objs i)) = Ok h).
  { intros q Hq i h E. apply digest_ok; [exact Hok|]. apply (sinv_reachable sha1 pyhash objs Hok q Hq). exact E. }
  split; [exact (D p Hp)|]. intros p' i h Hs E.
  pose proof (D p' (sr_step _ _ _ _ _ Hp Hs) i) as D'. pose proof (D p Hp i h E) as D0.
  destruct Hs as [q n c Hn|q n c j k Hn|q n c j b k Hn|q n c a Hn]; cbn [sp_attr] in *; try exact E.
  unfold upd in *. destruct (Nat.eqb_spec i j) as [->|]; [|exact E]. rewrite (D' b eq_refl) in D0. congruence.
Qed.

(*@ C94: no call waits for another thread: from every state a thread that goes on alone ends its call. *)
Lemma sha_threads_never_block_proof : forall sha1 pyhash objs p n c q, sp_threads p n = Some (c, q) ->
  exists p' a, clos_refl_trans _ (sp_step sha1 pyhash objs) p p' /\ sp_threads p' n = None /\ sp_done p' = sp_done p ++ [(c, a)]
    /\ forall m, m <> n -> sp_threads p' m = sp_threads p m.
Proof.
  intros sha1 pyhash objs p n c q. revert p.
  assert (G : forall (q : sprog sanswer) attr thr done, thr n = Some (c, q) -> exists p' a,
    clos_refl_trans _ (sp_step sha1 pyhash objs) (mkSProc attr thr done) p' /\ sp_threads p' n = None /\ sp_done p' = done ++ [(c, a)]
    /\ forall m, m <> n -> sp_threads p' m = thr m).
  { clear q. intros q. induction q as [a|i k IH|i b k IH]; intros attr thr done Hn.
    - exists (mkSProc attr (upd thr n None) (done ++ [(c, a)])), a.
      split; [apply rt_step, (ss_ret sha1 pyhash objs (mkSProc attr thr done)), Hn|]. cbn. unfold upd.
      split; [now rewrite Nat.eqb_refl|]. split; [reflexivity|]. intros m Hm. apply Nat.eqb_neq in Hm. now rewrite Hm.
    - destruct (IH (attr i) attr (upd thr n (Some (c, k (attr i)))) done) as (p' & a & A & B & C & D); [unfold upd; now rewrite Nat.eqb_refl|].
      exists p', a. split; [eapply rt_trans; [apply rt_step, (ss_read sha1 pyhash objs (mkSProc attr thr done)), Hn|exact A]|].
      split; [exact B|]. split; [exact C|]. intros m Hm. rewrite D by exact Hm. unfold upd. apply Nat.eqb_neq in Hm. now rewrite Hm.
    - destruct (IH (upd attr i (Some b)) (upd thr n (Some (c, k))) done) as (p' & a & A & B & C & D); [unfold upd; now rewrite Nat.eqb_refl|].
      exists p', a. split; [eapply rt_trans; [apply rt_step, (ss_write sha1 pyhash objs (mkSProc attr thr done)), Hn|exact A]|].
      split; [exact B|]. split; [exact C|]. intros m Hm. rewrite D by exact Hm. unfold upd. apply Nat.eqb_neq in Hm. now rewrite Hm. }
  intros [attr thr done]. apply G.
Qed.

(*@ C94: the model of one thread is included: a call made alone answers as in C44. *)
Lemma sha_threads_one_proof : forall offset skyWcs p2a bnd order sha1 pyhash objs c,
  live_maps offset skyWcs p2a bnd order sha1 objs ->
  exists p, sp_reachable sha1 pyhash objs p /\ sp_done p = [(c, answer_alone sha1 pyhash objs c)].
Proof.
  intros offset skyWcs p2a bnd order sha1 pyhash objs c HL.
  set (p0 := mkSProc (fun i => m_sha1 (objs i)) (fun _ => None) []).
  pose proof (sr_step _ _ _ _ _ (sr_start sha1 pyhash objs) (ss_call sha1 pyhash objs p0 0 c eq_refl)) as H1. cbn [sp_attr sp_threads sp_done p0] in H1.
  destruct (sha_threads_never_block_proof sha1 pyhash objs _ 0%nat c (scall_prog sha1 pyhash objs c)
     (eq_refl : sp_threads (mkSProc (fun i => m_sha1 (objs i)) (upd (fun _ => None) 0 (Some (c, scall_prog sha1 pyhash objs c))) []) 0%nat = _))
    as (p' & a & A & _ & C & _).
  assert (Hp : sp_reachable sha1 pyhash objs p').
  { clear C. apply clos_rt_rtn1 in A. induction A as [|x y S _ IH]; [exact H1|eapply sr_step; [exact IH|exact S]]. }
  exists p'. split; [exact Hp|]. rewrite C. cbn [sp_done app].
  rewrite (sha_threads_alone_proof _ _ _ _ _ _ _ _ _ c a HL Hp); [reflexivity|]. rewrite C. now left.
Qed.

(*@ C94: the hypotheses are met: two threads have both found that a new map has no digest yet and are both about to store it; then both end. *)
Example sha_threads_example_proof : forall offset skyWcs p2a bnd order sha1 pyhash,
  exists objs h k0 k1 p p',
    live_maps offset skyWcs p2a bnd order sha1 objs /\ m_sha1 (objs 0%nat) = None /\ snd (getSha1 sha1 (objs 0%nat)) = Ok h
    /\ sp_reachable sha1 pyhash objs p
    /\ sp_threads p 0%nat = Some (CHash 0, SWrite 0 h k0) /\ sp_threads p 1%nat = Some (CEq 0 (Some 1%nat), SWrite 0 h k1)
    /\ sp_reachable sha1 pyhash objs p'
    /\ sp_done p' = [(CEq 0 (Some 1%nat), RBool (Ok true)); (CHash 0, RInt (Ok (pyhash h)))].
Proof.
  intros offset skyWcs p2a bnd order sha1 pyhash.
  destruct (hash_example_proof offset skyWcs p2a bnd order sha1) as (P & _ & (m & C & _) & _).
  set (c := base_default _) in *. set (objs := fun _ : nat => m).
  assert (HL : live_maps offset skyWcs p2a bnd order sha1 objs) by (intros i; exists c, None, m; split; [exact C|constructor]).
  pose proof (construct_ok _ _ _ _ _ _ _ _ C) as (_ & Cm & _ & _).
  assert (N : m_sha1 m = None) by (cbn in C; injection C as <-; reflexivity).
  apply hashed_iff in P. destruct P as [b P]. rewrite <- Cm in P.
  assert (S : snd (getSha1 sha1 m) = Ok (sha1 b)) by (unfold getSha1; now rewrite N, P).
  clearbody c. set (h := sha1 b) in *.
  assert (G : forall A i (k : res (option bytes) -> sprog A), exists f, getSha1_p sha1 objs i k = SRead i f /\ f None = SWrite i h (SRead i (fun v => k (Ok v)))).
  { intros A i k. eexists. split; [reflexivity|]. cbn. unfold objs. now rewrite P. }
  set (p0 := mkSProc (fun i => m_sha1 (objs i)) (fun _ => None) []).
  pose proof (sr_step _ _ _ _ _ (sr_start sha1 pyhash objs) (ss_call sha1 pyhash objs p0 0 (CHash 0) eq_refl)) as H. cbn [sp_attr sp_threads sp_done p0] in H.
  eapply sr_step in H; [|eapply ss_call with (n := 1%nat) (c := CEq 0 (Some 1%nat)); reflexivity]. cbn [sp_attr sp_threads sp_done] in H.
  cbn [scall_prog] in H. unfold eq_p in H.
  match type of H with context [(CHash 0, getSha1_p _ _ _ ?k)] => destruct (G _ 0%nat k) as (f0 & E0 & F0); rewrite E0 in H; set (k0 := k) in * end.
  match type of H with context [(CEq _ _, getSha1_p _ _ _ ?k)] => destruct (G _ 0%nat k) as (f1 & E1 & F1); rewrite E1 in H; set (k1 := k) in * end.
  eapply sr_step in H; [|eapply ss_read with (n := 0%nat); reflexivity]. cbn [sp_attr sp_threads sp_done] in H. change (m_sha1 (objs 0%nat)) with (m_sha1 m) in H. rewrite N, F0 in H.
  eapply sr_step in H; [|eapply ss_read with (n := 1%nat); reflexivity]. cbn [sp_attr sp_threads sp_done] in H. change (m_sha1 (objs 0%nat)) with (m_sha1 m) in H. rewrite N, F1 in H.
  match type of H with sp_reachable _ _ _ ?x => set (p := x) in * end.
  assert (T0 : sp_threads p 0%nat = Some (CHash 0, SWrite 0 h (SRead 0 (fun v => k0 (Ok v))))) by reflexivity.
  assert (T1 : sp_threads p 1%nat = Some (CEq 0 (Some 1%nat), SWrite 0 h (SRead 0 (fun v => k1 (Ok v))))) by reflexivity.
  assert (J : forall x y, sp_reachable sha1 pyhash objs x -> clos_refl_trans _ (sp_step sha1 pyhash objs) x y -> sp_reachable sha1 pyhash objs y).
  { intros x y Hx A. apply clos_rt_rtn1 in A. induction A as [|y z S' _ IH]; [exact Hx|eapply sr_step; [exact IH|exact S']]. }
  destruct (sha_threads_never_block_proof sha1 pyhash objs p 1%nat _ _ T1) as (p1 & a1 & A1 & _ & D1 & O1).
  rewrite <- (O1 0%nat ltac:(discriminate)) in T0.
  destruct (sha_threads_never_block_proof sha1 pyhash objs p1 0%nat _ _ T0) as (p2 & a2 & A2 & _ & D2 & _).
  assert (H2 : sp_reachable sha1 pyhash objs p2) by (eapply J; [eapply J; [exact H|exact A1]|exact A2]).
  assert (Dn : sp_done p2 = [(CEq 0 (Some 1%nat), a1); (CHash 0, a2)]) by (rewrite D2, D1; reflexivity).
  exists objs, h, (SRead 0 (fun v => k0 (Ok v))), (SRead 0 (fun v => k1 (Ok v))), p, p2.
  rewrite O1 in T0 by discriminate.
  split; [exact HL|]. split; [exact N|]. split; [exact S|]. split; [exact H|]. split; [exact T0|]. split; [exact T1|]. split; [exact H2|].
  assert (X1 : a1 = RBool (Ok true)).
  { rewrite (sha_threads_alone_proof _ _ _ _ _ _ pyhash objs p2 (CEq 0 (Some 1%nat)) a1 HL H2); [|rewrite Dn; now left].
    cbn [answer_alone]. unfold py_eq, objs. destruct (getSha1 sha1 m) as [m1 r]. cbn [snd] in S. subst r. cbn. do 2 f_equal. now apply bytes_eqb_eq. }
  assert (X2 : a2 = RInt (Ok (pyhash h))).
  { rewrite (sha_threads_alone_proof _ _ _ _ _ _ pyhash objs p2 (CHash 0) a2 HL H2); [|rewrite Dn; right; now left].
    cbn [answer_alone]. unfold map_hash, objs. destruct (getSha1 sha1 m) as [m1 r]. cbn [snd] in S. subst r. reflexivity. }
  now rewrite Dn, X1, X2.
Qed.
