(** Packers over their life (C95). *)
From Coq Require Import String Lia Relations.
Require Import Verif.Py Verif.Packers Verif.PackerLife.
Open Scope string_scope.
Open Scope list_scope.
Open Scope Z_scope.
Local Arguments Z.mul : simpl never.

Section Life.
Variable p : packer.

(** What may be answered when the mapping has had the contents [ms]. *)
Definition may (ms : list band_map) (c : kcall) (a : kanswer) : Prop :=
  (exists m, In m ms /\ a = kanswer_of (with_bands p m) c)
  \/ exists d b m m' i, c = CPack d /\ d_band d = Some b /\ In m ms /\ In m' ms
       /\ dict_get m (Some b) = Some i /\ dict_get m' (Some b) <> Some i.

(** What is known of a call in progress; [kept]: [_bands_list] has been set. *)
Fixpoint kinv (ms : list band_map) (c : kcall) (kept : bool) (q : kprog kanswer) : Prop :=
  match q with
  | KRet a => may ms c a
  | KDict k => forall ms' m, incl ms ms' -> In m ms' -> kinv ms' c kept (k m)
  | KList k => forall ms', incl ms ms' -> (forall m, In m ms' -> kinv ms' c true (k (Some (map fst m)))) /\ (kept = false -> kinv ms' c false (k None))
  | KSetList l k => (exists m, In m ms /\ l = map fst m) /\ kinv ms c true k
  end.
Lemma may_mono ms ms' c a : incl ms ms' -> may ms c a -> may ms' c a.
Proof.
  intros Hi [(m & Hm & ->)|(d & b & m & m' & i & H1 & H2 & H3 & H4 & H5)]; [left; eauto|right].
  exists d, b, m, m', i. split; [exact H1|]. split; [exact H2|]. split; [now apply Hi|]. split; [now apply Hi|]. exact H5.
Qed.
Lemma kinv_mono q : forall ms ms' c kept, incl ms ms' -> kinv ms c kept q -> kinv ms' c kept q.
Proof.
  induction q as [a|k IH|k IH|l k IH]; intros ms ms' c kept Hi; cbn [kinv].
  - now apply may_mono.
  - intros H ms2 m Hi2 Hm. apply H; [eapply incl_tran; eassumption|exact Hm].
  - intros H ms2 Hi2. apply H. eapply incl_tran; eassumption.
  - intros [(m & Hm & ->) H]. split; [eauto|]. eapply IH; eassumption.
Qed.

Lemma kinv_call ms m0 c : In m0 ms -> kinv ms c false (kcall_prog p c).
Proof.
  intros H0. destruct c as [d|n|]; cbn [kcall_prog].
  - assert (P' : forall m, packer_pack (with_bands p m) d =
       if negb (String.eqb (d_skymap d) (f_skymap (p_fixed p))) then Raise ValueError
       else if p_n_patches p <=? d_patch d then Raise ValueError
       else if p_n_tracts p <=? d_tract d then Raise ValueError
       else if negb (p_n_bands p =? 0) then
         match d_band d with
         | None => Raise KeyError
         | Some b => match dict_get m (Some b) with
                     | None => Raise ValueError
                     | Some i => if p_n_bands p <=? i then Raise ValueError
                                 else Ok (d_patch d + p_n_patches p * d_tract d + i * p_n_patches p * p_n_tracts p)
                     end
         end
       else Ok (d_patch d + p_n_patches p * d_tract d)) by reflexivity.
    unfold pack_p. destruct (negb (String.eqb _ _)) eqn:E1; [cbn [kmap kinv]; left; exists m0; split; [exact H0|]; cbn [kanswer_of]; now rewrite P'|].
    destruct (p_n_patches p <=? d_patch d) eqn:E2; [cbn [kmap kinv]; left; exists m0; split; [exact H0|]; cbn [kanswer_of]; now rewrite P'|].
    destruct (p_n_tracts p <=? d_tract d) eqn:E3; [cbn [kmap kinv]; left; exists m0; split; [exact H0|]; cbn [kanswer_of]; now rewrite P'|].
    destruct (negb (p_n_bands p =? 0)) eqn:E4; [|cbn [kmap kinv]; left; exists m0; split; [exact H0|]; cbn [kanswer_of]; now rewrite P'].
    destruct (d_band d) as [b|] eqn:E5; [|cbn [kmap kinv]; left; exists m0; split; [exact H0|]; cbn [kanswer_of]; now rewrite P'].
    cbn [kmap kinv]. intros ms1 m Hi Hm.
    destruct (dict_get m (Some b)) as [i|] eqn:E6; [|cbn [kmap kinv]; left; exists m; split; [exact Hm|]; cbn [kanswer_of]; now rewrite P', E6].
    destruct (p_n_bands p <=? i) eqn:E7; [cbn [kmap kinv]; left; exists m; split; [exact Hm|]; cbn [kanswer_of]; now rewrite P', E6, E7|].
    cbn [kmap kinv]. intros ms2 m' Hi2 Hm'.
    destruct (dict_get m' (Some b)) as [v|] eqn:E8; cbn [kmap kinv].
    + destruct (Z.eq_dec v i) as [->|N].
      * left. exists m. split; [now apply Hi2|]. cbn [kanswer_of]. now rewrite P', E6, E7.
      * right. exists d, b, m, m', i. split; [reflexivity|]. repeat (split; [auto|]). congruence.
    + right. exists d, b, m, m', i. split; [reflexivity|]. repeat (split; [auto|]). congruence.
  - unfold unpack_p. destruct (p_n_bands p =? 0) eqn:Eb; cbn [negb].
    + cbn [kmap kinv]. left. exists m0. split; [exact H0|]. cbn [kanswer_of]. unfold packer_unpack, with_bands, finish_unpack.
      cbn [p_n_bands p_n_tracts p_n_patches p_fixed p_dims p_bands]. rewrite Eb. reflexivity.
    + destruct (py_divmod n (p_n_tracts p * p_n_patches p)) as [[index rest]|e] eqn:E.
      * assert (F : forall m, packer_unpack (with_bands p m) n = (b <- py_nth (map fst m) index ;; finish_unpack p (Some b) rest)).
        { intros m. unfold packer_unpack, with_bands, finish_unpack. cbn [p_n_bands p_n_tracts p_n_patches p_fixed p_dims p_bands].
          rewrite Eb, E. cbn [negb bind fst snd]. destruct (py_nth (map fst m) index) as [b|e]; reflexivity. }
        assert (L : forall ms1 c0, c0 = CUnpack n -> kinv ms1 c0 true (kmap AUnpack (KList (fun v => match v with
             | None => KRet (Raise TypeError) | Some l => KRet (b <- py_nth l index ;; finish_unpack p (Some b) rest) end)))).
        { intros ms1 c0 ->. cbn [kmap kinv]. intros ms2 _. split; [|discriminate]. intros m Hm. cbn [kmap kinv]. left. exists m. split; [exact Hm|].
          cbn [kanswer_of]. now rewrite F. }
        cbn [kmap kinv]. intros ms1 Hi1. split; [intros m Hm; now apply L|]. intros _. cbn [kmap kinv]. intros ms2 m Hi2 Hm.
        split; [eauto|]. now apply L.
      * cbn [kmap kinv]. left. exists m0. split; [exact H0|]. cbn [kanswer_of]. unfold packer_unpack, with_bands.
        cbn [p_n_bands p_n_tracts p_n_patches p_fixed p_dims p_bands]. rewrite Eb, E. reflexivity.
  - cbn [kinv]. left. exists m0. split; [exact H0|reflexivity].
Qed.

Definition life_inv (seen : list band_map) (s : klife) : Prop :=
  In (l_dict s) seen
  /\ (forall l, l_list s = Some l -> exists m, In m seen /\ l = map fst m)
  /\ (forall n c q, l_threads s n = Some (c, q) -> exists kept, (kept = true -> l_list s <> None) /\ kinv seen c kept q)
  /\ (forall c a, In (c, a) (l_done s) -> may seen c a).
Lemma life_ok changes seen s : lives p changes seen s -> life_inv seen s.
Proof.
  induction 1 as [|seen s s' _ (I1 & I2 & I3 & I4) Hs|seen s m _ (I1 & I2 & I3 & I4) _].
  - split; [now left|]. split; [discriminate|]. split; [discriminate|]. intros c a [].
  - destruct Hs as [s n c Hn|s n c k Hn|s n c k Hn|s n c l k Hn|s n c a Hn]; unfold life_inv; cbn [l_dict l_list l_threads l_done].
    + split; [exact I1|]. split; [exact I2|]. split; [|exact I4]. intros m c' q'. unfold kupd. destruct (Nat.eqb_spec m n); [|apply I3].
      intros [= <- <-]. exists false. split; [discriminate|]. now apply kinv_call with (m0 := l_dict s).
    + split; [exact I1|]. split; [exact I2|]. split; [|exact I4]. intros m c' q'. unfold kupd. destruct (Nat.eqb_spec m n); [|apply I3].
      intros [= <- <-]. destruct (I3 _ _ _ Hn) as (kept & Hk & H). exists kept. split; [exact Hk|]. apply H; [apply incl_refl|exact I1].
    + split; [exact I1|]. split; [exact I2|]. split; [|exact I4]. intros m c' q'. unfold kupd. destruct (Nat.eqb_spec m n); [|apply I3].
      intros [= <- <-]. destruct (I3 _ _ _ Hn) as (kept & Hk & H). destruct (H seen (incl_refl _)) as [H1 H2].
      destruct (l_list s) as [l|] eqn:El.
      * exists true. split; [discriminate|]. destruct (I2 l eq_refl) as (m' & Hm' & ->). now apply H1.
      * exists false. split; [discriminate|]. apply H2. destruct kept; [exfalso; now apply Hk|reflexivity].
    + destruct (I3 _ _ _ Hn) as (kept & Hk & (Hl & H)).
      split; [exact I1|]. split; [intros l' [= <-]; exact Hl|]. split; [|exact I4]. intros m c' q'. unfold kupd. destruct (Nat.eqb_spec m n).
      * intros [= <- <-]. exists true. split; [discriminate|exact H].
      * intros Hm. destruct (I3 _ _ _ Hm) as (kept' & _ & H'). exists kept'. split; [discriminate|exact H'].
    + split; [exact I1|]. split; [exact I2|]. split.
      * intros m c' q'. unfold kupd. destruct (Nat.eqb_spec m n); [discriminate|apply I3].
      * intros c' a' Hin. apply in_app_or in Hin. destruct Hin as [Hin|[[= <- <-]|[]]]; [now apply I4|].
        destruct (I3 _ _ _ Hn) as (kept & _ & H). exact H.
  - assert (Hi : incl seen (m :: seen)) by (intros x Hx; now right).
    split; [now left|]. cbn [l_list l_threads l_done]. split; [intros l Hl; destruct (I2 l Hl) as (m' & Hm' & ->); exists m'; auto|].
    split; [|intros c a Hin; eapply may_mono; [exact Hi|now apply I4]].
    intros n c q Hn. destruct (I3 _ _ _ Hn) as (kept & Hk & H). exists kept. split; [exact Hk|]. eapply kinv_mono; [exact Hi|exact H].
Qed.

Lemma no_change_seen changes seen s : lives p changes seen s -> changes = false -> seen = [p_bands p].
Proof. induction 1 as [|seen s s' _ IH Hs|seen s m _ IH Hc]; intros E; [reflexivity|auto|congruence]. Qed.
End Life.

(*@ C95: as long as nobody changes the band mapping, a packer answers every pack, unpack and maxBits as it would when new,
    whatever was asked before, in however many threads and in whatever interleaving. *)
Lemma packer_life_proof : forall p seen s c a, lives p false seen s -> In (c, a) (l_done s) -> a = kanswer_of p c.
Proof.
  intros p seen s c a H Hin. pose proof (no_change_seen p _ _ _ H eq_refl) as E. destruct (life_ok p _ _ _ H) as (_ & _ & _ & D).
  destruct (D c a Hin) as [(m & Hm & ->)|(d & b & m & m' & i & _ & _ & Hm & Hm' & G & G')]; rewrite E in *.
  - destruct Hm as [<-|[]]. destruct p; reflexivity.
  - destruct Hm as [<-|[]], Hm' as [<-|[]]. contradiction.
Qed.

(*@ C95: if the mapping is changed meanwhile, every unpack, every maxBits and every pack answers as a new packer would with some contents that the mapping
    has had; pack is excepted only if the number of its band has been changed. *)
Lemma packer_life_changes_proof : forall p seen s c a, lives p true seen s -> In (c, a) (l_done s) ->
  (exists m, In m seen /\ a = kanswer_of (with_bands p m) c)
  \/ exists d b m m' i, c = CPack d /\ d_band d = Some b /\ In m seen /\ In m' seen
       /\ dict_get m (Some b) = Some i /\ dict_get m' (Some b) <> Some i.
Proof. intros p seen s c a H Hin. destruct (life_ok p _ _ _ H) as (_ & _ & _ & D). exact (D c a Hin). Qed.

(** What can happen from a state on. *)
Inductive later (p : packer) (s0 : klife) : klife -> Prop :=
| lt_now : later p s0 s0
| lt_step s s' : later p s0 s -> kstep p s s' -> later p s0 s'
| lt_change s m : later p s0 s -> later p s0 (mkLife m (l_list s) (l_threads s) (l_done s)).

Fixpoint stale (p : packer) (m0 : band_map) (c : kcall) (q : kprog kanswer) : Prop :=
  match q with
  | KRet a => forall n, c = CUnpack n -> a = AUnpack (packer_unpack (with_bands p m0) n)
  | KDict k => forall m, stale p m0 c (k m)
  | KList k => stale p m0 c (k (Some (map fst m0)))
  | KSetList _ _ => False
  end.
Lemma stale_call p m0 c : stale p m0 c (kcall_prog p c).
Proof.
  destruct c as [d|n|]; cbn [kcall_prog].
  - assert (N : forall r, stale p m0 (CPack d) (kmap APack (KRet r))) by (intros r n; discriminate).
    unfold pack_p. destruct (negb _); [apply N|]. destruct (_ <=? _); [apply N|]. destruct (_ <=? _); [apply N|].
    destruct (negb _); [|apply N]. destruct (d_band d) as [b|]; [|apply N]. cbn [kmap stale]. intros m. destruct (dict_get m (Some b)) as [i|]; [|apply N].
    destruct (_ <=? _); [apply N|]. cbn [kmap stale]. intros m'. destruct (dict_get m' (Some b)) as [v|]; apply N.
  - unfold unpack_p. destruct (p_n_bands p =? 0) eqn:Eb; cbn [negb].
    + cbn [kmap stale]. intros n' [= <-]. unfold packer_unpack, with_bands, finish_unpack.
      cbn [p_n_bands p_n_tracts p_n_patches p_fixed p_dims p_bands]. rewrite Eb. reflexivity.
    + destruct (py_divmod n (p_n_tracts p * p_n_patches p)) as [[index rest]|e] eqn:E; cbn [kmap stale]; intros n' [= <-];
        unfold packer_unpack, with_bands, finish_unpack; cbn [p_n_bands p_n_tracts p_n_patches p_fixed p_dims p_bands]; rewrite Eb, E; [|reflexivity].
      cbn [negb bind fst snd]. destruct (py_nth (map fst m0) index) as [b|e]; reflexivity.
  - discriminate.
Qed.

(*@ C95: unpack never notices a change of the mapping once it has made its list of bands: from then on every unpack answers as a packer with
    the contents that the mapping had when the list was made, whatever it contains now; a pack answers by the present contents. *)
Lemma unpack_keeps_bands_proof : forall p seen s0 m0 s new n a,
  lives p true seen s0 -> (forall t, l_threads s0 t = None) -> l_list s0 = Some (map fst m0) ->
  later p s0 s -> l_done s = l_done s0 ++ new -> In (CUnpack n, a) new -> a = AUnpack (packer_unpack (with_bands p m0) n).
Proof.
  intros p seen s0 m0 s new n a _ H0 El Hl. revert new n a.
  assert (I : l_list s = Some (map fst m0) /\ (forall t c q, l_threads s t = Some (c, q) -> stale p m0 c q)
    /\ exists new, l_done s = l_done s0 ++ new /\ forall n a, In (CUnpack n, a) new -> a = AUnpack (packer_unpack (with_bands p m0) n)).
  { induction Hl as [|s s' _ (I1 & I2 & new & I3 & I4) Hs|s m _ IH].
    - split; [exact El|]. split; [intros t c q; now rewrite H0|]. exists []. split; [now rewrite app_nil_r|]. intros n a [].
    - destruct Hs as [s n c Hn|s n c k Hn|s n c k Hn|s n c l k Hn|s n c a Hn]; cbn [l_list l_threads l_done].
      + split; [exact I1|]. split; [|eauto]. intros t c' q. unfold kupd. destruct (Nat.eqb t n); [intros [= <- <-]; apply stale_call|apply I2].
      + split; [exact I1|]. split; [|eauto]. intros t c' q. unfold kupd. destruct (Nat.eqb t n); [|apply I2].
        intros [= <- <-]. exact (I2 _ _ _ Hn (l_dict s)).
      + split; [exact I1|]. split; [|eauto]. intros t c' q. unfold kupd. destruct (Nat.eqb t n); [|apply I2].
        intros [= <- <-]. rewrite I1. exact (I2 _ _ _ Hn).
      + destruct (I2 _ _ _ Hn).
      + split; [exact I1|]. split.
        * intros t c' q. unfold kupd. destruct (Nat.eqb t n); [discriminate|apply I2].
        * exists (new ++ [(c, a)]). split; [now rewrite I3, app_assoc|]. intros n' a' Hin. apply in_app_or in Hin.
          destruct Hin as [Hin|[[= -> ->]|[]]]; [now apply I4|]. exact (I2 _ _ _ Hn n' eq_refl).
    - exact IH. }
  destruct I as (_ & _ & new & E & H). intros new' n a E' Hin. rewrite E in E'. apply app_inv_head in E'. subst new'. exact (H n a Hin).
Qed.

(** A call made by a thread that is alone. *)
Lemma life_alone p s t c q : l_threads s t = Some (c, q) ->
  exists s' a, clos_refl_trans _ (kstep p) s s' /\ l_threads s' t = None /\ l_done s' = l_done s ++ [(c, a)] /\ l_dict s' = l_dict s
    /\ forall m, m <> t -> l_threads s' m = l_threads s m.
Proof.
  revert s. assert (G : forall q dict list thr done, thr t = Some (c, q) -> exists s' a,
    clos_refl_trans _ (kstep p) (mkLife dict list thr done) s' /\ l_threads s' t = None /\ l_done s' = done ++ [(c, a)] /\ l_dict s' = dict
    /\ forall m, m <> t -> l_threads s' m = thr m).
  { clear q. intros q. induction q as [a|k IH|k IH|l k IH]; intros dict list thr done Hn.
    - exists (mkLife dict list (kupd thr t None) (done ++ [(c, a)])), a.
      split; [apply rt_step, (ks_ret p (mkLife dict list thr done)), Hn|]. cbn. unfold kupd.
      split; [now rewrite Nat.eqb_refl|]. split; [reflexivity|]. split; [reflexivity|]. intros m Hm. apply Nat.eqb_neq in Hm. now rewrite Hm.
    - destruct (IH dict dict list (kupd thr t (Some (c, k dict))) done) as (s' & a & A & B & C & D & O); [unfold kupd; now rewrite Nat.eqb_refl|].
      exists s', a. split; [eapply rt_trans; [apply rt_step, (ks_dict p (mkLife dict list thr done)), Hn|exact A]|].
      split; [exact B|]. split; [exact C|]. split; [exact D|]. intros m Hm. rewrite O by exact Hm. unfold kupd. apply Nat.eqb_neq in Hm. now rewrite Hm.
    - destruct (IH list dict list (kupd thr t (Some (c, k list))) done) as (s' & a & A & B & C & D & O); [unfold kupd; now rewrite Nat.eqb_refl|].
      exists s', a. split; [eapply rt_trans; [apply rt_step, (ks_list p (mkLife dict list thr done)), Hn|exact A]|].
      split; [exact B|]. split; [exact C|]. split; [exact D|]. intros m Hm. rewrite O by exact Hm. unfold kupd. apply Nat.eqb_neq in Hm. now rewrite Hm.
    - destruct (IH dict (Some l) (kupd thr t (Some (c, k))) done) as (s' & a & A & B & C & D & O); [unfold kupd; now rewrite Nat.eqb_refl|].
      exists s', a. split; [eapply rt_trans; [apply rt_step, (ks_setlist p (mkLife dict list thr done)), Hn|exact A]|].
      split; [exact B|]. split; [exact C|]. split; [exact D|]. intros m Hm. rewrite O by exact Hm. unfold kupd. apply Nat.eqb_neq in Hm. now rewrite Hm. }
  intros [dict list thr done]. apply G.
Qed.

(*@ C95: no call waits for another thread. *)
Lemma packer_never_blocks_proof : forall p s t c q, l_threads s t = Some (c, q) ->
  exists s' a, clos_refl_trans _ (kstep p) s s' /\ l_threads s' t = None /\ l_done s' = l_done s ++ [(c, a)]
    /\ forall m, m <> t -> l_threads s' m = l_threads s m.
Proof. intros p s t c q H. destruct (life_alone p s t c q H) as (s' & a & A & B & C & _ & O). exists s', a. auto. Qed.

(** The same with what it does. *)
Fixpoint krun (q : kprog kanswer) (m : band_map) (l : option (list band_key)) : option (list band_key) * kanswer :=
  match q with
  | KRet a => (l, a)
  | KDict k => krun (k m) m l
  | KList k => krun (k l) m l
  | KSetList l' k => krun k m (Some l')
  end.
Lemma lives_run p ch seen t q : forall s c, lives p ch seen s -> l_threads s t = Some (c, q) ->
  exists s', lives p ch seen s' /\ l_threads s' t = None /\ l_dict s' = l_dict s
    /\ l_list s' = fst (krun q (l_dict s) (l_list s)) /\ l_done s' = l_done s ++ [(c, snd (krun q (l_dict s) (l_list s)))]
    /\ forall m, m <> t -> l_threads s' m = l_threads s m.
Proof.
  induction q as [a|k IH|k IH|l k IH]; intros s c Hs Hn; cbn [krun].
  - eexists. split; [eapply lv_step; [exact Hs|apply ks_ret, Hn]|]. cbn. unfold kupd. rewrite Nat.eqb_refl. repeat (split; [reflexivity|]).
    intros m Hm. apply Nat.eqb_neq in Hm. now rewrite Hm.
  - pose proof (lv_step _ _ _ _ _ Hs (ks_dict p s t c k Hn)) as H1.
    eapply IH in H1; [|cbn; unfold kupd; now rewrite Nat.eqb_refl]. destruct H1 as (s' & A & B & C & D & E & F). exists s'. cbn [l_dict l_list l_done l_threads] in *.
    repeat (split; [assumption|]). intros m Hm. rewrite F by exact Hm. unfold kupd. apply Nat.eqb_neq in Hm. now rewrite Hm.
  - pose proof (lv_step _ _ _ _ _ Hs (ks_list p s t c k Hn)) as H1.
    eapply IH in H1; [|cbn; unfold kupd; now rewrite Nat.eqb_refl]. destruct H1 as (s' & A & B & C & D & E & F). exists s'. cbn [l_dict l_list l_done l_threads] in *.
    repeat (split; [assumption|]). intros m Hm. rewrite F by exact Hm. unfold kupd. apply Nat.eqb_neq in Hm. now rewrite Hm.
  - pose proof (lv_step _ _ _ _ _ Hs (ks_setlist p s t c l k Hn)) as H1.
    eapply IH in H1; [|cbn; unfold kupd; now rewrite Nat.eqb_refl]. destruct H1 as (s' & A & B & C & D & E & F). exists s'. cbn [l_dict l_list l_done l_threads] in *.
    repeat (split; [assumption|]). intros m Hm. rewrite F by exact Hm. unfold kupd. apply Nat.eqb_neq in Hm. now rewrite Hm.
Qed.
Lemma lives_call p ch seen t c s : lives p ch seen s -> l_threads s t = None ->
  let o := krun (kcall_prog p c) (l_dict s) (l_list s) in
  exists s', lives p ch seen s' /\ l_threads s' t = None /\ l_dict s' = l_dict s /\ l_list s' = fst o /\ l_done s' = l_done s ++ [(c, snd o)]
    /\ forall m, m <> t -> l_threads s' m = l_threads s m.
Proof.
  intros Hs Hn o. pose proof (lv_step _ _ _ _ _ Hs (ks_call p s t c Hn)) as H1.
  eapply lives_run with (t := t) in H1; [|cbn; unfold kupd; now rewrite Nat.eqb_refl]. destruct H1 as (s' & A & B & C & D & E & F). exists s'.
  cbn [l_dict l_list l_done l_threads] in *. repeat (split; [assumption|]). intros m Hm. rewrite F by exact Hm. unfold kupd. apply Nat.eqb_neq in Hm. now rewrite Hm.
Qed.

(*@ C95 REFUTED if the mapping is changed: a packer whose unpack has been used, to whose mapping a third band is then added, packs data ids of this band but
    raises IndexError when asked to unpack them, though a new packer with the same mapping does both. *)
Lemma packer_changes_refuted_proof : exists p d n seen s,
  packer_init (mkFixed "s" (Some (mkSkymapRec 10 3 3))) None (Some [(Some "g", 0); (Some "r", 1)]) (Some 3) None None = Ok p
  /\ lives p true seen s
  /\ l_done s = [(CUnpack 0, AUnpack (Ok (mkDataId "s" 0 0 (Some "g")))); (CPack d, APack (Ok n)); (CUnpack n, AUnpack (Raise IndexError))]
  /\ l_dict s = [(Some "g", 0); (Some "r", 1); (Some "i", 2)]
  /\ packer_pack (with_bands p (l_dict s)) d = Ok n /\ packer_unpack (with_bands p (l_dict s)) n = Ok d.
Proof.
  eexists. exists (mkDataId "s" 4 5 (Some "i")), 221. exists [[(Some "g", 0); (Some "r", 1); (Some "i", 2)]; [(Some "g", 0); (Some "r", 1)]].
  match goal with |- context [packer_init ?a ?b ?c ?d ?e ?f] => destruct (packer_init a b c d e f) as [p|] eqn:E; [|discriminate] end.
  cbn in E. injection E as <-. match goal with |- context [lives ?q] => is_evar q end || idtac.
  match goal with |- exists s, Ok ?q = _ /\ _ => set (p := q) end.
  destruct (lives_call p true _ 0%nat (CUnpack 0) _ (lv_new p true) eq_refl) as (s1 & H1 & T1 & D1 & L1 & O1 & _).
  assert (L1' : l_list s1 = Some [Some "g"; Some "r"]) by exact L1. clear L1. rename L1' into L1. apply (lv_change p true _ _ [(Some "g", 0); (Some "r", 1); (Some "i", 2)]) in H1; [|reflexivity].
  destruct (lives_call p true _ 0%nat (CPack (mkDataId "s" 4 5 (Some "i"))) _ H1 T1) as (s2 & H2 & T2 & D2 & L2 & O2 & _).
  cbn [l_dict l_list l_done] in D2, L2, O2. rewrite L1 in L2, O2. rewrite O1 in O2.
  assert (L2' : l_list s2 = Some [Some "g"; Some "r"]) by exact L2.
  assert (O2' : l_done s2 = [(CUnpack 0, AUnpack (Ok (mkDataId "s" 0 0 (Some "g")))); (CPack (mkDataId "s" 4 5 (Some "i")), APack (Ok 221))]) by exact O2.
  destruct (lives_call p true _ 0%nat (CUnpack 221) _ H2 T2) as (s3 & H3 & T3 & D3 & L3 & O3 & _).
  rewrite D2 in D3. rewrite D2, L2', O2' in O3.
  exists s3. split; [reflexivity|]. split; [exact H3|]. split; [exact O3|]. split; [exact D3|]. rewrite D3. split; reflexivity.
Qed.

(*@ C95: the hypotheses are met: two threads ask a new packer at the same time to unpack an id; both have found no list of bands and are about to
    store one; both calls end, and a data id packed before has come back. *)
Example packer_life_example_proof : exists p n s s' l k0 k1,
  packer_init (mkFixed "s" (Some (mkSkymapRec 10 3 3))) None None None None None = Ok p
  /\ lives p false [p_bands p] s /\ l_threads s 0%nat = Some (CUnpack n, KSetList l k0) /\ l_threads s 1%nat = Some (CUnpack 0, KSetList l k1)
  /\ lives p false [p_bands p] s'
  /\ l_done s' = [(CPack (mkDataId "s" 4 5 (Some "i")), APack (Ok n)); (CUnpack 0, AUnpack (Raise ValueError));
                  (CUnpack n, AUnpack (Ok (mkDataId "s" 4 5 (Some "i"))))].
Proof.
  eexists. exists 401.
  match goal with |- context [packer_init ?a ?b ?c ?d ?e ?f] => destruct (packer_init a b c d e f) as [p0|] eqn:E; [|discriminate] end.
  cbn in E. injection E as <-.
  match goal with |- exists s s' l k0 k1, Ok ?q = _ /\ _ => set (p := q) end.
  destruct (lives_call p false _ 0%nat (CPack (mkDataId "s" 4 5 (Some "i"))) _ (lv_new p false) eq_refl) as (s1 & H1 & T1 & D1 & L1 & O1 & N1).
  assert (O1' : l_done s1 = [(CPack (mkDataId "s" 4 5 (Some "i")), APack (Ok 401))]) by exact O1. assert (L1' : l_list s1 = None) by exact L1. clear L1. rename L1' into L1. specialize (N1 1%nat ltac:(discriminate)). cbn in N1. cbn [l_dict] in D1.
  eapply lv_step in H1; [|eapply ks_call with (n := 0%nat) (c := CUnpack 401); exact T1]. cbn [l_dict l_list l_threads l_done] in H1.
  eapply lv_step in H1; [|eapply ks_call with (n := 1%nat) (c := CUnpack 0); cbn; exact N1]. cbn [l_dict l_list l_threads l_done] in H1.
  assert (U : forall n, n = 0 \/ n = 401 -> exists f k, kcall_prog p (CUnpack n) = KList f /\ f None = KDict (fun m => KSetList (map fst m) k)).
  { intros n Hn. destruct Hn as [-> | ->]; eexists; eexists; (split; [reflexivity|]); cbn [kmap]; reflexivity. }
  destruct (U 401 (or_intror eq_refl)) as (f0 & k0 & E0 & F0). destruct (U 0 (or_introl eq_refl)) as (f1 & k1 & E1 & F1).
  rewrite E0, E1 in H1.
  eapply lv_step in H1; [|eapply ks_list with (n := 0%nat); cbn; reflexivity]. cbn [l_dict l_list l_threads l_done] in H1. rewrite L1, F0 in H1.
  eapply lv_step in H1; [|eapply ks_dict with (n := 0%nat); cbn; reflexivity]. cbn [l_dict l_list l_threads l_done] in H1.
  eapply lv_step in H1; [|eapply ks_list with (n := 1%nat); cbn; reflexivity]. cbn [l_dict l_list l_threads l_done] in H1. rewrite F1 in H1.
  eapply lv_step in H1; [|eapply ks_dict with (n := 1%nat); cbn; reflexivity]. cbn [l_dict l_list l_threads l_done] in H1.
  match type of H1 with lives _ _ _ ?x => set (s := x) in * end.
  destruct (lives_run p false _ 1%nat (KSetList (map fst (l_dict s1)) k1) s (CUnpack 0) H1 eq_refl) as (s2 & H2 & _ & D2 & L2 & O2 & N2).
  specialize (N2 0%nat ltac:(discriminate)).
  destruct (lives_run p false _ 0%nat (KSetList (map fst (l_dict s1)) k0) s2 (CUnpack 401) H2 N2) as (s3 & H3 & _ & D3 & L3 & O3 & _).
  exists s, s3, (map fst (l_dict s1)), k0, k1.
  split; [reflexivity|]. split; [exact H1|]. split; [reflexivity|]. split; [reflexivity|]. split; [exact H3|].
  assert (Dn : exists a1 a2, l_done s3 = [(CPack (mkDataId "s" 4 5 (Some "i")), APack (Ok 401)); (CUnpack 0, a1); (CUnpack 401, a2)]).
  { do 2 eexists. rewrite O3, O2. unfold s. cbn [l_done]. rewrite O1'. reflexivity. }
  destruct Dn as (a1 & a2 & Dn). rewrite Dn.
  rewrite (packer_life_proof p _ s3 (CUnpack 0) a1 H3) by (rewrite Dn; right; now left).
  rewrite (packer_life_proof p _ s3 (CUnpack 401) a2 H3) by (rewrite Dn; right; right; now left). reflexivity.
Qed.
