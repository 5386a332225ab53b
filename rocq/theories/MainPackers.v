(** Packing data ids (C46-C51). *)
From Coq Require Import String.
Require Import Verif.Py Verif.Packers.
Open Scope string_scope.
Open Scope Z_scope.
Local Arguments Z.mul : simpl never.

(** A data id whose tract, patch and (if bands are packed) band number are not negative. *)
Definition nonneg_id (p : packer) (d : data_id) : Prop :=
  0 <= d_tract d /\ 0 <= d_patch d
  /\ (p_n_bands p <> 0 -> forall b k, d_band d = Some b -> dict_get (p_bands p) (Some b) = Some k -> 0 <= k).
(** A Python dict: keys are distinct. *)
Definition dict_ok (m : band_map) : Prop := NoDup (map fst m).
(** Distinct bands have distinct numbers. *)
Definition distinct_numbers (m : band_map) : Prop :=
  forall b b' k, dict_get m b = Some k -> dict_get m b' = Some k -> b = b'.
(** Bands are numbered 0, 1, 2, ... in order. *)
Definition numbered_in_order (m : band_map) : Prop := map snd m = zrange 0 (Z.of_nat (List.length m)).
(** Equal as data ids of the packer's dimensions. *)
Definition same_id (p : packer) (d d' : data_id) : Prop :=
  d_skymap d = d_skymap d' /\ d_tract d = d_tract d' /\ d_patch d = d_patch d'
  /\ (p_n_bands p <> 0 -> d_band d = d_band d').
Definition band_number (p : packer) (d : data_id) (k : Z) : Prop :=
  exists b, d_band d = Some b /\ dict_get (p_bands p) (Some b) = Some k.

Lemma key_eqb_spec a b : key_eqb a b = true <-> a = b.
Proof.
  destruct a, b; cbn; split; try congruence; try discriminate; auto.
  - intros H. apply String.eqb_eq in H. now subst.
  - intros [= ->]. apply String.eqb_refl.
Qed.

(** What an accepted data id is and what it packs to. *)
Lemma pack_inv p d n : packer_pack p d = Ok n ->
  d_skymap d = f_skymap (p_fixed p) /\ d_patch d < p_n_patches p /\ d_tract d < p_n_tracts p
  /\ (p_n_bands p = 0 /\ n = d_patch d + p_n_patches p * d_tract d
      \/ p_n_bands p <> 0 /\ exists k, band_number p d k /\ k < p_n_bands p
           /\ n = d_patch d + p_n_patches p * d_tract d + k * p_n_patches p * p_n_tracts p).
Proof.
  unfold packer_pack, packer_pack0. destruct (String.eqb_spec (d_skymap d) (f_skymap (p_fixed p))); [|discriminate].
  cbn [negb]. destruct (Z.leb_spec (p_n_patches p) (d_patch d)); [discriminate|].
  destruct (Z.leb_spec (p_n_tracts p) (d_tract d)); [discriminate|].
  destruct (Z.eqb_spec (p_n_bands p) 0); cbn [negb].
  - intros [= <-]. auto 10.
  - destruct (d_band d) as [b|] eqn:Eb; [|discriminate].
    destruct (dict_get (p_bands p) (Some b)) as [k|] eqn:Ek; [|discriminate].
    destruct (Z.leb_spec (p_n_bands p) k); [discriminate|]. intros [= <-].
    split; [assumption|]. split; [assumption|]. split; [assumption|]. right. split; [assumption|].
    exists k. split; [exists b; auto|]. auto.
Qed.

(*@ C46: every id packed from non-negative tract, patch and band numbers is non-negative and has at
    most maxBits bits. *)
Lemma packed_id_fits_proof : forall p d n,
  packer_pack p d = Ok n -> nonneg_id p d -> 0 <= n < 2 ^ packer_maxBits p.
Proof.
  intros p d n H (Ht & Hp & Hb). destruct (pack_inv p d n H) as (_ & Hp' & Ht' & Hcase).
  assert (Hbits : forall m, 0 < m -> forall n, 0 <= n < m -> 0 <= n < 2 ^ bit_length (m - 1)).
  { intros m Hm n0 Hn. split; [lia|]. unfold bit_length. destruct (Z.eqb_spec (m - 1) 0); [cbn; lia|].
    rewrite Z.abs_eq by lia. destruct (Z.log2_spec (m - 1)) as [_ L]; [lia|].
    replace (Z.log2 (m - 1) + 1) with (Z.succ (Z.log2 (m - 1))) by lia. lia. }
  assert (M1 : d_patch d + p_n_patches p * d_tract d < p_n_tracts p * p_n_patches p) by nia.
  assert (M0 : 0 <= d_patch d + p_n_patches p * d_tract d) by nia.
  unfold packer_maxBits. destruct Hcase as [[E0 ->]|(E0 & k & (b & Eb & Ek) & Hk & ->)].
  - rewrite E0. cbn [Z.eqb negb]. apply Hbits; lia.
  - destruct (Z.eqb_spec (p_n_bands p) 0); [lia|]. cbn [negb].
    assert (0 <= k) by (eapply Hb; eauto).
    assert (k * (p_n_patches p * p_n_tracts p) <= (p_n_bands p - 1) * (p_n_patches p * p_n_tracts p)) by nia.
    assert (0 <= k * (p_n_patches p * p_n_tracts p)) by nia. apply Hbits; lia.
Qed.

(*@ C46: the number of bits is the least possible: if bands are not packed, or some band has the largest number allowed, the data id of the last patch of
    the last tract (and that band) is accepted, and fits in no smaller number of bits.  For a single patch, tract and band maxBits is 0. *)
Lemma packed_id_bits_tight_proof : forall p,
  0 <= p_n_bands p -> 0 < p_n_patches p -> 0 < p_n_tracts p ->
  (p_n_bands p <> 0 -> exists b, dict_get (p_bands p) (Some b) = Some (p_n_bands p - 1)) ->
  exists d n, packer_pack p d = Ok n /\ nonneg_id p d /\ forall bits, 0 <= bits < packer_maxBits p -> 2 ^ bits <= n.
Proof.
  intros p E0 Hp Ht Hb.
  assert (Hband : exists ob, p_n_bands p <> 0 -> exists b, ob = Some b /\ dict_get (p_bands p) (Some b) = Some (p_n_bands p - 1)).
  { destruct (Z.eq_dec (p_n_bands p) 0); [exists None; lia|]. destruct (Hb n) as (b & B). exists (Some b). eauto. }
  destruct Hband as (ob & Hob).
  set (total := p_n_tracts p * p_n_patches p * (if p_n_bands p =? 0 then 1 else p_n_bands p)).
  set (d := mkDataId (f_skymap (p_fixed p)) (p_n_tracts p - 1) (p_n_patches p - 1) ob).
  exists d, (total - 1). split; [|split].
  - unfold packer_pack, packer_pack0. cbn [d d_skymap d_tract d_patch d_band]. rewrite String.eqb_refl. cbn [negb].
    destruct (Z.leb_spec (p_n_patches p) (p_n_patches p - 1)); [lia|].
    destruct (Z.leb_spec (p_n_tracts p) (p_n_tracts p - 1)); [lia|].
    unfold total. destruct (Z.eqb_spec (p_n_bands p) 0) as [E|E]; cbn [negb]; [f_equal; lia|].
    destruct (Hob E) as (b & -> & ->). destruct (Z.leb_spec (p_n_bands p) (p_n_bands p - 1)); [lia|]. f_equal. lia.
  - unfold nonneg_id, d; cbn. split; [lia|]. split; [lia|]. intros E b k Eb Ek. destruct (Hob E) as (b' & Eb' & Ek').
    rewrite Eb in Eb'. injection Eb' as <-. rewrite Ek in Ek'. injection Ek' as ->. lia.
  - intros bits Hbits. assert (Em : packer_maxBits p = bit_length (total - 1)).
    { unfold packer_maxBits, total. destruct (Z.eqb_spec (p_n_bands p) 0); cbn [negb]; f_equal; lia. }
    rewrite Em in Hbits. assert (1 <= total) by (unfold total; destruct (Z.eqb_spec (p_n_bands p) 0); nia). clearbody total.
    unfold bit_length in Hbits. destruct (Z.eqb_spec (total - 1) 0); [lia|]. rewrite Z.abs_eq in Hbits by lia.
    destruct (Z.log2_spec (total - 1)) as [L _]; [lia|]. apply Z.le_trans with (2 ^ Z.log2 (total - 1)); [|exact L]. apply Z.pow_le_mono_r; lia.
Qed.

(** The parts of a packed id. *)
Lemma pack_parts p d n : packer_pack p d = Ok n -> nonneg_id p d ->
  0 < p_n_patches p /\ 0 < p_n_tracts p
  /\ (p_n_bands p = 0 /\ n / p_n_patches p = d_tract d /\ n mod p_n_patches p = d_patch d
      \/ p_n_bands p <> 0 /\ exists k, band_number p d k /\ 0 <= k
         /\ n / (p_n_tracts p * p_n_patches p) = k
         /\ (n mod (p_n_tracts p * p_n_patches p)) / p_n_patches p = d_tract d
         /\ (n mod (p_n_tracts p * p_n_patches p)) mod p_n_patches p = d_patch d).
Proof.
  intros H (Ht & Hp & Hb). destruct (pack_inv p d n H) as (_ & Hp' & Ht' & Hcase).
  split; [lia|]. split; [lia|].
  assert (D : forall m, m = d_patch d + p_n_patches p * d_tract d ->
      m / p_n_patches p = d_tract d /\ m mod p_n_patches p = d_patch d).
  { intros m ->. split; symmetry; [apply Z.div_unique with (d_patch d)|apply Z.mod_unique with (d_tract d)]; lia. }
  destruct Hcase as [[E0 ->]|(E0 & k & Hk0 & Hk & ->)].
  - left. split; [exact E0|]. now apply D.
  - right. split; [exact E0|]. exists k. split; [exact Hk0|]. destruct Hk0 as (b & Eb & Ek).
    assert (0 <= k) by (eapply Hb; eauto). split; [assumption|].
    set (m := d_patch d + p_n_patches p * d_tract d).
    assert (Hm : 0 <= m < p_n_tracts p * p_n_patches p) by (unfold m; nia).
    replace (m + k * p_n_patches p * p_n_tracts p) with (p_n_tracts p * p_n_patches p * k + m) by (unfold m; lia).
    assert ((p_n_tracts p * p_n_patches p * k + m) / (p_n_tracts p * p_n_patches p) = k) as -> by (symmetry; apply Z.div_unique with m; lia).
    assert ((p_n_tracts p * p_n_patches p * k + m) mod (p_n_tracts p * p_n_patches p) = m) as -> by (symmetry; apply Z.mod_unique with k; lia).
    split; [reflexivity|]. now apply D.
Qed.

(*@ C47: two accepted data ids with non-negative numbers and equal packed ids are equal, provided
    distinct bands have distinct numbers. *)
Lemma packing_injective_proof : forall p d d' n,
  distinct_numbers (p_bands p) -> nonneg_id p d -> nonneg_id p d' ->
  packer_pack p d = Ok n -> packer_pack p d' = Ok n -> same_id p d d'.
Proof.
  intros p d d' n Hd Hn Hn' H H'.
  pose proof (pack_inv p d n H) as (Es & _). pose proof (pack_inv p d' n H') as (Es' & _).
  destruct (pack_parts p d n H Hn) as (_ & _ & P). destruct (pack_parts p d' n H' Hn') as (_ & _ & P').
  unfold same_id. split; [congruence|].
  destruct P as [(E0 & A & B)|(E0 & k & (b & Eb & Ek) & _ & K & A & B)];
  destruct P' as [(E0' & A' & B')|(E0' & k' & (b' & Eb' & Ek') & _ & K' & A' & B')]; try lia.
  split; [lia|]. split; [lia|]. intros _. assert (Ekk : k = k') by lia. rewrite <- Ekk in Ek'.
  rewrite Eb, Eb'. exact (Hd _ _ _ Ek Ek').
Qed.

(** Positions in a mapping. *)
Lemma dict_get_nth m b k : dict_ok m -> dict_get m b = Some k <-> exists i, nth_error m i = Some (b, k).
Proof.
  unfold dict_ok. induction m as [|[k' v] m IH]; cbn; intros Hn.
  - split; [discriminate|]. intros ([|i] & H); discriminate.
  - inversion Hn; subst. specialize (IH H2). destruct (key_eqb b k') eqn:E.
    + apply key_eqb_spec in E. subst. split.
      * intros [= <-]. now exists O.
      * intros ([|i] & H); cbn in H; [congruence|]. exfalso. apply H1.
        apply nth_error_In in H. apply (in_map fst) in H. exact H.
    + assert (Hne : b <> k') by (intros ->; assert (key_eqb k' k' = true) by (now apply key_eqb_spec); congruence).
      rewrite IH. split.
      * intros (i & H). now exists (S i).
      * intros ([|i] & H); cbn in H; [injection H as E1 E2; congruence|now exists i].
Qed.

(*@ C48, C49: exactly when does unpack invert pack: without bands always (unless band is among the
    dimensions); with bands exactly for the data ids whose band stands at the position of its number
    in the mapping. *)
Lemma unpack_pack_iff_proof : forall p d n,
  packer_pack p d = Ok n -> nonneg_id p d ->
  (p_n_bands p = 0 -> name_in "band" (p_dims p) = false ->
     packer_unpack p n = Ok (mkDataId (d_skymap d) (d_tract d) (d_patch d) None))
  /\ (p_n_bands p <> 0 -> forall b k, d_band d = Some b -> dict_get (p_bands p) (Some b) = Some k ->
      (packer_unpack p n = Ok d <-> nth_error (map fst (p_bands p)) (Z.to_nat k) = Some (Some b))).
Proof.
  intros p d n H Hn. pose proof (pack_inv p d n H) as (Es & _).
  destruct (pack_parts p d n H Hn) as (Hp & Ht & P). unfold packer_unpack, py_divmod. split.
  - intros E0 Eb. rewrite E0. cbn [Z.eqb negb bind]. destruct (Z.eqb_spec (p_n_patches p) 0); [lia|]. cbn [bind fst snd].
    rewrite Eb. destruct P as [(_ & A & B)|(? & _)]; [|lia]. now rewrite A, B, Es.
  - intros E0 b k Eb Ek. destruct (Z.eqb_spec (p_n_bands p) 0); [lia|]. cbn [negb].
    destruct (Z.eqb_spec (p_n_tracts p * p_n_patches p) 0); [nia|]. cbn [bind fst snd].
    destruct P as [(? & _)|(_ & k' & (b' & Eb' & Ek') & Hk & K & A & B)]; [lia|].
    rewrite Eb in Eb'. injection Eb' as <-. rewrite Ek in Ek'. injection Ek' as <-. rewrite K.
    destruct (nth_error (map fst (p_bands p)) (Z.to_nat k)) as [x|] eqn:E.
    + rewrite (py_nth_in _ _ _ Hk E). cbn [bind]. destruct (Z.eqb_spec (p_n_patches p) 0); [lia|]. cbn [bind fst snd].
      rewrite A, B. destruct x as [x|].
      * split.
        -- intros F. injection F as F. rewrite <- F in Eb. cbn in Eb. injection Eb as ->. reflexivity.
        -- intros F. injection F as ->. rewrite <- Es, <- Eb. now destruct d.
      * split; discriminate.
    + apply nth_error_None in E. rewrite py_nth_ge by lia. split; discriminate.
Qed.

Lemma numbered_position m b k : dict_ok m -> numbered_in_order m -> dict_get m b = Some k ->
  0 <= k /\ nth_error (map fst m) (Z.to_nat k) = Some b.
Proof.
  intros Hd Hn Hg. apply (dict_get_nth m b k Hd) in Hg. destruct Hg as (i & Hi).
  pose proof (map_nth_error snd _ _ Hi) as Hs. rewrite Hn in Hs. cbn in Hs.
  assert (Hl : (i < List.length m)%nat) by (apply nth_error_Some; congruence).
  rewrite zrange_nth_error in Hs by lia. injection Hs as <-.
  split; [lia|].
  rewrite Nat2Z.id. exact (map_nth_error fst _ _ Hi).
Qed.

Lemma enumerate_numbered {A} (l : list A) : map snd (enumerate l) = zrange 0 (Z.of_nat (List.length (enumerate l))) /\ map fst (enumerate l) = l.
Proof.
  unfold enumerate. set (z := zrange 0 (Z.of_nat (List.length l))).
  assert (Hz : List.length z = List.length l) by (unfold z; rewrite zrange_length; lia).
  assert (K : forall (z : list Z) (l : list A), List.length z = List.length l -> map snd (combine l z) = z /\ map fst (combine l z) = l).
  { clear l z Hz. induction z as [|x z IH]; intros [|y l]; cbn; try discriminate; auto.
    intros [= E]. destruct (IH l E) as [-> ->]. auto. }
  destruct (K z l Hz) as [E1 E2]. rewrite combine_length, Hz, Nat.min_id. auto.
Qed.

Lemma default_bands_ok : dict_ok default_bands /\ numbered_in_order default_bands.
Proof.
  unfold dict_ok, numbered_in_order. destruct (enumerate_numbered SUPPORTED_FILTERS) as [E1 E2].
  split; [|exact E1]. unfold default_bands. rewrite E2. unfold SUPPORTED_FILTERS. cbn [map].
  repeat constructor; cbn; intuition congruence.
Qed.

(*@ C48: unpack(pack(d)) gives back d for every accepted data id with non-negative tract and patch:
    with bands whenever the mapping numbers its bands 0, 1, 2, ... in order, as the default one does,
    and without bands for data ids without a band. *)
Lemma unpack_inverts_pack_proof : forall fixed dims bands n_bands nt np p d n,
  packer_init fixed dims bands n_bands nt np = Ok p ->
  (forall m, bands = Some m -> dict_ok m /\ numbered_in_order m) ->
  packer_pack p d = Ok n -> 0 <= d_tract d -> 0 <= d_patch d ->
  (p_n_bands p <> 0 -> packer_unpack p n = Ok d)
  /\ (d_band d = None -> name_in "band" (p_dims p) = false -> packer_unpack p n = Ok d).
Proof.
  intros fixed dims bands nb nt np p d n Hi Hm H Ht Hp.
  assert (Hb : dict_ok (p_bands p) /\ numbered_in_order (p_bands p)).
  { assert (Eb : p_bands p = match bands with Some b => b | None => default_bands end).
    { unfold packer_init in Hi. destruct (packer_dims dims bands nb) as [[[b0 n0] d0]|] eqn:E; [|discriminate].
      cbn [bind] in Hi.
      assert (b0 = match bands with Some b => b | None => default_bands end).
      { unfold packer_dims in E. destruct dims as [dl|].
        - destruct (negb (name_in "band" dl)); [destruct (negb _) in E; [discriminate|]|destruct (negb _) in E; [discriminate|]];
            injection E as <- <- <-; reflexivity.
        - injection E as <- _ _. reflexivity. }
      destruct (match nt with Some _ => _ | None => _ end) in Hi; [|discriminate]. cbn [bind] in Hi.
      destruct (match np with Some _ => _ | None => _ end) in Hi; [|discriminate]. cbn [bind] in Hi.
      injection Hi as <-. exact H0. }
    rewrite Eb. destruct bands as [m|]; [now apply Hm|exact default_bands_ok]. }
  destruct Hb as [Hd Ho].
  assert (Hn : nonneg_id p d).
  { split; [exact Ht|]. split; [exact Hp|]. intros _ b k _ Ek.
    apply (numbered_position (p_bands p) (Some b) k Hd Ho Ek). }
  destruct (unpack_pack_iff_proof p d n H Hn) as [A B]. split.
  - intros E0. destruct (pack_inv p d n H) as (_ & _ & _ & [[? _]|(_ & k & (b & Eb & Ek) & _)]); [lia|].
    apply (B E0 b k Eb Ek). apply (numbered_position (p_bands p) (Some b) k Hd Ho Ek).
  - intros Ed Hdim. destruct (Z.eq_dec (p_n_bands p) 0) as [E0|E0].
    + rewrite (A E0 Hdim). rewrite <- Ed. now destruct d.
    + exfalso. destruct (pack_inv p d n H) as (_ & _ & _ & [[? _]|(_ & k & (b & Eb & _) & _)]); [lia|congruence].
Qed.

(*@ C49 REFUTED: with the mapping {"r": 1, "g": 0} unpack(pack(d)) exchanges the two bands, and with
    {"r": 1} and two reserved numbers it raises IndexError; in general it fails for every band that
    is not at the position of its number (unpack_pack_iff). *)
Lemma unpack_bands_refuted_proof :
  (exists p d n d', packer_init (mkFixed "s" (Some (mkSkymapRec 10 3 3))) None
        (Some [(Some "r", 1); (Some "g", 0)]) None None None = Ok p
     /\ d_band d = Some "r" /\ packer_pack p d = Ok n /\ nonneg_id p d
     /\ packer_unpack p n = Ok d' /\ d_band d' = Some "g")
  /\ (exists p d n, packer_init (mkFixed "s" (Some (mkSkymapRec 10 3 3))) None
        (Some [(Some "r", 1)]) (Some 2) None None = Ok p
     /\ packer_pack p d = Ok n /\ nonneg_id p d /\ packer_unpack p n = Raise IndexError).
Proof.
  split.
  - eexists _, (mkDataId "s" 4 5 (Some "r")), _, _. split; [reflexivity|]. split; [reflexivity|]. split; [reflexivity|].
    split; [|split; reflexivity]. split; [cbn; lia|]. split; [cbn; lia|]. intros _ b k [= <-]. cbn. intros [= <-]. lia.
  - eexists _, (mkDataId "s" 4 5 (Some "r")), _. split; [reflexivity|]. split; [reflexivity|].
    split; [|reflexivity]. split; [cbn; lia|]. split; [cbn; lia|]. intros _ b k [= <-]. cbn. intros [= <-]. lia.
Qed.

(*@ C50: pack raises ValueError exactly when the skymap differs, patch >= n_patches, tract >=
    n_tracts, or (with bands) the band is unknown or its number >= n_bands; the only other failure is
    KeyError for a data id without a band when bands are packed. *)
Lemma pack_rejects_exactly_proof : forall p d,
  let bad := d_skymap d <> f_skymap (p_fixed p) \/ p_n_patches p <= d_patch d \/ p_n_tracts p <= d_tract d in
  (packer_pack p d = Raise ValueError <->
     bad \/ p_n_bands p <> 0 /\ exists b, d_band d = Some b
              /\ (dict_get (p_bands p) (Some b) = None
                  \/ exists k, dict_get (p_bands p) (Some b) = Some k /\ p_n_bands p <= k))
  /\ (packer_pack p d = Raise KeyError <-> ~ bad /\ p_n_bands p <> 0 /\ d_band d = None)
  /\ (forall e, packer_pack p d = Raise e -> e = ValueError \/ e = KeyError).
Proof.
  intros p d bad.
  assert (K : bad -> packer_pack p d = Raise ValueError).
  { unfold bad, packer_pack, packer_pack0. intros H.
    destruct (String.eqb_spec (d_skymap d) (f_skymap (p_fixed p))); cbn [negb]; [|reflexivity].
    destruct (Z.leb_spec (p_n_patches p) (d_patch d)); [reflexivity|].
    destruct (Z.leb_spec (p_n_tracts p) (d_tract d)); [reflexivity|].
    destruct H as [H|[H|H]]; [contradiction|lia|lia]. }
  assert (N : bad \/ ~ bad).
  { unfold bad. destruct (string_dec (d_skymap d) (f_skymap (p_fixed p))); [|tauto].
    destruct (Z_le_gt_dec (p_n_patches p) (d_patch d)); [tauto|]. destruct (Z_le_gt_dec (p_n_tracts p) (d_tract d)); [tauto|].
    right. intros [?|[?|?]]; [contradiction|lia|lia]. }
  destruct N as [N|N].
  { rewrite (K N). split; [tauto|]. split; [split; [discriminate|tauto]|]. intros e [= <-]. auto. }
  clear K. unfold packer_pack, packer_pack0.
  destruct (String.eqb_spec (d_skymap d) (f_skymap (p_fixed p))) as [Es|Es]; cbn [negb]; [|unfold bad in N; tauto].
  destruct (Z.leb_spec (p_n_patches p) (d_patch d)); [unfold bad in N; tauto|].
  destruct (Z.leb_spec (p_n_tracts p) (d_tract d)); [unfold bad in N; tauto|].
  destruct (Z.eqb_spec (p_n_bands p) 0) as [E0|E0]; cbn [negb].
  { split; [split; [discriminate|tauto]|]. split; [split; [discriminate|tauto]|]. discriminate. }
  destruct (d_band d) as [b|].
  2:{ split; [split; [discriminate|]|]. { intros [?|(_ & b & ? & _)]; [tauto|discriminate]. }
      split; [tauto|]. intros e [= <-]. auto. }
  assert (KE : Raise (A := Z) ValueError = Raise KeyError <-> ~ bad /\ p_n_bands p <> 0 /\ Some b = None).
  { split; [discriminate|]. intros (_ & _ & ?). discriminate. }
  destruct (dict_get (p_bands p) (Some b)) as [k|] eqn:Ek.
  - destruct (Z.leb_spec (p_n_bands p) k).
    + split; [|split; [exact KE|intros e [= <-]; auto]]. split; [|reflexivity].
      intros _. right. split; [assumption|]. exists b. split; [reflexivity|]. right. eauto.
    + split; [split; [discriminate|]|split; [split; [discriminate|intros (_ & _ & ?); discriminate]|discriminate]].
      intros [?|(_ & b' & Eb' & [?|(k' & ? & ?)])]; [tauto| |].
      * injection Eb' as <-. congruence.
      * injection Eb' as <-. assert (k = k') by congruence. lia.
  - split; [|split; [exact KE|intros e [= <-]; auto]]. split; [|reflexivity].
    intros _. right. split; [assumption|]. exists b. auto.
Qed.

(*@ C50 REFUTED for negative numbers: every packer with at least two tracts and one patch accepts
    patch -1 of tract 1 and gives it the id of the last patch of tract 0 (no bands packed); and a
    mapping with a negative number gives negative ids. *)
Lemma pack_negative_refuted_proof :
  (forall p, p_n_bands p = 0 -> 1 <= p_n_patches p -> 2 <= p_n_tracts p ->
     let s := f_skymap (p_fixed p) in
     exists n, packer_pack p (mkDataId s 1 (-1) None) = Ok n
       /\ packer_pack p (mkDataId s 0 (p_n_patches p - 1) None) = Ok n)
  /\ (exists p d n, packer_init (mkFixed "s" (Some (mkSkymapRec 10 3 3))) None
        (Some [(Some "r", -1)]) None None None = Ok p
      /\ packer_pack p d = Ok n /\ 0 <= d_tract d /\ 0 <= d_patch d /\ n < 0).
Proof.
  split.
  - intros p E0 Hp Ht s. exists (p_n_patches p - 1). unfold packer_pack, packer_pack0. cbn [d_skymap d_tract d_patch].
    unfold s. rewrite String.eqb_refl. cbn [negb]. rewrite E0. cbn [Z.eqb negb].
    destruct (Z.leb_spec (p_n_patches p) (-1)); [lia|]. destruct (Z.leb_spec (p_n_tracts p) 1); [lia|].
    destruct (Z.leb_spec (p_n_patches p) (p_n_patches p - 1)); [lia|]. destruct (Z.leb_spec (p_n_tracts p) 0); [lia|].
    split; f_equal; lia.
  - eexists _, (mkDataId "s" 4 5 (Some "r")), _. split; [reflexivity|]. split; [reflexivity|]. split; [vm_compute; discriminate|]. split; [vm_compute; discriminate|]. vm_compute. reflexivity.
Qed.

(*@ C51: construction raises ValueError exactly for explicit dimensions that are neither
    {skymap, tract, patch} nor {skymap, tract, patch, band}; otherwise, if the counts are known, it
    succeeds; bands can take part in packing only if band is a dimension, and without explicit
    dimensions exactly when. *)
Lemma packer_construction_proof : forall fixed dims bands n_bands nt np,
  let is l names := forall n, In n l <-> In n names in
  (packer_init fixed dims bands n_bands nt np = Raise ValueError <->
     exists l, dims = Some l /\ ~ is l ["skymap"; "tract"; "patch"] /\ ~ is l ["skymap"; "tract"; "patch"; "band"])
  /\ (forall p, packer_init fixed dims bands n_bands nt np = Ok p ->
       (p_n_bands p <> 0 -> In "band" (p_dims p))
       /\ (dims = None -> In "band" (p_dims p) -> p_n_bands p <> 0)
       /\ (is (p_dims p) ["skymap"; "tract"; "patch"] \/ is (p_dims p) ["skymap"; "tract"; "patch"; "band"]))
  /\ (f_record fixed <> None \/ nt <> None /\ np <> None ->
       (exists p, packer_init fixed dims bands n_bands nt np = Ok p)
       \/ packer_init fixed dims bands n_bands nt np = Raise ValueError).
Proof.
  intros fixed dims bands nb nt np is.
  assert (Hin : forall n l, name_in n l = true <-> In n l).
  { intros n l. unfold name_in. rewrite existsb_exists. split.
    - intros (x & Hx & E). apply String.eqb_eq in E. now subst.
    - intros H. exists n. split; [exact H|apply String.eqb_refl]. }
  assert (Hsame : forall l names, same_names l names = true <-> is l names).
  { intros l names. unfold same_names, is. rewrite andb_true_iff, !forallb_forall. setoid_rewrite Hin. firstorder. }
  assert (Hnobnd : forall l, name_in "band" l = false -> ~ is l ["skymap"; "tract"; "patch"; "band"]).
  { intros l H0 H. assert (In "band" l) by (apply H; cbn; auto). apply Hin in H1. congruence. }
  assert (Hbnd : forall l, name_in "band" l = true -> ~ is l ["skymap"; "tract"; "patch"]).
  { intros l H0 H. apply Hin in H0. apply H in H0. cbn in H0. intuition congruence. }
  assert (Hperm3 : forall l, is l ["tract"; "patch"; "skymap"] <-> is l ["skymap"; "tract"; "patch"]).
  { intros l. unfold is. split; intros H n; rewrite H; cbn; tauto. }
  assert (Hperm4 : forall l, is l ["tract"; "patch"; "skymap"; "band"] <-> is l ["skymap"; "tract"; "patch"; "band"]).
  { intros l. unfold is. split; intros H n; rewrite H; cbn; tauto. }
  set (tail b n d := nt' <- match nt with
        | Some n => Ok n
        | None => match f_record fixed with Some r => Ok (r_tract_max r) | None => Raise AssertionError end
        end ;;
      np' <- match np with
        | Some n => Ok n
        | None => match f_record fixed with
                  | Some r => Ok (r_nx_max r * r_ny_max r) | None => Raise AssertionError end
        end ;; Ok (mkPacker fixed d b n nt' np')).
  assert (Tv : forall b n d, tail b n d <> Raise ValueError).
  { intros b n d. unfold tail. destruct nt, np, (f_record fixed); cbn; discriminate. }
  assert (Tp : forall b n d p, tail b n d = Ok p -> p_n_bands p = n /\ p_dims p = d).
  { intros b n d p. unfold tail. destruct nt, np, (f_record fixed); cbn; intros [= <-]; auto. }
  assert (Tt : forall b n d, f_record fixed <> None \/ nt <> None /\ np <> None -> exists p, tail b n d = Ok p).
  { intros b n d. unfold tail. destruct nt, np, (f_record fixed); cbn; intros [?|[? ?]]; try congruence; eauto. }
  assert (E : packer_init fixed dims bands nb nt np =
     (bnd <- packer_dims dims bands nb ;; let '(b, n, d) := bnd in tail b n d)) by reflexivity.
  rewrite E. clear E. unfold packer_dims. set (bs := match bands with Some b => b | None => default_bands end).
  destruct dims as [l|].
  - destruct (name_in "band" l) eqn:Eb; cbn [negb].
    + destruct (same_names l ["tract"; "patch"; "skymap"; "band"]) eqn:Es; cbn [negb bind].
      * apply Hsame, Hperm4 in Es. split; [|split].
        -- split; [intros H; now apply Tv in H|]. intros (l' & [= <-] & _ & H). contradiction.
        -- intros p H. apply Tp in H. destruct H as [_ ->]. split; [intros _; now apply Hin|]. split; [discriminate|auto].
        -- intros H. left. now apply Tt.
      * assert (Hn4 : ~ is l ["skymap"; "tract"; "patch"; "band"]).
        { intros H. apply Hperm4, Hsame in H. congruence. }
        split; [|split].
        -- split; [|reflexivity]. intros _. exists l. split; [reflexivity|]. split; [now apply Hbnd|exact Hn4].
        -- discriminate.
        -- auto.
    + destruct (same_names l ["tract"; "patch"; "skymap"]) eqn:Es; cbn [negb bind].
      * apply Hsame, Hperm3 in Es. split; [|split].
        -- split; [intros H; now apply Tv in H|]. intros (l' & [= <-] & H & _). contradiction.
        -- intros p H. apply Tp in H. destruct H as [-> ->]. split; [congruence|]. split; [discriminate|auto].
        -- intros H. left. now apply Tt.
      * assert (Hn3 : ~ is l ["skymap"; "tract"; "patch"]).
        { intros H. apply Hperm3, Hsame in H. congruence. }
        split; [|split].
        -- split; [|reflexivity]. intros _. exists l. split; [reflexivity|]. split; [exact Hn3|now apply Hnobnd].
        -- discriminate.
        -- auto.
  - cbn [bind]. set (n := match nb with Some n => n | None => _ end). split; [|split].
    + split; [intros H; now apply Tv in H|]. intros (l & [=] & _).
    + intros p H. apply Tp in H. destruct H as [-> ->].
      destruct (Z.eqb_spec n 0); cbn [negb]; split; try (intros; contradiction).
      * split; [|left; intros x; reflexivity]. intros _ H. cbn in H. intuition congruence.
      * intros _. cbn. auto.
      * split; [auto|]. right; intros x; reflexivity.
    + intros H. left. now apply Tt.
Qed.

(*@ C51 REFUTED, first half: with explicit dimensions including band and n_bands = 0, band is a
    dimension of the packer but takes no part in packing: two data ids that differ in band get the
    same id, and unpack of any id raises (with at least one patch). *)
Lemma packer_band_ignored_refuted_proof : forall fixed bands p,
  packer_init fixed (Some ["skymap"; "tract"; "patch"; "band"]) bands (Some 0) (Some 10) (Some 9) = Ok p ->
  In "band" (p_dims p) /\ p_n_bands p = 0
  /\ (exists n, packer_pack p (mkDataId (f_skymap fixed) 1 2 (Some "g")) = Ok n
             /\ packer_pack p (mkDataId (f_skymap fixed) 1 2 (Some "r")) = Ok n)
  /\ (forall n, packer_unpack p n = Raise KeyError).
Proof.
  intros fixed bands p H. unfold packer_init in H. cbn in H. injection H as <-. cbn [p_dims p_n_bands].
  split; [cbn; auto|]. split; [reflexivity|]. split.
  - exists 11. unfold packer_pack, packer_pack0. cbn [d_skymap p_fixed]. rewrite String.eqb_refl. split; reflexivity.
  - intros n. reflexivity.
Qed.

(*@ C51: a packer made from a configuration has the bands of the configuration (the 28 standard ones if it
    has none), as many bands, tracts and patches as the configuration says, and, where it leaves the
    counts open, the number of its bands, the tract maximum of the skymap record and the product of the
    patch maxima of the record; the default configuration packs tract and patch only. *)
Lemma packer_from_config_correct_proof : forall fixed cfg p, packer_from_config fixed cfg = Ok p ->
  p_fixed p = fixed
  /\ (forall b, c_bands cfg = Some b -> p_bands p = b) /\ (c_bands cfg = None -> p_bands p = default_bands)
  /\ (forall n, c_n_bands cfg = Some n -> p_n_bands p = n)
  /\ (c_n_bands cfg = None -> p_n_bands p = Z.of_nat (List.length (p_bands p)))
  /\ (forall n, c_n_tracts cfg = Some n -> p_n_tracts p = n)
  /\ (c_n_tracts cfg = None -> exists r, f_record fixed = Some r /\ p_n_tracts p = r_tract_max r)
  /\ (forall n, c_n_patches cfg = Some n -> p_n_patches p = n)
  /\ (c_n_patches cfg = None -> exists r, f_record fixed = Some r /\ p_n_patches p = r_nx_max r * r_ny_max r)
  /\ (cfg = default_packer_config -> p_dims p = ["skymap"; "tract"; "patch"]
        /\ forall d, d_skymap d = f_skymap fixed -> 0 <= d_tract d < p_n_tracts p -> 0 <= d_patch d < p_n_patches p ->
             packer_pack p d = Ok (d_patch d + p_n_patches p * d_tract d)
             /\ packer_unpack p (d_patch d + p_n_patches p * d_tract d)
                = Ok (mkDataId (d_skymap d) (d_tract d) (d_patch d) None)).
Proof.
  intros fixed [bs nb nt np] p E. unfold packer_from_config, packer_init, packer_dims in E.
  cbn [c_bands c_n_bands c_n_tracts c_n_patches] in *. cbn [bind] in E.
  destruct (match nt with Some n => Ok n | None => _ end) as [t|] eqn:Et; [|discriminate]. cbn [bind] in E.
  destruct (match np with Some n => Ok n | None => _ end) as [q|] eqn:Eq; [|discriminate]. cbn [bind] in E.
  injection E as <-. cbn [p_fixed p_bands p_n_bands p_n_tracts p_n_patches p_dims].
  split; [reflexivity|]. split; [intros b ->; reflexivity|]. split; [intros ->; reflexivity|].
  split; [intros n ->; reflexivity|]. split; [intros ->; reflexivity|].
  split; [intros n ->; now injection Et|]. split.
  { intros ->. destruct (f_record fixed) as [r|]; [|discriminate]. exists r. split; [reflexivity|now injection Et]. }
  split; [intros n ->; now injection Eq|]. split.
  { intros ->. destruct (f_record fixed) as [r|]; [|discriminate]. exists r. split; [reflexivity|now injection Eq]. }
  unfold default_packer_config. intros H. injection H as -> -> -> ->. split; [reflexivity|].
  intros [sk tr pa ba]. cbn [d_skymap d_tract d_patch]. intros Hs Ht Hp. split.
  - unfold packer_pack, packer_pack0. cbn [p_fixed d_skymap d_tract d_patch p_n_patches p_n_tracts p_n_bands].
    rewrite Hs, String.eqb_refl. cbn [negb].
    destruct (Z.leb_spec q pa); [lia|]. destruct (Z.leb_spec t tr); [lia|]. reflexivity.
  - unfold packer_unpack. cbn [p_fixed p_n_patches p_n_tracts p_n_bands p_dims].
    cbn [Z.eqb negb bind]. unfold py_divmod. destruct (Z.eqb_spec q 0); [lia|]. cbn [bind fst snd].
    replace (pa + q * tr) with (tr * q + pa) by ring.
    rewrite Z.div_add_l by lia. rewrite (Z.add_comm (tr * q) pa), Z.mod_add by lia.
    rewrite Z.div_small, Z.mod_small, Z.add_0_r, Hs by lia. reflexivity.
Qed.

(*@ C51: exactly when band is a dimension of the packer but takes no part in packing: when the dimensions are
    given explicitly with band, and n_bands is 0, or not given with an empty mapping. *)
Lemma packer_band_ignored_exactly_proof : forall fixed dims bands n_bands nt np p,
  packer_init fixed dims bands n_bands nt np = Ok p ->
  (In "band" (p_dims p) /\ p_n_bands p = 0 <->
     (exists l, dims = Some l /\ In "band" l) /\ (n_bands = Some 0 \/ n_bands = None /\ bands = Some [])).
Proof.
  intros fixed dims bands n_bands nt np p E. unfold packer_init in E.
  destruct (packer_dims dims bands n_bands) as [[[bs n] ds]|] eqn:D; [|discriminate]. cbn [bind] in E.
  destruct (match nt with Some n => Ok n | None => _ end) as [t|]; [|discriminate]. cbn [bind] in E.
  destruct (match np with Some n => Ok n | None => _ end) as [q|]; [|discriminate]. cbn [bind] in E.
  injection E as <-. cbn [p_dims p_n_bands]. unfold packer_dims in D.
  assert (N : match n_bands with Some n => n | None => Z.of_nat (List.length (match bands with Some b => b | None => default_bands end)) end = 0
              <-> n_bands = Some 0 \/ n_bands = None /\ bands = Some []).
  { destruct n_bands as [k|]; [split; [intros ->; now left|intros [H|[H _]]; congruence]|].
    destruct bands as [[|x l]|]; [split; [intros _; right; split; reflexivity|intros; reflexivity]| |].
    - split; [intros H; cbn in H; lia|intros [H|[_ H]]; discriminate].
    - split; [intros H; discriminate H|intros [H|[_ H]]; discriminate]. }
  destruct dims as [l|].
  - destruct (name_in "band" l) eqn:B; cbn [negb] in D.
    + assert (HB : In "band" l).
      { unfold name_in in B. apply existsb_exists in B. destruct B as (x & Hx & Ex). apply String.eqb_eq in Ex. now subst x. }
      destruct (same_names l _); [|discriminate]. cbn [negb] in D. injection D as <- <- <-. rewrite N.
      split; [intros [_ H]; split; [now exists l|exact H]|intros [_ H]; now split].
    + destruct (same_names l _); [|discriminate]. cbn [negb] in D. injection D as <- <- <-.
      assert (HB : ~ In "band" l).
      { intros H. unfold name_in in B. assert (existsb (String.eqb "band") l = true) as K; [|congruence].
        apply existsb_exists. exists "band"%string. split; [exact H|reflexivity]. }
      split; [intros [H _]; contradiction|]. intros [(l' & H & K) _]. injection H as <-. contradiction.
  - injection D as <- <- <-. split; [|intros [(l' & H & _) _]; discriminate].
    intros [H Z0]. rewrite Z0 in H. cbn in H. exfalso. intuition discriminate.
Qed.

(*@ C46-C48, C50, C51, non-vacuity: a packer with the default bands made from a skymap record, a data id it
    accepts, and its id. *)
Example packer_hypotheses_met_proof :
  exists p, packer_init (mkFixed "s" (Some (mkSkymapRec 100 9 9))) None None None None None = Ok p
    /\ p_n_bands p = 28 /\ distinct_numbers (p_bands p) /\ packer_maxBits p = 18
    /\ packer_pack p (mkDataId "s" 42 17 (Some "i")) = Ok (17 + 81 * 42 + 4 * 81 * 100)
    /\ nonneg_id p (mkDataId "s" 42 17 (Some "i"))
    /\ packer_unpack p (17 + 81 * 42 + 4 * 81 * 100) = Ok (mkDataId "s" 42 17 (Some "i")).
Proof.
  eexists. split; [reflexivity|]. split; [reflexivity|]. split.
  - cbn [p_bands]. intros b b' k H H'. destruct default_bands_ok as [Hd Ho].
    destruct (numbered_position _ _ _ Hd Ho H) as [_ E]. destruct (numbered_position _ _ _ Hd Ho H') as [_ E']. congruence.
  - split; [reflexivity|]. split; [reflexivity|]. split; [|reflexivity].
    split; [cbn; lia|]. split; [cbn; lia|]. cbn [p_bands]. intros _ b k _ H. destruct default_bands_ok as [Hd Ho].
    apply (numbered_position _ _ _ Hd Ho H).
Qed.
