(** The layout of packed ids (C74). *)
From Coq Require Import String.
Require Import Verif.Py Verif.Packers Verif.MainPackers.
Open Scope string_scope.
Open Scope list_scope.
Open Scope Z_scope.
Local Arguments Z.mul : simpl never.

(** The band numbers in ids written to disk. *)
Definition released_bands : list (string * Z) :=
  [("u", 1); ("g", 2); ("r", 3); ("i", 4); ("z", 5); ("y", 6); ("U", 7); ("B", 8); ("G", 9); ("V", 10); ("R", 11);
   ("I", 12); ("Z", 13); ("Y", 14); ("J", 15); ("H", 16); ("K", 17); ("N387", 18); ("N515", 19); ("N656", 20);
   ("N816", 21); ("N921", 22); ("N1010", 23); ("N419", 24); ("N540", 25); ("N708", 26); ("N964", 27)].

Lemma default_number b k : dict_get default_bands (Some b) = Some k <-> In (b, k) released_bands.
Proof.
  rewrite (dict_get_nth _ _ _ (proj1 default_bands_ok)).
  assert (E : default_bands = (None, 0) :: map (fun e => (Some (fst e), snd e)) released_bands) by reflexivity.
  rewrite E. split.
  - intros ([|i] & H); [discriminate|]. cbn [nth_error] in H. apply nth_error_In in H. apply in_map_iff in H.
    destruct H as ([b' k'] & H & Hin). injection H as <- <-. exact Hin.
  - intros H. destruct (In_nth_error _ _ H) as (i & Hi). exists (S i). cbn [nth_error].
    rewrite nth_error_map, Hi. reflexivity.
Qed.

Lemma init_fields fixed dims nb nt np p : packer_init fixed dims None nb nt np = Ok p ->
  p_fixed p = fixed /\ p_bands p = default_bands
  /\ p_n_tracts p = match nt, f_record fixed with Some n, _ => n | None, Some r => r_tract_max r | None, None => 0 end
  /\ p_n_patches p = match np, f_record fixed with Some n, _ => n | None, Some r => r_nx_max r * r_ny_max r | None, None => 0 end
  /\ p_n_bands p = match dims, nb with
                   | Some l, _ => if name_in "band" l then match nb with Some n => n | None => 28 end else 0
                   | None, Some n => n | None, None => 28 end.
Proof.
  unfold packer_init. destruct (packer_dims dims None nb) as [[[b0 n0] d0]|] eqn:E; [|discriminate]. cbn [bind].
  intros Hi. destruct (match nt with Some _ => _ | None => _ end) as [t|] eqn:Et in Hi; [|discriminate]. cbn [bind] in Hi.
  destruct (match np with Some _ => _ | None => _ end) as [q|] eqn:Eq in Hi; [|discriminate]. cbn [bind] in Hi.
  injection Hi as <-. cbn [p_fixed p_bands p_n_tracts p_n_patches p_n_bands]. split; [reflexivity|].
  unfold packer_dims in E. assert (B : b0 = default_bands /\ n0 = match dims, nb with
                   | Some l, _ => if name_in "band" l then match nb with Some n => n | None => 28 end else 0
                   | None, Some n => n | None, None => 28 end).
  { destruct dims as [dl|].
    - destruct (name_in "band" dl); cbn [negb] in E; destruct (negb _) in E; try discriminate; injection E as <- <- _; split; reflexivity.
    - injection E as <- <- _. split; reflexivity. }
  destruct B as [-> ->]. split; [reflexivity|].
  split; [destruct nt; [|destruct (f_record fixed); [|discriminate]]; congruence|].
  split; [destruct np; [|destruct (f_record fixed); [|discriminate]]; congruence|reflexivity].
Qed.

(*@ C74: the layout of packed ids, on which ids already written to disk depend.  A packer made without a band
    mapping packs (tract, patch) to patch + P*tract, and with bands to patch + P*(tract + T*number of the band):
    T is n_tracts or else the tract_max of the sky map record, P is n_patches or else patch_nx_max*patch_ny_max, bands take
    part if the dimensions (when given) have band and n_bands is not 0 (28 if not given), and the numbers of the bands are
    those of the list. *)
Lemma packed_id_layout_proof : forall fixed dims n_bands nt np p d n,
  packer_init fixed dims None n_bands nt np = Ok p ->
  (packer_pack p d = Ok n <->
   exists T P B,
     (nt = Some T \/ nt = None /\ exists r, f_record fixed = Some r /\ T = r_tract_max r)
     /\ (np = Some P \/ np = None /\ exists r, f_record fixed = Some r /\ P = r_nx_max r * r_ny_max r)
     /\ B = (if match dims with Some l => name_in "band" l | None => true end
             then match n_bands with Some b => b | None => 28 end else 0)
     /\ d_skymap d = f_skymap fixed /\ d_tract d < T /\ d_patch d < P
     /\ ((B = 0 /\ n = d_patch d + P * d_tract d)
         \/ B <> 0 /\ exists band k, d_band d = Some band /\ In (band, k) released_bands /\ k < B
              /\ n = d_patch d + P * (d_tract d + T * k))).
Proof.
  intros fixed dims nb nt np p d n Hi. destruct (init_fields _ _ _ _ _ _ Hi) as (F1 & F2 & F3 & F4 & F5).
  assert (HT : nt = Some (p_n_tracts p) \/ nt = None /\ exists r, f_record fixed = Some r /\ p_n_tracts p = r_tract_max r).
  { rewrite F3. destruct nt; [now left|]. right. split; [reflexivity|]. destruct (f_record fixed) as [r|] eqn:E; [eauto|].
    exfalso. unfold packer_init in Hi. destruct (packer_dims _ _ _) as [[[? ?] ?]|]; cbn [bind] in Hi; [|discriminate]. rewrite E in Hi. discriminate. }
  assert (HP : np = Some (p_n_patches p) \/ np = None /\ exists r, f_record fixed = Some r /\ p_n_patches p = r_nx_max r * r_ny_max r).
  { rewrite F4. destruct np; [now left|]. right. split; [reflexivity|]. destruct (f_record fixed) as [r|] eqn:E; [eauto|].
    exfalso. unfold packer_init in Hi. destruct (packer_dims _ _ _) as [[[? ?] ?]|]; cbn [bind] in Hi; [|discriminate]. rewrite E in Hi.
    destruct (match nt with Some _ => _ | None => _ end); discriminate. }
  assert (HB : p_n_bands p = (if match dims with Some l => name_in "band" l | None => true end
             then match nb with Some b => b | None => 28 end else 0)).
  { rewrite F5. destruct dims as [l|]; [destruct (name_in "band" l), nb; reflexivity|destruct nb; reflexivity]. }
  split.
  - intros H. destruct (pack_inv p d n H) as (A1 & A2 & A3 & A4). rewrite F1 in A1.
    exists (p_n_tracts p), (p_n_patches p), (p_n_bands p). split; [exact HT|]. split; [exact HP|]. split; [exact HB|].
    split; [exact A1|]. split; [exact A3|]. split; [exact A2|]. destruct A4 as [A4|(A4 & k & (b & Eb & Ek) & Hk & ->)]; [now left|].
    right. split; [exact A4|]. exists b, k. split; [exact Eb|]. rewrite F2 in Ek. apply default_number in Ek. split; [exact Ek|].
    split; [exact Hk|ring].
  - intros (T & P & B & KT & KP & -> & K1 & K2 & K3 & K4). rewrite <- HB in K4.
    assert (T = p_n_tracts p) as ->.
    { destruct KT as [->|(-> & r & Er & ->)]; destruct HT as [HT|(HT & r' & Er' & ->)]; congruence. }
    assert (P = p_n_patches p) as ->.
    { destruct KP as [->|(-> & r & Er & ->)]; destruct HP as [HP|(HP & r' & Er' & ->)]; congruence. }
    unfold packer_pack, packer_pack0. rewrite F1, K1, String.eqb_refl. cbn [negb].
    destruct (Z.leb_spec (p_n_patches p) (d_patch d)); [lia|]. destruct (Z.leb_spec (p_n_tracts p) (d_tract d)); [lia|].
    destruct K4 as [[K4 ->]|(K4 & b & k & Eb & Hin & Hk & ->)].
    + rewrite K4. reflexivity.
    + destruct (Z.eqb_spec (p_n_bands p) 0); [lia|]. cbn [negb]. rewrite Eb. apply default_number in Hin. rewrite F2, Hin.
      destruct (Z.leb_spec (p_n_bands p) k); [lia|]. f_equal. ring.
Qed.

(*@ C74: a concrete case: tract 5, patch 7, band i of a sky map with tracts up to 9 and 3 x 4 patches. *)
Example packed_id_layout_example_proof :
  exists p, packer_init (mkFixed "m" (Some (mkSkymapRec 10 3 4))) None None None None None = Ok p
    /\ packer_pack p (mkDataId "m" 5 7 (Some "i")) = Ok (7 + 12 * (5 + 10 * 4)).
Proof. eexists. split; reflexivity. Qed.

(*@ C96: what unpack does for any integer n, T tracts, P patches.  Without bands: tract n // P and patch n % P (however large or
    negative n is), KeyError if band is a dimension.  With bands: the band at position n // (T*P) of the mapping, counted from the end if negative,
    IndexError if there is none and ValueError if it is the None of the default mapping; tract and patch from the remainder.
    ZeroDivisionError if a count that is divided by is 0. *)
Lemma unpack_outcome_proof : forall p n,
  let T := p_n_tracts p in let P := p_n_patches p in let s := f_skymap (p_fixed p) in
  let L := Z.of_nat (length (p_bands p)) in let i := n / (T * P) in let r := n mod (T * P) in
  (p_n_bands p = 0 ->
     (P = 0 -> packer_unpack p n = Raise ZeroDivisionError)
     /\ (P <> 0 -> In "band" (p_dims p) -> packer_unpack p n = Raise KeyError)
     /\ (P <> 0 -> ~ In "band" (p_dims p) -> packer_unpack p n = Ok (mkDataId s (n / P) (n mod P) None)))
  /\ (p_n_bands p <> 0 ->
     (T = 0 \/ P = 0 -> packer_unpack p n = Raise ZeroDivisionError)
     /\ (T <> 0 -> P <> 0 ->
          (i < - L \/ L <= i -> packer_unpack p n = Raise IndexError)
          /\ (forall key number, - L <= i < L -> nth_error (p_bands p) (Z.to_nat (if i <? 0 then L + i else i)) = Some (key, number) ->
                packer_unpack p n = match key with
                                    | Some b => Ok (mkDataId s (r / P) (r mod P) (Some b))
                                    | None => Raise ValueError
                                    end))).
Proof.
  intros p n T P s L i r. unfold packer_unpack, py_divmod. fold T P s.
  assert (Nm : forall l, name_in "band" l = true <-> In "band" l).
  { intros l. unfold name_in. rewrite existsb_exists. split; [intros (x & Hx & E); apply String.eqb_eq in E; now subst x|].
    intros H. exists "band". split; [exact H|apply String.eqb_refl]. }
  split.
  - intros E. rewrite E. cbn [Z.eqb negb bind fst snd]. split; [intros ->; reflexivity|]. split; intros HP H; apply Z.eqb_neq in HP; rewrite HP; cbn [bind fst snd].
    + apply Nm in H. now rewrite H.
    + destruct (name_in "band" (p_dims p)) eqn:N; [exfalso; now apply H, Nm|reflexivity].
  - intros E. apply Z.eqb_neq in E. rewrite E. cbn [negb]. split.
    + intros H. assert (Z0 : T * P = 0) by (destruct H as [-> | ->]; lia). rewrite Z0. reflexivity.
    + intros HT HP. destruct (Z.eqb_spec (T * P) 0) as [Z0|_]; [apply Z.mul_eq_0 in Z0; tauto|]. cbn [bind fst snd]. fold i r.
      assert (Hl : Z.of_nat (length (map fst (p_bands p))) = L) by (now rewrite map_length). unfold py_nth. rewrite Hl. split.
      * intros H. destruct (Z.ltb_spec i 0); [destruct (Z.leb_spec 0 (i + L)); [lia|reflexivity]|].
        destruct (Z.leb_spec 0 i); [|lia]. destruct (Z.ltb_spec i L); [lia|reflexivity].
      * intros key number H N. apply Z.eqb_neq in HP.
        assert (F : nth_error (map fst (p_bands p)) (Z.to_nat (if i <? 0 then i + L else i)) = Some key).
        { rewrite nth_error_map. replace (if i <? 0 then i + L else i) with (if i <? 0 then L + i else i) by (destruct (i <? 0); lia). now rewrite N. }
        rewrite F. destruct (Z.ltb_spec i 0).
        -- destruct (Z.leb_spec 0 (i + L)); [|lia]. destruct (Z.ltb_spec (i + L) L); [|lia]. cbn [andb bind fst snd]. rewrite HP. destruct key; reflexivity.
        -- destruct (Z.leb_spec 0 i); [|lia]. destruct (Z.ltb_spec i L); [|lia]. cbn [andb bind fst snd]. rewrite HP. destruct key; reflexivity.
Qed.

(*@ C96: unpacking and packing again: the patch of an unpacked data id is always in range, with bands the tract too; packing it gives back the
    integer exactly if, without bands, the tract is less than T, and with bands, the band's number is n // (T*P) and less than n_bands. *)
Lemma pack_unpack_iff_proof : forall p n d,
  let T := p_n_tracts p in let P := p_n_patches p in
  0 < T -> 0 < P -> packer_unpack p n = Ok d ->
  0 <= d_patch d < P
  /\ (p_n_bands p = 0 -> d_band d = None /\ (packer_pack p d = Ok n <-> d_tract d < T))
  /\ (p_n_bands p <> 0 -> 0 <= d_tract d < T
      /\ exists b, d_band d = Some b
         /\ (packer_pack p d = Ok n <-> dict_get (p_bands p) (Some b) = Some (n / (T * P)) /\ n / (T * P) < p_n_bands p)).
Proof.
  intros p n d T P HT HP H.
  assert (Pk : forall t q b, packer_pack p (mkDataId (f_skymap (p_fixed p)) t q b) = packer_pack0 p (mkDataId (f_skymap (p_fixed p)) t q b)).
  { intros t q b. unfold packer_pack. cbn [d_skymap]. now rewrite String.eqb_refl. }
  unfold packer_unpack, py_divmod in H. fold T P in H.
  destruct (Z.eqb_spec P 0) as [|_]; [lia|]. destruct (Z.eqb_spec (p_n_bands p) 0) as [E|E]; cbn [negb bind fst snd] in H.
  - destruct (name_in "band" (p_dims p)); [discriminate|]. injection H as <-. cbn [d_patch d_tract d_band].
    pose proof (Z.mod_pos_bound n P HP) as B. split; [exact B|]. split; [|contradiction]. intros _. split; [reflexivity|].
    rewrite Pk. unfold packer_pack0. cbn [d_patch d_tract d_band]. fold T P. rewrite E. cbn [Z.eqb negb].
    destruct (Z.leb_spec P (n mod P)); [lia|]. pose proof (Z.div_mod n P ltac:(lia)).
    destruct (Z.leb_spec T (n / P)); split; try (intros; lia); try discriminate. intros _. f_equal. lia.
  - assert (HTP : 0 < T * P) by nia. destruct (Z.eqb_spec (T * P) 0) as [|_]; [lia|]. cbn [bind fst snd] in H.
    destruct (py_nth (map fst (p_bands p)) (n / (T * P))) as [[b|]|] eqn:N; cbn [bind fst snd] in H; [|discriminate|discriminate].
    injection H as <-. cbn [d_patch d_tract d_band].
    pose proof (Z.mod_pos_bound n (T * P) HTP) as B0. pose proof (Z.mod_pos_bound (n mod (T * P)) P HP) as B. split; [exact B|].
    split; [contradiction|]. intros _.
    assert (BT : 0 <= n mod (T * P) / P < T) by (split; [apply Z.div_pos; lia|apply Z.div_lt_upper_bound; lia]). split; [exact BT|].
    exists b. split; [reflexivity|]. rewrite Pk. unfold packer_pack0. cbn [d_patch d_tract d_band]. fold T P.
    apply Z.eqb_neq in E. rewrite E. cbn [negb].
    destruct (Z.leb_spec P (n mod (T * P) mod P)); [lia|]. destruct (Z.leb_spec T (n mod (T * P) / P)); [lia|].
    pose proof (Z.div_mod n (T * P) ltac:(lia)) as D1. pose proof (Z.div_mod (n mod (T * P)) P ltac:(lia)) as D2.
    set (q := n / (T * P)) in *. set (u := n mod (T * P)) in *. set (t := u / P) in *. set (v := u mod P) in *.
    destruct (dict_get (p_bands p) (Some b)) as [k|]; [|split; [discriminate|intros [? _]; discriminate]].
    destruct (Z.leb_spec (p_n_bands p) k) as [Hk|Hk].
    + split; [discriminate|]. intros [Ek Hq]. injection Ek as ->. lia.
    + split.
      * intros Eq. injection Eq as Eq. assert (k = q) as -> by (clear - Eq D1 D2 HTP; nia). split; [reflexivity|lia].
      * intros [Ek Hq]. injection Ek as ->. f_equal. clear - D1 D2. nia.
Qed.

(*@ C96: concrete cases: with the default bands, 10 tracts and 3 x 3 patches the integer -1 is unpacked to tract 9, patch 8, band N964 (the last), which
    packs to 2519; without bands 1000 is unpacked to tract 111, which pack rejects. *)
Example unpack_any_integer_example_proof :
  (exists p d, packer_init (mkFixed "m" (Some (mkSkymapRec 10 3 3))) None None None None None = Ok p
     /\ packer_unpack p (-1) = Ok d /\ d = mkDataId "m" 9 8 (Some "N964") /\ packer_pack p d = Ok 2519)
  /\ (exists p d, packer_init (mkFixed "m" (Some (mkSkymapRec 10 3 3))) None None (Some 0) None None = Ok p
     /\ packer_unpack p 1000 = Ok d /\ d = mkDataId "m" 111 1 None /\ packer_pack p d = Raise ValueError).
Proof. split; (eexists; eexists; split; [reflexivity|]; split; [reflexivity|]; split; reflexivity). Qed.
