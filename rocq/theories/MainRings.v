(** The rings sky map: numbering and point location (C24-C32, C34). *)
From Coq Require Import Reals Lra Sorted.
From Flocq Require Import Raux.
Require Import Verif.Py Verif.Geom Verif.PatchInfo Verif.TractBuilder Verif.TractInfo Verif.Spec.
Require Import Verif.SkyMap Verif.SkySpec Verif.SkyProofs Verif.SkyProofs2.
Require Import Verif.Rings Verif.RingsSpec Verif.RingsProofs Verif.RingsProofs2 Verif.RingsProofs3.
Open Scope Z_scope.
Local Arguments Z.mul : simpl never.

(*@ C24: the constructor accepts versions 0 and 1 only, and makes a layout of numRings rings of at
    least 3 tracts each; len(skymap) is the sum of the ring sizes plus 2. *)
Lemma rings_layout_proof : forall numRings raStart version,
  1 <= numRings ->
  (version <> 0 -> version <> 1 -> rings_init numRings raStart version = Raise AssertionError)
  /\ (version = 0 \/ version = 1 ->
      exists g, rings_init numRings raStart version = Ok g
        /\ rings_wf g /\ at_least 3 g
        /\ rg_numRings g = numRings /\ rg_version g = version
        /\ forall (c : tb_config) mk ov, sd_num (rings_def c mk ov g) = zsum (rg_nums g) + 2).
Proof.
  intros N ra v HN. split.
  - intros H0 H1. unfold rings_init. destruct (Z.eqb_spec v 0); [lia|]. destruct (Z.eqb_spec v 1); [lia|]. reflexivity.
  - intros Hv. destruct (rings_init N ra v) as [g|e] eqn:E.
    + exists g. destruct (rings_init_wf N ra v g HN E) as (A & B & C & _ & D). auto 10.
    + exfalso. unfold rings_init in E. destruct Hv as [-> | ->]; discriminate.
Qed.

(*@ C25: version 1 numbering: index 0 is the south cap, index len-1 the north cap, and tract t of
    ring r has index 1 + (tracts in the rings before r) + t; every other index has exactly one such
    pair, larger indices have lexicographically larger pairs, and out-of-range indices raise. *)
Lemma rings_numbering_proof : forall g, rings_wf g -> rg_version g = 1 ->
  getRingIndices g 0 = Ok (-1, 0)
  /\ getRingIndices g (rings_numTracts g - 1) = Ok (rg_numRings g, 0)
  /\ (forall r n t, ring_has g r n -> 0 <= t < n ->
        0 < 1 + before g r + t < rings_numTracts g - 1
        /\ getRingIndices g (1 + before g r + t) = Ok (r, t))
  /\ (forall i, 0 < i < rings_numTracts g - 1 ->
        exists r n t, ring_has g r n /\ 0 <= t < n /\ i = 1 + before g r + t)
  /\ (forall i j r t r' t', 0 <= i < rings_numTracts g -> 0 <= j < rings_numTracts g ->
        getRingIndices g i = Ok (r, t) -> getRingIndices g j = Ok (r', t') ->
        (i < j <-> r < r' \/ r = r' /\ t < t'))
  /\ (forall i, i < 0 \/ rings_numTracts g <= i -> getRingIndices g i = Raise IndexError).
Proof.
  intros g W V. pose proof (len_pos g W) as HL.
  split; [reflexivity|]. split; [now apply indices_north|]. split; [|split; [|split]].
  - intros r n t H Ht. split; [exact (nominal_inner g W r n t H Ht)|]. exact (indices_v1 g W r n t V H Ht).
  - intros i Hi. exact (nominal_surj g W i Hi).
  - assert (K : forall i r t, 0 <= i < rings_numTracts g -> getRingIndices g i = Ok (r, t) ->
        i = 0 /\ r = -1 /\ t = 0 \/ i = rings_numTracts g - 1 /\ r = rg_numRings g /\ t = 0
        \/ 0 < i < rings_numTracts g - 1 /\ exists n, ring_has g r n /\ 0 <= t < n /\ i = nominal_index g r t).
    { intros i r t Hi E. destruct (index_cases g W i Hi) as [->|[->|(r' & n & t' & H & Ht & ->)]].
      - rewrite indices_south in E. injection E as <- <-. now left.
      - rewrite (indices_north g W) in E. injection E as <- <-. right; now left.
      - rewrite (indices_v1 g W r' n t' V H Ht) in E. injection E as <- <-. right; right.
        split; [eapply nominal_inner; eauto|]. exists n. auto. }
    intros i j r t r' t' Hi Hj Ei Ej. apply (K i r t Hi) in Ei. apply (K j r' t' Hj) in Ej.
    pose proof (rw_rings g W) as HN.
    destruct Ei as [(-> & -> & ->)|[(-> & -> & ->)|(Hi' & n & H & Ht & Ei)]];
    destruct Ej as [(-> & -> & ->)|[(-> & -> & ->)|(Hj' & n' & H' & Ht' & Ej)]];
      try (pose proof (ring_has_lt g W _ _ H)); try (pose proof (ring_has_lt g W _ _ H')); try lia.
    rewrite Ei, Ej. apply (nominal_lt g W r n t r' n' t' H Ht H' Ht').
  - intros i Hi. now apply indices_out.
Qed.

(*@ C25: the tracts of a version 1 map have pairwise different centres; the centre of tract t of
    ring r is at RA raStart + 360 t / n and at the middle declination of the ring. *)
Lemma rings_centres_distinct_proof : forall g, rings_wf g -> rg_version g = 1 ->
  (forall r n t, ring_has g r n -> 0 <= t < n ->
     rings_center g (1 + before g r + t)
     = Ok (wrap (2 * PI * IZR t / IZR n + rg_raStart g),
           (firstRingStart g + (IZR r + 1 / 2) * rg_size g))%R)
  /\ forall i j c, 0 <= i < rings_numTracts g -> 0 <= j < rings_numTracts g ->
       rings_center g i = Ok c -> rings_center g j = Ok c -> i = j.
Proof.
  intros g W V. split.
  - intros r n t H Ht. change (1 + before g r + t) with (nominal_index g r t).
    rewrite (center_v1 g W r n t V H Ht). unfold position, firstRingStart. do 2 f_equal. field.
  - assert (K : forall i c, 0 <= i < rings_numTracts g -> rings_center g i = Ok c ->
        i = 0 /\ snd c = (- (1 / 2) * PI)%R \/ i = rings_numTracts g - 1 /\ snd c = (1 / 2 * PI)%R
        \/ exists r n t, ring_has g r n /\ 0 <= t < n /\ c = position g r t n /\ i = nominal_index g r t).
    { intros i c Hi E. destruct (index_cases g W i Hi) as [->|[->|(r & n & t & H & Ht & ->)]].
      - rewrite center_south in E. injection E as <-. now left.
      - rewrite (center_north g W) in E. injection E as <-. now right; left.
      - rewrite (center_v1 g W r n t V H Ht) in E. injection E as <-. right; right. exists r, n, t. auto. }
    intros i j c Hi Hj Ei Ej. apply K in Ei, Ej; auto. pose proof PI_RGT_0 as HPI.
    destruct Ei as [[-> E]|[[-> E]|(r & n & t & H & Ht & -> & ->)]];
    destruct Ej as [[-> E']|[[-> E']|(r' & n' & t' & H' & Ht' & E' & ->)]];
      try reflexivity; try (exfalso; lra).
    + exfalso. subst c. pose proof (position_not_cap g W r' n' t' H'). lra.
    + exfalso. subst c. pose proof (position_not_cap g W r' n' t' H'). lra.
    + exfalso. pose proof (position_not_cap g W r n t H). lra.
    + exfalso. pose proof (position_not_cap g W r n t H). lra.
    + destruct (position_inj g W r n t r' n' t' H Ht H' Ht' E') as [-> ->]. reflexivity.
Qed.

(*@ C26: version 0 numbering against version 1 of the same layout: all tracts have the version 1
    position except the first tract of each ring after the first, which has the position of the
    first tract of the ring before. *)
Lemma rings_v0_numbering_proof : forall g, rings_wf g -> rg_version g = 0 ->
  rings_numTracts (with_version g 1) = rings_numTracts g
  /\ (forall i, 0 <= i < rings_numTracts g ->
       (forall r, 1 <= r < rg_numRings g -> i <> 1 + before g r) ->
       rings_center g i = rings_center (with_version g 1) i)
  /\ (forall r, 1 <= r < rg_numRings g ->
       rings_center g (1 + before g r) = rings_center (with_version g 1) (1 + before g (r - 1))).
Proof.
  intros g W V. set (g1 := with_version g 1).
  assert (W1 : rings_wf g1) by (destruct W; constructor; auto).
  split; [reflexivity|]. split.
  - intros i Hi Hr. destruct (index_cases g W i Hi) as [->|[->|(r & n & t & H & Ht & ->)]].
    + rewrite !center_south. reflexivity.
    + rewrite (center_north g W). symmetry. exact (center_north g1 W1).
    + rewrite (center_v0 g W r n t V H).
      * symmetry. exact (center_v1 g1 W1 r n t eq_refl H Ht).
      * destruct (Z.eq_dec t 0) as [->|]; [|left; lia]. right. split; [reflexivity|].
        destruct (ring_has_lt g W r n H) as [Hrr _]. destruct (Z.eq_dec r 0); [assumption|].
        exfalso. apply (Hr r); [lia|]. unfold nominal_index. lia.
  - intros r Hr. destruct (ring_has_ex g W (r - 1) ltac:(lia)) as (n & H).
    destruct (ring_has_lt g W _ n H) as [_ Hn].
    replace (1 + before g r) with (nominal_index g (r - 1 + 1) 0) by (unfold nominal_index; replace (r - 1 + 1) with r by lia; lia).
    rewrite (center_v0_first g W (r - 1) n V H ltac:(lia)). symmetry.
    replace (1 + before g (r - 1)) with (nominal_index g1 (r - 1) 0) by (unfold nominal_index; cbn; unfold before; cbn; lia).
    exact (center_v1 g1 W1 (r - 1) n 0 eq_refl H ltac:(lia)).
Qed.

(*@ C26: hence with at least two rings exactly one pair of tracts coincides, indices 1 and
    ringNums[0]+1, no tract is at the position of the first tract of the last ring, and every other
    version 1 position occurs; with one ring the versions agree. *)
Lemma rings_v0_defects_proof : forall g n0, rings_wf g -> rg_version g = 0 -> ring_has g 0 n0 ->
  (rg_numRings g = 1 -> forall i, 0 <= i < rings_numTracts g ->
     rings_center g i = rings_center (with_version g 1) i)
  /\ (2 <= rg_numRings g ->
      rings_center g 1 = rings_center g (n0 + 1)
      /\ (forall i j c, 0 <= i < j -> j < rings_numTracts g ->
            rings_center g i = Ok c -> rings_center g j = Ok c -> i = 1 /\ j = n0 + 1)
      /\ (forall i, 0 <= i < rings_numTracts g -> rings_center g i
            <> rings_center (with_version g 1) (1 + before g (rg_numRings g - 1)))
      /\ (forall i, 0 <= i < rings_numTracts g -> i <> 1 + before g (rg_numRings g - 1) ->
            exists j, 0 <= j < rings_numTracts g /\ rings_center g j = rings_center (with_version g 1) i)).
Proof.
  intros g n0 W V H0. destruct (rings_v0_numbering_proof g W V) as (_ & Hsame & Hfirst).
  set (g1 := with_version g 1) in *.
  assert (W1 : rings_wf g1) by (destruct W; constructor; auto).
  destruct (rings_centres_distinct_proof g1 W1 eq_refl) as [_ Hinj]. change (rings_numTracts g1) with (rings_numTracts g) in Hinj.
  assert (Hn0 : before g 1 = n0) by (change 1 with (0 + 1); rewrite (before_S g 0 n0 H0), before_0; lia).
  split.
  { intros E i Hi. apply Hsame; [exact Hi|]. intros r Hr. lia. }
  intros HN.
  pose proof (len_pos g W) as HL.
  assert (Hstart : forall r, 0 <= r < rg_numRings g -> 0 < 1 + before g r < rings_numTracts g - 1).
  { intros r Hr. destruct (ring_has_ex g W r Hr) as (n & H). destruct (ring_has_lt g W r n H) as [_ Hn].
    pose proof (nominal_inner g W r n 0 H ltac:(lia)). unfold nominal_index in *. lia. }
  assert (Hsi : forall r r', 0 <= r < rg_numRings g -> 0 <= r' < rg_numRings g ->
            (before g r < before g r' <-> r < r')).
  { intros r r' Hr Hr'. destruct (ring_has_ex g W r Hr) as (n & H). destruct (ring_has_lt g W r n H) as [_ Hn].
    destruct (ring_has_ex g W r' Hr') as (n' & H'). destruct (ring_has_lt g W r' n' H') as [_ Hn'].
    pose proof (nominal_lt g W r n 0 r' n' 0 H ltac:(lia) H' ltac:(lia)). unfold nominal_index in *. lia. }
  assert (Hdec : forall i, (exists r, 1 <= r < rg_numRings g /\ i = 1 + before g r)
                           \/ forall r, 1 <= r < rg_numRings g -> i <> 1 + before g r).
  { intros i. destruct (in_dec Z.eq_dec i (map (fun r => 1 + before g r) (zrange 1 (rg_numRings g)))) as [Hin|Hin].
    - left. apply in_map_iff in Hin. destruct Hin as (r & <- & Hr). apply in_zrange in Hr. eauto.
    - right. intros r Hr ->. apply Hin, in_map_iff. exists r. split; [reflexivity|]. apply in_zrange. lia. }
  assert (Hval : forall i, 0 <= i < rings_numTracts g -> exists c, rings_center g1 i = Ok c).
  { intros i Hi. destruct (index_cases g1 W1 i Hi) as [->|[->|(r & n & t & H & Ht & ->)]].
    - rewrite center_south. eauto.
    - rewrite (center_north g1 W1). eauto.
    - rewrite (center_v1 g1 W1 r n t eq_refl H Ht). eauto. }
  split; [|split; [|split]].
  - rewrite (Hsame 1).
    + specialize (Hfirst 1 ltac:(lia)). rewrite Hn0 in Hfirst. rewrite (Z.add_comm n0 1), Hfirst. f_equal.
    + lia.
    + intros r Hr E. pose proof (Hsi 0 r ltac:(lia) ltac:(lia)). rewrite before_0 in *. lia.
  - intros i j c Hij Hj Ei Ej.
    destruct (Hdec i) as [(r & Hr & E)|Hi']; destruct (Hdec j) as [(r' & Hr' & E')|Hj'].
    + exfalso. subst i j. rewrite Hfirst in Ei, Ej by assumption.
      pose proof (Hstart (r - 1) ltac:(lia)). pose proof (Hstart (r' - 1) ltac:(lia)).
      pose proof (Hinj (1 + before g (r - 1)) (1 + before g (r' - 1)) c ltac:(lia) ltac:(lia) Ei Ej) as E.
      pose proof (Hsi (r - 1) (r' - 1) ltac:(lia) ltac:(lia)). pose proof (Hsi (r' - 1) (r - 1) ltac:(lia) ltac:(lia)).
      assert (r = r') by lia. subst. lia.
    + exfalso. subst i. rewrite Hfirst in Ei by assumption. rewrite (Hsame j) in Ej; [|lia|assumption].
      pose proof (Hstart (r - 1) ltac:(lia)).
      pose proof (Hinj (1 + before g (r - 1)) j c ltac:(lia) ltac:(lia) Ei Ej).
      pose proof (Hsi (r - 1) r ltac:(lia) ltac:(lia)). lia.
    + subst j. rewrite Hfirst in Ej by assumption. rewrite (Hsame i) in Ei; [|lia|assumption].
      pose proof (Hstart (r' - 1) ltac:(lia)).
      pose proof (Hinj i (1 + before g (r' - 1)) c ltac:(lia) ltac:(lia) Ei Ej) as E.
      assert (r' = 1); [|subst r'; split; [rewrite E; replace (1 - 1) with 0 by lia; rewrite before_0; lia|lia]].
      destruct (Z.eq_dec r' 1); [assumption|]. exfalso. apply (Hi' (r' - 1)); [lia|exact E].
    + exfalso. rewrite (Hsame i) in Ei; [|lia|assumption]. rewrite (Hsame j) in Ej; [|lia|assumption].
      pose proof (Hinj i j c ltac:(lia) ltac:(lia) Ei Ej). lia.
  - intros i Hi E. set (k := 1 + before g (rg_numRings g - 1)) in *.
    pose proof (Hstart (rg_numRings g - 1) ltac:(lia)) as Hk. fold k in Hk.
    destruct (Hval k ltac:(lia)) as (c & Ec). rewrite Ec in E.
    destruct (Hdec i) as [(r & Hr & Er)|Hi'].
    + subst i. rewrite Hfirst in E by assumption. pose proof (Hstart (r - 1) ltac:(lia)).
      pose proof (Hinj (1 + before g (r - 1)) k c ltac:(lia) ltac:(lia) E Ec).
      pose proof (Hsi (r - 1) (rg_numRings g - 1) ltac:(lia) ltac:(lia)). unfold k in *. lia.
    + rewrite (Hsame i Hi Hi') in E. pose proof (Hinj i k c Hi ltac:(lia) E Ec). subst i.
      apply (Hi' (rg_numRings g - 1)); [lia|reflexivity].
  - intros i Hi Hk. destruct (Hdec i) as [(r & Hr & Er)|Hi'].
    + assert (r < rg_numRings g - 1) by (destruct (Z.eq_dec r (rg_numRings g - 1)); [subst; congruence|lia]).
      exists (1 + before g (r + 1)). pose proof (Hstart (r + 1) ltac:(lia)). split; [lia|].
      rewrite Hfirst by lia. subst i. f_equal. f_equal. f_equal. lia.
    + exists i. auto.
Qed.

(** The arguments of every tract of a rings map can be computed. *)
Lemma rings_args_total g mk ov : rings_wf g ->
  forall i, 0 <= i < rings_numTracts g -> exists a, rings_args mk ov g i = Ok a.
Proof.
  intros W. pose proof (len_pos g W) as HL. intros i Hi. unfold rings_args, getRaDecRange.
    assert (exists r t, getRingIndices g i = Ok (r, t) /\ (r = -1 \/ r = rg_numRings g \/ exists n, ring_has g r n))
      as (r & t & Ei & Hr).
    { destruct (index_cases g W i Hi) as [->|[->|(r & n & t & H & Ht & ->)]].
      - exists (-1), 0. split; [reflexivity|auto].
      - exists (rg_numRings g), 0. split; [now apply indices_north|auto].
      - destruct (rw_version g W) as [V|V].
        + destruct (Z.eq_dec t 0) as [->|].
          * destruct (Z.eq_dec r 0) as [->|].
            -- exists 0, 0. split; [apply (indices_v0 g W 0 n 0 V H); right; right; auto|eauto].
            -- destruct (ring_has_lt g W r n H) as [Hr _].
               destruct (ring_has_ex g W (r - 1) ltac:(lia)) as (m & Hm).
               exists (r - 1), m. split; [|eauto].
               replace (nominal_index g r 0) with (nominal_index g (r - 1 + 1) 0) by (f_equal; lia).
               rewrite (nominal_next g (r - 1) m Hm). apply (indices_v0 g W _ m m V Hm). right; left. lia.
          * exists r, t. split; [apply (indices_v0 g W r n t V H); left; lia|eauto].
        + exists r, t. split; [now apply (indices_v1 g W r n t)|eauto]. }
    unfold rings_center. rewrite Ei. cbn [bind].
    destruct (Z.eqb_spec r (-1)); [cbn [bind]; eauto|]. destruct (Z.eqb_spec r (rg_numRings g)); [cbn [bind]; eauto|].
    destruct Hr as [?|[?|(n2 & Hn)]]; [lia|lia|]. rewrite (ring_has_nth g r n2 Hn). cbn [bind]. eauto.
Qed.

(*@ C27: findTract selects an index of the map for every coordinate, in both versions, and then
    returns exactly what skymap[index] returns; the arguments of that tract can be computed. *)
Lemma rings_findTract_total_proof : forall offset c mk ov g coord s, rings_wf g ->
  exists i, rings_findIndex g coord = Ok i /\ 0 <= i < rings_numTracts g
    /\ rings_findTract offset (rings_def c mk ov g) g coord s
       = sm_getitem offset (rings_def c mk ov g) i s
    /\ exists a, sd_args (rings_def c mk ov g) i = Ok a.
Proof.
  intros offset c mk ov g coord s W. pose proof (len_pos g W) as HL.
  pose proof (rings_args_total g mk ov W) as Hargs.
  assert (exists i, rings_findIndex g coord = Ok i /\ 0 <= i < rings_numTracts g) as (i & Ei & Hi).
  { destruct (find_cases g W coord) as [[_ E]|[[_ E]|(r & n & t & H & Ht & _ & _ & _ & _ & E)]]; rewrite E.
    - exists 0. split; [reflexivity|lia].
    - eexists. split; [reflexivity|lia].
    - eexists. split; [reflexivity|]. pose proof (idx_range g W r n t H Ht). unfold idx in *. lia. }
  exists i. split; [exact Ei|]. split; [exact Hi|]. split; [|now apply Hargs].
  unfold rings_findTract, smbind, smlift. rewrite Ei. reflexivity.
Qed.

(*@ C28: findTract of a tract's centre is that tract: for every index with version 1; with version 0
    for every index except the duplicate ringNums[0]+1 (if there are two rings or more), whose
    centre is found in tract 1. *)
Lemma rings_centre_found_proof : forall g i c, rings_wf g -> 0 <= i < rings_numTracts g ->
  rings_center g i = Ok c ->
  (rg_version g = 1 -> rings_findIndex g c = Ok i)
  /\ (rg_version g = 0 -> forall n0, ring_has g 0 n0 ->
      (2 <= rg_numRings g /\ i = n0 + 1 -> rings_findIndex g c = Ok 1)
      /\ (rg_numRings g = 1 \/ i <> n0 + 1 -> rings_findIndex g c = Ok i)).
Proof.
  intros g i c W Hi Ec. pose proof (len_pos g W) as HL.
  destruct (index_cases g W i Hi) as [->|[->|(r & n & t & H & Ht & ->)]].
  - rewrite center_south in Ec. injection Ec as <-. rewrite (find_cap_south g W). split; [reflexivity|].
    intros _ n0 H0. destruct (ring_has_lt g W 0 n0 H0). split; [lia|reflexivity].
  - rewrite (center_north g W) in Ec. injection Ec as <-. rewrite (find_cap_north g W). split; [reflexivity|].
    intros _ n0 H0. split; [|reflexivity]. intros [HN E]. exfalso.
    destruct (ring_has_ex g W 1 ltac:(lia)) as (n1 & H1). destruct (ring_has_lt g W 1 n1 H1) as [_ Hn1].
    pose proof (before_lt g W 1 n1 n1 H1 ltac:(lia)). pose proof (before_S g 0 n0 H0) as E1.
    rewrite before_0 in E1. change (0 + 1) with 1 in E1. lia.
  - destruct (ring_has_lt g W r n H) as [Hr Hn]. split.
    + intros V. rewrite (center_v1 g W r n t V H Ht) in Ec. injection Ec as <-.
      rewrite (find_position g W r n t H Ht), V. reflexivity.
    + intros V n0 H0. destruct (ring_has_lt g W 0 n0 H0) as [_ Hn0].
      pose proof (before_S g 0 n0 H0) as E1. rewrite before_0 in E1. change (0 + 1) with 1 in E1.
      destruct (Z.eq_dec t 0) as [->|Ht0].
      * destruct (Z.eq_dec r 0) as [->|Hr0].
        -- rewrite (center_v0 g W 0 n 0 V H) in Ec by auto. injection Ec as <-.
           rewrite (find_position g W 0 n 0 H Ht), V. cbn [Z.eqb negb andb]. unfold nominal_index. rewrite before_0.
           split; [|reflexivity]. intros [_ E]. lia.
        -- destruct (ring_has_ex g W (r - 1) ltac:(lia)) as (m & Hm).
           destruct (ring_has_lt g W _ m Hm) as [_ Hm1].
           replace (nominal_index g r 0) with (nominal_index g (r - 1 + 1) 0) in * by (f_equal; lia).
           rewrite (center_v0_first g W (r - 1) m V Hm ltac:(lia)) in Ec. injection Ec as <-.
           rewrite (find_position g W (r - 1) m 0 Hm ltac:(lia)), V. cbn [Z.eqb andb].
           destruct (Z.eqb_spec (r - 1) 0) as [Er|Er]; cbn [negb].
           ++ assert (r = 1) by lia. subst r. change (1 - 1 + 1) with 1 in *. change (1 - 1) with 0 in *.
              unfold nominal_index in *. rewrite before_0. split; [reflexivity|]. lia.
           ++ split; [|reflexivity]. intros [HN E]. exfalso.
              pose proof (before_mono g W 2 r ltac:(lia)) as M. replace (r - 1 + 1) with r in E by lia. unfold nominal_index in E.
              destruct (ring_has_ex g W 1 ltac:(lia)) as (n1 & H1). destruct (ring_has_lt g W 1 n1 H1).
              pose proof (before_S g 1 n1 H1) as E2. change (1 + 1) with 2 in E2. lia.
      * rewrite (center_v0 g W r n t V H) in Ec by (left; lia). injection Ec as <-.
        rewrite (find_position g W r n t H Ht), V. destruct (Z.eqb_spec t 0); [lia|]. cbn [Z.eqb andb].
        split; [|reflexivity]. intros [HN E]. exfalso. unfold nominal_index in E.
        destruct (Z.eq_dec r 0) as [->|].
        -- pose proof (ring_has_fun g 0 n n0 H H0). rewrite before_0 in E. lia.
        -- pose proof (before_mono g W 1 r ltac:(lia)). lia.
Qed.

(*@ C29: version 1: every coordinate lies in the RA/Dec range of the tract that findTract selects,
    and a coordinate strictly inside the range of a tract is assigned that tract (so the open
    ranges are pairwise disjoint and the closed ranges cover the sky). *)
Lemma rings_ranges_proof : forall g coord, rings_wf g -> at_least 2 g -> rg_version g = 1 ->
  on_sphere coord ->
  (exists i range, rings_findIndex g coord = Ok i /\ getRaDecRange g i = Ok range /\ in_range range coord)
  /\ (forall i range, 0 <= i < rings_numTracts g -> getRaDecRange g i = Ok range ->
       inside_range range coord -> rings_findIndex g coord = Ok i).
Proof.
  intros g coord W A V [Hra Hdec]. pose proof (len_pos g W) as HL. pose proof (rw_rings g W) as HN.
  pose proof PI_RGT_0 as HPI. pose proof (size_total g W) as HT. pose proof (size_pos g W) as HS.
  assert (Rg : forall r n t, ring_has g r n -> 0 <= t < n ->
     getRaDecRange g (nominal_index g r t)
     = Ok (wrap (rg_raStart g + (IZR t - 1 / 2) * (2 * PI / IZR n)),
           wrap (rg_raStart g + (IZR t - 1 / 2) * (2 * PI / IZR n) + 2 * PI / IZR n),
           firstRingStart g + IZR r * rg_size g, firstRingStart g + (IZR r + 1) * rg_size g)%R).
  { intros r n t H Ht. destruct (ring_has_lt g W r n H) as [Hr Hn].
    unfold getRaDecRange. rewrite (indices_v1 g W r n t V H Ht). cbn [bind].
    destruct (Z.eqb_spec r (-1)); [lia|]. destruct (Z.eqb_spec r (rg_numRings g)); [lia|].
    rewrite (ring_has_nth g r n H). cbn [bind]. assert (IZR n <> 0)%R by (apply IZR_neq; lia).
    unfold firstRingStart. f_equal. f_equal; [f_equal; [f_equal; f_equal|]|]; field; assumption. }
  assert (Arc : forall n, 2 <= n -> (0 < 2 * PI / IZR n < 2 * PI)%R).
  { intros n Hn. apply IZR_le in Hn. split; [apply Rmult_lt_0_compat; [lra|apply Rinv_0_lt_compat; lra]|].
    apply Rmult_lt_reg_r with (IZR n); [lra|]. unfold Rdiv. rewrite Rmult_assoc, Rinv_l by lra. nra. }
  assert (Hn2 : forall r n, ring_has g r n -> 2 <= n).
  { intros r n [_ H]. apply A. eapply nth_error_In; eauto. }
  split.
  - destruct (find_cases g W coord) as [[Hd E]|[[Hd E]|(r & n & t & H & Ht & _ & _ & Hd & Ha & E)]].
    + exists 0. eexists. split; [exact E|]. split; [reflexivity|]. cbn. unfold in_ra, firstRingStart in *. lra.
    + exists (rings_numTracts g - 1). eexists. split; [exact E|]. split.
      * unfold getRaDecRange. rewrite (indices_north g W). cbn [bind].
        destruct (Z.eqb_spec (rg_numRings g) (-1)); [lia|]. rewrite Z.eqb_refl. reflexivity.
      * cbn. unfold in_ra, firstRingStart in *. lra.
    + exists (nominal_index g r t). eexists. split; [rewrite E, V; reflexivity|]. split; [exact (Rg r n t H Ht)|].
      split; [|lra]. apply arc_cases; [apply Arc; eauto|lra|lra].
  - intros i range Hi Er Hin. destruct (index_cases g W i Hi) as [->|[->|(r & n & t & H & Ht & ->)]].
    + cbn in Er. injection Er as <-. destruct Hin as [_ Hd].
      unfold rings_findIndex. rewrite decToRing_south; [reflexivity|]. unfold firstRingStart. lra.
    + unfold getRaDecRange in Er. rewrite (indices_north g W) in Er. cbn [bind] in Er.
      destruct (Z.eqb_spec (rg_numRings g) (-1)); [lia|]. rewrite Z.eqb_refl in Er. injection Er as <-.
      destruct Hin as [_ Hd]. unfold rings_findIndex. rewrite (decToRing_north g W).
      * destruct (Z.eqb_spec (rg_numRings g) (-1)); [lia|]. now rewrite Z.eqb_refl.
      * unfold firstRingStart. lra.
    + rewrite (Rg r n t H Ht) in Er. injection Er as <-. destruct Hin as [Hr Hd].
      apply arc_cases in Hr; [|apply Arc; eauto|lra].
      destruct (ring_has_lt g W r n H) as [Hrr _].
      pose proof (decToRing_in g W (snd coord) r Hrr ltac:(lra)) as Ed.
      destruct (find_cases g W coord) as [[Hx _]|[[Hx _]|(r1 & n1 & t1 & H1 & Ht1 & E1 & _ & _ & Ha & E)]].
      * exfalso. rewrite (decToRing_south g _ Hx) in Ed. lia.
      * exfalso. rewrite (decToRing_north g W _ Hx) in Ed. lia.
      * rewrite E, V. cbn [Z.eqb andb]. rewrite Ed in E1. subst r1. pose proof (ring_has_fun g r n n1 H H1). subst n1.
        f_equal. f_equal. apply (arc_unique (fst coord - rg_raStart g) n t1 t); try assumption.
        -- replace (fst coord - rg_raStart g - (IZR t1 - 1 / 2) * (2 * PI / IZR n))%R
             with (fst coord - (rg_raStart g + (IZR t1 - 1 / 2) * (2 * PI / IZR n)))%R by ring. exact Ha.
        -- replace (fst coord - rg_raStart g - (IZR t - 1 / 2) * (2 * PI / IZR n))%R
             with (fst coord - (rg_raStart g + (IZR t - 1 / 2) * (2 * PI / IZR n)))%R by ring. lra.
Qed.

(*@ C30: findTractIdArray gives, element by element, the id of the tract that findTract returns for
    the coordinate SpherePoint(ra, dec), in radians and in degrees, for any ra and dec and both
    versions; it never fails. *)
Lemma rings_findTractIdArray_agrees_proof : forall g degrees radecs, rings_wf g ->
  let coord rd := if (degrees : bool) then spherePoint (deg (fst rd)) (deg (snd rd))
                  else spherePoint (fst rd) (snd rd) in
  exists ids, rings_findTractIdArray g degrees radecs = Ok ids
    /\ Forall2 (fun rd i => rings_findIndex g (coord rd) = Ok i) radecs ids
    /\ forall offset c mk ov s, sm_reachable offset (rings_def c mk ov g) s ->
         Forall2 (fun rd i => forall s' t,
             rings_findTract offset (rings_def c mk ov g) g (coord rd) s = (s', Ok t) -> t_id t = i) radecs ids.
Proof.
  intros g degrees radecs W coord. pose proof (len_pos g W) as HL. pose proof (rw_rings g W) as HN.
  assert (Hwrap : forall ra dec, rings_findIndex g (spherePoint ra dec) = rings_findIndex g (ra, dec)).
  { intros ra dec. unfold rings_findIndex, spherePoint. cbn [fst snd].
    destruct (_ =? -1); [reflexivity|]. destruct (_ =? rg_numRings g); [reflexivity|].
    unfold raToTractNum. rewrite wrap_minus_wrap. reflexivity. }
  assert (H1 : forall ra dec, rings_findId1 g false (ra, dec) = rings_findIndex g (ra, dec)).
  { intros ra dec. unfold rings_findId1. cbn [fst snd].
    destruct (find_cases g W (ra, dec)) as [[Hd E]|[[Hd E]|(r & n & t & H & Ht & Ed & Et & Hd & Ha & E)]];
      rewrite E; cbn [snd fst] in *; pose proof (first_neg g W) as HF.
    - destruct (Rlt_bool_spec dec (firstRingStart g)); [|lra].
      destruct (Rlt_bool_spec (-1 * firstRingStart g) dec); [lra|].
      destruct (Rle_bool_spec (firstRingStart g) dec); [lra|]. cbn [andb].
      change (-1 =? -1) with true. cbn iota. destruct (Z.eqb_spec (-1) (rg_numRings g)); [lia|]. reflexivity.
    - destruct (Rlt_bool_spec dec (firstRingStart g)); [lra|].
      destruct (Rle_bool_spec (firstRingStart g) dec); [|lra]. cbn [andb].
      pose proof (decToRing_north g W dec Hd) as Ed. unfold decToRingNum in Ed.
      destruct (Rlt_bool_spec dec (firstRingStart g)) in Ed; [lra|].
      destruct (Rle_bool_spec dec (-1 * firstRingStart g)).
      + destruct (Rlt_bool_spec (firstRingStart g * -1) dec) in Ed; [lra|]. rewrite Ed.
        rewrite Z.eqb_refl. destruct (Z.ltb_spec (rings_numTracts g - 1) 0); [lia|]. reflexivity.
      + destruct (Rlt_bool_spec (-1 * firstRingStart g) dec); [|lra]. rewrite Z.eqb_refl.
        destruct (Z.ltb_spec (rings_numTracts g - 1) 0); [lia|]. reflexivity.
    - destruct (ring_has_lt g W r n H) as [Hr Hn]. pose proof (ring_dec g W r Hr) as HD.
      destruct (Rlt_bool_spec dec (firstRingStart g)); [lra|].
      destruct (Rlt_bool_spec (-1 * firstRingStart g) dec); [lra|].
      destruct (Rle_bool_spec (firstRingStart g) dec); [|lra].
      destruct (Rle_bool_spec dec (-1 * firstRingStart g)); [|lra]. cbn [andb].
      unfold decToRingNum in Ed. destruct (Rlt_bool_spec dec (firstRingStart g)) in Ed; [lra|].
      destruct (Rlt_bool_spec (firstRingStart g * -1) dec) in Ed; [lra|]. rewrite Ed.
      destruct (Z.eqb_spec r (-1)); [lia|]. destruct (Z.eqb_spec r (rg_numRings g)); [lia|].
      change (negb (-1 <? 0)) with false. cbn iota. rewrite (ring_has_nth g r n H). cbn [bind].
      unfold raToTractNum in Et. destruct (Z.eqb_spec r (-1)); [lia|]. destruct (Z.eqb_spec r (rg_numRings g)); [lia|].
      cbn [orb] in Et. destruct (Z.leb_spec 0 r); [|lia]. destruct (Z.ltb_spec r (rg_numRings g)); [|lia].
      cbn [andb negb] in Et. rewrite (ring_has_nth g r n H) in Et. cbn [bind] in Et. injection Et as Et.
      rewrite Et. rewrite andb_assoc.
      set (r' := if (rg_version g =? 0) && (t =? 0) && negb (r =? 0) then r + 1 else r).
      assert (Hr' : 0 <= r' <= rg_numRings g) by (unfold r'; destruct (_ && _); lia).
      rewrite (py_nth_in _ r' (before g r')); [|lia|].
      + cbn [bind]. unfold nominal_index. f_equal. lia.
      + rewrite nth_error_map. pose proof (rw_len g W).
        rewrite (nth_error_nth' _ 0%nat) by (rewrite seq_length; lia).
        rewrite seq_nth by lia. reflexivity. }
  assert (H2 : forall rd, rings_findId1 g degrees rd = rings_findIndex g (coord rd)).
  { intros [ra dec]. unfold coord. destruct degrees; rewrite Hwrap; cbn [fst snd]; [|apply H1].
    rewrite <- H1. reflexivity. }
  assert (H3 : forall rd, exists i, rings_findIndex g (coord rd) = Ok i /\ 0 <= i < rings_numTracts g).
  { intros rd. destruct (find_cases g W (coord rd)) as [[_ E]|[[_ E]|(r & n & t & H & Ht & _ & _ & _ & _ & E)]]; rewrite E.
    - exists 0. split; [reflexivity|lia].
    - eexists. split; [reflexivity|lia].
    - eexists. split; [reflexivity|]. pose proof (idx_range g W r n t H Ht). unfold idx in *. lia. }
  clearbody coord.
  unfold rings_findTractIdArray. induction radecs as [|rd l (ids & E & F1 & F2)].
  - exists []. split; [reflexivity|]. split; [constructor|]. intros. constructor.
  - destruct (H3 rd) as (i & Ei & Hi). exists (i :: ids). cbn [mapM]. rewrite H2, Ei, E. cbn [bind].
    split; [reflexivity|]. split; [constructor; auto|]. intros offset c mk ov s Hs. constructor; [|now apply F2].
    intros s' t Hf. unfold rings_findTract, smbind, smlift in Hf. rewrite Ei in Hf.
    destruct (getitem_holds offset _ s i s' t Hs ltac:(lia) Hf) as (Hr1 & _ & Hh1). eapply holds_id; eauto.
Qed.

(*@ C31: findAllTracts returns only tracts of the map that contain the coordinate; it returns the
    tract that findTract selects, and each polar cap, whenever these contain the coordinate; with
    version 1 it returns no tract twice, with version 0 none but the north cap. *)
Lemma rings_findAllTracts_correct_proof : forall offset c mk ov g coord s s' l,
  rings_wf g -> at_least 3 g ->
  let d := rings_def c mk ov g in
  sm_reachable offset d s -> rings_findAllTracts offset d g coord s = (s', Ok l) ->
  accesses offset d s s'
  /\ (forall t, In t l -> tract_contains t coord = Ok true /\ exists i, holds offset d i s' t)
  /\ (forall i, rings_findIndex g coord = Ok i \/ i = 0 \/ i = rings_numTracts g - 1 ->
        exists t, holds offset d i s' t /\ (tract_contains t coord = Ok true -> In t l))
  /\ (rg_version g = 1 -> NoDup (map t_id l))
  /\ NoDup (filter (fun i => negb (i =? rings_numTracts g - 1)) (map t_id l)).
Proof.
  intros offset c mk ov g coord s s' l W A d Hr H.
  rewrite (findAll_tried offset d g coord s W eq_refl) in H.
  assert (Hpos : forall i, In i (tried g coord) -> 0 <= i)
    by (intros i Hi; pose proof (tried_range g W coord i (at_least_2 g A) Hi); lia).
  destruct (try_tracts_spec offset d coord _ Hpos _ _ _ _ Hr H) as (Ha & ts & F & Hc & ->). cbn [app].
  pose proof (reachable_accesses _ _ _ _ Hr Ha) as Hr'.
  split; [exact Ha|]. split; [|split].
  - intros t Ht. apply filter_In in Ht. destruct Ht as [Hin Hb]. destruct (Hc t Hin) as (b & Eb).
    unfold has_it in Hb. rewrite Eb in *. subst b. split; [reflexivity|].
    clear -F Hin. induction F as [|i t' l' ts' Hh F IH]; [destruct Hin|]. destruct Hin as [->|Hin]; [eauto|auto].
  - intros i Hi. assert (Hin : In i (tried g coord)).
    { destruct Hi as [Hi|[-> | ->]]; [now apply (tried_main g W)|apply (tried_caps g coord)|apply (tried_caps g coord)]. }
    destruct (Forall2_in_l _ _ _ i F Hin) as (t & Hin2 & Ht). exists t. split; [exact Ht|].
    intros Ec. apply filter_In. split; [apply in_combine_r in Hin2; exact Hin2|]. unfold has_it. now rewrite Ec.
  - assert (E : map t_id ts = tried g coord).
    { clear -F Hr'. induction F as [|i t l ts Hh F IH]; cbn; [reflexivity|]. rewrite IH. f_equal. eapply holds_id; eauto. }
    assert (Hsub : forall (p : tract sphere -> bool) (q : Z -> bool) ts,
        NoDup (filter q (map t_id ts)) -> NoDup (filter q (map t_id (filter p ts)))).
    { clear. intros p q ts. induction ts as [|t ts IH]; cbn; [auto|]. intros Hn.
      assert (Hn' : NoDup (filter q (map t_id ts))) by (destruct (q (t_id t)); [inversion Hn; assumption|exact Hn]).
      destruct (p t); [|auto]. cbn. destruct (q (t_id t)) eqn:Eq; [|auto]. constructor; [|auto].
      inversion Hn as [|x y Hx Hy]; subst. intros Hin. apply Hx. apply filter_In in Hin. destruct Hin as [Hin Hq].
      apply filter_In. split; [|exact Hq]. apply in_map_iff in Hin. destruct Hin as (t' & <- & Ht').
      apply in_map. apply filter_In in Ht'. apply Ht'. }
    assert (Hall : forall l : list Z, filter (fun _ => true) l = l) by (induction l as [|x l IH]; cbn; congruence).
    split.
    + intros V. specialize (Hsub (has_it coord) (fun _ => true) ts). rewrite !Hall in Hsub. apply Hsub.
      rewrite E. now apply (tried_NoDup g W).
    + apply Hsub. rewrite E, tried_pairs, filter_app. pose proof (len_pos g W) as HL.
      cbn [filter]. destruct (Z.eqb_spec 0 (rings_numTracts g - 1)) as [?E0|?E0]; [lia|]. rewrite Z.eqb_refl. cbn [negb].
      assert (P : forall rt, In rt (pairs g coord) -> exists n, ring_has g (fst rt) n /\ 0 <= snd rt < n)
        by (intros rt; apply (pairs_in g W); now apply at_least_2).
      apply NoDup_app_intro.
      * apply NoDup_filter, map_NoDup_in; [|now apply (pairs_NoDup g W)].
        intros [r t] [r' t'] Hx Hy Exy. cbn [fst snd] in Exy.
        destruct (P _ Hx) as (n & H1 & H2). destruct (P _ Hy) as (n' & H1' & H2'). cbn [fst snd] in *.
        apply (idx_inj g W r n t r' n' t') in Exy; auto. destruct Exy. congruence.
      * constructor; [intros []|constructor].
      * intros x Hx [<-|[]]. apply filter_In in Hx. destruct Hx as [Hx _]. apply in_map_iff in Hx.
        destruct Hx as ([r t] & Ex & Hx). destruct (P _ Hx) as (n & H1 & H2). cbn [fst snd] in *.
        pose proof (idx_range g W r n t H1 H2). lia.
Qed.

(*@ C31: findAllTracts fails only if one of the tracts it tries cannot be generated or the WCS of
    one raises an exception other than the two that contains() catches. *)
Lemma rings_findAllTracts_total_proof : forall offset c mk ov g coord s s' e,
  rings_wf g -> at_least 3 g ->
  let d := rings_def c mk ov g in
  sm_reachable offset d s -> rings_findAllTracts offset d g coord s = (s', Raise e) ->
  exists i s1, 0 <= i < rings_numTracts g /\ accesses offset d s s1 /\
    (sm_getitem offset d i s1 = (s', Raise e)
     \/ exists t, sm_getitem offset d i s1 = (s', Ok t) /\ tract_contains t coord = Raise e).
Proof.
  intros offset c mk ov g coord s s' e W A d Hr H.
  rewrite (findAll_tried offset d g coord s W eq_refl) in H.
  assert (Hrng : forall i, In i (tried g coord) -> 0 <= i < rings_numTracts g)
    by (intros i Hi; apply (tried_range g W coord i (at_least_2 g A) Hi)).
  destruct (try_tracts_spec offset d coord _ (fun i Hi => proj1 (Hrng i Hi)) _ _ _ _ Hr H) as (Ha & i & s1 & Hi & H1 & H2).
  exists i, s1. auto.
Qed.

(*@ C32 REFUTED for version 0: with two rings or more, for a coordinate in the north polar range
    whose RA is less than one tract width (of the last ring) east of raStart, findAllTracts returns
    the north cap twice (if the cap contains the coordinate). *)
Lemma rings_v0_cap_twice_refuted_proof : forall offset c mk ov g n coord s s' l,
  rings_wf g -> at_least 3 g -> rg_version g = 0 -> 2 <= rg_numRings g ->
  ring_has g (rg_numRings g - 1) n ->
  let d := rings_def c mk ov g in
  sm_reachable offset d s ->
  (- firstRingStart g <= snd coord)%R -> (wrap (fst coord - rg_raStart g) < 2 * PI / IZR n)%R ->
  rings_findAllTracts offset d g coord s = (s', Ok l) ->
  exists t, holds offset d (rings_numTracts g - 1) s' t
    /\ (tract_contains t coord = Ok true -> exists l1 l2, l = l1 ++ t :: l2 ++ [t]).
Proof.
  intros offset c mk ov g n coord s s' l W A V HN2 Hn d Hr Hdec Hra H.
  destruct (ring_has_lt g W _ n Hn) as [_ Hn1].
  assert (Hn3 : 3 <= n) by (apply A; destruct Hn; eapply nth_error_In; eauto).
  pose proof (len_pos g W) as HL.
  rewrite (findAll_tried offset d g coord s W eq_refl) in H.
  assert (Hpos : forall i, In i (tried g coord) -> 0 <= i)
    by (intros i Hi; pose proof (tried_range g W coord i (at_least_2 g A) Hi); lia).
  destruct (try_tracts_spec offset d coord _ Hpos _ _ _ _ Hr H) as (Ha & ts & F & Hc & ->). cbn [app].
  assert (E : exists l1 l2, tried g coord = l1 ++ rings_numTracts g - 1 :: l2 ++ [rings_numTracts g - 1]).
  { rewrite (tried_pairs g). set (m := map _ _).
    assert (Hin : In (rings_numTracts g - 1) m).
    { unfold m. apply in_map_iff. exists (rg_numRings g - 1, 0). split.
      - cbn [fst snd]. unfold idx. rewrite V. cbn [Z.eqb andb]. destruct (Z.eqb_spec (rg_numRings g - 1) 0); [lia|].
        cbn [negb]. unfold nominal_index. replace (rg_numRings g - 1 + 1) with (rg_numRings g) by lia.
        rewrite (before_all g W). lia.
      - unfold pairs. cbn zeta. rewrite (decToRing_north g W _ Hdec). apply in_flat_map. exists (rg_numRings g - 1).
        split; [cbn; tauto|]. destruct (ring_pairs_spec g W coord (rg_numRings g - 1) ltac:(lia)) as (n' & t & Hn' & Et & Ht & ->).
        pose proof (ring_has_fun g _ n n' Hn Hn'). subst n'. apply in_map.
        assert (t = 0 \/ t = 1).
        { unfold raToTractNum in Et. destruct (Z.eqb_spec (rg_numRings g - 1) (-1)); [lia|].
          destruct (Z.eqb_spec (rg_numRings g - 1) (rg_numRings g)); [lia|]. cbn [orb] in Et.
          destruct (Z.leb_spec 0 (rg_numRings g - 1)); [|lia].
          destruct (Z.ltb_spec (rg_numRings g - 1) (rg_numRings g)); [|lia]. cbn [andb negb] in Et.
          rewrite (ring_has_nth g _ n Hn) in Et. cbn [bind] in Et. injection Et as Et.
          assert (HnR : (3 <= IZR n)%R) by (apply IZR_le; lia). pose proof two_pi_pos as HP.
          set (q := (2 * PI / IZR n)%R) in *.
          assert (Hq : (0 < q)%R) by (apply Rmult_lt_0_compat; [lra|apply Rinv_0_lt_compat; lra]).
          pose proof (wrap_range (fst coord - rg_raStart g)) as Hw. set (u := wrap _) in *.
          assert (0 <= u / q)%R by (apply Rmult_le_pos; [lra|left; now apply Rinv_0_lt_compat]).
          assert (u / q < 1)%R.
          { apply Rmult_lt_reg_r with q; [exact Hq|]. unfold Rdiv. rewrite Rmult_assoc, Rinv_l by lra. lra. }
          destruct (py_int_bounds (u / q + 1 / 2)) as [B1 [B2 B3]]; [lra|].
          assert (py_int (u / q + 1 / 2) < 2) by (apply lt_IZR; lra).
          destruct (Z.eqb_spec (py_int (u / q + 1 / 2)) n); lia. }
        unfold around. cbn [map]. destruct H0 as [-> | ->]; cbn [Z.sub Z.add].
        + right; left. cbn. destruct (Z.ltb_spec (n - 1) 0); lia.
        + left. change (1 - 1) with 0. cbn. destruct (Z.ltb_spec (n - 1) 0); lia. }
    apply in_split in Hin. destruct Hin as (l1 & l2 & ->). exists l1, (l2 ++ [0]).
    rewrite <- !app_assoc. reflexivity. }
  destruct E as (l1 & l2 & E). rewrite E in F.
  apply Forall2_app_inv_l in F. destruct F as (ts1 & ts2 & F1 & F2 & ->).
  inversion F2 as [|i t ll ts3 Hh F3]; subst. exists t. split; [exact Hh|].
  apply Forall2_app_inv_l in F3. destruct F3 as (ts4 & ts5 & F4 & F5 & ->).
  inversion F5 as [|i5 t5 ll5 ts6 Hh5 F6]; subst. inversion F6; subst.
  pose proof (holds_fun _ _ _ _ _ _ Hh Hh5) as <-. intros Ec.
  assert (Ht : has_it coord t = true) by (unfold has_it; now rewrite Ec).
  exists (filter (has_it coord) ts1), (filter (has_it coord) ts4).
  rewrite filter_app. cbn [filter]. rewrite Ht, filter_app. cbn [filter]. rewrite Ht. reflexivity.
Qed.

(*@ C36: the rings findTract is a search in the sense used by findClosestTractPatchList. *)
Lemma rings_findTract_search_proof : forall offset c mk ov g, rings_wf g ->
  search offset (rings_def c mk ov g) (rings_findTract offset (rings_def c mk ov g) g).
Proof.
  intros offset c mk ov g W. set (d := rings_def c mk ov g).
  assert (K : forall coord, exists i, 0 <= i /\ forall s, rings_findTract offset d g coord s = sm_getitem offset d i s).
  { intros coord. destruct (rings_findTract_total_proof offset c mk ov g coord (mkSM [] (builder_init c) 0 []) W)
      as (i & Ei & Hi & _ & _). exists i. split; [lia|]. intros s. unfold rings_findTract, smbind, smlift. now rewrite Ei. }
  constructor.
  - intros coord s s' r Hr H. destruct (K coord) as (i & Hi & Ei). rewrite Ei in H.
    econstructor; [constructor|exact H].
  - intros coord s s' t Hr H. destruct (K coord) as (i & Hi & Ei). rewrite Ei in H.
    exists i. apply (getitem_holds offset d s i s' t Hr Hi H).
  - intros coord s s' t s1 Hr H Ha. destruct (K coord) as (i & Hi & Ei). rewrite Ei in *.
    destruct (getitem_holds offset d s i s' t Hr Hi H) as (Hr1 & Ha1 & Hh1).
    apply (holds_accesses offset d s' s1 i t Hr1 Ha Hh1).
Qed.

(*@ C34: findTractPatchList returns exactly the tracts that findAllTracts finds for some of the
    coordinates and that have a non-empty patch list, each once, in order of first occurrence, each
    with the list that tract.findPatchList gives (settled maps). *)
Lemma rings_findTractPatchList_correct_proof : forall offset c mk ov g coords s s' l,
  rings_wf g -> at_least 3 g ->
  let d := rings_def c mk ov g in
  settled offset d s -> sm_reachable offset d s ->
  rings_findTractPatchList offset d g coords s = (s', Ok l) ->
  exists tss, Forall2 (fun co ts => rings_findAllTracts offset d g co s' = (s', Ok ts)) coords tss
    /\ (forall t pl, In (t, pl) l <->
          In t (concat tss) /\ findPatchList (sm_builder s') t coords = Ok pl /\ pl <> [])
    /\ (forall t pl, In (t, pl) l -> exists co, In co coords /\ tract_contains t co = Ok true)
    /\ map fst l = filter (fun t => match findPatchList (sm_builder s') t coords with
                                    | Ok (_ :: _) => true | _ => false end)
                     (first_occurrences (fun t u => Nat.eqb (t_oid t) (t_oid u)) (concat tss))
    /\ NoDup (map (fun tp => t_id (fst tp)) l).
Proof.
  intros offset c mk ov g coords s s' l W A d Hst Hr H.
  destruct (rings_patch_loop_spec offset d g coords W A eq_refl coords [] s s' l Hr Hst H)
    as (Ha & tss & H1 & H2 & H3 & H4).
  pose proof (reachable_accesses _ _ _ _ Hr Ha) as Hr'.
  destruct (collect_spec offset d s' coords (concat tss) Hr' H2 H3) as (C1 & C2 & C3).
  rewrite <- H4 in C1, C2, C3. exists tss. split; [exact H1|]. split; [exact C1|]. split; [|split; [exact C2|]].
  - intros t pl Hin. apply C1 in Hin. destruct Hin as [Hin _].
    assert (Hx : exists co ts, In co coords /\ In t ts /\ rings_findAllTracts offset d g co s' = (s', Ok ts)).
    { clear -H1 Hin. induction H1 as [|co ts coords tss E F IH]; cbn in Hin; [destruct Hin|].
      apply in_app_iff in Hin. destruct Hin as [Hin|Hin].
      - exists co, ts. split; [now left|auto].
      - destruct (IH Hin) as (co' & ts' & ? & ? & ?). exists co', ts'. split; [now right|auto]. }
    destruct Hx as (co & ts & Hco & Hts & E). exists co. split; [exact Hco|].
    destruct (rings_findAllTracts_correct_proof offset c mk ov g co s' s' ts W A Hr' E) as (_ & Hs & _).
    apply Hs. exact Hts.
  - assert (Hid : forall tp, In tp l -> exists i, holds offset d i s' (fst tp) /\ t_id (fst tp) = i).
    { intros [t pl] Hin. apply C1 in Hin. destruct (H2 t (proj1 Hin)) as (i & Hi). exists i. split; [exact Hi|].
      eapply holds_id; eauto. }
    clear -C3 Hid Hr'. induction l as [|tp l IH]; cbn in *; [constructor|]. inversion C3 as [|x y Hx Hy]; subst.
    constructor; [|apply IH; auto]. intros Hin. apply Hx. apply in_map_iff in Hin. destruct Hin as (tp' & E & Hin).
    apply in_map_iff. exists tp'. split; [|exact Hin].
    destruct (Hid tp (or_introl eq_refl)) as (i & Hi & Ei). destruct (Hid tp' (or_intror Hin)) as (j & Hj & Ej).
    rewrite <- Ej, E, Ei in Hj. rewrite (holds_fun _ _ _ _ _ _ Hi Hj). reflexivity.
Qed.
