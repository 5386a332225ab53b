(** The tracts that [findAllTracts] tries, by their positions. *)
From Coq Require Import Reals Lra Lia Sorted.
From Flocq Require Import Raux.
Require Import Verif.Py Verif.Geom Verif.PatchInfo Verif.TractBuilder Verif.TractInfo Verif.Spec.
Require Import Verif.SkyMap Verif.SkySpec Verif.SkyProofs Verif.SkyProofs2.
Require Import Verif.Rings Verif.RingsSpec Verif.RingsProofs Verif.RingsProofs2 Verif.RingsProofs3.
Open Scope Z_scope.
Local Arguments Z.mul : simpl never.

Section Near.
Variable g : rings.
Hypothesis W : rings_wf g.
Notation N := (rg_numRings g).

Lemma in_around t n x : 3 <= n -> 0 <= t < n -> 0 <= x < n ->
  (In x (around t n) <-> exists m, -1 <= t - x + m * n <= 1).
Proof.
  intros Hn Ht Hx. unfold around. cbn [map In].
  split.
  - intros H.
    destruct (Z.ltb_spec (t - 1) 0), (Z.ltb_spec t 0), (Z.ltb_spec (t + 1) 0),
      (Z.ltb_spec (n - 1) (t - 1)), (Z.ltb_spec (n - 1) t), (Z.ltb_spec (n - 1) (t + 1)); try lia.
    all: destruct H as [<-|[<-|[<-|[]]]].
    all: first [exists 0; lia | exists 1; lia | exists (-1); lia].
  - intros (m & Hm). assert (-1 <= m <= 1) by nia.
    destruct (Z.ltb_spec (t - 1) 0), (Z.ltb_spec t 0), (Z.ltb_spec (t + 1) 0),
      (Z.ltb_spec (n - 1) (t - 1)), (Z.ltb_spec (n - 1) t), (Z.ltb_spec (n - 1) (t + 1)); try lia;
    assert (m = -1 \/ m = 0 \/ m = 1) as [-> | [-> | ->]] by lia; try lia.
Qed.

(** The tracts of ring [r] tried, in terms of right ascension. *)
Lemma ring_near coord r n t : ring_has g r n -> 3 <= n -> 0 <= t < n ->
  (In (r, t) (ring_pairs g coord r) ->
     exists k : Z, Rabs (fst coord - fst (position g r t n) + IZR k * (2 * PI)) <= 3 / 2 * (2 * PI / IZR n))%R
  /\ ((exists k : Z, Rabs (fst coord - fst (position g r t n) + IZR k * (2 * PI)) < 3 / 2 * (2 * PI / IZR n))%R ->
      In (r, t) (ring_pairs g coord r)).
Proof.
  intros H Hn Ht. destruct (ring_has_lt g W r n H) as [Hr _].
  destruct (raToTract_spec g W (fst coord) r n H) as (t0 & Et & Ht0 & Ha).
  assert (E : In (r, t) (ring_pairs g coord r) <-> In t (around t0 n)).
  { unfold ring_pairs. destruct (Z.ltb_spec r 0); [lia|]. destruct (Z.leb_spec N r); [lia|]. cbn [orb].
    rewrite Et, (ring_has_nth g r n H). rewrite in_map_iff. split.
    - intros (x & E & Hx). injection E as ->. exact Hx.
    - intros Hx. exists t. auto. }
  rewrite E, (in_around t0 n t Hn Ht0 Ht). clear E.
  unfold position. cbn [fst snd].
  assert (HnR : (3 <= IZR n)%R) by (apply IZR_le; lia). pose proof two_pi_pos as HP.
  destruct (wrap_decomp (2 * PI * IZR t / IZR n + rg_raStart g)) as (k1 & E1).
  pose proof (wrap_range (fst coord - (rg_raStart g + (IZR t0 - 1 / 2) * (2 * PI / IZR n)))) as R2.
  destruct (wrap_decomp (fst coord - (rg_raStart g + (IZR t0 - 1 / 2) * (2 * PI / IZR n)))) as (k2 & E2).
  set (p := wrap (2 * PI * IZR t / IZR n + rg_raStart g)) in *.
  set (u := wrap (fst coord - _)) in *.
  replace (2 * PI * IZR t / IZR n)%R with (IZR t * (2 * PI / IZR n))%R in E1 by (field; lra).
  set (q := (2 * PI / IZR n)%R) in *.
  assert (Hq : (0 < q)%R) by (apply Rmult_lt_0_compat; [lra|apply Rinv_0_lt_compat; lra]).
  assert (Eq : (q * IZR n = 2 * PI)%R) by (unfold q; field; lra).
  (* fst coord - p = (t0 - t + (k1+k2) n) q + (u - q/2) *)
  assert (Key : forall k : Z, (fst coord - p + IZR k * (2 * PI)
            = IZR (t0 - t + (k1 + k2 + k) * n) * q + (u - q / 2))%R).
  { intros k. rewrite plus_IZR, minus_IZR, mult_IZR, !plus_IZR.
    replace (((IZR t0 - IZR t) + (IZR k1 + IZR k2 + IZR k) * IZR n) * q)%R
      with ((IZR t0 - IZR t) * q + (IZR k1 + IZR k2 + IZR k) * (q * IZR n))%R by ring.
    rewrite Eq. lra. }
  split.
  - intros (m & Hm). exists (m - k1 - k2). rewrite Key. replace (k1 + k2 + (m - k1 - k2)) with m by lia.
    set (z := t0 - t + m * n) in *. apply Rabs_le.
    assert (-1 <= IZR z <= 1)%R by (split; apply IZR_le; lia).
    assert (-1 * q <= IZR z * q)%R by (apply Rmult_le_compat_r; lra).
    assert (IZR z * q <= 1 * q)%R by (apply Rmult_le_compat_r; lra). lra.
  - intros (k & Hk). exists (k1 + k2 + k). rewrite Key in Hk. apply Rabs_lt_inv in Hk.
    set (z := t0 - t + (k1 + k2 + k) * n) in *.
    assert (-2 < z < 2); [|lia].
    split; apply lt_IZR; apply Rmult_lt_reg_r with q; try exact Hq; lra.
Qed.

Lemma decs_near dec r : 0 <= r < N ->
  let R := decToRingNum g dec in
  (R - 1 <= r <= R + 1 -> (- (PI / 2) <= dec <= PI / 2)%R ->
     (Rabs (dec - (rg_size g * (IZR r + 1) - 1 / 2 * PI)) <= 3 / 2 * rg_size g)%R)
  /\ ((Rabs (dec - (rg_size g * (IZR r + 1) - 1 / 2 * PI)) < 3 / 2 * rg_size g)%R -> R - 1 <= r <= R + 1).
Proof.
  intros Hr R. pose proof (size_pos g W) as HS. pose proof (size_total g W) as HT. subst R.
  assert (HrR : (0 <= IZR r)%R) by (apply IZR_le; lia).
  assert (HrN : (IZR r + 1 <= IZR N)%R) by (rewrite <- plus_IZR; apply IZR_le; lia).
  destruct (dec_cases g W dec) as [[H E]|[[H E]|(r0 & Hr0 & E & H)]]; rewrite E; unfold firstRingStart in H.
  - split.
    { intros Hb Hd. assert (r = 0) by lia. subst r. apply Rabs_le. lra. }
    intros Hd. apply Rabs_lt_inv in Hd. split; [lia|].
    assert (r < 1); [|lia]. apply lt_IZR. apply Rmult_lt_reg_r with (rg_size g); [exact HS|]. lra.
  - split.
    { intros Hb Hd. assert (r = N - 1) by lia. subst r. rewrite minus_IZR in *. apply Rabs_le. lra. }
    intros Hd. apply Rabs_lt_inv in Hd. split; [|lia].
    assert (N - 2 < r); [|lia]. apply lt_IZR. rewrite minus_IZR.
    apply Rmult_lt_reg_r with (rg_size g); [exact HS|]. lra.
  - split.
    + intros Hb _. apply Rabs_le.
      assert (IZR r0 - 1 <= IZR r <= IZR r0 + 1)%R by (rewrite <- minus_IZR, <- plus_IZR; split; apply IZR_le; lia).
      assert ((IZR r0 - 1) * rg_size g <= IZR r * rg_size g)%R by (apply Rmult_le_compat_r; lra).
      assert (IZR r * rg_size g <= (IZR r0 + 1) * rg_size g)%R by (apply Rmult_le_compat_r; lra). lra.
    + intros Hd. apply Rabs_lt_inv in Hd.
      assert (r0 - 2 < r < r0 + 2); [|lia].
      split; apply lt_IZR; rewrite ?minus_IZR, ?plus_IZR; apply Rmult_lt_reg_r with (rg_size g); try exact HS; lra.
Qed.

Lemma pairs_iff coord r t : In (r, t) (pairs g coord) <->
  decToRingNum g (snd coord) - 1 <= r <= decToRingNum g (snd coord) + 1 /\ In (r, t) (ring_pairs g coord r).
Proof.
  unfold pairs. cbn zeta. set (R := decToRingNum g (snd coord)). rewrite in_flat_map. split.
  - intros (x & Hx & Hin). assert (Er : x = r).
    { unfold ring_pairs in Hin. destruct ((x <? 0) || (N <=? x)); [destruct Hin|].
      destruct (raToTractNum g (fst coord) x); [|destruct Hin]. destruct (py_nth _ _); [|destruct Hin].
      apply in_map_iff in Hin. destruct Hin as (y & E & _). congruence. }
    subst x. split; [|exact Hin]. cbn [In] in Hx. lia.
  - intros [Hr Hin]. exists r. split; [|exact Hin]. cbn [In]. lia.
Qed.
End Near.
