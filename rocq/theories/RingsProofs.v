(** Proofs about the ring layout: angles, numbering, point location. *)
From Coq Require Import Reals Lra Sorted.
From Flocq Require Import Raux.
Require Import Verif.Py Verif.Geom Verif.PatchInfo Verif.TractBuilder Verif.TractInfo Verif.SkyMap.
Require Import Verif.Rings Verif.RingsSpec.
Open Scope Z_scope.
Local Arguments Z.mul : simpl never.

(** ** Angles *)
Lemma two_pi_pos : (0 < 2 * PI)%R.
Proof. pose proof PI_RGT_0. lra. Qed.

Lemma wrap_range a : (0 <= wrap a < 2 * PI)%R.
Proof.
  unfold wrap. pose proof two_pi_pos as HP. pose proof (Zfloor_lb (a / (2 * PI))) as H1.
  pose proof (Zfloor_ub (a / (2 * PI))) as H2.
  apply (Rmult_le_compat_r (2 * PI)) in H1; [|lra]. apply (Rmult_lt_compat_r (2 * PI)) in H2; [|lra].
  unfold Rdiv in *. rewrite Rmult_assoc, Rinv_l, Rmult_1_r in H1, H2 by lra. lra.
Qed.

Lemma wrap_unique a b k : (a = b + IZR k * (2 * PI))%R -> (0 <= b < 2 * PI)%R -> wrap a = b.
Proof.
  intros E Hb. unfold wrap. pose proof two_pi_pos as HP.
  assert (Zfloor (a / (2 * PI)) = k) as ->; [|rewrite E; ring].
  apply Zfloor_imp. rewrite plus_IZR. replace (a / (2 * PI))%R with (b / (2 * PI) + IZR k)%R by (rewrite E; field; lra).
  assert (0 <= b / (2 * PI) < 1)%R; [|lra].
  split; [apply Rmult_le_pos; [lra|left; apply Rinv_0_lt_compat; lra]|].
  apply Rmult_lt_reg_r with (2 * PI)%R; [lra|]. unfold Rdiv. rewrite Rmult_assoc, Rinv_l by lra. lra.
Qed.

Lemma wrap_id a : (0 <= a < 2 * PI)%R -> wrap a = a.
Proof. intros H. apply (wrap_unique a a 0); [ring|exact H]. Qed.

Lemma wrap_decomp a : exists k, (a = wrap a + IZR k * (2 * PI))%R.
Proof. exists (Zfloor (a / (2 * PI))). unfold wrap. ring. Qed.

Lemma wrap_shift a b k : (a = b + IZR k * (2 * PI))%R -> wrap a = wrap b.
Proof.
  intros E. destruct (wrap_decomp b) as (j & Ej). apply (wrap_unique a (wrap b) (k + j)); [|apply wrap_range].
  rewrite plus_IZR. lra.
Qed.

Lemma wrap_plus_wrap a b : wrap (wrap a + b) = wrap (a + b).
Proof. destruct (wrap_decomp a) as (k & E). symmetry. apply (wrap_shift _ _ k). lra. Qed.
Lemma wrap_minus_wrap a b : wrap (wrap a - b) = wrap (a - b).
Proof. unfold Rminus. apply wrap_plus_wrap. Qed.
Lemma wrap_wrap a : wrap (wrap a) = wrap a.
Proof. apply wrap_id, wrap_range. Qed.

(** Longitudes from [a] to [a + w]. *)
Lemma arc_cases a w x :
  (0 < w < 2 * PI)%R -> (0 <= x < 2 * PI)%R ->
  (in_ra (wrap a) (wrap (a + w)) x <-> (wrap (x - a) <= w)%R)
  /\ (strictly_in_ra (wrap a) (wrap (a + w)) x <-> (0 < wrap (x - a) < w)%R).
Proof.
  intros Hw Hx. rewrite <- (wrap_plus_wrap a w).
  assert (E : wrap (x - a) = wrap (x - wrap a)).
  { destruct (wrap_decomp a) as (k & E). apply (wrap_shift _ _ (- k)). rewrite opp_IZR. lra. }
  rewrite E. clear E. pose proof (wrap_range a) as Ha. set (a' := wrap a) in *. clearbody a'.
  assert (E1 : wrap (a' + w) = (a' + w)%R /\ (a' + w < 2 * PI)%R
            \/ wrap (a' + w) = (a' + w - 2 * PI)%R /\ (2 * PI <= a' + w)%R).
  { destruct (Rlt_or_le (a' + w) (2 * PI)).
    - left. split; [apply wrap_id; lra|lra].
    - right. split; [apply (wrap_unique _ _ 1); [lra|lra]|lra]. }
  assert (E2 : wrap (x - a') = (x - a')%R /\ (a' <= x)%R
            \/ wrap (x - a') = (x - a' + 2 * PI)%R /\ (x < a')%R).
  { destruct (Rle_or_lt a' x).
    - left. split; [apply wrap_id; lra|lra].
    - right. split; [apply (wrap_unique _ _ (-1)); [lra|lra]|lra]. }
  unfold in_ra, strictly_in_ra.
  destruct E1 as [[-> H1]|[-> H1]]; destruct E2 as [[-> H2]|[-> H2]];
    (split; split; [intros [?|[? [?|?]]]; lra| |intros [?|[? [?|?]]]; lra|]); intros;
    first [left; lra|right; split; [lra|left; lra]|right; split; [lra|right; lra]].
Qed.

(** ** Truncation of non-negative numbers *)
Lemma py_int_imp x n : (IZR n <= x < IZR n + 1)%R -> 0 <= n -> py_int x = n.
Proof.
  intros H Hn. unfold py_int. rewrite Ztrunc_floor.
  - apply Zfloor_imp. rewrite plus_IZR. exact H.
  - apply IZR_le in Hn. lra.
Qed.
Lemma py_int_bounds x : (0 <= x)%R -> 0 <= py_int x /\ (IZR (py_int x) <= x < IZR (py_int x) + 1)%R.
Proof.
  intros Hx. unfold py_int. rewrite Ztrunc_floor by assumption.
  split; [apply Zfloor_lub; exact Hx|]. split; [apply Zfloor_lb|]. apply Zfloor_ub.
Qed.

(** ** Sums of ring sizes *)
Lemma zsum_cons x l : zsum (x :: l) = x + zsum l.
Proof. reflexivity. Qed.
Lemma zsum_nonneg l : (forall n, In n l -> 1 <= n) -> 0 <= zsum l.
Proof.
  induction l as [|x l IH]; intros H; [cbn; lia|]. rewrite zsum_cons. pose proof (H x (or_introl eq_refl)).
  assert (0 <= zsum l) by (apply IH; intros; apply H; now right). lia.
Qed.
Lemma zsum_app l1 l2 : zsum (l1 ++ l2) = zsum l1 + zsum l2.
Proof. induction l1 as [|x l IH]; [reflexivity|]. rewrite <- app_comm_cons, !zsum_cons, IH. lia. Qed.

Lemma nth_error_in_firstn {A} (l : list A) i : incl (firstn i l) l.
Proof. intros x Hx. rewrite <- (firstn_skipn i l). apply in_or_app. now left. Qed.

Lemma firstn_S_nth {A} (l : list A) i a : nth_error l i = Some a -> firstn (S i) l = firstn i l ++ [a].
Proof.
  revert i. induction l as [|x l IH]; intros [|i]; cbn; try discriminate.
  - now intros [= ->].
  - intros H. now rewrite <- IH.
Qed.

Lemma zsum_firstn_S l i n : nth_error l i = Some n -> zsum (firstn (S i) l) = zsum (firstn i l) + n.
Proof. intros H. rewrite (firstn_S_nth _ _ _ H), zsum_app, zsum_cons. cbn. lia. Qed.

Lemma zsum_firstn_mono l i j :
  (forall n, In n l -> 1 <= n) -> (i <= j)%nat -> zsum (firstn i l) <= zsum (firstn j l).
Proof.
  intros H Hij. replace (firstn i l) with (firstn i (firstn j l))
    by (rewrite firstn_firstn, Nat.min_l by assumption; reflexivity).
  rewrite <- (firstn_skipn i (firstn j l)) at 2. rewrite zsum_app.
  assert (0 <= zsum (skipn i (firstn j l))); [|lia]. apply zsum_nonneg. intros n Hn. apply H.
  apply (nth_error_in_firstn l j). rewrite <- (firstn_skipn i (firstn j l)). apply in_or_app. now right.
Qed.

Lemma zsum_locate l k :
  (forall n, In n l -> 1 <= n) -> 0 <= k < zsum l ->
  exists r n t, nth_error l r = Some n /\ 0 <= t < n /\ k = zsum (firstn r l) + t.
Proof.
  revert k. induction l as [|x l IH]; intros k Hp Hk; [cbn in Hk; lia|].
  rewrite zsum_cons in Hk. destruct (Z_lt_ge_dec k x).
  - exists 0%nat, x, k. cbn. repeat split; lia.
  - destruct (IH (k - x)) as (r & n & t & H1 & H2 & H3); [intros; apply Hp; now right|lia|].
    exists (S r), n, t. cbn [nth_error firstn]. rewrite zsum_cons. repeat split; try tauto; lia.
Qed.

Lemma ring_loop_v1 l : (forall n, In n l -> 1 <= n) -> forall r n t r0,
  nth_error l r = Some n -> 0 <= t < n ->
  ring_loop false l r0 (zsum (firstn r l) + t) = (r0 + Z.of_nat r, t).
Proof.
  intros Hp. induction l as [|x l IH]; intros [|r] n t r0; cbn [nth_error]; try discriminate.
  - intros [= ->] Ht. cbn. destruct (Z.leb_spec n t); [lia|]. f_equal; lia.
  - intros Hn Ht. cbn [firstn ring_loop]. rewrite zsum_cons.
    assert (Hp' : forall n, In n l -> 1 <= n) by (intros; apply Hp; now right).
    assert (0 <= zsum (firstn r l)) by (apply zsum_nonneg; intros ? Hi; apply Hp', (nth_error_in_firstn l r), Hi).
    destruct (Z.leb_spec x (x + zsum (firstn r l) + t)); [|lia].
    replace (x + zsum (firstn r l) + t - x) with (zsum (firstn r l) + t) by lia.
    rewrite (IH Hp' _ _ _ _ Hn Ht). f_equal. lia.
Qed.

Lemma ring_loop_v0 l : (forall n, In n l -> 1 <= n) -> forall r n t r0,
  nth_error l r = Some n -> 0 < t <= n \/ r = 0%nat /\ t = 0 ->
  ring_loop true l r0 (zsum (firstn r l) + t) = (r0 + Z.of_nat r, t).
Proof.
  intros Hp. induction l as [|x l IH]; intros [|r] n t r0; cbn [nth_error]; try discriminate.
  - intros [= ->] Ht. cbn. pose proof (Hp n (or_introl eq_refl)). destruct (Z.ltb_spec n t); [lia|]. f_equal; lia.
  - intros Hn [Ht|[? _]]; [|discriminate]. cbn [firstn ring_loop]. rewrite zsum_cons.
    assert (Hp' : forall n, In n l -> 1 <= n) by (intros; apply Hp; now right).
    assert (0 <= zsum (firstn r l)) by (apply zsum_nonneg; intros ? Hi; apply Hp', (nth_error_in_firstn l r), Hi).
    destruct (Z.ltb_spec x (x + zsum (firstn r l) + t)); [|lia].
    replace (x + zsum (firstn r l) + t - x) with (zsum (firstn r l) + t) by lia.
    rewrite (IH Hp' _ _ _ _ Hn (or_introl Ht)). f_equal. lia.
Qed.

(** ** Layouts *)
Section Layout.
Variable g : rings.
Hypothesis W : rings_wf g.
Notation N := (rg_numRings g).
Notation len := (rings_numTracts g).

Lemma size_pos : (0 < rg_size g)%R.
Proof.
  rewrite (rw_size g W). pose proof (IZR_le _ _ (rw_rings g W)). pose proof PI_RGT_0.
  apply Rmult_lt_0_compat; [lra|]. apply Rinv_0_lt_compat. lra.
Qed.
Lemma size_total : ((IZR N + 1) * rg_size g = PI)%R.
Proof. rewrite (rw_size g W). pose proof (IZR_le _ _ (rw_rings g W)). field. lra. Qed.

Lemma ring_has_lt r n : ring_has g r n -> 0 <= r < N /\ 1 <= n.
Proof.
  intros [Hr H]. assert (Hl : (Z.to_nat r < length (rg_nums g))%nat) by (apply nth_error_Some; congruence).
  pose proof (rw_len g W). split; [lia|]. apply (rw_pos g W). eapply nth_error_In; eauto.
Qed.
Lemma ring_has_ex r : 0 <= r < N -> exists n, ring_has g r n.
Proof.
  intros Hr. pose proof (rw_len g W). destruct (nth_error (rg_nums g) (Z.to_nat r)) as [n|] eqn:E.
  - exists n. split; [lia|exact E].
  - apply nth_error_None in E. lia.
Qed.
Lemma ring_has_fun r n m : ring_has g r n -> ring_has g r m -> n = m.
Proof. intros [_ H1] [_ H2]. congruence. Qed.
Lemma ring_has_nth r n : ring_has g r n -> py_nth (rg_nums g) r = Ok n.
Proof. intros [Hr H]. now apply py_nth_in. Qed.

Lemma before_0 : before g 0 = 0.
Proof. reflexivity. Qed.
Lemma before_S r n : ring_has g r n -> before g (r + 1) = before g r + n.
Proof.
  intros [Hr H]. unfold before. replace (Z.to_nat (r + 1)) with (S (Z.to_nat r)) by lia.
  now apply zsum_firstn_S.
Qed.
Lemma before_mono r r' : r <= r' -> before g r <= before g r'.
Proof. intros H. apply zsum_firstn_mono; [exact (rw_pos g W)|lia]. Qed.
Lemma before_nonneg r : 0 <= before g r.
Proof.
  destruct (Z_le_gt_dec 0 r); [rewrite <- before_0; now apply before_mono|].
  unfold before. replace (Z.to_nat r) with 0%nat by lia. cbn. lia.
Qed.
Lemma before_all : before g N = len - 2.
Proof.
  unfold before, rings_numTracts. rewrite firstn_all2; [lia|]. pose proof (rw_len g W). lia.
Qed.
Lemma before_lt r n t : ring_has g r n -> t <= n -> before g r + t <= len - 2.
Proof.
  intros H Ht. pose proof (before_S r n H). pose proof (ring_has_lt r n H) as [Hr _].
  pose proof (before_mono (r + 1) N ltac:(lia)). pose proof before_all. lia.
Qed.
Lemma len_pos : 3 <= len.
Proof.
  pose proof (rw_rings g W). destruct (ring_has_ex 0 ltac:(lia)) as (n & Hn).
  pose proof (ring_has_lt 0 n Hn). pose proof (before_lt 0 n n Hn ltac:(lia)). pose proof (before_nonneg 0). lia.
Qed.

Lemma nominal_inner r n t : ring_has g r n -> 0 <= t < n -> 0 < nominal_index g r t < len - 1.
Proof.
  intros H Ht. unfold nominal_index. pose proof (before_lt r n n H ltac:(lia)). pose proof (before_nonneg r). lia.
Qed.

Lemma nominal_surj i : 0 < i < len - 1 ->
  exists r n t, ring_has g r n /\ 0 <= t < n /\ i = nominal_index g r t.
Proof.
  intros Hi. unfold rings_numTracts in Hi.
  destruct (zsum_locate (rg_nums g) (i - 1) (rw_pos g W)) as (r & n & t & H1 & H2 & H3); [lia|].
  exists (Z.of_nat r), n, t. unfold ring_has, nominal_index, before. rewrite Nat2Z.id.
  repeat split; try tauto; lia.
Qed.

Lemma nominal_lt r n t r' n' t' :
  ring_has g r n -> 0 <= t < n -> ring_has g r' n' -> 0 <= t' < n' ->
  (nominal_index g r t < nominal_index g r' t' <-> r < r' \/ r = r' /\ t < t').
Proof.
  intros H Ht H' Ht'. unfold nominal_index.
  assert (forall r n t r' t', ring_has g r n -> t < n -> 0 <= t' -> r < r' -> before g r + t < before g r' + t') as K.
  { clear r n t r' n' t' H Ht H' Ht'. intros r n t r' t' H Ht Ht' Hr.
    pose proof (before_S r n H). pose proof (before_mono (r + 1) r' ltac:(lia)). lia. }
  destruct (Z_lt_ge_dec r r') as [?|?].
  - pose proof (K r n t r' t'). intuition lia.
  - destruct (Z.eq_dec r r') as [->|?]; [intuition lia|].
    pose proof (K r' n' t' r t). intuition lia.
Qed.
Lemma nominal_inj r n t r' n' t' :
  ring_has g r n -> 0 <= t < n -> ring_has g r' n' -> 0 <= t' < n' ->
  nominal_index g r t = nominal_index g r' t' -> r = r' /\ t = t'.
Proof.
  intros H Ht H' Ht' E. pose proof (nominal_lt r n t r' n' t' H Ht H' Ht').
  pose proof (nominal_lt r' n' t' r n t H' Ht' H Ht). lia.
Qed.

(** [getRingIndices] *)
Lemma indices_south : getRingIndices g 0 = Ok (-1, 0).
Proof. reflexivity. Qed.
Lemma indices_north : getRingIndices g (len - 1) = Ok (N, 0).
Proof.
  unfold getRingIndices. pose proof len_pos. destruct (Z.eqb_spec (len - 1) 0); [lia|].
  now rewrite Z.eqb_refl.
Qed.
Lemma indices_out i : i < 0 \/ len <= i -> getRingIndices g i = Raise IndexError.
Proof.
  intros H. unfold getRingIndices. pose proof len_pos. destruct (Z.eqb_spec i 0); [lia|].
  destruct (Z.eqb_spec i (len - 1)); [lia|].
  destruct (Z.ltb_spec i 0); [reflexivity|]. destruct (Z.leb_spec len i); [reflexivity|lia].
Qed.
Lemma indices_inner i : 0 < i < len - 1 ->
  getRingIndices g i = Ok (ring_loop (rg_version g =? 0) (rg_nums g) 0 (i - 1)).
Proof.
  intros H. unfold getRingIndices. destruct (Z.eqb_spec i 0); [lia|].
  destruct (Z.eqb_spec i (len - 1)); [lia|].
  destruct (Z.ltb_spec i 0); [lia|]. destruct (Z.leb_spec len i); [lia|reflexivity].
Qed.

Lemma indices_v1 r n t : rg_version g = 1 -> ring_has g r n -> 0 <= t < n ->
  getRingIndices g (nominal_index g r t) = Ok (r, t).
Proof.
  intros V H Ht. rewrite indices_inner by (eapply nominal_inner; eauto). rewrite V. cbn [Z.eqb].
  f_equal. unfold nominal_index, before.
  replace (1 + zsum (firstn (Z.to_nat r) (rg_nums g)) + t - 1) with (zsum (firstn (Z.to_nat r) (rg_nums g)) + t) by lia.
  rewrite (ring_loop_v1 _ (rw_pos g W) _ n t 0 (proj2 H) Ht). destruct H. f_equal. lia.
Qed.
Lemma indices_v0 r n t : rg_version g = 0 -> ring_has g r n ->
  0 < t < n \/ t = n /\ r < N - 1 \/ t = 0 /\ r = 0 ->
  getRingIndices g (nominal_index g r t) = Ok (r, t).
Proof.
  intros V H Ht. pose proof (ring_has_lt r n H) as [Hr Hn].
  rewrite indices_inner.
  - rewrite V. cbn [Z.eqb]. f_equal. unfold nominal_index, before.
    replace (1 + zsum (firstn (Z.to_nat r) (rg_nums g)) + t - 1) with (zsum (firstn (Z.to_nat r) (rg_nums g)) + t) by lia.
    rewrite (ring_loop_v0 _ (rw_pos g W) _ n t 0 (proj2 H)); [f_equal; lia|].
    destruct Ht as [?|[?|[? ?]]]; [left; lia|left; lia|]. right. subst. split; [reflexivity|reflexivity].
  - unfold nominal_index. pose proof (before_nonneg r).
    destruct Ht as [?|[[-> ?]|[-> ->]]].
    + pose proof (before_lt r n n H ltac:(lia)). lia.
    + destruct (ring_has_ex (r + 1) ltac:(lia)) as (m & Hm). pose proof (ring_has_lt _ _ Hm).
      pose proof (before_S r n H). pose proof (before_lt (r + 1) m m Hm ltac:(lia)). lia.
    + pose proof (before_lt 0 n n H ltac:(lia)). lia.
Qed.

(** The nominal position of tract [t] of ring [r]. *)
Definition position (r t n : Z) : sphere :=
  (wrap (2 * PI * IZR t / IZR n + rg_raStart g), rg_size g * (IZR r + 1) - 1 / 2 * PI)%R.

Lemma center_of i r t n : getRingIndices g i = Ok (r, t) -> ring_has g r n ->
  rings_center g i = Ok (position r t n).
Proof.
  intros E H. unfold rings_center. rewrite E. cbn [bind]. pose proof (ring_has_lt r n H).
  destruct (Z.eqb_spec r (-1)); [lia|]. destruct (Z.eqb_spec r N); [lia|].
  rewrite (ring_has_nth r n H). cbn [bind]. unfold spherePoint, position. rewrite wrap_wrap. reflexivity.
Qed.
Lemma center_south : rings_center g 0 = Ok (0, - (1 / 2) * PI)%R.
Proof.
  unfold rings_center. rewrite indices_south. cbn [bind]. change (-1 =? -1) with true. cbn iota.
  unfold spherePoint. rewrite wrap_id; [reflexivity|]. pose proof two_pi_pos. lra.
Qed.
Lemma center_north : rings_center g (len - 1) = Ok (0, 1 / 2 * PI)%R.
Proof.
  unfold rings_center. rewrite indices_north. cbn [bind]. pose proof (rw_rings g W).
  destruct (Z.eqb_spec N (-1)); [lia|]. rewrite Z.eqb_refl.
  unfold spherePoint. rewrite wrap_id; [reflexivity|]. pose proof two_pi_pos. lra.
Qed.
Lemma position_wrap r n : 1 <= n -> position r n n = position r 0 n.
Proof.
  intros Hn. unfold position. f_equal. apply (wrap_shift _ _ 1). 
  assert (IZR n <> 0)%R by (apply IZR_neq; lia). field. assumption.
Qed.

(** Declinations inside the rings. *)
Lemma ring_dec r : 0 <= r < N ->
  (firstRingStart g <= firstRingStart g + IZR r * rg_size g
   /\ firstRingStart g + (IZR r + 1) * rg_size g <= - firstRingStart g)%R.
Proof.
  intros Hr. pose proof size_total as HT. pose proof size_pos as HS. unfold firstRingStart.
  assert (0 <= IZR r)%R by (apply IZR_le; lia).
  assert (IZR r + 1 <= IZR N)%R by (rewrite <- plus_IZR; apply IZR_le; lia).
  split.
  - assert (0 <= IZR r * rg_size g)%R by (apply Rmult_le_pos; lra). lra.
  - assert ((IZR r + 1) * rg_size g <= IZR N * rg_size g)%R by (apply Rmult_le_compat_r; lra). lra.
Qed.

Lemma decToRing_in dec r : 0 <= r < N ->
  (firstRingStart g + IZR r * rg_size g <= dec < firstRingStart g + (IZR r + 1) * rg_size g)%R ->
  decToRingNum g dec = r.
Proof.
  intros Hr Hd. pose proof (ring_dec r Hr). pose proof size_pos as HS. unfold decToRingNum.
  destruct (Rlt_bool_spec dec (firstRingStart g)); [lra|].
  destruct (Rlt_bool_spec (firstRingStart g * -1) dec); [lra|].
  apply py_int_imp; [|lia].
  assert (E : ((dec - firstRingStart g) / rg_size g * rg_size g = dec - firstRingStart g)%R) by (field; lra).
  split.
  - apply Rmult_le_reg_r with (rg_size g); [lra|]. rewrite E. lra.
  - apply Rmult_lt_reg_r with (rg_size g); [lra|]. rewrite E. lra.
Qed.
Lemma decToRing_south dec : (dec < firstRingStart g)%R -> decToRingNum g dec = -1.
Proof. intros H. unfold decToRingNum. now destruct (Rlt_bool_spec dec (firstRingStart g)); [|lra]. Qed.
Lemma first_neg : (firstRingStart g < 0)%R.
Proof.
  unfold firstRingStart. pose proof size_total. pose proof size_pos. pose proof (IZR_le _ _ (rw_rings g W)).
  assert (1 * rg_size g <= IZR N * rg_size g)%R by (apply Rmult_le_compat_r; lra). lra.
Qed.
Lemma decToRing_north dec : (- firstRingStart g <= dec)%R -> decToRingNum g dec = N.
Proof.
  intros H. unfold decToRingNum. pose proof first_neg. pose proof size_pos. pose proof size_total.
  destruct (Rlt_bool_spec dec (firstRingStart g)); [lra|].
  destruct (Rlt_bool_spec (firstRingStart g * -1) dec); [reflexivity|].
  assert (dec = - firstRingStart g)%R as -> by lra.
  assert ((- firstRingStart g - firstRingStart g) / rg_size g = IZR N)%R as ->.
  { apply Rmult_eq_reg_r with (rg_size g); [|lra]. unfold firstRingStart, Rdiv.
    rewrite Rmult_assoc, Rinv_l by lra. lra. }
  apply py_int_imp; [lra|]. pose proof (rw_rings g W). lia.
Qed.
(** Every declination is in a cap or a ring. *)
Lemma dec_cases dec :
  ((dec < firstRingStart g)%R /\ decToRingNum g dec = -1)
  \/ ((- firstRingStart g <= dec)%R /\ decToRingNum g dec = N)
  \/ exists r, 0 <= r < N /\ decToRingNum g dec = r
      /\ (firstRingStart g + IZR r * rg_size g <= dec < firstRingStart g + (IZR r + 1) * rg_size g)%R.
Proof.
  destruct (Rlt_or_le dec (firstRingStart g)) as [H|H]; [left; split; [exact H|now apply decToRing_south]|].
  destruct (Rlt_or_le dec (- firstRingStart g)) as [H'|H'].
  2:{ right; left. split; [exact H'|now apply decToRing_north]. }
  right; right. pose proof size_pos as HS. pose proof size_total.
  destruct (py_int_bounds ((dec - firstRingStart g) / rg_size g)) as [B1 [B2 B3]].
  { apply Rmult_le_pos; [lra|]. left. now apply Rinv_0_lt_compat. }
  set (r := py_int _) in *. exists r.
  assert (E : ((dec - firstRingStart g) / rg_size g * rg_size g = dec - firstRingStart g)%R) by (field; lra).
  apply (Rmult_le_compat_r (rg_size g)) in B2; [|lra]. apply (Rmult_lt_compat_r (rg_size g)) in B3; [|lra].
  rewrite E in B2, B3.
  assert (Hr : r < N).
  { apply lt_IZR. apply Rmult_lt_reg_r with (rg_size g); [lra|]. unfold firstRingStart in *. lra. }
  assert (Hd : (firstRingStart g + IZR r * rg_size g <= dec < firstRingStart g + (IZR r + 1) * rg_size g)%R) by lra.
  split; [lia|]. split; [|exact Hd]. apply decToRing_in; [lia|exact Hd].
Qed.

(** Right ascensions inside a ring. *)
Lemma raToTract_spec ra r n : ring_has g r n ->
  exists t, raToTractNum g ra r = Ok t /\ 0 <= t < n
    /\ (wrap (ra - (rg_raStart g + (IZR t - 1 / 2) * (2 * PI / IZR n))) < 2 * PI / IZR n)%R.
Proof.
  intros H. pose proof (ring_has_lt r n H) as [Hr Hn]. unfold raToTractNum.
  destruct (Z.eqb_spec r (-1)); [lia|]. destruct (Z.eqb_spec r N); [lia|]. cbn [orb].
  destruct (Z.leb_spec 0 r); [|lia]. destruct (Z.ltb_spec r N); [|lia]. cbn [andb negb].
  rewrite (ring_has_nth r n H). cbn [bind].
  assert (HnR : (1 <= IZR n)%R) by (apply IZR_le; lia). pose proof two_pi_pos as HP.
  set (q := (2 * PI / IZR n)%R).
  assert (Hq : (0 < q)%R) by (apply Rmult_lt_0_compat; [lra|apply Rinv_0_lt_compat; lra]).
  assert (Eq : (q * IZR n = 2 * PI)%R) by (unfold q; field; lra).
  set (u := wrap (ra - rg_raStart g)). pose proof (wrap_range (ra - rg_raStart g)) as Hu. fold u in Hu.
  destruct (wrap_decomp (ra - rg_raStart g)) as (k & Ek). fold u in Ek.
  assert (Hx : (0 <= u / q)%R) by (apply Rmult_le_pos; [lra|left; now apply Rinv_0_lt_compat]).
  assert (Eu : (u / q * q = u)%R) by (field; lra).
  destruct (py_int_bounds (u / q + 1 / 2)) as [B1 [B2 B3]]; [lra|]. set (t := py_int _) in *.
  apply (Rmult_le_compat_r q) in B2; [|lra]. apply (Rmult_lt_compat_r q) in B3; [|lra].
  rewrite Rmult_plus_distr_r, Eu in B2, B3.
  assert (Ht : t <= n).
  { apply Z.lt_succ_r, lt_IZR. rewrite succ_IZR. apply Rmult_lt_reg_r with q; [exact Hq|]. lra. }
  assert (Hq2 : (q <= 2 * PI)%R).
  { rewrite <- Eq. rewrite <- (Rmult_1_r q) at 1. apply Rmult_le_compat_l; lra. }
  destruct (Z.eqb_spec t n) as [En|En].
  - exists 0. split; [reflexivity|]. split; [lia|]. rewrite En in B2, B3.
    rewrite (wrap_unique _ (u + 1 / 2 * q - 2 * PI) (k + 1)); [lra|rewrite plus_IZR; lra|lra].
  - exists t. split; [reflexivity|]. split; [lia|].
    rewrite (wrap_unique _ (u - (IZR t - 1 / 2) * q) k); [lra|lra|lra].
Qed.

(** The tract number is determined by the arc of RA. *)
Lemma arc_unique x n t t' :
  0 <= t < n -> 0 <= t' < n ->
  (wrap (x - (IZR t - 1 / 2) * (2 * PI / IZR n)) < 2 * PI / IZR n)%R ->
  (wrap (x - (IZR t' - 1 / 2) * (2 * PI / IZR n)) < 2 * PI / IZR n)%R -> t = t'.
Proof.
  intros Ht Ht' H H'.
  assert (HnR : (1 <= IZR n)%R) by (apply IZR_le; lia). pose proof two_pi_pos as HP.
  set (q := (2 * PI / IZR n)%R) in *.
  assert (Hq : (0 < q)%R) by (apply Rmult_lt_0_compat; [lra|apply Rinv_0_lt_compat; lra]).
  assert (Eq : (q * IZR n = 2 * PI)%R) by (unfold q; field; lra).
  pose proof (wrap_range (x - (IZR t - 1 / 2) * q)) as R1. pose proof (wrap_range (x - (IZR t' - 1 / 2) * q)) as R2.
  destruct (wrap_decomp (x - (IZR t - 1 / 2) * q)) as (k & Ek).
  destruct (wrap_decomp (x - (IZR t' - 1 / 2) * q)) as (k' & Ek').
  set (v := wrap (x - (IZR t - 1 / 2) * q)) in *. set (v' := wrap (x - (IZR t' - 1 / 2) * q)) in *.
  assert (E : ((IZR t' - IZR t + (IZR k' - IZR k) * IZR n) * q = v - v')%R).
  { replace ((IZR t' - IZR t + (IZR k' - IZR k) * IZR n) * q)%R
      with ((IZR t' - IZR t) * q + (IZR k' - IZR k) * (q * IZR n))%R by ring. rewrite Eq. lra. }
  rewrite <- !minus_IZR, <- mult_IZR, <- plus_IZR in E.
  assert (t' - t + (k' - k) * n = 0).
  { assert (-1 < t' - t + (k' - k) * n < 1); [|lia].
    split; apply lt_IZR; apply Rmult_lt_reg_r with q; try exact Hq; rewrite E; lra. }
  assert (k' - k = 0) by nia. nia.
Qed.

(** What [findTract] selects. *)
Lemma find_cases c :
  ((snd c < firstRingStart g)%R /\ rings_findIndex g c = Ok 0)
  \/ ((- firstRingStart g <= snd c)%R /\ rings_findIndex g c = Ok (len - 1))
  \/ exists r n t, ring_has g r n /\ 0 <= t < n
      /\ decToRingNum g (snd c) = r /\ raToTractNum g (fst c) r = Ok t
      /\ (firstRingStart g + IZR r * rg_size g <= snd c < firstRingStart g + (IZR r + 1) * rg_size g)%R
      /\ (wrap (fst c - (rg_raStart g + (IZR t - 1 / 2) * (2 * PI / IZR n))) < 2 * PI / IZR n)%R
      /\ rings_findIndex g c = Ok (nominal_index g (if (rg_version g =? 0) && (t =? 0) && negb (r =? 0) then r + 1 else r) t).
Proof.
  destruct (dec_cases (snd c)) as [[H E]|[[H E]|(r & Hr & E & H)]].
  - left. split; [exact H|]. unfold rings_findIndex. rewrite E. reflexivity.
  - right; left. split; [exact H|]. unfold rings_findIndex. rewrite E.
    pose proof (rw_rings g W). destruct (Z.eqb_spec N (-1)); [lia|]. now rewrite Z.eqb_refl.
  - right; right. destruct (ring_has_ex r Hr) as (n & Hn).
    destruct (raToTract_spec (fst c) r n Hn) as (t & E2 & Ht & Ha).
    exists r, n, t. split; [exact Hn|]. split; [exact Ht|]. split; [exact E|]. split; [exact E2|].
    split; [exact H|]. split; [exact Ha|].
    unfold rings_findIndex. rewrite E. destruct (Z.eqb_spec r (-1)); [lia|]. destruct (Z.eqb_spec r N); [lia|].
    rewrite E2. cbn [bind]. f_equal. unfold ring_index, nominal_index, before, py_prefix. lia.
Qed.
End Layout.
