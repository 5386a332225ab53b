(** Lemmas about PixelFloat.v. *)
From Coq Require Import Reals Lra Lia.
From Flocq Require Import Core BinarySingleNaN.
Require Import Verif.Py Verif.Geom Verif.Float64 Verif.Float64Proofs Verif.RingsFloat Verif.FloatOps Verif.TractProofs Verif.PixelFloat.
Open Scope R_scope.
Local Existing Instance fexp64_valid'.
Local Existing Instance fexp64_mono.

(** The double just below 1/2. *)
Definition below_half : R := / 2 - / 18014398509481984.

Lemma fmt m e : (Z.abs m < 2 ^ 53)%Z -> (-1074 <= e)%Z -> generic_format radix2 fexp64 (IZR m * bpow radix2 e).
Proof.
  intros Hm He. apply (generic_format_FLT radix2 (-1074) 53). exists (Float radix2 m e); cbn; try lia. reflexivity.
Qed.

(** Doubles below (above) one with a full mantissa are at most (at least) its neighbour. *)
Lemma below m e x : (2 ^ 52 < m < 2 ^ 53)%Z -> (-1074 <= e)%Z -> generic_format radix2 fexp64 x ->
  x < IZR m * bpow radix2 e -> x <= IZR (m - 1) * bpow radix2 e.
Proof.
  intros Hm He Fx Hx. pose proof (bpow_gt_0 radix2 e) as Pe.
  assert (M : mag_val radix2 _ (mag radix2 (IZR m * bpow radix2 e)) = (e + 53)%Z).
  { apply mag_unique_pos. replace (e + 53 - 1)%Z with (52 + e)%Z by lia. replace (e + 53)%Z with (53 + e)%Z by lia.
    rewrite !bpow_plus. change (bpow radix2 52) with (IZR (2 ^ 52)). change (bpow radix2 53) with (IZR (2 ^ 53)).
    split; [apply Rmult_le_compat_r|apply Rmult_lt_compat_r]; try lra; [apply IZR_le|apply IZR_lt]; lia. }
  pose proof (pred_ge_gt radix2 fexp64 x (IZR m * bpow radix2 e) Fx (fmt m e ltac:(lia) He) Hx) as H.
  rewrite pred_eq_pos in H.
  2:{ apply Rmult_le_pos; [apply IZR_le; lia|lra]. }
  unfold pred_pos in H. rewrite M in H.
  rewrite Req_bool_false in H.
  2:{ replace (e + 53 - 1)%Z with (52 + e)%Z by lia. rewrite bpow_plus. change (bpow radix2 52) with (IZR (2 ^ 52)).
      apply Rgt_not_eq. apply Rmult_lt_compat_r; [exact Pe|]. apply IZR_lt. lia. }
  rewrite ulp_neq_0 in H.
  2:{ apply Rgt_not_eq. apply Rmult_lt_0_compat; [apply IZR_lt; lia|exact Pe]. }
  unfold cexp in H. rewrite M in H. replace (fexp64 (e + 53)) with e in H.
  2:{ unfold SpecFloat.fexp, SpecFloat.emin. lia. }
  rewrite minus_IZR. lra.
Qed.
Lemma above m e x : (2 ^ 52 <= m < 2 ^ 53)%Z -> (-1074 <= e)%Z -> generic_format radix2 fexp64 x ->
  IZR m * bpow radix2 e < x -> IZR (m + 1) * bpow radix2 e <= x.
Proof.
  intros Hm He Fx Hx. pose proof (bpow_gt_0 radix2 e) as Pe.
  assert (M : mag_val radix2 _ (mag radix2 (IZR m * bpow radix2 e)) = (e + 53)%Z).
  { apply mag_unique_pos. replace (e + 53 - 1)%Z with (52 + e)%Z by lia. replace (e + 53)%Z with (53 + e)%Z by lia.
    rewrite !bpow_plus. change (bpow radix2 52) with (IZR (2 ^ 52)). change (bpow radix2 53) with (IZR (2 ^ 53)).
    split; [apply Rmult_le_compat_r|apply Rmult_lt_compat_r]; try lra; [apply IZR_le|apply IZR_lt]; lia. }
  pose proof (succ_le_lt radix2 fexp64 (IZR m * bpow radix2 e) x (fmt m e ltac:(lia) He) Fx Hx) as H.
  rewrite succ_eq_pos in H.
  2:{ apply Rmult_le_pos; [apply IZR_le; lia|lra]. }
  rewrite ulp_neq_0 in H.
  2:{ apply Rgt_not_eq. apply Rmult_lt_0_compat; [apply IZR_lt; lia|exact Pe]. }
  unfold cexp in H. rewrite M in H. replace (fexp64 (e + 53)) with e in H.
  2:{ unfold SpecFloat.fexp, SpecFloat.emin. lia. }
  rewrite plus_IZR. lra.
Qed.

(** [N/2 = N*2^j * 2^(-1-j)] with a full mantissa. *)
Lemma half_scale N : (1 <= N < 2 ^ 52)%Z ->
  exists j, (0 <= j <= 52)%Z /\ (2 ^ 52 <= N * 2 ^ j < 2 ^ 53)%Z /\ ((N + 1) * 2 ^ j <= 2 ^ 53)%Z /\ (1 <= 2 ^ j)%Z
    /\ (Z.odd N = true -> N <> 1%Z -> (2 ^ 52 < N * 2 ^ j)%Z)
    /\ (forall k, IZR k * / 2 = IZR (k * 2 ^ j) * bpow radix2 (-1 - j)).
Proof.
  intros HN. pose proof (Z.log2_spec N ltac:(lia)) as [L1 L2]. pose proof (Z.log2_nonneg N) as L0.
  set (l := Z.log2 N) in *. assert (Hl : (l < 52)%Z) by (apply Z.log2_lt_pow2; lia).
  exists (52 - l)%Z. set (j := (52 - l)%Z).
  assert (Pj : (1 <= 2 ^ j)%Z) by (pose proof (Z.pow_pos_nonneg 2 j); lia).
  assert (E1 : (2 ^ l * 2 ^ j = 2 ^ 52)%Z) by (rewrite <- Z.pow_add_r by lia; f_equal; lia).
  assert (E2 : (2 ^ Z.succ l * 2 ^ j = 2 ^ 53)%Z) by (rewrite <- Z.pow_add_r by lia; f_equal; lia).
  split; [lia|]. split; [|split; [|split; [exact Pj|split]]].
  - rewrite <- E1, <- E2. split; [apply Z.mul_le_mono_nonneg_r|apply Z.mul_lt_mono_pos_r]; lia.
  - rewrite <- E2. apply Z.mul_le_mono_nonneg_r; lia.
  - intros Ho H1. rewrite <- E1. apply Z.mul_lt_mono_pos_r; [lia|].
    assert (N <> 2 ^ l)%Z; [|lia]. intros E. destruct (Z.eq_dec l 0) as [Z0|Z0].
    + rewrite Z0 in E. cbn in E. lia.
    + rewrite E in Ho. replace l with (Z.succ (l - 1)) in Ho by lia. rewrite Z.pow_succ_r in Ho by lia.
      rewrite Z.odd_mul in Ho. discriminate.
  - intros k. rewrite mult_IZR. unfold Zminus. rewrite bpow_plus. rewrite bpow_opp.
    change (bpow radix2 (-1)) with (/ 2). rewrite <- (IZR_Zpower radix2) by lia. change (radix_val radix2) with 2%Z.
    assert (IZR (2 ^ j) <> 0) by (apply Rgt_not_eq, IZR_lt; lia). field. assumption.
Qed.

Lemma rnd_upto x m e : (Z.abs m < 2 ^ 53)%Z -> (-1074 <= e)%Z -> x <= IZR m * bpow radix2 e -> rnd x <= IZR m * bpow radix2 e.
Proof.
  intros Hm He H. replace (IZR m * bpow radix2 e) with (rnd (IZR m * bpow radix2 e)); [now apply rnd_le|].
  apply round_generic; [apply valid_rnd_round_mode|now apply fmt].
Qed.
Lemma rnd_from x m e : (Z.abs m < 2 ^ 53)%Z -> (-1074 <= e)%Z -> IZR m * bpow radix2 e <= x -> IZR m * bpow radix2 e <= rnd x.
Proof.
  intros Hm He H. replace (IZR m * bpow radix2 e) with (rnd (IZR m * bpow radix2 e)); [now apply rnd_le|].
  apply round_generic; [apply valid_rnd_round_mode|now apply fmt].
Qed.

(** Adding a half and rounding does not reach the next integer, but for one value. *)
Lemma round_half x n : generic_format radix2 fexp64 x -> (Z.abs n <= 2 ^ 50)%Z -> IZR n - / 2 <= x < IZR n + / 2 ->
  x <> below_half -> IZR n <= rnd (x + / 2) < IZR n + 1.
Proof.
  intros Fx Hn [H1 H2] Hne. split.
  { rewrite <- (Rmult_1_r (IZR n)). change 1 with (bpow radix2 0). apply rnd_from; [lia|lia|]. change (bpow radix2 0) with 1. lra. }
  destruct (Z.lt_trichotomy n 0) as [Neg|[->|Pos]].
  - (* negative *)
    destruct (half_scale (- 2 * n - 1) ltac:(lia)) as (j & Hj & Hm & Hu & Pj & _ & Sc).
    assert (Fo : generic_format radix2 fexp64 (- x)) by now apply generic_format_opp.
    pose proof (above ((- 2 * n - 1) * 2 ^ j) (-1 - j) (- x) Hm ltac:(lia) Fo) as A.
    rewrite <- Sc in A. rewrite minus_IZR, mult_IZR in A. specialize (A ltac:(lra)). rewrite plus_IZR in A.
    rewrite Rmult_plus_distr_r, <- Sc in A. rewrite minus_IZR, mult_IZR in A. rewrite Rmult_1_l in A.
    pose proof (bpow_gt_0 radix2 (-1 - j)) as Pe.
    assert (K : rnd (x + / 2) <= IZR ((2 * n + 2) * 2 ^ j - 1) * bpow radix2 (-1 - j)).
    { apply rnd_upto; [|lia|].
      - rewrite Z.abs_neq by lia. assert ((- 2 * n) * 2 ^ j <= 2 ^ 53)%Z by (replace (- 2 * n)%Z with (- 2 * n - 1 + 1)%Z by lia; exact Hu). lia.
      - rewrite minus_IZR, Rmult_minus_distr_r, <- Sc, plus_IZR, mult_IZR. lra. }
    rewrite minus_IZR, Rmult_minus_distr_r, <- Sc, plus_IZR, mult_IZR in K. lra.
  - (* x < 1/2 *)
    assert (B1 : x <= below_half).
    { pose proof (pred_ge_gt radix2 fexp64 x (/ 2) Fx) as P.
      assert (F2 : generic_format radix2 fexp64 (/ 2)) by (change (/ 2) with (bpow radix2 (-1)); apply generic_format_bpow; vm_compute; discriminate).
      specialize (P F2 ltac:(lra)). change (/ 2) with (bpow radix2 (-1)) in P. rewrite pred_bpow in P.
      change (fexp64 (-1)) with (-54)%Z in P. unfold below_half.
      change (bpow radix2 (-1)) with (/ 2) in P. change (bpow radix2 (-54)) with (/ 18014398509481984) in P. lra. }
    assert (B2 : x <= IZR (9007199254740991 - 1) * bpow radix2 (-54)).
    { apply below; [lia|lia|exact Fx|]. change (bpow radix2 (-54)) with (/ 18014398509481984). unfold below_half in *. lra. }
    assert (K : rnd (x + / 2) <= IZR 9007199254740991 * bpow radix2 (-53)).
    { apply rnd_upto; [lia|lia|]. change (bpow radix2 (-54)) with (/ 18014398509481984) in B2.
      change (bpow radix2 (-53)) with (/ 9007199254740992). change (9007199254740991 - 1)%Z with 9007199254740990%Z in B2. lra. }
    change (bpow radix2 (-53)) with (/ 9007199254740992) in K. lra.
  - (* positive *)
    destruct (half_scale (2 * n + 1) ltac:(lia)) as (j & Hj & Hm & Hu & Pj & Hs & Sc).
    assert (Ho : Z.odd (2 * n + 1) = true) by (rewrite Z.odd_add, Z.odd_mul; reflexivity).
    specialize (Hs Ho ltac:(lia)).
    pose proof (below ((2 * n + 1) * 2 ^ j) (-1 - j) x ltac:(lia) ltac:(lia) Fx) as A.
    rewrite <- Sc in A. rewrite plus_IZR, mult_IZR in A. specialize (A ltac:(lra)).
    rewrite minus_IZR, Rmult_minus_distr_r, <- Sc, plus_IZR, mult_IZR in A.
    pose proof (bpow_gt_0 radix2 (-1 - j)) as Pe.
    assert (K : rnd (x + / 2) <= IZR ((2 * n + 2) * 2 ^ j - 1) * bpow radix2 (-1 - j)).
    { apply rnd_upto; [|lia|].
      - rewrite Z.abs_eq by lia. replace (2 * n + 2)%Z with (2 * n + 1 + 1)%Z by lia. lia.
      - rewrite minus_IZR, Rmult_minus_distr_r, <- Sc, plus_IZR, mult_IZR. lra. }
    rewrite minus_IZR, Rmult_minus_distr_r, <- Sc, plus_IZR, mult_IZR in K. lra.
Qed.

(** At that value the sum is rounded to 1. *)
Lemma rnd_below_half : rnd (below_half + / 2) = 1.
Proof.
  destruct (f64_make_ok 9007199254740991 (-54) ltac:(lia) ltac:(lia)) as [F1 E1].
  change (bpow radix2 (-54)) with (/ 18014398509481984) in E1.
  assert (E : f2R (f64_make 9007199254740991 (-54)) = below_half) by (rewrite E1; unfold below_half; lra).
  destruct f_half_ok as [F2 E2].
  destruct (fadd_ok _ _ F1 F2) as [F3 V].
  { rewrite E, E2. unfold below_half. apply big_100. rewrite Rabs_pos_eq; lra. }
  rewrite E, E2 in V. rewrite <- V.
  assert (C : Beqb (fadd (f64_make 9007199254740991 (-54)) f_half) (float_of_int 1) = true) by (vm_compute; reflexivity).
  destruct (float_of_int_ok 1 ltac:(lia)) as [F4 E4].
  rewrite (Beqb_correct 53 1024 _ _ F3 F4), E4 in C. apply Req_bool_true_iff in C || (revert C; case Req_bool_spec; [intros K _; exact K|discriminate]).
Qed.

Lemma f_pixel_lemma x : finite x = true -> Rabs (f2R x) <= 1125899906842623 ->
  (f2R x <> below_half -> f_pixel x = round_pixel (f2R x)) /\ (f2R x = below_half -> f_pixel x = 1%Z).
Proof.
  intros Fx Hx. destruct f_half_ok as [F2 E2].
  destruct (fadd_ok x f_half Fx F2) as [_ V].
  { rewrite E2. apply big_100. pose proof (Rabs_triang (f2R x) (/ 2)) as T. rewrite (Rabs_pos_eq (/ 2)) in T by lra. lra. }
  rewrite E2 in V. unfold f_pixel, f_floor. rewrite V. split.
  - intros Hne. apply Zfloor_imp. rewrite plus_IZR. pose proof (round_pixel_spec (f2R x)) as S.
    apply (round_half (f2R x)); [apply f_format| |exact S|exact Hne].
    apply Rabs_le_inv in Hx. assert (-(2 ^ 50) - 1 < round_pixel (f2R x) < 2 ^ 50 + 1)%Z; [|lia].
    split; apply lt_IZR; rewrite ?minus_IZR, ?plus_IZR; change (IZR (2 ^ 50)) with 1125899906842624; change (IZR (- (2 ^ 50))) with (-1125899906842624); lra.
  - intros ->. rewrite rnd_below_half. apply (Zfloor_IZR 1).
Qed.

(** ** The box of several positions *)
Definition span (x : f64) : Prop := finite x = true /\ Rabs (f2R x) <= 562949953421312.

Lemma f_zero_ok : finite f_zero = true /\ f2R f_zero = 0.
Proof. apply (float_of_int_ok 0). lia. Qed.
Lemma f_one_ok : finite (float_of_int 1) = true /\ f2R (float_of_int 1) = 1.
Proof. apply (float_of_int_ok 1). lia. Qed.
Definition epsR : R := / 2251799813685248.
Lemma f_eps_ok : finite f_eps = true /\ f2R f_eps = epsR.
Proof.
  destruct (f64_make_ok 1 (-51) ltac:(lia) ltac:(lia)) as [F E]. split; [exact F|]. unfold f_eps. rewrite E.
  change (bpow radix2 (-51)) with (/ 2251799813685248). unfold epsR. lra.
Qed.
Lemma f_up_ok : finite (fadd (float_of_int 1) f_eps) = true /\ f2R (fadd (float_of_int 1) f_eps) = 1 + epsR.
Proof.
  destruct f_one_ok as [F1 E1]. destruct f_eps_ok as [F2 E2]. destruct (fadd_ok _ _ F1 F2) as [F V].
  { rewrite E1, E2. apply big_100. unfold epsR. rewrite Rabs_pos_eq; lra. }
  split; [exact F|]. rewrite V, E1, E2.
  replace (1 + epsR) with (IZR 2251799813685249 * bpow radix2 (-51)).
  - apply round_generic; [apply valid_rnd_round_mode|]. apply fmt; lia.
  - change (bpow radix2 (-51)) with (/ 2251799813685248). unfold epsR. lra.
Qed.
Lemma f_down_ok : finite (fsub (float_of_int 1) f_eps) = true /\ f2R (fsub (float_of_int 1) f_eps) = 1 - epsR.
Proof.
  destruct f_one_ok as [F1 E1]. destruct f_eps_ok as [F2 E2]. destruct (fsub_ok _ _ F1 F2) as [F V].
  { rewrite E1, E2. apply big_100. unfold epsR. rewrite Rabs_pos_eq; lra. }
  split; [exact F|]. rewrite V, E1, E2.
  replace (1 - epsR) with (IZR 2251799813685247 * bpow radix2 (-51)).
  - apply round_generic; [apply valid_rnd_round_mode|]. apply fmt; lia.
  - change (bpow radix2 (-51)) with (/ 2251799813685248). unfold epsR. lra.
Qed.

Lemma f_tweak_ok x : span x -> finite (f_tweak x) = true
  /\ ((f2R x < 0 /\ f2R (f_tweak x) = rnd (f2R x * (1 - epsR)))
      \/ (0 < f2R x /\ f2R (f_tweak x) = rnd (f2R x * (1 + epsR)))
      \/ (f2R x = 0 /\ f2R (f_tweak x) = epsR)).
Proof.
  intros [Fx Hx]. destruct f_zero_ok as [F0 E0]. destruct f_up_ok as [Fu Eu]. destruct f_down_ok as [Fd Ed].
  destruct f_eps_ok as [Fe Ee].
  assert (B : forall k, Rabs k <= 2 -> Rabs (f2R x * k) <= big).
  { intros k Hk. apply big_100. rewrite Rabs_mult.
    pose proof (Rmult_le_compat _ _ _ _ (Rabs_pos (f2R x)) (Rabs_pos k) Hx Hk). lra. }
  unfold f_tweak. rewrite (fltb_ok x f_zero Fx F0), (fltb_ok f_zero x F0 Fx), E0.
  case Rlt_bool_spec; intros H1; [|case Rlt_bool_spec; intros H2].
  - destruct (fmul_ok x _ Fx Fd) as [F V].
    { rewrite Ed. apply B. apply Rabs_le. unfold epsR. lra. }
    split; [exact F|]. left. rewrite V, Ed. split; [exact H1|reflexivity].
  - destruct (fmul_ok x _ Fx Fu) as [F V].
    { rewrite Eu. apply B. apply Rabs_le. unfold epsR. lra. }
    split; [exact F|]. right; left. rewrite V, Eu. split; [exact H2|reflexivity].
  - split; [exact Fe|]. right; right. split; [lra|exact Ee].
Qed.

Lemma f_tweak_up x : span x -> f2R x <= f2R (f_tweak x).
Proof.
  intros Sx. pose proof (rnd_f x) as R0. destruct (f_tweak_ok x Sx) as [_ [(H & ->)|[(H & ->)|(H & ->)]]].
  - rewrite <- R0 at 1. apply rnd_le. unfold epsR. lra.
  - rewrite <- R0 at 1. apply rnd_le. unfold epsR. lra.
  - rewrite H. unfold epsR. lra.
Qed.
(** How far the maximum is moved. *)
Lemma f_tweak_far x : span x -> f2R (f_tweak x) <= f2R x + / 1125899906842624 * Rmax 1 (Rabs (f2R x)).
Proof.
  intros Sx. pose proof (Rmax_l 1 (Rabs (f2R x))) as M1. pose proof (Rmax_r 1 (Rabs (f2R x))) as M2.
  set (mx := Rmax 1 (Rabs (f2R x))) in *. clearbody mx.
  destruct (f_tweak_ok x Sx) as [_ [(H & ->)|[(H & ->)|(H & ->)]]].
  - pose proof (rnd_abs (f2R x * (1 - epsR))) as A. rewrite Rabs_mult, (Rabs_pos_eq (1 - epsR)) in A by (unfold epsR; lra).
    apply Rabs_le_inv in A. rewrite (Rabs_left _ H) in *. unfold epsR, u64, tiny in *. lra.
  - pose proof (rnd_abs (f2R x * (1 + epsR))) as A. rewrite Rabs_mult, (Rabs_pos_eq (1 + epsR)) in A by (unfold epsR; lra).
    apply Rabs_le_inv in A. rewrite (Rabs_pos_eq (f2R x)) in * by lra. unfold epsR, u64, tiny in *. lra.
  - rewrite H. unfold epsR. lra.
Qed.
(** It is moved properly when it is not tiny. *)
Lemma f_tweak_gap x : span x -> / 4 <= Rabs (f2R x) -> f2R x + / 18014398509481984 < f2R (f_tweak x).
Proof.
  intros Sx Q. destruct (f_tweak_ok x Sx) as [_ [(H & ->)|[(H & ->)|(H & ->)]]].
  - pose proof (rnd_abs (f2R x * (1 - epsR))) as A. rewrite Rabs_mult, (Rabs_pos_eq (1 - epsR)) in A by (unfold epsR; lra).
    apply Rabs_le_inv in A. rewrite (Rabs_left _ H) in *. unfold epsR, u64, tiny in *. lra.
  - pose proof (rnd_abs (f2R x * (1 + epsR))) as A. rewrite Rabs_mult, (Rabs_pos_eq (1 + epsR)) in A by (unfold epsR; lra).
    apply Rabs_le_inv in A. rewrite (Rabs_pos_eq (f2R x)) in * by lra. unfold epsR, u64, tiny in *. lra.
  - rewrite H, Rabs_R0 in Q. lra.
Qed.

(** The moved maximum is never the double just above -1/2. *)
Lemma f_tweak_not x : span x -> f2R (f_tweak x) <> - below_half.
Proof.
  intros Sx E. destruct (Rle_lt_dec (- / 2) (f2R x)) as [Hx|Hx].
  - destruct (Rle_lt_dec (f2R x) (- / 4)) as [H4|H4].
    + pose proof (f_tweak_gap x Sx) as G. rewrite Rabs_left1 in G by lra. specialize (G ltac:(lra)).
      assert (f2R x + / 18014398509481984 < - below_half) by lra. unfold below_half in *. lra.
    + pose proof (f_tweak_up x Sx). unfold below_half in *. lra.
  - (* below -1/2 *)
    pose proof (above (2 ^ 52) (-53) (- f2R x) ltac:(lia) ltac:(lia)) as A.
    specialize (A ltac:(apply generic_format_opp, f_format)).
    change (bpow radix2 (-53)) with (/ 9007199254740992) in A. change (IZR (2 ^ 52)) with 4503599627370496 in A.
    change (IZR (2 ^ 52 + 1)) with 4503599627370497 in A. specialize (A ltac:(lra)).
    destruct (Rle_lt_dec (- f2R x) (4503599627370497 * / 9007199254740992)) as [H1|H1].
    + assert (K : f2R x = - (4503599627370497 * / 9007199254740992)) by lra.
      pose proof (f_tweak_gap x Sx) as G. rewrite Rabs_left1 in G by lra. specialize (G ltac:(lra)).
      destruct (f_tweak_ok x Sx) as [_ [(H & V)|[(H & V)|(H & V)]]]; [|lra|lra].
      assert (L : IZR (-4503599627370495) * bpow radix2 (-53) <= rnd (f2R x * (1 - epsR))).
      { apply rnd_from; [lia|lia|]. rewrite K. change (bpow radix2 (-53)) with (/ 9007199254740992). unfold epsR. lra. }
      rewrite <- V, E in L. change (bpow radix2 (-53)) with (/ 9007199254740992) in L. unfold below_half in L. lra.
    + pose proof (above (2 ^ 52 + 1) (-53) (- f2R x) ltac:(lia) ltac:(lia)) as A2.
      specialize (A2 ltac:(apply generic_format_opp, f_format)).
      change (bpow radix2 (-53)) with (/ 9007199254740992) in A2.
      change (IZR (2 ^ 52 + 1)) with 4503599627370497 in A2. change (IZR (2 ^ 52 + 1 + 1)) with 4503599627370498 in A2.
      specialize (A2 ltac:(lra)).
      destruct (f_tweak_ok x Sx) as [_ [(H & V)|[(H & V)|(H & V)]]]; [|lra|lra].
      assert (L : rnd (f2R x * (1 - epsR)) <= - / 2).
      { set (y := - (4503599627370498 * / 9007199254740992)).
        apply Rle_trans with (rnd (y * (1 - epsR))).
        { apply rnd_le. apply Rmult_le_compat_r; [unfold epsR; lra|]. unfold y. lra. }
        destruct (f64_make_ok (-4503599627370498) (-53) ltac:(lia) ltac:(lia)) as [F1 E1].
        change (bpow radix2 (-53)) with (/ 9007199254740992) in E1. destruct f_down_ok as [Fd Ed].
        assert (E2 : f2R (f64_make (-4503599627370498) (-53)) = y) by (rewrite E1; unfold y; lra).
        destruct (fmul_ok _ _ F1 Fd) as [F3 V3].
        { rewrite E2, Ed. apply big_100. rewrite Rabs_left1; unfold y, epsR; lra. }
        rewrite E2, Ed in V3. rewrite <- V3.
        destruct (f64_make_ok (-1) (-1) ltac:(lia) ltac:(lia)) as [F4 E4]. change (bpow radix2 (-1)) with (/ 2) in E4.
        assert (C : Beqb (fmul (f64_make (-4503599627370498) (-53)) (fsub (float_of_int 1) f_eps)) (f64_make (-1) (-1)) = true)
          by (vm_compute; reflexivity).
        rewrite (Beqb_correct 53 1024 _ _ F3 F4), E4 in C. revert C; case Req_bool_spec; [intros K _; rewrite K; lra|discriminate]. }
      rewrite <- V, E in L. unfold below_half in L. lra.
Qed.

(** [ceil(max - 0.5)] *)
Lemma f_top_lemma x : finite x = true -> Rabs (f2R x) <= 1125899906842623 -> f2R x <> - below_half ->
  f_ceil (fsub x f_half) = Zceil (f2R x - / 2).
Proof.
  intros Fx Hx Hne. destruct f_half_ok as [F2 E2].
  destruct (fsub_ok x f_half Fx F2) as [_ V].
  { rewrite E2. apply big_100. pose proof (Rabs_triang (f2R x) (- / 2)) as T. rewrite Rabs_Ropp, (Rabs_pos_eq (/ 2)) in T by lra. unfold Rminus. lra. }
  rewrite E2 in V. unfold f_ceil. rewrite V. unfold Zceil. f_equal.
  replace (f2R x - / 2) with (- (- f2R x + / 2)) by ring.
  cbn [round_mode]. rewrite round_NE_opp, !Ropp_involutive.
  change (round radix2 fexp64 ZnearestE (- f2R x + / 2)) with (rnd (- f2R x + / 2)).
  fold (round_pixel (- f2R x)). apply Zfloor_imp. rewrite plus_IZR.
  apply (round_half (- f2R x)); [apply generic_format_opp, f_format| |apply round_pixel_spec|lra].
  pose proof (round_pixel_spec (- f2R x)) as S. apply Rabs_le_inv in Hx.
  assert (-(2 ^ 50) - 1 < round_pixel (- f2R x) < 2 ^ 50 + 1)%Z; [|lia].
  split; apply lt_IZR; rewrite ?minus_IZR, ?plus_IZR; change (IZR (2 ^ 50)) with 1125899906842624; change (IZR (- (2 ^ 50))) with (-1125899906842624); lra.
Qed.

Lemma round_pixel_mono x y : x <= y -> (round_pixel x <= round_pixel y)%Z.
Proof. intros H. apply Zfloor_le. lra. Qed.

Definition axis_inv (l : list f64) (lo hi : f64) : Prop :=
  In lo l /\ exists q, In q l /\ hi = f_tweak q
    /\ forall p, In p l -> f2R lo <= f2R p /\ (f2R p <= f2R q \/ f2R p < f2R hi).

Lemma axis_inv_one p : axis_inv [p] p (f_tweak p).
Proof. split; [now left|]. exists p. split; [now left|]. split; [reflexivity|]. intros x [<-|[]]. lra. Qed.

Lemma axis_inv_step l lo hi p lo' hi' : (forall x, In x l -> span x) -> span p -> axis_inv l lo hi ->
  f_include_axis lo hi p = (lo', hi') -> axis_inv (p :: l) lo' hi'.
Proof.
  intros Sl Sp (Hlo & q & Hq & Eh & Hall) E. pose proof (Sl _ Hlo) as Slo. pose proof (Sl _ Hq) as Sq.
  destruct (f_tweak_ok q Sq) as [Fh _]. rewrite <- Eh in Fh. pose proof (f_tweak_up q Sq) as Uq. rewrite <- Eh in Uq.
  pose proof (proj1 (Hall q Hq)) as Lq.
  unfold f_include_axis in E. rewrite (fltb_ok p lo (proj1 Sp) (proj1 Slo)), (fleb_ok hi p Fh (proj1 Sp)) in E.
  revert E. case Rlt_bool_spec; intros H1; [|case Rle_bool_spec; intros H2]; intros [= <- <-].
  - split; [now left|]. exists q. split; [now right|]. split; [exact Eh|].
    intros x [<-|Hx]; [lra|]. destruct (Hall x Hx). lra.
  - split; [now right|]. exists p. split; [now left|]. split; [reflexivity|].
    intros x [<-|Hx]; [lra|]. destruct (Hall x Hx) as [? [?|?]]; lra.
  - split; [now right|]. exists q. split; [now right|]. split; [exact Eh|].
    intros x [<-|Hx]; [lra|]. destruct (Hall x Hx). lra.
Qed.

Definition axis_box (l : list f64) (a top : Z) : Prop :=
  (forall p, In p l -> (round_pixel (f2R p) <= top)%Z)
  /\ (a <= top)%Z
  /\ (exists lo, In lo l /\ (forall p, In p l -> (round_pixel (f2R lo) <= round_pixel (f2R p))%Z)
        /\ (a = round_pixel (f2R lo) \/ (round_pixel (f2R lo) = 0%Z /\ a = 1%Z)))
  /\ (exists q, In q l /\ IZR top - / 2 < f2R q + / 1125899906842624 * Rmax 1 (Rabs (f2R q))).

Lemma axis_inv_box l lo hi : (forall x, In x l -> span x) -> axis_inv l lo hi ->
  axis_box l (f_pixel lo) (f_ceil (fsub hi f_half)).
Proof.
  intros Sl (Hlo & q & Hq & Eh & Hall). pose proof (Sl _ Hlo) as Slo. pose proof (Sl _ Hq) as Sq.
  destruct (f_tweak_ok q Sq) as [Fh _]. rewrite <- Eh in Fh. pose proof (f_tweak_up q Sq) as Uq. rewrite <- Eh in Uq.
  pose proof (f_tweak_far q Sq) as Fq. rewrite <- Eh in Fq.
  pose proof (f_tweak_gap q Sq) as Gq. rewrite <- Eh in Gq.
  pose proof (f_tweak_not q Sq) as Nq. rewrite <- Eh in Nq.
  pose proof (proj1 (Hall q Hq)) as Lq.
  destruct Slo as [Flo Blo]. destruct Sq as [Fq' Bq].
  assert (Bh : Rabs (f2R hi) <= 1125899906842623).
  { apply Rabs_le_inv in Bq. apply Rabs_le. assert (Rmax 1 (Rabs (f2R q)) <= 562949953421312) by (apply Rmax_lub; [lra|apply Rabs_le; lra]). lra. }
  assert (Et : f_ceil (fsub hi f_half) = Zceil (f2R hi - / 2)) by now apply f_top_lemma.
  pose proof (Zceil_ub (f2R hi - / 2)) as Cu. pose proof (Zceil_lb (f2R hi - / 2)) as Cl.
  assert (Low : forall n, IZR n - / 2 < f2R hi -> (n <= Zceil (f2R hi - / 2))%Z).
  { intros n Hn. apply Z.lt_succ_r. apply lt_IZR. rewrite succ_IZR. lra. }
  assert (Top : forall p, In p l -> (round_pixel (f2R p) <= Zceil (f2R hi - / 2))%Z).
  { intros p Hp. destruct (Hall p Hp) as [_ [H|H]].
    - apply Z.le_trans with (round_pixel (f2R q)); [now apply round_pixel_mono|]. apply Low.
      pose proof (round_pixel_spec (f2R q)) as S. set (n := round_pixel (f2R q)) in *. clearbody n.
      destruct (Rle_lt_dec (/ 4) (Rabs (f2R q))) as [Hb|Hb].
      + specialize (Gq Hb). lra.
      + apply Rabs_def2 in Hb. assert (IZR n < 1) by lra. apply (lt_IZR n 1) in H0. assert (IZR n <= 0) by (apply IZR_le; lia). lra.
    - apply Low. pose proof (round_pixel_spec (f2R p)). lra. }
  destruct (f_pixel_lemma lo Flo ltac:(lra)) as [P1 P2].
  rewrite Et. split; [exact Top|]. split; [|split].
  - destruct (Req_dec (f2R lo) below_half) as [D|D].
    + rewrite (P2 D). apply Low. specialize (Gq ltac:(rewrite Rabs_pos_eq; unfold below_half in D; lra)).
      unfold below_half in D. lra.
    + rewrite (P1 D). apply Top. exact Hlo.
  - exists lo. split; [exact Hlo|]. split; [intros p Hp; apply round_pixel_mono, Hall, Hp|].
    destruct (Req_dec (f2R lo) below_half) as [D|D].
    + right. split; [|now apply P2]. rewrite D. apply round_pixel_unique. unfold below_half. lra.
    + left. now apply P1.
  - exists q. split; [exact Hq|]. lra.
Qed.

Definition span2 (p : f64 * f64) : Prop := span (fst p) /\ span (snd p).

Lemma fold_inv l : (forall p, In p l -> span2 p) -> forall acc b, (forall p, In p acc -> span2 p) ->
  (match b with
   | FBoxEmpty => acc = []
   | FBox x0 y0 x1 y1 => axis_inv (map fst acc) x0 x1 /\ axis_inv (map snd acc) y0 y1
   end) ->
  match fold_left f_include l b with
  | FBoxEmpty => acc = [] /\ l = []
  | FBox x0 y0 x1 y1 => axis_inv (map fst (rev l ++ acc)) x0 x1 /\ axis_inv (map snd (rev l ++ acc)) y0 y1
  end.
Proof.
  induction l as [|[x y] l IH]; intros Sl acc b Sa Hb; cbn [fold_left].
  - destruct b; auto.
  - specialize (IH (fun p Hp => Sl p (or_intror Hp)) ((x, y) :: acc) (f_include b (x, y))).
    assert (Sxy : span2 (x, y)) by (apply Sl; now left).
    assert (Sa' : forall p, In p ((x, y) :: acc) -> span2 p) by (intros p [<-|Hp]; auto).
    specialize (IH Sa'). cbn [rev]. rewrite <- app_assoc. cbn [app].
    assert (K : match f_include b (x, y) with
                | FBoxEmpty => (x, y) :: acc = []
                | FBox x0 y0 x1 y1 => axis_inv (map fst ((x, y) :: acc)) x0 x1 /\ axis_inv (map snd ((x, y) :: acc)) y0 y1
                end).
    { destruct b as [|x0 y0 x1 y1]; cbn [f_include].
      - subst acc. split; apply axis_inv_one.
      - destruct Hb as [Hx Hy]. destruct (f_include_axis x0 x1 x) as [a1 a2] eqn:E1. destruct (f_include_axis y0 y1 y) as [b1 b2] eqn:E2.
        split.
        + apply (axis_inv_step (map fst acc) x0 x1 x); [|apply Sxy|exact Hx|exact E1].
          intros z Hz. apply in_map_iff in Hz. destruct Hz as (p & <- & Hp). apply Sa, Hp.
        + apply (axis_inv_step (map snd acc) y0 y1 y); [|apply Sxy|exact Hy|exact E2].
          intros z Hz. apply in_map_iff in Hz. destruct Hz as (p & <- & Hp). apply Sa, Hp. }
    specialize (IH K). destruct (fold_left f_include l (f_include b (x, y))); [|exact IH].
    destruct IH as [D _]. discriminate.
Qed.

Lemma f_box_lemma l : l <> [] -> (forall p, In p l -> span2 p) ->
  exists a b u v, f_box_of_box2d (fold_left f_include l FBoxEmpty) = Box a b (u + 1 - a) (v + 1 - b)
    /\ axis_box (map fst l) a u /\ axis_box (map snd l) b v.
Proof.
  intros Hl Sl. pose proof (fold_inv l Sl [] FBoxEmpty ltac:(intros ? []) eq_refl) as H.
  destruct (fold_left f_include l FBoxEmpty) as [|x0 y0 x1 y1]; [tauto|].
  rewrite app_nil_r in H. destruct H as [Hx Hy].
  exists (f_pixel x0), (f_pixel y0), (f_ceil (fsub x1 f_half)), (f_ceil (fsub y1 f_half)). split; [reflexivity|].
  assert (Sx : forall x, In x (map fst (rev l)) -> span x).
  { intros x Hx'. apply in_map_iff in Hx'. destruct Hx' as (p & <- & Hp). apply Sl. now apply in_rev. }
  assert (Sy : forall x, In x (map snd (rev l)) -> span x).
  { intros x Hx'. apply in_map_iff in Hx'. destruct Hx' as (p & <- & Hp). apply Sl. now apply in_rev. }
  pose proof (axis_inv_box _ _ _ Sx Hx) as Ax. pose proof (axis_inv_box _ _ _ Sy Hy) as Ay.
  assert (R : forall (f : f64 * f64 -> f64) a u, axis_box (map f (rev l)) a u -> axis_box (map f l) a u).
  { intros f a u A. assert (M : forall z, In z (map f (rev l)) <-> In z (map f l)).
    { intros z. rewrite map_rev, <- in_rev. reflexivity. }
    destruct A as (A1 & A2 & (lo & L1 & L2 & L3) & q & Q1 & Q2).
    split; [intros p Hp; apply A1, M, Hp|]. split; [exact A2|]. split.
    - exists lo. split; [apply M, L1|]. split; [intros p Hp; apply L2, M, Hp|exact L3].
    - exists q. split; [apply M, Q1|exact Q2]. }
  split; apply R; assumption.
Qed.
