(** Elementary facts about the binary64 operations of RingsFloat.v. *)
From Coq Require Import Reals Lra Lia Machin.
From Flocq Require Import Core BinarySingleNaN Relative Plus_error Div_sqrt_error.
Require Import Verif.Py Verif.Geom Verif.Float64 Verif.Float64Proofs Verif.RingsFloat.
Open Scope R_scope.

Notation fexp64 := (SpecFloat.fexp 53 1024).
Notation rnd := (round radix2 fexp64 (round_mode mode_NE)).
Local Instance fexp64_valid' : Valid_exp fexp64 := fexp_correct 53 1024 Hprec53.
Local Instance fexp64_mono : Monotone_exp fexp64.
Proof. exact (FLT_exp_monotone (-1074) 53). Qed.

(** Half an ulp of 1. *)
Definition u64 : R := / 9007199254740992.
Definition tiny : R := / 1267650600228229401496703205376.

Lemma rnd_rel x : / 1267650600228229401496703205376 <= Rabs x ->
  exists e, Rabs e <= u64 /\ rnd x = x * (1 + e).
Proof.
  intros H.
  destruct (relative_error_N_FLT_ex radix2 (-1074) 53 ltac:(lia) (fun x => negb (Z.even x)) x) as (e & He & Hr).
  { eapply Rle_trans; [|exact H].
    change (/ 1267650600228229401496703205376) with (bpow radix2 (-100)). apply bpow_le. lia. }
  exists e. split; [|exact Hr].
  eapply Rle_trans; [exact He|]. unfold u64. change (bpow radix2 (- (53) + 1)) with (/ 4503599627370496). lra.
Qed.

Lemma rnd_0 : rnd 0 = 0.
Proof. apply round_0. apply valid_rnd_round_mode. Qed.

Lemma rnd_le x y : x <= y -> rnd x <= rnd y.
Proof. apply round_le; [apply fexp64_valid'|apply valid_rnd_round_mode]. Qed.

Lemma rnd_tiny x : Rabs x <= tiny -> Rabs (rnd x) <= tiny.
Proof.
  intros H. apply abs_round_le_generic; try apply fexp64_valid'; try apply valid_rnd_round_mode; [|exact H].
  change tiny with (bpow radix2 (-100)). apply generic_format_bpow. vm_compute. discriminate.
Qed.

Lemma rnd_abs x : Rabs (rnd x - x) <= u64 * Rabs x + 2 * tiny.
Proof.
  assert (T : 0 < tiny) by (unfold tiny; lra). assert (U : 0 < u64) by (unfold u64; lra).
  destruct (Rle_lt_dec tiny (Rabs x)) as [H|H].
  - destruct (rnd_rel x H) as (e & He & ->). replace (x * (1 + e) - x) with (e * x) by ring.
    rewrite Rabs_mult. pose proof (Rmult_le_compat_r (Rabs x) _ _ (Rabs_pos x) He). lra.
  - pose proof (rnd_tiny x ltac:(lra)). pose proof (Rabs_triang (rnd x) (- x)). rewrite Rabs_Ropp in *.
    pose proof (Rmult_le_pos _ _ (Rlt_le _ _ U) (Rabs_pos x)). unfold Rminus. lra.
Qed.

Definition big : R := bpow radix2 1000.
Lemma big_ge n : (Z.abs n <= 2 ^ 200)%Z -> Rabs (IZR n) <= big.
Proof.
  intros H. rewrite <- abs_IZR. apply Rle_trans with (IZR (2 ^ 200)); [apply IZR_le; exact H|].
  unfold big. change (IZR (2 ^ 200)) with (bpow radix2 200). apply bpow_le. lia.
Qed.
Lemma big_100 x : Rabs x <= 1606938044258990275541962092341162602522202993782792835301376 -> Rabs x <= big.
Proof.
  intros H. eapply Rle_trans; [exact H|]. eapply Rle_trans; [apply Rle_abs|].
  apply (big_ge 1606938044258990275541962092341162602522202993782792835301376). reflexivity || lia.
Qed.
Lemma rnd_big x : Rabs x <= big -> Rlt_bool (Rabs (rnd x)) (bpow radix2 1024) = true.
Proof.
  intros H. apply Rlt_bool_true. apply Rle_lt_trans with big.
  - apply abs_round_le_generic; try apply fexp64_valid'; try apply valid_rnd_round_mode; [|exact H].
    apply generic_format_bpow. vm_compute. discriminate.
  - apply bpow_lt. lia.
Qed.

Lemma fadd_ok x y : finite x = true -> finite y = true -> Rabs (f2R x + f2R y) <= big ->
  finite (fadd x y) = true /\ f2R (fadd x y) = rnd (f2R x + f2R y).
Proof.
  intros Fx Fy H. pose proof (Bplus_correct 53 1024 Hprec53 Hmax1024 mode_NE x y Fx Fy) as C.
  rewrite (rnd_big _ H) in C. destruct C as (C1 & C2 & _). split; assumption.
Qed.
Lemma fsub_ok x y : finite x = true -> finite y = true -> Rabs (f2R x - f2R y) <= big ->
  finite (fsub x y) = true /\ f2R (fsub x y) = rnd (f2R x - f2R y).
Proof.
  intros Fx Fy H. pose proof (Bminus_correct 53 1024 Hprec53 Hmax1024 mode_NE x y Fx Fy) as C.
  rewrite (rnd_big _ H) in C. destruct C as (C1 & C2 & _). split; assumption.
Qed.
Lemma fmul_ok x y : finite x = true -> finite y = true -> Rabs (f2R x * f2R y) <= big ->
  finite (fmul x y) = true /\ f2R (fmul x y) = rnd (f2R x * f2R y).
Proof.
  intros Fx Fy H. pose proof (Bmult_correct 53 1024 Hprec53 Hmax1024 mode_NE x y) as C.
  rewrite (rnd_big _ H) in C. destruct C as (C1 & C2 & _). rewrite Fx, Fy in C2. split; assumption.
Qed.
Lemma fdiv_ok x y : finite x = true -> f2R y <> 0 -> Rabs (f2R x / f2R y) <= big ->
  finite (fdiv x y) = true /\ f2R (fdiv x y) = rnd (f2R x / f2R y).
Proof.
  intros Fx Fy H. pose proof (Bdiv_correct 53 1024 Hprec53 Hmax1024 mode_NE x y Fy) as C.
  rewrite (rnd_big _ H) in C. destruct C as (C1 & C2 & _). rewrite Fx in C2. split; assumption.
Qed.
Lemma fltb_ok x y : finite x = true -> finite y = true -> fltb x y = Rlt_bool (f2R x) (f2R y).
Proof. apply Bltb_correct. Qed.
Lemma fleb_ok x y : finite x = true -> finite y = true -> fleb x y = Rle_bool (f2R x) (f2R y).
Proof. apply Bleb_correct. Qed.

Lemma f_format x : generic_format radix2 fexp64 (f2R x).
Proof. apply generic_format_B2R. Qed.
Lemma rnd_f x : rnd (f2R x) = f2R x.
Proof. apply round_generic; [apply valid_rnd_round_mode|apply f_format]. Qed.

Lemma f_int_ok x : finite x = true -> f_int x = Ok (Ztrunc (f2R x)).
Proof.
  intros F. assert (E : Btrunc x = Ztrunc (f2R x)).
  { apply eq_IZR. rewrite (Btrunc_correct 53 1024 Hmax1024).
    unfold round, scaled_mantissa, cexp, FIX_exp, F2R; cbn [Fnum Fexp bpow Z.opp]. rewrite !Rmult_1_r. reflexivity. }
  destruct x; try discriminate; unfold f_int; rewrite E; reflexivity.
Qed.

Lemma float_of_int_ok n : (Z.abs n <= 2 ^ 53)%Z -> finite (float_of_int n) = true /\ f2R (float_of_int n) = IZR n.
Proof. intros H. destruct (float_of_int_R n H). split; assumption. Qed.

(** [x = +- m * 2^e] is the double it looks like. *)
Lemma f64_make_ok m e : (Z.abs m < 2 ^ 53)%Z -> (-1074 <= e <= 100)%Z ->
  finite (f64_make m e) = true /\ f2R (f64_make m e) = IZR m * bpow radix2 e.
Proof.
  intros Hm He.
  pose proof (binary_normalize_correct 53 1024 Hprec53 Hmax1024 mode_NE m e false) as C. cbv zeta in C.
  assert (E : F2R (Float radix2 m e) = IZR m * bpow radix2 e) by reflexivity.
  rewrite E in C.
  assert (G : generic_format radix2 fexp64 (IZR m * bpow radix2 e)).
  { apply (generic_format_FLT radix2 (-1074) 53). exists (Float radix2 m e); cbn; try lia. exact E. }
  assert (B : Rabs (IZR m * bpow radix2 e) <= big).
  { rewrite Rabs_mult, (Rabs_pos_eq (bpow _ _)) by apply bpow_ge_0.
    apply Rle_trans with (bpow radix2 53 * bpow radix2 100).
    - apply Rmult_le_compat; try apply Rabs_pos; try apply bpow_ge_0; [|apply bpow_le; lia].
      rewrite <- abs_IZR. change (bpow radix2 53) with (IZR (2 ^ 53)). apply IZR_le. lia.
    - rewrite <- bpow_plus. unfold big. apply bpow_le. lia. }
  rewrite (rnd_big _ B) in C. destruct C as (C1 & C2 & _).
  rewrite round_generic in C1 by (try exact G; apply valid_rnd_round_mode).
  split; assumption.
Qed.

(** [P]: math.pi; [T]: 2*math.pi. *)
Definition Pf : R := 7074237752028440 / 2251799813685248.
Definition Tf : R := 2 * Pf.
Lemma f_pi_ok : finite f_pi = true /\ f2R f_pi = Pf.
Proof.
  destruct (f64_make_ok 7074237752028440 (-51) ltac:(lia) ltac:(lia)) as [F E].
  split; [exact F|]. unfold f_pi. rewrite E. reflexivity.
Qed.
Lemma f_half_ok : finite f_half = true /\ f2R f_half = / 2.
Proof.
  destruct (f64_make_ok 1 (-1) ltac:(lia) ltac:(lia)) as [F E].
  split; [exact F|]. unfold f_half. rewrite E. change (bpow radix2 (-1)) with (/ 2). lra.
Qed.
Lemma f_twopi_ok : finite f_twopi = true /\ f2R f_twopi = Tf.
Proof.
  destruct (f64_make_ok 7074237752028440 (-50) ltac:(lia) ltac:(lia)) as [F E].
  assert (Q : f_twopi = f64_make 7074237752028440 (-50)) by (apply B2SF_inj; vm_compute; reflexivity).
  rewrite Q. split; [exact F|]. rewrite E. change (bpow radix2 (-50)) with (/ 1125899906842624). unfold Tf, Pf. lra.
Qed.
Lemma f_halfpi_ok : finite (fmul f_half f_pi) = true /\ f2R (fmul f_half f_pi) = Pf / 2.
Proof.
  destruct (f64_make_ok 7074237752028440 (-52) ltac:(lia) ltac:(lia)) as [F E].
  assert (Q : fmul f_half f_pi = f64_make 7074237752028440 (-52)) by (apply B2SF_inj; vm_compute; reflexivity).
  rewrite Q. split; [exact F|]. rewrite E. change (bpow radix2 (-52)) with (/ 4503599627370496). unfold Pf. lra.
Qed.
Lemma f_zero_ok : finite (float_of_int 0) = true /\ f2R (float_of_int 0) = 0.
Proof. apply (float_of_int_ok 0). lia. Qed.

(** pi to 52 bits after the point. *)
Lemma PI_bounds : Pf <= PI <= Pf + 2 * u64.
Proof.
  unfold Pf, u64.
  destruct (PI_2_3_7_ineq 9) as [H1 H2]. unfold tg_alt, PI_2_3_7_tg, Ratan_seq in *. cbn -[pow] in H1, H2.
  unfold pow in *.
  set (x := PI/4) in *. assert (PI = 4 * x) as -> by (unfold x; field). clearbody x.
  split; lra.
Qed.

(** C's fmod is exact. *)
Lemma fmod_ok x y : finite x = true -> finite y = true -> f2R y <> 0 ->
  finite (fmod x y) = true /\ f2R (fmod x y) = f2R x - IZR (Ztrunc (f2R x / f2R y)) * f2R y.
Proof.
  intros Fx Fy Y.
  destruct y as [sy|sy| |sy my ey Hy]; try discriminate Fy; [cbn in Y; lra|].
  destruct x as [sx|sx| |sx mx ex Hx]; try discriminate Fx.
  { cbn [fmod B2R]. split; [reflexivity|]. unfold Rdiv. rewrite Rmult_0_l, Ztrunc_IZR. ring. }
  set (x := B754_finite sx mx ex Hx). set (y := B754_finite sy my ey Hy) in *.
  assert (G : generic_format radix2 fexp64 (f2R x - IZR (Ztrunc (f2R x / f2R y)) * f2R y)).
  { apply format_REM_ZR; try apply f_format; try apply fexp64_valid'; apply fexp64_mono. }
  set (e := Z.min ex ey).
  set (a := (Zpos mx * 2 ^ (ex - e))%Z). set (b := (Zpos my * 2 ^ (ey - e))%Z).
  assert (Ha : (0 < a)%Z) by (apply Z.mul_pos_pos; [lia|apply Z.pow_pos_nonneg; lia]).
  assert (Hb : (0 < b)%Z) by (apply Z.mul_pos_pos; [lia|apply Z.pow_pos_nonneg; lia]).
  assert (Pe : 0 < bpow radix2 e) by apply bpow_gt_0.
  assert (Ex : f2R x = IZR (cond_Zopp sx a) * bpow radix2 e).
  { unfold x, B2R, F2R; cbn [Fnum Fexp]. unfold a.
    replace ex with ((ex - e) + e)%Z at 1 by lia. rewrite bpow_plus, <- Rmult_assoc. f_equal.
    rewrite <- IZR_Zpower by lia. rewrite <- mult_IZR. f_equal.
    change (radix_val radix2) with 2%Z. destruct sx; cbn [cond_Zopp]; lia. }
  assert (Ey : f2R y = IZR (cond_Zopp sy b) * bpow radix2 e).
  { unfold y, B2R, F2R; cbn [Fnum Fexp]. unfold b.
    replace ey with ((ey - e) + e)%Z at 1 by lia. rewrite bpow_plus, <- Rmult_assoc. f_equal.
    rewrite <- IZR_Zpower by lia. rewrite <- mult_IZR. f_equal.
    change (radix_val radix2) with 2%Z. destruct sy; cbn [cond_Zopp]; lia. }
  assert (Q : Ztrunc (f2R x / f2R y) = cond_Zopp (xorb sx sy) (a / b)).
  { assert (Q0 : Ztrunc (IZR a / IZR b) = (a / b)%Z).
    { rewrite Ztrunc_floor; [apply Zfloor_div; lia|].
      apply Rmult_le_pos; [apply IZR_le; lia|left; apply Rinv_0_lt_compat, IZR_lt; lia]. }
    assert (Bn : IZR b <> 0) by (apply not_0_IZR; lia).
    rewrite Ex, Ey.
    replace (IZR (cond_Zopp sx a) * bpow radix2 e / (IZR (cond_Zopp sy b) * bpow radix2 e))
      with (if xorb sx sy then - (IZR a / IZR b) else IZR a / IZR b).
    - destruct (xorb sx sy); cbn [cond_Zopp]; [rewrite Ztrunc_opp|]; rewrite Q0; reflexivity.
    - destruct sx, sy; cbn [xorb cond_Zopp]; rewrite ?opp_IZR; field; split; lra. }
  assert (V : F2R (Float radix2 (cond_Zopp sx (a mod b)) e) = f2R x - IZR (Ztrunc (f2R x / f2R y)) * f2R y).
  { rewrite Q, Ex, Ey. unfold F2R; cbn [Fnum Fexp].
    rewrite <- Rmult_assoc, <- Rmult_minus_distr_r. f_equal. rewrite <- mult_IZR, <- minus_IZR. f_equal.
    pose proof (Z.div_mod a b ltac:(lia)). destruct sx, sy; cbn [xorb cond_Zopp]; lia. }
  change (fmod x y) with (@binary_normalize 53 1024 Hprec53 Hmax1024 mode_NE (cond_Zopp sx (a mod b)) e sx).
  pose proof (binary_normalize_correct 53 1024 Hprec53 Hmax1024 mode_NE (cond_Zopp sx (a mod b)) e sx) as C.
  cbv zeta in C. rewrite V in C. rewrite round_generic in C by (try exact G; apply valid_rnd_round_mode).
  rewrite Rlt_bool_true in C; [destruct C as (C1 & C2 & _); split; assumption|].
  rewrite <- V. apply Rle_lt_trans with (Rabs (f2R x)); [|apply abs_B2R_lt_emax].
  rewrite Ex. unfold F2R; cbn [Fnum Fexp]. rewrite !Rabs_mult. apply Rmult_le_compat_r; [apply Rabs_pos|].
  rewrite <- !abs_IZR. apply IZR_le. rewrite !abs_cond_Zopp.
  pose proof (Z.mod_pos_bound a b ltac:(lia)). pose proof (Z.mod_le a b ltac:(lia) ltac:(lia)). lia.
Qed.

(** The remainder by 2 pi: its sign is that of the argument, and it is less than 2 pi in absolute value. *)
Lemma trunc_rem x t : 0 < t ->
  Rabs (x - IZR (Ztrunc (x / t)) * t) < t /\ Rabs (IZR (Ztrunc (x / t))) <= Rabs x / t /\
  (0 <= x -> 0 <= x - IZR (Ztrunc (x / t)) * t) /\ (x <= 0 -> x - IZR (Ztrunc (x / t)) * t <= 0).
Proof.
  intros T.
  assert (N : forall z, 0 <= z -> 0 <= z - IZR (Ztrunc (z / t)) * t < t /\ 0 <= IZR (Ztrunc (z / t)) <= z / t).
  { intros z Z0. assert (D : 0 <= z / t) by (apply Rmult_le_pos; [exact Z0|left; apply Rinv_0_lt_compat, T]).
    rewrite Ztrunc_floor by exact D. pose proof (Zfloor_lb (z / t)). pose proof (Zfloor_ub (z / t)).
    assert (E : z = z / t * t) by (field; lra).
    assert (0 <= IZR (Zfloor (z / t))) by (apply IZR_le, Zfloor_lub, D).
    split; [split|split]; try assumption.
    - pose proof (Rmult_le_compat_r t _ _ (Rlt_le _ _ T) H). lra.
    - pose proof (Rmult_lt_compat_r t _ _ T H0). lra. }
  destruct (Rle_lt_dec 0 x) as [X|X].
  - destruct (N x X) as [A B]. rewrite !(Rabs_pos_eq) by lra.
    split; [lra|]. split; [lra|]. split; [lra|]. intros. assert (x = 0) as -> by lra.
    unfold Rdiv. rewrite Rmult_0_l, Ztrunc_IZR. lra.
  - destruct (N (- x) ltac:(lra)) as [A B].
    replace (- x / t) with (- (x / t)) in * by (field; lra).
    rewrite Ztrunc_opp, opp_IZR in *.
    rewrite !Rabs_left1 by lra. replace (- x / t) with (- (x / t)) by (field; lra).
    split; [lra|]. split; [lra|]. split; lra.
Qed.
