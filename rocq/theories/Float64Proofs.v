(** [int(a / b)] in binary64 is the floor quotient for 32 bit operands. *)
From Coq Require Import Reals Lra.
From Flocq Require Import Core BinarySingleNaN Relative.
Require Import Verif.Py Verif.Float64.
Open Scope Z_scope.

Local Notation fexp64 := (SpecFloat.fexp 53 1024).
Local Notation rnd := (round radix2 fexp64 (round_mode mode_NE)).

Lemma fexp64_FLT : forall e, fexp64 e = FLT_exp (-1074) 53 e.
Proof. intros e. unfold SpecFloat.fexp, FLT_exp, SpecFloat.emin. reflexivity. Qed.

Local Instance fexp64_valid : Valid_exp fexp64.
Proof. apply fexp_correct. exact Hprec53. Qed.

Lemma int_format n : Z.abs n <= 2 ^ 53 -> generic_format radix2 fexp64 (IZR n).
Proof.
  intros H. apply (generic_format_FLT radix2 (-1074) 53).
  destruct (Z.eq_dec (Z.abs n) (2 ^ 53)) as [E|E].
  - assert (D : n = 2 ^ 53 \/ n = - 2 ^ 53) by lia.
    destruct D as [->| ->].
    + exists (Float radix2 1 53); cbn; try lia. unfold F2R; cbn. lra.
    + exists (Float radix2 (-1) 53); cbn; try lia. unfold F2R; cbn. lra.
  - exists (Float radix2 n 0); cbn; try lia.
    unfold F2R; cbn. lra.
Qed.

Lemma bpow_1024_big : (IZR (2 ^ 100) <= bpow radix2 1024)%R.
Proof.
  change (IZR (2 ^ 100)) with (bpow radix2 100). apply bpow_le. lia.
Qed.

Lemma float_of_int_R n : Z.abs n <= 2 ^ 53 -> B2R (float_of_int n) = IZR n /\ is_finite (float_of_int n) = true.
Proof.
  intros H.
  pose proof (binary_normalize_correct 53 1024 Hprec53 Hmax1024 mode_NE n 0 false) as C.
  cbv zeta in C.
  assert (E : F2R (Float radix2 n 0) = IZR n) by (unfold F2R; cbn; lra).
  rewrite E in C.
  rewrite round_generic in C by (try apply int_format; try exact H; apply valid_rnd_round_mode).
  rewrite Rlt_bool_true in C.
  - destruct C as (C1 & C2 & _). split; assumption.
  - rewrite <- abs_IZR. eapply Rle_lt_trans; [apply IZR_le; exact H|].
    eapply Rlt_le_trans; [|apply bpow_1024_big]. apply IZR_lt. lia.
Qed.

Lemma quotient_round a b :
  0 <= a < 2 ^ 31 -> 0 < b < 2 ^ 31 ->
  (IZR (a / b) <= rnd (IZR a / IZR b) < IZR (a / b) + 1)%R.
Proof.
  intros Ha Hb.
  assert (Hb0 : (0 < IZR b)%R) by (apply IZR_lt; lia).
  pose proof (Z.div_mod a b ltac:(lia)) as E.
  pose proof (Z.mod_pos_bound a b ltac:(lia)) as M.
  set (k := a / b) in *.
  assert (Hk : 0 <= k) by (apply Z.div_pos; lia).
  assert (Hka : k <= a) by (unfold k; apply Z.div_le_upper_bound; nia).
  assert (Q1 : (IZR k <= IZR a / IZR b)%R).
  { apply Rmult_le_reg_r with (IZR b); [exact Hb0|].
    unfold Rdiv. rewrite Rmult_assoc, Rinv_l, Rmult_1_r by lra.
    rewrite <- mult_IZR. apply IZR_le. nia. }
  assert (Q2 : (IZR a / IZR b <= IZR k + 1 - / IZR b)%R).
  { apply Rmult_le_reg_r with (IZR b); [exact Hb0|].
    unfold Rdiv. rewrite Rmult_assoc, Rinv_l, Rmult_1_r by lra.
    replace ((IZR k + 1 - / IZR b) * IZR b)%R with (IZR k * IZR b + IZR b - 1)%R by (field; lra).
    rewrite <- mult_IZR, <- plus_IZR, <- minus_IZR. apply IZR_le. nia. }
  split.
  - apply round_ge_generic; try exact Q1; try apply valid_rnd_round_mode; try apply fexp64_valid.
    apply int_format. lia.
  - destruct (Z.eq_dec a 0) as [->|Ha0].
    + unfold Rdiv. rewrite Rmult_0_l, round_0 by apply valid_rnd_round_mode.
      apply (IZR_le 0) in Hk. lra.
    + destruct (relative_error_N_FLT_ex radix2 (-1074) 53 ltac:(lia) (fun x => negb (Z.even x)) (IZR a / IZR b)) as (eps & He & Hr).
      { rewrite Rabs_pos_eq.
        - apply Rle_trans with (/ IZR b)%R.
          + apply Rle_trans with (bpow radix2 (-31)); [apply bpow_le; lia|].
            change (bpow radix2 (-31)) with (/ IZR (2 ^ 31))%R.
            apply Rinv_le; [exact Hb0|]. apply IZR_le. lia.
          + unfold Rdiv. rewrite <- (Rmult_1_l (/ IZR b)) at 1.
            apply Rmult_le_compat_r; [left; apply Rinv_0_lt_compat; exact Hb0|].
            apply IZR_le. lia.
        - apply Rmult_le_pos; [apply IZR_le; lia|]. left; apply Rinv_0_lt_compat; exact Hb0. }
      change (rnd (IZR a / IZR b)) with (round radix2 (FLT_exp (-1074) 53) (Znearest (fun x => negb (Z.even x))) (IZR a / IZR b)).
      rewrite Hr.
      assert (He' : (eps <= / IZR (2 ^ 31))%R).
      { apply Rle_trans with (Rabs eps); [apply Rle_abs|]. eapply Rle_trans; [exact He|].
        change (bpow radix2 (- (53) + 1)) with (/ IZR (2 ^ 52))%R.
        apply Rle_trans with (/ IZR (2 ^ 52))%R.
        - assert (P52 : (0 < / IZR (2 ^ 52))%R) by (apply Rinv_0_lt_compat, IZR_lt; lia).
          revert P52. generalize (/ IZR (2 ^ 52))%R. intros; lra.
        - apply Rinv_le; [apply IZR_lt; lia|]. apply IZR_le. lia. }
      assert (Hi : (0 < / IZR b)%R) by (apply Rinv_0_lt_compat; exact Hb0).
      assert (Hi31 : (0 < / IZR (2 ^ 31))%R) by (apply Rinv_0_lt_compat, IZR_lt; lia).
      assert (Ha31 : (IZR a < IZR (2 ^ 31))%R) by (apply IZR_lt; lia).
      assert (Ha0' : (0 <= IZR a)%R) by (apply IZR_le; lia).
      assert (P : (IZR a * eps < 1)%R).
      { apply Rle_lt_trans with (IZR a * / IZR (2 ^ 31))%R.
        - apply Rmult_le_compat_l; assumption.
        - replace 1%R with (IZR (2 ^ 31) * / IZR (2 ^ 31))%R by (apply Rinv_r, not_0_IZR; lia).
          apply Rmult_lt_compat_r; assumption. }
      replace (IZR a / IZR b * (1 + eps))%R with (IZR a / IZR b + (IZR a * eps) * / IZR b)%R by (unfold Rdiv; ring).
      assert ((IZR a * eps) * / IZR b < 1 * / IZR b)%R by (apply Rmult_lt_compat_r; assumption).
      lra.
Qed.

(** The index computation of findPatch / findPatchList is the floor quotient. *)
Lemma py_int_truediv_floor a b :
  0 <= a < 2 ^ 31 -> 0 < b < 2 ^ 31 -> py_int_truediv a b = Ok (a / b).
Proof.
  intros Ha Hb. unfold py_int_truediv.
  destruct (Z.eqb_spec b 0) as [?|_]; [lia|]. f_equal.
  pose proof (quotient_round a b Ha Hb) as [L U].
  destruct (float_of_int_R a ltac:(lia)) as [Ra Fa].
  destruct (float_of_int_R b ltac:(lia)) as [Rb Fb].
  assert (Hb0 : (IZR b <> 0)%R) by (apply not_0_IZR; lia).
  pose proof (Bdiv_correct 53 1024 Hprec53 Hmax1024 mode_NE (float_of_int a) (float_of_int b)) as C.
  rewrite Ra, Rb in C. specialize (C Hb0).
  assert (Hk : 0 <= a / b) by (apply Z.div_pos; lia).
  assert (Hka : a / b <= a) by (apply Z.div_le_upper_bound; nia).
  assert (Hk' : (0 <= IZR (a / b))%R) by (apply IZR_le; lia).
  rewrite Rlt_bool_true in C.
  - destruct C as (C & _ & _). apply eq_IZR.
    rewrite (Btrunc_correct 53 1024 Hmax1024).
    rewrite C. revert L U. generalize (rnd (IZR a / IZR b)). intros q L U.
    unfold round, scaled_mantissa, cexp, FIX_exp, F2R; cbn [Fnum Fexp bpow Z.opp].
    rewrite !Rmult_1_r. f_equal.
    rewrite Ztrunc_floor by lra. apply Zfloor_imp. rewrite plus_IZR. split; lra.
  - rewrite Rabs_pos_eq by (apply Rle_trans with (2 := L); exact Hk').
    eapply Rlt_le_trans; [exact U|]. eapply Rle_trans; [|apply bpow_1024_big].
    rewrite <- plus_IZR. apply IZR_le. lia.
Qed.

(** The truncation differs from the floor for negative pixels, which is why
    the caller's "inside the tract box" test (minimum (0,0)) matters. *)
Example truediv_negative : py_int_truediv (-1) 4000 = Ok 0 /\ (-1) / 4000 = -1.
Proof. split; vm_compute; reflexivity. Qed.
