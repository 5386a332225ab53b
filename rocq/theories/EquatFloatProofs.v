(** Rounding errors of the coordinates of an EquatSkyMap (EquatFloat.v). *)
From Coq Require Import Reals Lra Lia.
From Flocq Require Import Core BinarySingleNaN.
Require Import Verif.Py Verif.Geom Verif.Float64 Verif.Float64Proofs Verif.Rings Verif.RingsProofs Verif.RingsFloat Verif.RingsFloatSpec Verif.FloatOps.
Require Import Verif.RingsFloatProofs Verif.RingsFloatProofs2 Verif.EquatFloat.
Open Scope R_scope.
Local Instance fexp64_valid2 : Valid_exp fexp64 := fexp_correct 53 1024 Hprec53.

Definition f_deg : f64 := fdiv f_pi (float_of_int 180).
Lemma f_deg_ok : finite f_deg = true /\ 0 <= f2R f_deg <= / 50 /\ exists e, Rabs e <= 3 * u64 /\ f2R f_deg = PI / 180 * (1 + e).
Proof.
  destruct f_pi_ok as [FP EP]. destruct (float_of_int_ok 180 ltac:(lia)) as [F1 E1].
  destruct (fdiv_ok f_pi (float_of_int 180) FP) as [F2 E2].
  { rewrite E1. lra. }
  { rewrite EP, E1. apply big_100. rewrite Rabs_pos_eq; nums; lra. }
  rewrite EP, E1 in E2. fold f_deg in F2, E2. split; [exact F2|].
  destruct (rnd_rel (Pf / 180)) as (e & He & E).
  { rewrite Rabs_pos_eq; nums; lra. }
  rewrite E in E2. pose proof PI_bounds as P. pose proof PI_RGT_0 as PP. apply Rabs_le_inv in He.
  split; [rewrite E2; nums; lra|].
  exists (Pf / PI * (1 + e) - 1). split; [|rewrite E2; field; lra].
  assert (D : Rabs (Pf / PI - 1) <= u64).
  { replace (Pf / PI - 1) with ((Pf - PI) * / PI) by (field; lra). rewrite Rabs_mult.
    assert (0 < / PI <= / 3). { split; [apply Rinv_0_lt_compat; lra|]. apply Rinv_le; [lra|]. nums; lra. }
    rewrite (Rabs_pos_eq (/ PI)) by lra. assert (Rabs (Pf - PI) <= 2 * u64) by (apply Rabs_le; nums; lra).
    apply Rle_trans with (2 * u64 * / 3); [apply Rmult_le_compat; try apply Rabs_pos; lra|]. unfold u64; lra. }
  apply Rabs_le_inv in D. set (x := Pf / PI - 1) in *. replace (Pf / PI) with (1 + x) by (unfold x; ring).
  clearbody x. replace ((1 + x) * (1 + e) - 1) with (x + e + x * e) by ring.
  assert (Rabs (x * e) <= u64 * u64) by (rewrite Rabs_mult; apply Rmult_le_compat; try apply Rabs_pos; apply Rabs_le; lra).
  apply Rabs_le_inv in H. apply Rabs_le. unfold u64 in *. lra.
Qed.

(** ** Declinations *)
Lemma deg_90 : finite (fmul (float_of_int 90) f_deg) = true /\ f2R (fmul (float_of_int 90) f_deg) = Pf / 2.
Proof.
  destruct f_halfpi_ok as [F E]. assert (Q : fmul (float_of_int 90) f_deg = fmul f_half f_pi) by (apply B2SF_inj; vm_compute; reflexivity).
  rewrite Q. split; assumption.
Qed.
(** The double after 90. *)
Definition f90s : f64 := f64_make 6333186975989761 (-46).
Lemma f90s_ok : finite f90s = true /\ f2R f90s = 90 + / 70368744177664.
Proof.
  destruct (f64_make_ok 6333186975989761 (-46) ltac:(lia) ltac:(lia)) as [F E]. split; [exact F|].
  unfold f90s. rewrite E. change (bpow radix2 (-46)) with (/ 70368744177664). lra.
Qed.
Lemma deg_90s : finite (fmul f90s f_deg) = true /\ f2R (fmul f90s f_deg) = rnd (f2R f90s * f2R f_deg) /\ Pf / 2 < f2R (fmul f90s f_deg).
Proof.
  destruct f_deg_ok as (FD & BD & _). destruct f90s_ok as [F9 E9].
  destruct (fmul_ok f90s f_deg F9 FD) as [F E].
  { apply big_100. rewrite E9. rewrite Rabs_mult, !Rabs_pos_eq by lra. apply Rle_trans with (91 * / 50); [|lra].
    apply Rmult_le_compat; lra. }
  split; [exact F|]. split; [exact E|]. destruct f_halfpi_ok as [FH EH].
  assert (Q : fltb (fmul f_half f_pi) (fmul f90s f_deg) = true) by (vm_compute; reflexivity).
  rewrite (fltb_ok _ _ FH F), EH in Q. revert Q. case Rlt_bool_spec; [trivial|discriminate].
Qed.
Lemma after_90 x : generic_format radix2 fexp64 x -> 90 < x -> 90 + / 70368744177664 <= x.
Proof.
  intros G L. assert (G9 : generic_format radix2 fexp64 90).
  { destruct (float_of_int_ok 90 ltac:(lia)) as [_ E]. rewrite <- E. apply f_format. }
  pose proof (succ_le_lt radix2 fexp64 90 x G9 G L) as S. rewrite succ_eq_pos in S by lra.
  rewrite ulp_neq_0 in S by lra. unfold cexp in S. rewrite (mag_unique_pos radix2 90 7) in S.
  - change (SpecFloat.fexp 53 1024 7) with (-46)%Z in S. change (bpow radix2 (-46)) with (/ 70368744177664) in S. exact S.
  - change (bpow radix2 (7 - 1)) with 64. change (bpow radix2 7) with 128. lra.
Qed.

(** A declination in range. *)
Lemma dec_in d : finite d = true -> Rabs (f2R d) <= 90 ->
  finite (f_rad true d) = true /\ Rabs (f2R (f_rad true d)) <= Pf / 2 /\ Rabs (f2R (f_rad true d) - deg (f2R d)) <= 8 * u64.
Proof.
  intros F B. cbn [f_rad]. fold f_deg. destruct f_deg_ok as (FD & BD & e & He & ED).
  destruct (float_of_int_ok 90 ltac:(lia)) as [F9 E9].
  assert (A : Rabs (f2R d * f2R f_deg) <= 90 * / 50).
  { rewrite Rabs_mult, (Rabs_pos_eq (f2R f_deg)) by lra. apply Rmult_le_compat; try apply Rabs_pos; lra. }
  destruct (fmul_ok d f_deg F FD) as [F1 E1]; [apply big_100; lra|]. split; [exact F1|].
  destruct deg_90 as [_ E90]. destruct (fmul_ok (float_of_int 90) f_deg F9 FD) as [_ E91].
  { apply big_100. rewrite E9, Rabs_mult, !Rabs_pos_eq by lra. apply Rle_trans with (90 * / 50); [apply Rmult_le_compat|]; lra. }
  rewrite E9, E90 in E91. apply Rabs_le_inv in B. split.
  - rewrite E1. apply Rabs_le. split.
    + rewrite E91. rewrite <- round_NE_opp. apply rnd_le. replace (- (90 * f2R f_deg)) with ((- 90) * f2R f_deg) by ring. apply Rmult_le_compat_r; lra.
    + rewrite E91. apply rnd_le. apply Rmult_le_compat_r; lra.
  - rewrite E1. pose proof (rnd_abs (f2R d * f2R f_deg)) as A2.
    assert (A3 : Rabs (f2R d * f2R f_deg - deg (f2R d)) <= 6 * u64).
    { rewrite ED. unfold deg. replace (f2R d * (PI / 180 * (1 + e)) - f2R d * (PI / 180)) with (f2R d * (PI / 180) * e) by ring.
      rewrite Rabs_mult. pose proof PI_bounds as P.
      assert (Rabs (f2R d * (PI / 180)) <= 2).
      { rewrite Rabs_mult, (Rabs_pos_eq (PI / 180)) by (nums; lra). apply Rle_trans with (90 * (PI / 180)); [|nums; lra].
        apply Rmult_le_compat_r; [nums; lra|]. apply Rabs_le. lra. }
      apply Rle_trans with (2 * (3 * u64)); [apply Rmult_le_compat; try apply Rabs_pos; assumption|lra]. }
    assert (A4 : u64 * Rabs (f2R d * f2R f_deg) <= u64 * (90 * / 50)) by (apply Rmult_le_compat_l; [unfold u64; lra|exact A]).
    apply Rabs_le_inv in A2, A3. apply Rabs_le. set (a := rnd _) in *. set (b := f2R d * f2R f_deg) in *. set (c := deg _) in *.
    set (v := u64 * Rabs b) in *. clearbody a c v. clearbody b. clear - A2 A3 A4. nums. lra.
Qed.
(** A declination out of range. *)
Lemma dec_out d : finite d = true -> 90 < Rabs (f2R d) -> fltb (fmul f_half f_pi) (Babs (f_rad true d)) = true.
Proof.
  intros F B. cbn [f_rad]. fold f_deg. destruct f_deg_ok as (FD & BD & _).
  destruct f90s_ok as [F9 E9]. destruct deg_90s as (F9s & E9s & L9s). destruct f_halfpi_ok as [FH EH].
  assert (G : generic_format radix2 fexp64 (Rabs (f2R d))) by (apply generic_format_abs, f_format).
  pose proof (after_90 _ G B) as A. rewrite <- E9 in A.
  assert (K : f2R f90s * f2R f_deg <= Rabs (f2R d * f2R f_deg)).
  { rewrite Rabs_mult, (Rabs_pos_eq (f2R f_deg)) by lra. apply Rmult_le_compat_r; lra. }
  pose proof (Bmult_correct 53 1024 Hprec53 Hmax1024 mode_NE d f_deg) as C.
  destruct (Rlt_bool _ _).
  - destruct C as (C1 & C2 & _). rewrite F, FD in C2.
    assert (FA : finite (Babs (fmul d f_deg)) = true) by (rewrite is_finite_Babs; exact C2).
    rewrite (fltb_ok _ _ FH FA), EH, B2R_Babs. unfold fmul. rewrite C1. apply Rlt_bool_true.
    rewrite <- round_NE_abs by apply fexp64_valid2. eapply Rlt_le_trans; [exact L9s|]. rewrite E9s. apply rnd_le. exact K.
  - change (Bmult mode_NE d f_deg) with (fmul d f_deg) in C. destruct (fmul d f_deg) as [s|s| |s m e' H]; try discriminate C. unfold fltb. cbn [Babs].
    assert (Q : fmul f_half f_pi = f64_make 7074237752028440 (-52)) by (apply B2SF_inj; vm_compute; reflexivity).
    rewrite Q. vm_compute. reflexivity.
Qed.

(** ** Right ascensions *)
Lemma rel3 a b c : Rabs a <= u64 -> Rabs b <= 3 * u64 -> Rabs c <= u64 -> exists e, Rabs e <= 6 * u64 /\ (1 + a) * (1 + b) * (1 + c) = 1 + e.
Proof.
  intros A B C. exists ((1 + a) * (1 + b) * (1 + c) - 1). split; [|ring].
  replace ((1 + a) * (1 + b) * (1 + c) - 1) with (a + b + c + (a * b + a * c + b * c + a * b * c)) by ring.
  assert (AB : Rabs (a * b) <= u64 * (3 * u64)) by (rewrite Rabs_mult; apply Rmult_le_compat; try apply Rabs_pos; assumption).
  assert (AC : Rabs (a * c) <= u64 * u64) by (rewrite Rabs_mult; apply Rmult_le_compat; try apply Rabs_pos; assumption).
  assert (BC : Rabs (b * c) <= 3 * u64 * u64) by (rewrite Rabs_mult; apply Rmult_le_compat; try apply Rabs_pos; assumption).
  assert (ABC : Rabs (a * b * c) <= u64 * (3 * u64) * u64) by (rewrite Rabs_mult; apply Rmult_le_compat; try apply Rabs_pos; assumption).
  apply Rabs_le_inv in A, B, C, AB, AC, BC, ABC. apply Rabs_le. unfold u64 in *. lra.
Qed.

Lemma width_val n : (1 <= n <= 2 ^ 31)%Z ->
  finite (fe_width n) = true /\ exists e, Rabs e <= 6 * u64 /\ f2R (fe_width n) = 2 * PI * / IZR n * (1 + e).
Proof.
  intros Hn. pose proof (IZR_bounds n Hn) as NB. unfold fe_width. cbn [f_rad]. fold f_deg.
  destruct f_deg_ok as (FD & BD & e2 & He2 & ED). pose proof PI_bounds as P.
  destruct (float_of_int_ok 360 ltac:(lia)) as [F3 E3]. destruct (float_of_int_ok n ltac:(lia)) as [Fn En].
  assert (I : / 2147483648 <= / IZR n <= 1).
  { split; [apply Rinv_le; lra|]. rewrite <- Rinv_1. apply Rinv_le; lra. }
  destruct (fdiv_ok (float_of_int 360) (float_of_int n) F3) as [F1 E1].
  { rewrite En; lra. }
  { rewrite E3, En. apply big_100. unfold Rdiv. rewrite Rabs_pos_eq by lra. lra. }
  rewrite E3, En in E1. destruct (rnd_rel (360 / IZR n)) as (e1 & He1 & R1).
  { unfold Rdiv. rewrite Rabs_pos_eq by lra. lra. }
  rewrite R1 in E1. set (q := fdiv _ _) in *.
  assert (Q : 0 < f2R q <= 361).
  { rewrite E1. unfold Rdiv. apply Rabs_le_inv in He1. assert (0 < 1 + e1 <= 1 + u64) by (nums; lra). split.
    - apply Rmult_lt_0_compat; lra.
    - apply Rle_trans with (360 * (1 + u64)); [|nums; lra]. apply Rmult_le_compat; lra. }
  destruct (fmul_ok q f_deg F1 FD) as [F2 E2].
  { apply big_100. rewrite Rabs_mult, !Rabs_pos_eq by lra. apply Rle_trans with (361 * / 50); [|lra]. apply Rmult_le_compat; lra. }
  split; [exact F2|]. destruct (rnd_rel (f2R q * f2R f_deg)) as (e3 & He3 & R3).
  { rewrite E1, ED. unfold Rdiv.
    replace (360 * / IZR n * (1 + e1) * (PI * / 180 * (1 + e2))) with (2 * (PI * / IZR n) * ((1 + e1) * (1 + e2))) by (field; lra).
    assert (3 * / 2147483648 <= PI * / IZR n) by (apply Rmult_le_compat; nums; lra).
    apply Rabs_le_inv in He1, He2.
    assert (/ 2 * / 2 <= (1 + e1) * (1 + e2)) by (apply Rmult_le_compat; nums; lra).
    rewrite Rabs_pos_eq.
    - apply Rle_trans with (2 * (3 * / 2147483648) * (/ 2 * / 2)); [lra|]. apply Rmult_le_compat; lra.
    - apply Rmult_le_pos; lra. }
  destruct (rel3 e1 e2 e3 He1 He2 He3) as (e & He & Ee). exists e. split; [exact He|].
  rewrite E2, R3, E1, ED, <- Ee. field. lra.
Qed.

Section Slices.
Variables n i : Z.
Hypothesis Hn : (1 <= n <= 2 ^ 31)%Z.
Hypothesis Hi : (0 <= i < n)%Z.
Local Notation N := (IZR n).
Local Notation w := (f2R (fe_width n)).
Local Notation exact k := (2 * PI * (k * / N)).

Lemma N_inv : / 2147483648 <= / N <= 1.
Proof. pose proof (IZR_bounds n Hn). split; [apply Rinv_le; lra|]. rewrite <- Rinv_1. apply Rinv_le; lra. Qed.
Lemma y_bounds : 0 <= IZR i * / N <= 1 - / N.
Proof.
  pose proof N_inv as I. pose proof (IZR_bounds n Hn). assert (0 <= IZR i <= N - 1) by (split; [apply IZR_le; lia|rewrite <- minus_IZR; apply IZR_le; lia]).
  split; [apply Rmult_le_pos; lra|]. apply Rmult_le_reg_r with N; [lra|]. rewrite Rmult_minus_distr_r, Rmult_assoc, !Rinv_l by lra. lra.
Qed.
Lemma w_bounds : Rabs (w - exact 1) <= 38 * u64 * / N /\ 0 < w <= 7.
Proof.
  destruct (width_val n Hn) as (_ & e & He & E). pose proof N_inv as I. pose proof PI_bounds as P. rewrite E.
  assert (X : 0 <= 2 * PI * / N <= 2 * PI) by (split; [apply Rmult_le_pos; nums; lra|rewrite <- (Rmult_1_r (2 * PI)) at 2; apply Rmult_le_compat_l; nums; lra]).
  assert (X0 : 0 < 2 * PI * / N) by (apply Rmult_lt_0_compat; nums; lra). split.
  - replace (2 * PI * / N * (1 + e) - 2 * PI * (1 * / N)) with (2 * PI * e * / N) by ring.
    rewrite Rabs_mult, (Rabs_pos_eq (/ N)) by lra. apply Rmult_le_compat_r; [lra|].
    rewrite Rabs_mult, (Rabs_pos_eq (2 * PI)) by (nums; lra). apply Rle_trans with (2 * PI * (6 * u64)); [apply Rmult_le_compat_l; nums; lra|nums; lra].
  - apply Rabs_le_inv in He. split; [apply Rmult_lt_0_compat; nums; lra|].
    apply Rle_trans with (2 * PI * (1 + 6 * u64)); [apply Rmult_le_compat; nums; lra|nums; lra].
Qed.

Lemma beg_val : finite (fe_beg n i) = true /\ 0 <= f2R (fe_beg n i) /\ Rabs (f2R (fe_beg n i) - exact (IZR i)) <= 46 * u64.
Proof.
  destruct (width_val n Hn) as (FW & _). destruct w_bounds as [WE WB]. pose proof y_bounds as Y. pose proof N_inv as I.
  pose proof (IZR_bounds n Hn) as NB. pose proof PI_bounds as P.
  assert (IB : 0 <= IZR i <= N - 1) by (split; [apply IZR_le; lia|rewrite <- minus_IZR; apply IZR_le; lia]).
  destruct (float_of_int_ok i ltac:(lia)) as [Fi Ei].
  assert (E1 : Rabs (w * IZR i - exact (IZR i)) <= 38 * u64).
  { replace (w * IZR i - exact (IZR i)) with ((w - exact 1) * IZR i) by ring.
    rewrite Rabs_mult, (Rabs_pos_eq (IZR i)) by lra. apply Rle_trans with (38 * u64 * / N * IZR i); [apply Rmult_le_compat_r; lra|].
    rewrite Rmult_assoc, (Rmult_comm (/ N)). rewrite <- (Rmult_1_r (38 * u64)) at 2. apply Rmult_le_compat_l; nums; lra. }
  assert (EB : 0 <= exact (IZR i) <= 2 * PI).
  { split; [apply Rmult_le_pos; nums; lra|]. rewrite <- (Rmult_1_r (2 * PI)) at 2. apply Rmult_le_compat_l; nums; lra. }
  assert (W0 : 0 <= w * IZR i) by (apply Rmult_le_pos; lra). apply Rabs_le_inv in E1.
  destruct (fmul_ok (fe_width n) (float_of_int i) FW Fi) as [F E].
  { rewrite Ei. apply big_100. rewrite Rabs_pos_eq by lra. nums; lra. }
  rewrite Ei in E. fold (fe_beg n i) in F, E. split; [exact F|]. rewrite E.
  split; [rewrite <- rnd_0; apply rnd_le; exact W0|].
  pose proof (rnd_abs (w * IZR i)) as A. rewrite (Rabs_pos_eq (w * IZR i)) in A by exact W0. apply Rabs_le_inv in A. apply Rabs_le.
  set (x := w * IZR i) in *. set (z := exact (IZR i)) in *. set (b := rnd x) in *. clearbody z b. clearbody x. nums. lra.
Qed.

(** The beginning plus an angle [v] close to [k] widths, [k] at most one. *)
Lemma beg_plus v k : finite v = true -> 0 <= f2R v -> 0 <= k <= 1 -> Rabs (f2R v - exact k) <= 38 * u64 * / N ->
  finite (fadd (fe_beg n i) v) = true /\ 0 <= f2R (fadd (fe_beg n i) v) /\ Rabs (f2R (fadd (fe_beg n i) v) - exact (IZR i + k)) <= 92 * u64.
Proof.
  intros FV V0 Hk EV. destruct beg_val as (FB & B0 & BE). pose proof y_bounds as Y. pose proof N_inv as I. pose proof PI_bounds as P.
  assert (K : 0 <= k * / N <= / N) by (split; [apply Rmult_le_pos; lra|]; rewrite <- (Rmult_1_l (/ N)) at 2; apply Rmult_le_compat_r; lra).
  assert (EB : 0 <= exact (IZR i + k) <= 2 * PI).
  { rewrite Rmult_plus_distr_r. split; [apply Rmult_le_pos; nums; lra|]. rewrite <- (Rmult_1_r (2 * PI)) at 2. apply Rmult_le_compat_l; nums; lra. }
  assert (EE : exact (IZR i + k) = exact (IZR i) + exact k) by ring.
  assert (V1 : 38 * u64 * / N <= 38 * u64) by (rewrite <- (Rmult_1_r (38 * u64)) at 2; apply Rmult_le_compat_l; nums; lra).
  apply Rabs_le_inv in BE, EV. set (b := f2R (fe_beg n i)) in *. set (a := f2R v) in *.
  destruct (fadd_ok (fe_beg n i) v FB FV) as [F E].
  { fold a b. apply big_100. rewrite Rabs_pos_eq by lra. nums; lra. }
  fold a b in E. split; [exact F|]. rewrite E. split; [rewrite <- rnd_0; apply rnd_le; lra|].
  pose proof (rnd_abs (b + a)) as A. rewrite (Rabs_pos_eq (b + a)) in A by lra. apply Rabs_le_inv in A. apply Rabs_le.
  rewrite EE in *. set (x := exact (IZR i)) in *. set (y := exact k) in *. set (r := rnd (b + a)) in *. clearbody r a b x y.
  set (t := 38 * u64 * / N) in *. clearbody t. clear - A BE EV EB V1 V0 B0 P. nums. lra.
Qed.
Lemma end_val : finite (fe_end n i) = true /\ 0 <= f2R (fe_end n i) /\ Rabs (f2R (fe_end n i) - exact (IZR i + 1)) <= 92 * u64.
Proof.
  destruct (width_val n Hn) as (FW & _). destruct w_bounds as [WE WB]. apply beg_plus; [exact FW|lra|lra|exact WE].
Qed.
Lemma mid_val : finite (fe_mid n i) = true /\ 0 <= f2R (fe_mid n i) /\ Rabs (f2R (fe_mid n i) - exact (IZR i + / 2)) <= 92 * u64.
Proof.
  destruct (width_val n Hn) as (FW & _). destruct w_bounds as [WE WB]. pose proof N_inv as I. pose proof PI_bounds as P.
  destruct (float_of_int_ok 2 ltac:(lia)) as [F2 E2].
  destruct (fdiv_ok (fe_width n) (float_of_int 2) FW) as [F E].
  { rewrite E2; lra. }
  { rewrite E2. apply big_100. rewrite Rabs_pos_eq by lra. lra. }
  rewrite E2 in E. apply beg_plus; [exact F|rewrite E, <- rnd_0; apply rnd_le; lra|lra|]. rewrite E.
  apply Rabs_le_inv in WE.
  assert (X : 2 * PI * (1 * / N) <= 7 * / N) by (rewrite <- Rmult_assoc; apply Rmult_le_compat_r; nums; lra).
  assert (X0 : 6 * / N <= 2 * PI * (1 * / N)) by (rewrite <- Rmult_assoc; apply Rmult_le_compat_r; nums; lra).
  assert (W2 : tiny <= w / 2) by (nums; lra).
  destruct (rnd_rel (w / 2)) as (e & He & R).
  { change (/ 1267650600228229401496703205376) with tiny. rewrite Rabs_pos_eq; lra. }
  rewrite R. replace (w / 2 * (1 + e) - exact (/ 2)) with ((w - 2 * PI * (1 * / N)) / 2 + w / 2 * e) by (field; pose proof (IZR_bounds n Hn); lra).
  assert (Y : Rabs (w / 2 * e) <= 4 * / N * u64).
  { rewrite Rabs_mult. rewrite (Rabs_pos_eq (w / 2)) by lra. apply Rmult_le_compat; try apply Rabs_pos; try lra.
    assert (38 * u64 * / N <= / N) by (rewrite <- (Rmult_1_l (/ N)) at 2; apply Rmult_le_compat_r; nums; lra). lra. }
  replace (4 * / N * u64) with (4 * u64 * / N) in Y by ring.
  apply Rabs_le_inv in Y. apply Rabs_le. set (t := w / 2 * e) in *. set (z := 2 * PI * (1 * / N)) in *. clearbody t z.
  assert (38 * u64 * / N = 38 * (u64 * / N)) as Z1 by ring. assert (4 * u64 * / N = 4 * (u64 * / N)) as Z2 by ring.
  assert (0 <= u64 * / N) by (apply Rmult_le_pos; nums; lra). rewrite Z1, Z2 in *. set (q := u64 * / N) in *. clearbody q. lra.
Qed.

(** The stored longitude. *)
Lemma wrap_near x r : finite x = true -> 0 <= f2R x -> 0 <= r <= 2 * PI -> Rabs (f2R x - r) <= 92 * u64 ->
  finite (f_wrap x) = true /\ 0 <= f2R (f_wrap x) < Tf /\ exists k : Z, Rabs (f2R (f_wrap x) - wrap r + IZR k * (2 * PI)) <= 128 * u64.
Proof.
  intros F X0 R E. destruct (f_wrap_val x F) as [F1 E1]. split; [exact F1|]. rewrite E1. pose proof PI_bounds as P. apply Rabs_le_inv in E.
  destruct (wrapR_spec (f2R x)) as (W & K & KB & EW).
  { rewrite Rabs_pos_eq by exact X0. nums. lra. }
  split; [exact W|]. destruct (wrap_decomp r) as (j & J). exists (K - j)%Z. rewrite minus_IZR. apply Rabs_le_inv in EW.
  assert (KR : -3 <= IZR K <= 3) by (split; apply IZR_le; lia).
  assert (PT : - (3 * (4 * u64)) <= IZR K * (2 * PI - Tf) <= 3 * (4 * u64)).
  { assert (0 <= 2 * PI - Tf <= 4 * u64) by (unfold Tf; nums; lra).
    assert (Rabs (IZR K * (2 * PI - Tf)) <= 3 * (4 * u64)).
    { rewrite Rabs_mult. apply Rmult_le_compat; try apply Rabs_pos; apply Rabs_le; lra. }
    apply Rabs_le_inv in H0. exact H0. }
  replace (wrap r) with (r - IZR j * (2 * PI)) by lra. apply Rabs_le. set (m := wrapR (f2R x)) in *. clearbody m. set (a := f2R x) in *. clearbody a.
  set (kk := IZR K) in *. set (jj := IZR j) in *. clearbody kk jj.
  replace (m - (r - jj * (2 * PI)) + (kk - jj) * (2 * PI)) with ((m - (a - kk * Tf)) + (a - r) + kk * (2 * PI - Tf)) by ring.
  set (z := kk * (2 * PI - Tf)) in *. set (y := m - (a - kk * Tf)) in *. clearbody z y. clear - E PT EW. nums. lra.
Qed.
End Slices.

(** ** Neighbouring edges are neighbouring doubles *)
Local Instance fexp64_mono2 : Monotone_exp fexp64.
Proof. exact (FLT_exp_monotone (-1074) 53). Qed.
Local Instance fexp64_notFTZ : Exp_not_FTZ fexp64.
Proof. apply monotone_exp_not_FTZ; [exact fexp64_valid2|exact fexp64_mono2]. Qed.
Lemma mid_up x y g : generic_format radix2 fexp64 g -> x = rnd y -> x < g -> y <= (x + g) / 2.
Proof.
  intros G -> L. pose proof (round_N_pt radix2 fexp64 (fun x => negb (Z.even x)) y) as (_ & K). specialize (K g G).
  change (Znearest (fun x => negb (Z.even x))) with (round_mode mode_NE) in K.
  destruct (Rle_lt_dec y ((rnd y + g) / 2)) as [H|H]; [exact H|]. exfalso.
  destruct (Rle_lt_dec y g) as [H2|H2].
  - rewrite (Rabs_left1 (rnd y - y)), (Rabs_pos_eq (g - y)) in K by lra. lra.
  - rewrite (Rabs_left1 (rnd y - y)), (Rabs_left1 (g - y)) in K by lra. lra.
Qed.
Lemma mid_down x y g : generic_format radix2 fexp64 g -> x = rnd y -> g < x -> (x + g) / 2 <= y.
Proof.
  intros G -> L. pose proof (round_N_pt radix2 fexp64 (fun x => negb (Z.even x)) y) as (_ & K). specialize (K g G).
  change (Znearest (fun x => negb (Z.even x))) with (round_mode mode_NE) in K.
  destruct (Rle_lt_dec ((rnd y + g) / 2) y) as [H|H]; [exact H|]. exfalso.
  destruct (Rle_lt_dec g y) as [H2|H2].
  - rewrite (Rabs_pos_eq (rnd y - y)), (Rabs_left1 (g - y)) in K by lra. lra.
  - rewrite (Rabs_pos_eq (rnd y - y)), (Rabs_pos_eq (g - y)) in K by lra. lra.
Qed.
Lemma two_steps a x b : generic_format radix2 fexp64 a -> generic_format radix2 fexp64 x -> generic_format radix2 fexp64 b ->
  0 <= a -> a < x -> x < b -> a + 2 * ulp radix2 fexp64 a <= b.
Proof.
  intros A X B A0 L1 L2. pose proof (succ_le_lt radix2 fexp64 a x A X L1) as S1. pose proof (succ_le_lt radix2 fexp64 x b X B L2) as S2.
  rewrite succ_eq_pos in S1, S2 by lra. pose proof (ulp_le radix2 fexp64 a x) as U. rewrite !Rabs_pos_eq in U by lra. lra.
Qed.
(** The rounding of [y], and of a number at most half an ulp of [m] away, [m] at most [rnd y] or its rounding at most that. *)
Lemma half_ulp_close y z m : 0 < m -> rnd m <= rnd y -> rnd m <= rnd z -> Rabs (y - z) <= / 2 * ulp radix2 fexp64 m ->
  forall x, generic_format radix2 fexp64 x -> ~ (rnd y < x < rnd z).
Proof.
  intros M Ly Lz D x X [L1 L2].
  assert (R0 : 0 <= rnd m) by (rewrite <- rnd_0; apply rnd_le; lra).
  assert (FY : generic_format radix2 fexp64 (rnd y)) by (apply generic_format_round; [apply fexp64_valid2|apply valid_rnd_round_mode]).
  assert (FZ : generic_format radix2 fexp64 (rnd z)) by (apply generic_format_round; [apply fexp64_valid2|apply valid_rnd_round_mode]).
  pose proof (two_steps _ x _ FY X FZ ltac:(lra) L1 L2) as T.
  pose proof (mid_up _ y x X eq_refl L1) as U1. pose proof (mid_down _ z x X eq_refl L2) as U2.
  assert (UM : ulp radix2 fexp64 m <= ulp radix2 fexp64 (rnd y)).
  { apply Rle_trans with (ulp radix2 fexp64 (rnd m)).
    - destruct (ulp_round_pos radix2 fexp64 (round_mode mode_NE) m M) as [E|E].
      + rewrite E. lra.
      + assert (H : Rabs m <= Rabs (rnd m)); [|exact (ulp_le radix2 fexp64 _ _ H)].
        rewrite E. rewrite (Rabs_pos_eq m) by lra. rewrite Rabs_pos_eq by apply bpow_ge_0.
        clear E. destruct (mag radix2 m) as [e He]. cbn [mag_val]. specialize (He ltac:(lra)). rewrite Rabs_pos_eq in He by lra. lra.
    - apply (ulp_le radix2 fexp64). rewrite !Rabs_pos_eq by lra. exact Ly. }
  apply Rabs_le_inv in D. pose proof (succ_gt_id radix2 fexp64 m ltac:(lra)) as SG. rewrite succ_eq_pos in SG by lra. lra.
Qed.

Lemma edges_close n i x : (1 <= n <= 2 ^ 31)%Z -> (0 <= i)%Z -> (i + 1 < n)%Z -> generic_format radix2 fexp64 x ->
  ~ (f2R (fe_end n i) < x < f2R (fe_beg n (i + 1))) /\ ~ (f2R (fe_beg n (i + 1)) < x < f2R (fe_end n i)).
Proof.
  intros Hn Hi Hl X. destruct (width_val n Hn) as (FW & _). destruct (w_bounds n Hn) as [_ WB].
  destruct (beg_val n i Hn ltac:(lia)) as (FB & B0 & EB).
  destruct (float_of_int_ok i ltac:(lia)) as [Fi Ei]. destruct (float_of_int_ok (i + 1) ltac:(lia)) as [Fi' Ei']. rewrite plus_IZR in Ei'.
  assert (IB : 0 <= IZR i <= 2147483648) by (split; apply IZR_le; lia).
  assert (Hb : f2R (fe_beg n i) = rnd (f2R (fe_width n) * IZR i)).
  { rewrite <- Ei. apply fmul_ok; [exact FW|exact Fi|]. rewrite Ei. apply big_100. rewrite Rabs_pos_eq by (apply Rmult_le_pos; lra).
    apply Rle_trans with (7 * 2147483648); [apply Rmult_le_compat; lra|lra]. }
  assert (Hb' : f2R (fe_beg n (i + 1)) = rnd (f2R (fe_width n) * (IZR i + 1))).
  { rewrite <- Ei'. apply fmul_ok; [exact FW|exact Fi'|]. rewrite Ei'. apply big_100. rewrite Rabs_pos_eq by (apply Rmult_le_pos; lra).
    apply Rle_trans with (7 * 2147483649); [apply Rmult_le_compat; lra|lra]. }
  assert (B7 : f2R (fe_beg n i) <= 15032385536).
  { destruct (float_of_int_ok 15032385536 ltac:(lia)) as [_ E15]. rewrite Hb, <- E15, <- (rnd_f (float_of_int 15032385536)), E15. apply rnd_le.
    apply Rle_trans with (7 * 2147483648); [apply Rmult_le_compat; lra|lra]. }
  assert (He : f2R (fe_end n i) = rnd (f2R (fe_beg n i) + f2R (fe_width n))).
  { apply fadd_ok; [exact FB|exact FW|]. apply big_100. rewrite Rabs_pos_eq by lra. lra. }
  set (w := f2R (fe_width n)) in *. rewrite Hb in He, B0.
  destruct (Z.eq_dec i 0) as [E|N0].
  - subst i. rewrite Rmult_0_r, rnd_0, Rplus_0_l in He. rewrite Rplus_0_l, Rmult_1_r in Hb'. rewrite He, Hb'. split; intros [? ?]; lra.
  - assert (I1 : 1 <= IZR i) by (apply IZR_le; lia).
    assert (M : 0 < w * IZR i) by (apply Rmult_lt_0_compat; lra).
    assert (L1 : rnd (w * IZR i) <= rnd (rnd (w * IZR i) + w)).
    { rewrite <- (round_generic radix2 fexp64 (round_mode mode_NE) (rnd (w * IZR i))) at 1.
      - apply rnd_le. lra.
      - apply generic_format_round; [apply fexp64_valid2|apply valid_rnd_round_mode]. }
    assert (L2 : rnd (w * IZR i) <= rnd (w * (IZR i + 1))) by (apply rnd_le; lra).
    assert (D : Rabs ((rnd (w * IZR i) + w) - w * (IZR i + 1)) <= / 2 * ulp radix2 fexp64 (w * IZR i)).
    { replace (rnd (w * IZR i) + w - w * (IZR i + 1)) with (rnd (w * IZR i) - w * IZR i) by ring.
      apply (error_le_half_ulp radix2 fexp64). }
    rewrite He, Hb'. split.
    + apply (half_ulp_close _ _ _ M L1 L2 D x X).
    + apply (half_ulp_close _ _ _ M L2 L1); [rewrite Rabs_minus_sym; exact D|exact X].
Qed.
