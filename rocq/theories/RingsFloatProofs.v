(** Rounding errors of the binary64 look-up of RingsFloat.v. *)
From Coq Require Import Reals Lra Lia.
From Flocq Require Import Core BinarySingleNaN.
Require Import Verif.Py Verif.Geom Verif.Float64 Verif.Float64Proofs Verif.Rings Verif.RingsProofs Verif.RingsFloat Verif.RingsFloatSpec Verif.FloatOps.
Open Scope R_scope.

Ltac nums := unfold Tf, Pf, u64, tiny in *.

Lemma Tf_pos : 0 < Tf. Proof. nums; lra. Qed.

(** What [wrap] and [%] compute, as functions of the value. *)
Definition npR (r : R) : R :=
  let w := r - IZR (Ztrunc (r / Tf)) * Tf in if Rlt_bool w 0 then rnd (w + Tf) else w.
Definition wrapR (r : R) : R := if Rlt_bool (npR r) Tf then npR r else 0.

Lemma fmod_twopi x : finite x = true ->
  finite (fmod x f_twopi) = true /\ f2R (fmod x f_twopi) = f2R x - IZR (Ztrunc (f2R x / Tf)) * Tf.
Proof.
  intros F. destruct f_twopi_ok as [FT ET]. rewrite <- ET. apply fmod_ok; try assumption.
  rewrite ET. pose proof Tf_pos. lra.
Qed.

Lemma add_twopi w : finite w = true -> Rabs (f2R w) < Tf ->
  finite (fadd w f_twopi) = true /\ f2R (fadd w f_twopi) = rnd (f2R w + Tf).
Proof.
  intros F B. destruct f_twopi_ok as [FT ET]. rewrite <- ET. apply fadd_ok; try assumption.
  apply big_100. rewrite ET. pose proof Tf_pos. apply Rabs_lt_inv in B. apply Rabs_le. nums; lra.
Qed.

Lemma f_wrap_val x : finite x = true -> finite (f_wrap x) = true /\ f2R (f_wrap x) = wrapR (f2R x).
Proof.
  intros F. destruct (fmod_twopi x F) as [F1 E1].
  destruct f_twopi_ok as [FT ET]. destruct f_zero_ok as [F0 E0].
  destruct (trunc_rem (f2R x) Tf Tf_pos) as (B & _).
  unfold f_wrap, wrapR, npR. cbv zeta.
  rewrite (fltb_ok _ _ F1 F0), E1, E0.
  destruct (Rlt_bool (f2R x - IZR (Ztrunc (f2R x / Tf)) * Tf) 0) eqn:L.
  - destruct (add_twopi (fmod x f_twopi) F1) as [F2 E2]; [rewrite E1; exact B|]. rewrite E1 in E2.
    rewrite (fltb_ok _ _ F2 FT), E2, ET. destruct (Rlt_bool _ Tf); split; assumption.
  - rewrite (fltb_ok _ _ F1 FT), E1, ET. destruct (Rlt_bool _ Tf); split; assumption.
Qed.

Lemma np_mod_val x : finite x = true -> finite (np_mod x f_twopi) = true /\ f2R (np_mod x f_twopi) = npR (f2R x).
Proof.
  intros F. destruct (fmod_twopi x F) as [F1 E1].
  destruct f_twopi_ok as [FT ET]. destruct f_zero_ok as [F0 E0].
  destruct (trunc_rem (f2R x) Tf Tf_pos) as (B & _).
  unfold np_mod, npR. cbv zeta.
  rewrite (Beqb_correct _ _ _ _ F1 F0), (fltb_ok _ _ F1 F0), (fltb_ok _ _ FT F0), E1, ET, E0.
  rewrite (Rlt_bool_false Tf 0) by (pose proof Tf_pos; lra).
  case Req_bool_spec; intros Q.
  - rewrite Q, Rlt_bool_false by lra. split; assumption.
  - destruct (Rlt_bool (f2R x - IZR (Ztrunc (f2R x / Tf)) * Tf) 0) eqn:L; cbn [Bool.eqb negb].
    + destruct (add_twopi (fmod x f_twopi) F1) as [F2 E2]; [rewrite E1; exact B|]. rewrite E1 in E2. split; assumption.
    + split; assumption.
Qed.

Lemma npR_spec r : Rabs r < 3 * Tf ->
  0 <= npR r <= Tf /\ exists K, (-3 <= K <= 2)%Z /\ Rabs (npR r - (r - IZR K * Tf)) <= 7 * u64.
Proof.
  intros H. unfold npR. cbv zeta. destruct (trunc_rem r Tf Tf_pos) as (B & Q & _).
  set (w := r - IZR (Ztrunc (r / Tf)) * Tf) in *. apply Rabs_lt_inv in B. pose proof Tf_pos as TP.
  assert (QB : Rabs (IZR (Ztrunc (r / Tf))) < 3).
  { eapply Rle_lt_trans; [exact Q|]. apply Rmult_lt_reg_r with Tf; [exact TP|].
    unfold Rdiv. rewrite Rmult_assoc, Rinv_l by lra. lra. }
  rewrite <- abs_IZR in QB. apply lt_IZR in QB.
  assert (U : 0 < u64) by (unfold u64; lra).
  case Rlt_bool_spec; intros W.
  - assert (R0 : 0 <= rnd (w + Tf)) by (rewrite <- rnd_0; apply rnd_le; lra).
    assert (R1 : rnd (w + Tf) <= Tf).
    { destruct f_twopi_ok as [_ ET]. rewrite <- ET at 2. rewrite <- rnd_f, ET. apply rnd_le; lra. }
    split; [lra|]. exists (Ztrunc (r / Tf) - 1)%Z. split; [lia|]. rewrite minus_IZR.
    replace (r - (IZR (Ztrunc (r / Tf)) - 1) * Tf) with (w + Tf) by (unfold w; ring).
    eapply Rle_trans; [apply rnd_abs|]. rewrite Rabs_pos_eq by lra.
    assert (w + Tf <= Tf) by lra. clearbody w. nums. lra.
  - split; [lra|]. exists (Ztrunc (r / Tf)). split; [lia|].
    fold w. rewrite Rminus_diag_eq, Rabs_R0 by reflexivity. lra.
Qed.

Lemma wrapR_spec r : Rabs r < 3 * Tf ->
  0 <= wrapR r < Tf /\ exists K, (-3 <= K <= 3)%Z /\ Rabs (wrapR r - (r - IZR K * Tf)) <= 7 * u64.
Proof.
  intros H. destruct (npR_spec r H) as (B & K & KB & E). unfold wrapR. case Rlt_bool_spec; intros L.
  - split; [lra|]. exists K. split; [lia|exact E].
  - assert (npR r = Tf) as EQ by lra. rewrite EQ in E. pose proof Tf_pos. split; [lra|].
    exists (K + 1)%Z. split; [lia|]. rewrite plus_IZR.
    replace (0 - (r - (IZR K + 1) * Tf)) with (Tf - (r - IZR K * Tf)) by ring. exact E.
Qed.

(** The tract number as a function of the value. *)
Definition tnR (w : R) (n : Z) : R := rnd (rnd (w / rnd (Tf / IZR n)) + / 2).
Definition tractNumR (w : R) (n : Z) : Z := let k := Ztrunc (tnR w n) in if (k =? n)%Z then 0%Z else k.

Lemma relinv e : Rabs e <= u64 -> exists e', / (1 + e) = 1 + e' /\ Rabs e' <= 2 * u64.
Proof.
  intros H. apply Rabs_le_inv in H. exists (/ (1 + e) - 1). split; [ring|].
  assert (D : 0 < 1 + e) by (nums; lra).
  replace (/ (1 + e) - 1) with (- e * / (1 + e)) by (field; lra).
  rewrite Rabs_mult. rewrite Rabs_Ropp.
  assert (I : Rabs (/ (1 + e)) <= 2).
  { rewrite Rabs_pos_eq by (left; apply Rinv_0_lt_compat, D).
    apply Rmult_le_reg_r with (1 + e); [exact D|]. rewrite Rinv_l by lra. nums; lra. }
  assert (Rabs e <= u64) by (apply Rabs_le; exact H).
  pose proof (Rmult_le_compat _ _ _ _ (Rabs_pos _) (Rabs_pos _) H0 I). lra.
Qed.

Lemma IZR_bounds n : (1 <= n <= 2 ^ 31)%Z -> 1 <= IZR n <= 2147483648.
Proof. intros H. split; [apply IZR_le; lia|]. apply (IZR_le n 2147483648). lia. Qed.

Lemma rel_mul a b e : Rabs e <= a -> 0 <= b -> Rabs (b * e) <= a * b.
Proof.
  intros H B. rewrite Rabs_mult, (Rabs_pos_eq b) by exact B. rewrite Rmult_comm.
  apply Rmult_le_compat_r; assumption.
Qed.

(** The width of a tract in the ring: relative error below 2^-53. *)
Lemma width_rel n : (1 <= n <= 2 ^ 31)%Z ->
  exists e, Rabs e <= u64 /\ rnd (Tf / IZR n) = Tf / IZR n * (1 + e).
Proof.
  intros H. pose proof (IZR_bounds n H). apply rnd_rel.
  rewrite Rabs_pos_eq by (apply Rmult_le_pos; [pose proof Tf_pos; lra|left; apply Rinv_0_lt_compat; lra]).
  apply Rle_trans with (Tf / 2147483648); [nums; lra|].
  apply Rmult_le_compat_l; [pose proof Tf_pos; lra|]. apply Rinv_le; lra.
Qed.

(** [t = w/(2 pi/n)]: relative error and range. *)
Lemma tn_err w n : (1 <= n <= 2 ^ 31)%Z -> 0 <= w <= Tf ->
  exists d, Rabs d <= 4 * u64 /\
    0 <= rnd (w / rnd (Tf / IZR n)) /\
    Rabs (rnd (w / rnd (Tf / IZR n)) - IZR n * (w / Tf) * (1 + d)) <= 2 * tiny.
Proof.
  intros H W. pose proof (IZR_bounds n H) as N. pose proof Tf_pos as TP.
  destruct (width_rel n H) as (e & He & ->). destruct (relinv e He) as (e' & Ee' & He').
  assert (D : 0 < 1 + e) by (apply Rabs_le_inv in He; nums; lra).
  set (x := w / (Tf / IZR n * (1 + e))).
  assert (Ex : x = IZR n * (w / Tf) * (1 + e')) by (unfold x; rewrite <- Ee'; field; lra).
  assert (Y0 : 0 <= w / Tf) by (apply Rmult_le_pos; [lra|left; apply Rinv_0_lt_compat; lra]).
  assert (Z0 : 0 <= IZR n * (w / Tf)) by (apply Rmult_le_pos; lra).
  assert (P1 : 0 <= 1 + e') by (apply Rabs_le_inv in He'; nums; lra).
  assert (X0 : 0 <= x) by (rewrite Ex; apply Rmult_le_pos; assumption).
  assert (R0 : 0 <= rnd x) by (rewrite <- rnd_0; apply rnd_le; exact X0).
  destruct (Rle_lt_dec tiny (Rabs x)) as [G|G].
  - destruct (rnd_rel x G) as (e2 & He2 & E2).
    exists (e' + e2 + e' * e2). split; [|split; [exact R0|]].
    + assert (Rabs (e' * e2) <= (2 * u64) * u64).
      { rewrite Rabs_mult. apply Rmult_le_compat; try apply Rabs_pos; assumption. }
      apply Rabs_le_inv in He', He2, H0. apply Rabs_le. clear - He' He2 H0. nums. lra.
    + rewrite E2, Ex. rewrite Rminus_diag_eq by ring. rewrite Rabs_R0. unfold tiny; lra.
  - exists e'. split; [eapply Rle_trans; [exact He'|unfold u64; lra]|]. split; [exact R0|].
    rewrite <- Ex. pose proof (rnd_tiny x ltac:(lra)). rewrite Rabs_pos_eq in G by exact X0.
    apply Rabs_le_inv in H0. apply Rabs_le. lra.
Qed.

Lemma ratio_le w : 0 <= w <= Tf -> 0 <= w / Tf <= 1.
Proof.
  intros W. pose proof Tf_pos. split; [apply Rmult_le_pos; [lra|left; apply Rinv_0_lt_compat; lra]|].
  apply Rmult_le_reg_r with Tf; [lra|]. unfold Rdiv. rewrite Rmult_assoc, Rinv_l by lra. lra.
Qed.

Lemma tnR_spec w n : (1 <= n <= 2 ^ 31)%Z -> 0 <= w <= Tf ->
  / 2 <= tnR w n /\ Rabs (tnR w n - / 2 - IZR n * (w / Tf)) <= IZR n * (6 * u64).
Proof.
  intros H W. pose proof (IZR_bounds n H) as N.
  destruct (tn_err w n H W) as (d & Hd & R0 & E). unfold tnR.
  set (t := rnd (w / rnd (Tf / IZR n))) in *. clearbody t.
  pose proof (ratio_le w W) as Y. set (y := w / Tf) in *. clearbody y.
  split.
  - destruct f_half_ok as [_ EH]. rewrite <- EH at 1. rewrite <- rnd_f, EH. apply rnd_le. lra.
  - pose proof (rnd_abs (t + / 2)) as A. rewrite (Rabs_pos_eq (t + / 2)) in A by lra.
    assert (Z : 0 <= IZR n * y <= IZR n).
    { split; [apply Rmult_le_pos; lra|]. rewrite <- (Rmult_1_r (IZR n)) at 2. apply Rmult_le_compat_l; lra. }
    pose proof (rel_mul _ (IZR n * y) d Hd ltac:(lra)) as Q.
    assert (U : 0 < u64) by (unfold u64; lra).
    assert (Q' : 4 * u64 * (IZR n * y) <= 4 * u64 * IZR n) by (apply Rmult_le_compat_l; lra).
    replace (IZR n * y * (1 + d)) with (IZR n * y + IZR n * y * d) in E by ring.
    set (z := IZR n * y) in *. set (zd := z * d) in *. clearbody zd z.
    apply Rabs_le_inv in A, E, Q. apply Rabs_le.
    assert (Bt : t <= IZR n + 4 * u64 * IZR n + 2 * tiny) by lra.
    assert (Ut : u64 * (t + / 2) <= u64 * (IZR n + 4 * u64 * IZR n + 2 * tiny + / 2)) by (apply Rmult_le_compat_l; lra).
    set (k := IZR n) in *. clearbody k. set (s := u64 * (t + / 2)) in *. clearbody s.
    set (r := rnd (t + / 2)) in *. clearbody r. nums. lra.
Qed.

Lemma tnR_range w n : (1 <= n <= 2 ^ 31)%Z -> 0 <= w <= Tf -> / 2 <= tnR w n < IZR n + 1.
Proof.
  intros H W. pose proof (IZR_bounds n H) as N. destruct (tnR_spec w n H W) as [L E]. split; [exact L|].
  pose proof (ratio_le w W) as Y. set (y := w / Tf) in *. clearbody y.
  assert (IZR n * y <= IZR n * 1) by (apply Rmult_le_compat_l; lra).
  apply Rabs_le_inv in E. set (z := IZR n * y) in *. set (k := IZR n) in *. clearbody z k. nums. lra.
Qed.

Lemma rnd_bounds x : 0 <= x <= 17179869184 -> 0 <= rnd x <= 17179869184.
Proof.
  intros H. split; [rewrite <- rnd_0; apply rnd_le; lra|].
  apply round_le_generic; try apply valid_rnd_round_mode; try apply fexp_correct; try exact Hprec53; [|lra].
  apply (Float64Proofs.int_format 17179869184). lia.
Qed.

Lemma fr_tractNum_ok w n : finite w = true -> (1 <= n <= 2 ^ 31)%Z -> 0 <= f2R w <= Tf ->
  fr_tractNum w n = Ok (tractNumR (f2R w) n).
Proof.
  intros F H W. pose proof (IZR_bounds n H) as N. unfold fr_tractNum.
  destruct (float_of_int_ok n ltac:(lia)) as [Fn En].
  destruct f_twopi_ok as [FT ET]. destruct f_half_ok as [FH EH]. pose proof Tf_pos as TP.
  assert (Q0 : 0 < Tf / IZR n <= Tf).
  { split; [apply Rmult_lt_0_compat; [exact TP|apply Rinv_0_lt_compat; lra]|].
    apply Rmult_le_reg_r with (IZR n); [lra|]. unfold Rdiv. rewrite Rmult_assoc, Rinv_l by lra.
    rewrite Rmult_1_r. rewrite <- (Rmult_1_r Tf) at 1. apply Rmult_le_compat_l; lra. }
  destruct (fdiv_ok f_twopi (float_of_int n) FT) as [F1 E1].
  { rewrite En; lra. }
  { apply big_100. rewrite ET, En. apply Rabs_le. nums; lra. }
  rewrite ET, En in E1.
  destruct (width_rel n H) as (e & He & Ew). apply Rabs_le_inv in He.
  assert (D : 0 < 1 + e) by (nums; lra).
  assert (P1 : 0 < rnd (Tf / IZR n)) by (rewrite Ew; apply Rmult_lt_0_compat; lra).
  assert (X : 0 <= f2R w / rnd (Tf / IZR n) <= 4 * IZR n).
  { split; [apply Rmult_le_pos; [lra|left; apply Rinv_0_lt_compat, P1]|].
    apply Rmult_le_reg_r with (rnd (Tf / IZR n)); [exact P1|]. unfold Rdiv at 1. rewrite Rmult_assoc, Rinv_l by lra.
    rewrite Ew. replace (4 * IZR n * (Tf / IZR n * (1 + e))) with (Tf * (4 * (1 + e))) by (field; lra).
    rewrite Rmult_1_r. apply Rle_trans with (Tf * 1); [lra|]. apply Rmult_le_compat_l; nums; lra. }
  destruct (fdiv_ok w (fdiv f_twopi (float_of_int n)) F) as [F2 E2].
  { rewrite E1. lra. }
  { rewrite E1. apply big_100. apply Rabs_le. lra. }
  rewrite E1 in E2.
  destruct (fadd_ok (fdiv w (fdiv f_twopi (float_of_int n))) f_half F2 FH) as [F3 E3].
  { rewrite E2, EH. apply big_100. destruct (rnd_bounds (f2R w / rnd (Tf / IZR n))) as [B1 B2]; [lra|].
    apply Rabs_le. lra. }
  rewrite E2, EH in E3. rewrite (f_int_ok _ F3), E3. reflexivity.
Qed.

Lemma tractNumR_range w n : (1 <= n <= 2 ^ 31)%Z -> 0 <= w <= Tf -> (0 <= tractNumR w n < n)%Z.
Proof.
  intros H W. destruct (tnR_range w n H W) as [L U]. unfold tractNumR. cbv zeta.
  assert (K : (0 <= Ztrunc (tnR w n) < n + 1)%Z).
  { rewrite Ztrunc_floor by lra. split; [apply Zfloor_lub; lra|]. apply lt_IZR. rewrite plus_IZR.
    eapply Rle_lt_trans; [apply Zfloor_lb|exact U]. }
  case Z.eqb_spec; lia.
Qed.

(** A full turn is where the ring begins. *)
Lemma tractNumR_turn n : (1 <= n <= 2 ^ 31)%Z -> tractNumR Tf n = tractNumR 0 n.
Proof.
  intros H. pose proof (IZR_bounds n H) as N. pose proof Tf_pos as TP.
  destruct (tnR_spec Tf n H ltac:(lra)) as [L E]. destruct (tnR_range Tf n H ltac:(lra)) as [_ U].
  replace (Tf / Tf) with 1 in E by (field; lra). rewrite Rmult_1_r in E. apply Rabs_le_inv in E.
  destruct (tnR_spec 0 n H ltac:(lra)) as [L0 E0].
  unfold Rdiv in E0. rewrite Rmult_0_l, Rmult_0_r in E0. apply Rabs_le_inv in E0.
  unfold tractNumR. cbv zeta. set (a := tnR Tf n) in *. set (b := tnR 0 n) in *. clearbody a b.
  assert (Z : Ztrunc a = n).
  { rewrite Ztrunc_floor by lra. apply Zfloor_imp. rewrite plus_IZR. split; [|exact U].
    set (k := IZR n) in *. clearbody k. nums. lra. }
  assert (Z0 : Ztrunc b = 0%Z).
  { rewrite Ztrunc_floor by lra. apply Zfloor_imp. cbn [Z.add]. split; [lra|].
    set (k := IZR n) in *. clearbody k. nums. lra. }
  rewrite Z, Z0, Z.eqb_refl. case Z.eqb_spec; lia.
Qed.

Lemma tractNumR_wrap r n : (1 <= n <= 2 ^ 31)%Z -> Rabs r < 3 * Tf -> tractNumR (npR r) n = tractNumR (wrapR r) n.
Proof.
  intros H B. destruct (npR_spec r B) as ([L U] & _). unfold wrapR. case Rlt_bool_spec; intros Q; [reflexivity|].
  assert (npR r = Tf) as -> by lra. apply tractNumR_turn; exact H.
Qed.

(** ** Declination *)
Section Dec.
Variable g : frings.
Hypothesis wf : frings_wf g.
Let N := fr_numRings g.
Let D : R := IZR (N + 1).
Let szE : R := ring_size N.
Let fE : R := firstRingStart (exact_rings g).

Lemma D_bounds : 2 <= D <= 2147483648.
Proof. pose proof (fw_rings g wf). unfold D, N. split; [apply (IZR_le 2)|apply (IZR_le _ 2147483648)]; lia. Qed.
Lemma szE_eq : szE = PI / D.
Proof. unfold szE, ring_size, D. rewrite plus_IZR. reflexivity. Qed.
Lemma fE_eq : fE = szE / 2 - PI / 2.
Proof. unfold fE, firstRingStart, exact_rings, rg_size. fold N. fold szE. lra. Qed.
Lemma szE_bounds : / 1073741824 <= szE <= PI / 2 /\ D * szE = PI.
Proof.
  rewrite szE_eq. pose proof D_bounds as B. pose proof PI_bounds as P.
  assert (I1 : / 2147483648 <= / D) by (apply Rinv_le; lra).
  assert (I2 : / D <= / 2) by (apply Rinv_le; lra).
  split; [split|field; lra]; unfold Rdiv.
  - apply Rle_trans with (PI * / 2147483648); [nums; lra|]. apply Rmult_le_compat_l; [nums; lra|exact I1].
  - apply Rmult_le_compat_l; [nums; lra|exact I2].
Qed.

(** The size of a ring has relative error below 2^-53 to [Pf/D]. *)
Lemma size_val : finite (fr_size g) = true /\ exists e, Rabs e <= u64 /\ f2R (fr_size g) = Pf / D * (1 + e).
Proof.
  pose proof D_bounds as B. pose proof (fw_rings g wf) as WB.
  destruct (float_of_int_ok (fr_numRings g + 1) ltac:(lia)) as [Fn En].
  destruct f_pi_ok as [FP EP].
  assert (I1 : / 2147483648 <= / D) by (apply Rinv_le; lra).
  assert (I2 : / D <= / 2) by (apply Rinv_le; lra).
  assert (Q : Pf * / 2147483648 <= Pf / D <= Pf * / 2).
  { unfold Rdiv. split; apply Rmult_le_compat_l; try assumption; nums; lra. }
  destruct (fdiv_ok f_pi (float_of_int (fr_numRings g + 1)) FP) as [F1 E1].
  { rewrite En. fold N. fold D. lra. }
  { apply big_100. rewrite EP, En. fold N. fold D. apply Rabs_le. nums; lra. }
  split; [exact F1|]. rewrite EP, En in E1. fold N in E1. fold D in E1.
  destruct (rnd_rel (Pf / D)) as (e & He & Ee).
  { rewrite Rabs_pos_eq by (nums; lra). nums; lra. }
  exists e. split; [exact He|]. unfold fr_size. fold N. rewrite E1. exact Ee.
Qed.

(** The ring size against the exact one. *)
Lemma size_ratio : exists r, Rabs r <= 4 * u64 /\ szE = f2R (fr_size g) * (1 + r) /\ 0 < f2R (fr_size g) <= 2.
Proof.
  destruct size_val as (_ & e & He & E). destruct (relinv e He) as (e' & Ee' & He').
  pose proof D_bounds as B. pose proof PI_bounds as P. apply Rabs_le_inv in He.
  assert (PP : 0 < Pf) by (nums; lra).
  set (dl := PI / Pf - 1).
  assert (Dl : 0 <= dl <= u64).
  { assert (E1 : dl * Pf = PI - Pf) by (unfold dl; field; lra).
    split; apply Rmult_le_reg_r with Pf; try exact PP; rewrite E1; [lra|].
    clear - P. nums. lra. }
  exists (dl + e' + dl * e').
  assert (M : Rabs (dl * e') <= 2 * u64 * u64).
  { eapply Rle_trans; [apply rel_mul; [exact He'|lra]|]. apply Rmult_le_compat_l; [unfold u64; lra|lra]. }
  split; [|split].
  - apply Rabs_le_inv in M, He'. apply Rabs_le. clearbody dl. set (m := dl * e') in *. clearbody m. nums. lra.
  - rewrite E, szE_eq. replace (1 + (dl + e' + dl * e')) with ((1 + dl) * (1 + e')) by ring.
    rewrite <- Ee'. unfold dl. field. repeat split; try lra. nums; lra.
  - rewrite E.
    assert (I2 : / D <= / 2) by (apply Rinv_le; lra).
    assert (I0 : 0 < / D) by (apply Rinv_0_lt_compat; lra).
    assert (Q : Pf / D <= Pf * / 2) by (apply Rmult_le_compat_l; lra).
    assert (Q0 : 0 < Pf / D) by (apply Rmult_lt_0_compat; lra).
    split; [apply Rmult_lt_0_compat; [exact Q0|nums; lra]|].
    apply Rle_trans with (Pf / D * (1 + u64)); [apply Rmult_le_compat_l; lra|].
    apply Rle_trans with (Pf * / 2 * (1 + u64)); [apply Rmult_le_compat_r; [unfold u64; lra|exact Q]|].
    nums; lra.
Qed.

Lemma first_val : finite (fr_first g) = true /\ Rabs (f2R (fr_first g) - fE) <= 8 * u64 /\ - 2 <= f2R (fr_first g) <= - / 2.
Proof.
  destruct size_val as (Fs & _). destruct size_ratio as (r & Hr & Er & Sb).
  destruct f_half_ok as [FH EH]. destruct f_halfpi_ok as [FP EP].
  pose proof szE_bounds as [SE _]. pose proof PI_bounds as P.
  set (s := f2R (fr_size g)) in *.
  destruct (fmul_ok (fr_size g) f_half Fs FH) as [F1 E1].
  { fold s. rewrite EH. apply big_100. apply Rabs_le. lra. }
  fold s in E1. rewrite EH in E1.
  pose proof (rnd_abs (s * / 2)) as A1. rewrite (Rabs_pos_eq (s * / 2)) in A1 by lra.
  destruct (fsub_ok (fmul (fr_size g) f_half) (fmul f_half f_pi) F1 FP) as [F2 E2].
  { apply big_100. rewrite E1, EP. apply Rabs_le_inv in A1. apply Rabs_le. nums; lra. }
  rewrite E1, EP in E2.
  pose proof (rnd_abs (rnd (s * / 2) - Pf / 2)) as A2. rewrite <- E2 in A2.
  split; [exact F2|]. unfold fr_first. set (f := f2R (fsub _ _)) in *. clearbody f.
  set (m := rnd (s * / 2)) in *. clearbody m.
  pose proof (rel_mul _ s r Hr ltac:(lra)) as A3. replace (s * (1 + r)) with (s + s * r) in Er by ring.
  set (sr := s * r) in *. rewrite fE_eq. clearbody sr s. clear F1 F2 E1 E2 FP EP FH EH Fs.
  apply Rabs_le_inv in A1, A3.
  assert (A4 : Rabs (m - Pf / 2) <= 2) by (apply Rabs_le; nums; lra).
  assert (A5 : Rabs (f - (m - Pf / 2)) <= u64 * 2 + 2 * tiny).
  { eapply Rle_trans; [exact A2|]. apply Rplus_le_compat_r. apply Rmult_le_compat_l; [unfold u64; lra|exact A4]. }
  apply Rabs_le_inv in A5. clear A2 A4. split; [apply Rabs_le|]; nums; lra.
Qed.

Lemma neg_first (a b : f64) : (a = fr_first g /\ b = float_of_int (-1)) \/ (b = fr_first g /\ a = float_of_int (-1)) ->
  finite (fmul a b) = true /\ f2R (fmul a b) = - f2R (fr_first g).
Proof.
  intros C. destruct first_val as (F & _ & B). destruct (float_of_int_ok (-1) ltac:(lia)) as [F1 E1].
  assert (G : rnd (- f2R (fr_first g)) = - f2R (fr_first g)).
  { apply round_generic; [apply valid_rnd_round_mode|]. apply generic_format_opp, f_format. }
  destruct C as [[-> ->]|[-> ->]].
  - destruct (fmul_ok (fr_first g) (float_of_int (-1)) F F1) as [F2 E2].
    { apply big_100. rewrite E1. apply Rabs_le. lra. }
    split; [exact F2|]. rewrite E2, E1. replace (f2R (fr_first g) * -1) with (- f2R (fr_first g)) by ring. exact G.
  - destruct (fmul_ok (float_of_int (-1)) (fr_first g) F1 F) as [F2 E2].
    { apply big_100. rewrite E1. apply Rabs_le. lra. }
    split; [exact F2|]. rewrite E2, E1. replace (-1 * f2R (fr_first g)) with (- f2R (fr_first g)) by ring. exact G.
Qed.

(** Ring [q] of the exact map. *)
Lemma ring_of_q q : 0 <= q < IZR N + 1 -> decToRingNum (exact_rings g) (fE + q * szE) = Ztrunc q.
Proof.
  intros Q. pose proof szE_bounds as [SB ST]. unfold D in ST. rewrite plus_IZR in ST.
  assert (S0 : 0 < szE) by lra.
  assert (0 <= q * szE) by (apply Rmult_le_pos; lra).
  unfold decToRingNum. fold fE. change (rg_size (exact_rings g)) with szE. change (rg_numRings (exact_rings g)) with N.
  rewrite Rlt_bool_false by lra.
  case Rlt_bool_spec; intros L.
  - symmetry. rewrite Ztrunc_floor by lra. apply Zfloor_imp. rewrite plus_IZR. split; [|lra].
    apply Rmult_le_reg_r with szE; [exact S0|]. pose proof fE_eq. lra.
  - unfold py_int. f_equal. field. lra.
Qed.

Lemma dec_mid dec : finite dec = true -> Rabs (f2R dec) <= Pf / 2 -> f2R (fr_first g) <= f2R dec <= - f2R (fr_first g) ->
  exists q, f_int (fdiv (fsub dec (fr_first g)) (fr_size g)) = Ok (Ztrunc q) /\ 0 <= q < IZR N + 1 /\
    Rabs (fE + q * szE - f2R dec) <= 32 * u64 /\ fE <= fE + q * szE <= PI / 2.
Proof.
  intros Fd Bd C. destruct size_val as (Fs & _). destruct size_ratio as (r & Hr & Er & Sb).
  destruct first_val as (Ff & Ef & Bf). pose proof szE_bounds as [SE ST]. pose proof PI_bounds as P.
  pose proof fE_eq as FE. pose proof D_bounds as DB.
  assert (DN : D = IZR N + 1) by (unfold D; rewrite plus_IZR; reflexivity). rewrite DN in ST, DB.
  destruct (fsub_ok dec (fr_first g) Fd Ff) as [F1 E1].
  { apply big_100. apply Rabs_le. lra. }
  set (f := f2R (fr_first g)) in *. set (sz := f2R (fr_size g)) in *. set (dc := f2R dec) in *.
  pose proof (rnd_abs (dc - f)) as A1. rewrite (Rabs_pos_eq (dc - f)) in A1 by lra. rewrite <- E1 in A1.
  assert (S0 : 0 <= f2R (fsub dec (fr_first g))) by (rewrite E1, <- rnd_0; apply rnd_le; lra).
  set (s := f2R (fsub dec (fr_first g))) in *.
  assert (X0 : 0 <= s / sz) by (apply Rmult_le_pos; [exact S0|left; apply Rinv_0_lt_compat; lra]).
  assert (XE : s / sz * sz = s) by (field; lra).
  apply Rabs_le_inv in A1, Hr, Bd.
  assert (SU : s <= 7142 / 2000) by (clear - A1 Bd Bf; nums; lra).
  assert (SZL : / 2147483648 <= sz).
  { apply Rmult_le_reg_r with (1 + r); [nums; lra|]. rewrite <- Er.
    apply Rle_trans with (/ 2147483648 * (1 + 1)); [apply Rmult_le_compat_l; [lra|nums; lra]|]. lra. }
  destruct (fdiv_ok (fsub dec (fr_first g)) (fr_size g) F1) as [F2 E2].
  { fold sz. lra. }
  { fold s. fold sz. apply big_100. rewrite Rabs_pos_eq by exact X0.
    apply Rmult_le_reg_r with sz; [lra|]. rewrite XE.
    apply Rle_trans with (1606938044258990275541962092341162602522202993782792835301376 * / 2147483648); [lra|].
    apply Rmult_le_compat_l; lra. }
  fold s in E2. fold sz in E2.
  exists (f2R (fdiv (fsub dec (fr_first g)) (fr_size g))).
  rewrite (f_int_ok _ F2). set (q := f2R (fdiv (fsub dec (fr_first g)) (fr_size g))) in *.
  pose proof (rnd_abs (s / sz)) as A2. rewrite <- E2, (Rabs_pos_eq _ X0) in A2.
  assert (Q0 : 0 <= q) by (rewrite E2, <- rnd_0; apply rnd_le, X0).
  assert (A3 : Rabs (q * sz - s) <= u64 * s + 4 * tiny).
  { rewrite <- XE at 1. rewrite <- Rmult_minus_distr_r, Rabs_mult, (Rabs_pos_eq sz) by lra.
    apply Rle_trans with ((u64 * (s / sz) + 2 * tiny) * sz); [apply Rmult_le_compat_r; lra|].
    rewrite Rmult_plus_distr_r, Rmult_assoc, XE. apply Rplus_le_compat_l.
    replace (4 * tiny) with (2 * tiny * 2) by ring. apply Rmult_le_compat_l; [unfold tiny; lra|lra]. }
  assert (A4 : Rabs (q * sz * r) <= 4 * u64 * (q * sz)).
  { apply rel_mul; [apply Rabs_le; exact Hr|]. apply Rmult_le_pos; lra. }
  assert (QE : q * szE = q * sz + q * sz * r) by (rewrite Er; ring).
  assert (TOT : Rabs (fE + q * szE - dc) <= 32 * u64).
  { rewrite QE. set (qs := q * sz) in *. set (qsr := qs * r) in *. clearbody qsr qs.
    apply Rabs_le_inv in A3, A4, Ef. clear - A1 A3 A4 Ef SU S0. apply Rabs_le. nums. lra. }
  assert (HI : fE + q * szE < - fE + szE / 2).
  { apply Rabs_le_inv in TOT, Ef. clear - TOT Ef C SE. nums. lra. }
  assert (QSZ : 0 <= q * szE) by (apply Rmult_le_pos; lra).
  split; [reflexivity|]. split; [|split; [exact TOT|split; lra]].
  split; [exact Q0|]. apply Rmult_lt_reg_r with szE; [lra|]. rewrite ST. lra.
Qed.

(** The ring of a declination: the ring of an exact declination within 2^-48 of it. *)
Lemma dec_ring dec : finite dec = true -> Rabs (f2R dec) <= Pf / 2 ->
  exists dec', Rabs (dec' - f2R dec) <= 32 * u64 /\ - PI / 2 <= dec' <= PI / 2 /\
    fr_decToRingNum g dec = Ok (decToRingNum (exact_rings g) dec') /\
    (-1 <= decToRingNum (exact_rings g) dec' <= N)%Z.
Proof.
  intros Fd Bd. destruct first_val as (Ff & Ef & Bf). pose proof szE_bounds as [SE ST]. pose proof PI_bounds as P.
  pose proof fE_eq as FE. pose proof (fw_rings g wf) as NB. fold N in NB.
  assert (U : 0 < u64) by (unfold u64; lra).
  destruct (neg_first (fr_first g) (float_of_int (-1)) ltac:(left; split; reflexivity)) as [Fn En].
  unfold fr_decToRingNum. rewrite (fltb_ok _ _ Fd Ff), (fltb_ok _ _ Fn Fd), En.
  case Rlt_bool_spec; intros L1; [|case Rlt_bool_spec; intros L2].
  - apply Rabs_le_inv in Bd, Ef.
    exists (Rmin (f2R dec) (fE - u64)).
    assert (R1 : Rmin (f2R dec) (fE - u64) < fE) by (eapply Rle_lt_trans; [apply Rmin_r|lra]).
    assert (E : decToRingNum (exact_rings g) (Rmin (f2R dec) (fE - u64)) = (-1)%Z).
    { unfold decToRingNum. fold fE. rewrite Rlt_bool_true by exact R1. reflexivity. }
    rewrite E. split; [|split; [|split; [reflexivity|lia]]].
    + unfold Rmin. destruct (Rle_dec _ _); apply Rabs_le; lra.
    + split; [apply Rmin_glb; nums; lra|]. eapply Rle_trans; [apply Rmin_l|lra].
  - apply Rabs_le_inv in Bd, Ef. fold N.
    exists (Rmax (f2R dec) (- fE)).
    assert (E : decToRingNum (exact_rings g) (Rmax (f2R dec) (- fE)) = N).
    { destruct (Rle_lt_dec (f2R dec) (- fE)) as [G|G].
      - rewrite Rmax_right by exact G.
        assert (NE : (IZR N + 1) * szE = PI) by (rewrite <- ST; unfold D; rewrite plus_IZR; reflexivity).
        replace (- fE) with (fE + IZR N * szE) by lra.
        rewrite ring_of_q, Ztrunc_IZR; [reflexivity|]. pose proof (IZR_le 0 N ltac:(lia)). lra.
      - rewrite Rmax_left by lra. unfold decToRingNum. fold fE. rewrite Rlt_bool_false by (nums; lra).
        rewrite Rlt_bool_true by lra. reflexivity. }
    rewrite E. split; [|split; [|split; [reflexivity|lia]]].
    + unfold Rmax. destruct (Rle_dec _ _); apply Rabs_le; lra.
    + split; [eapply Rle_trans; [|apply Rmax_l]; lra|]. apply Rmax_lub; nums; lra.
  - destruct (dec_mid dec Fd Bd ltac:(lra)) as (q & Eq & Qr & Ed & B).
    exists (fE + q * szE). rewrite ring_of_q by exact Qr.
    split; [exact Ed|]. split; [lra|]. split; [exact Eq|].
    rewrite Ztrunc_floor by lra. split; [pose proof (Zfloor_lub 0 q (proj1 Qr)); lia|].
    assert (Zfloor q < N + 1)%Z; [|lia]. apply lt_IZR. rewrite plus_IZR. eapply Rle_lt_trans; [apply Zfloor_lb|apply Qr].
Qed.

(** The same for [findTractIdArray]: its masks select the same ring. *)
Lemma dec_ring_array dec : finite dec = true ->
  (let first := fr_first g in
   let neg := fmul (float_of_int (-1)) first in
   let r1 := if fltb dec first then (-1)%Z else 0%Z in
   let r2 := if fltb neg dec then fr_numRings g else r1 in
   if fleb first dec && fleb dec neg then f_int (fdiv (fsub dec first) (fr_size g)) else Ok r2)
  = fr_decToRingNum g dec.
Proof.
  intros Fd. cbv zeta. destruct first_val as (Ff & Ef & Bf).
  destruct (neg_first (fr_first g) (float_of_int (-1)) ltac:(left; split; reflexivity)) as [Fn En].
  destruct (neg_first (float_of_int (-1)) (fr_first g) ltac:(right; split; reflexivity)) as [Fn' En'].
  unfold fr_decToRingNum.
  rewrite (fltb_ok _ _ Fd Ff), (fltb_ok _ _ Fn' Fd), (fltb_ok _ _ Fn Fd), (fleb_ok _ _ Ff Fd), (fleb_ok _ _ Fd Fn'), En, En'.
  case Rlt_bool_spec; intros L1; case Rlt_bool_spec; intros L2; case Rle_bool_spec; intros L3;
    case Rle_bool_spec; intros L4; cbn [andb]; try reflexivity; exfalso; lra.
Qed.
End Dec.

(** ** Right ascension *)
Lemma ra_ring n ra st : (1 <= n <= 2 ^ 31)%Z -> Rabs ra <= 10 -> Rabs st <= 8 ->
  exists ra' K, 0 <= ra' < 2 * PI /\ Rabs (ra' - ra - IZR K * (2 * PI)) <= 128 * u64 /\
    tractNumR (wrapR (rnd (ra - st))) n =
      (let k := py_int (wrap (ra' - st) / (2 * PI / IZR n) + 1 / 2) in if (k =? n)%Z then 0%Z else k).
Proof.
  intros H R S. pose proof (IZR_bounds n H) as NB. pose proof PI_bounds as P. pose proof Tf_pos as TP.
  apply Rabs_le_inv in S, R.
  pose proof (rnd_abs (ra - st)) as A0.
  assert (A1 : Rabs (ra - st) <= 18) by (apply Rabs_le; nums; lra).
  assert (A2 : Rabs (rnd (ra - st) - (ra - st)) <= u64 * (181 / 10)).
  { eapply Rle_trans; [exact A0|]. pose proof (Rmult_le_compat_l u64 _ _ ltac:(unfold u64; lra) A1). nums; lra. }
  clear A0. apply Rabs_le_inv in A1, A2. set (d := rnd (ra - st)) in *.
  destruct (wrapR_spec d) as (W & K & KB & EW).
  { apply Rabs_lt. nums; lra. }
  set (w := wrapR d) in *.
  destruct (tnR_spec w n H ltac:(lra)) as [L E]. destruct (tnR_range w n H ltac:(lra)) as [_ U].
  unfold tractNumR. set (y := tnR w n) in *. clearbody y. cbv zeta.
  set (X := y - / 2) in *.
  pose proof PI_RGT_0 as PP. set (al := 2 * PI / IZR n).
  assert (AL : 0 < al) by (apply Rmult_lt_0_compat; [lra|apply Rinv_0_lt_compat; lra]).
  assert (ALn : IZR n * al = 2 * PI) by (unfold al; field; lra).
  (* X * al is close to w *)
  pose proof (ratio_le w ltac:(lra)) as YB.
  assert (WE : w / Tf * Tf = w) by (field; lra).
  assert (XA : Rabs (X * al - w / Tf * (2 * PI)) <= 6 * u64 * (2 * PI)).
  { rewrite <- ALn. replace (X * al - w / Tf * (IZR n * al)) with ((X - IZR n * (w / Tf)) * al) by ring.
    rewrite Rabs_mult, (Rabs_pos_eq al) by lra.
    replace (6 * u64 * (IZR n * al)) with (IZR n * (6 * u64) * al) by ring. apply Rmult_le_compat_r; [lra|exact E]. }
  assert (XW : Rabs (st + X * al - ra + IZR K * (2 * PI)) <= 128 * u64).
  { assert (G1 : Rabs (w / Tf * (2 * PI) - w) <= 4 * u64).
    { rewrite <- WE at 2. rewrite <- Rmult_minus_distr_l. rewrite Rabs_pos_eq by (apply Rmult_le_pos; [lra|unfold Tf; lra]).
      apply Rle_trans with (1 * (2 * PI - Tf)); [apply Rmult_le_compat_r; [unfold Tf; lra|lra]|].
      unfold Tf; clear - P; lra. }
    assert (G2 : Rabs (IZR K * (2 * PI - Tf)) <= 3 * (4 * u64)).
    { rewrite Rabs_mult. apply Rmult_le_compat; try apply Rabs_pos.
      - rewrite <- abs_IZR. apply (IZR_le _ 3). lia.
      - rewrite Rabs_pos_eq; unfold Tf; lra. }
    assert (G3 : 6 * u64 * (2 * PI) <= 38 * u64) by (clear - P; nums; lra).
    replace (IZR K * (2 * PI - Tf)) with (IZR K * (2 * PI) - IZR K * Tf) in G2 by ring.
    apply Rabs_le_inv in XA, EW, G1, G2. apply Rabs_le.
    set (a := X * al) in *. set (b := IZR K * (2 * PI)) in *. set (c := IZR K * Tf) in *.
    set (e := w / Tf * (2 * PI)) in *.
    clear - A2 XA EW G1 G2 G3. clearbody a b c d e w. unfold u64 in *. lra. }
  exists (wrap (st + X * al)). destruct (wrap_decomp (st + X * al)) as [j J].
  exists (- K - j)%Z. split; [apply wrap_range|]. split.
  - rewrite minus_IZR, opp_IZR. set (z := wrap (st + X * al)) in *. clearbody z.
    replace (z - ra - (- IZR K - IZR j) * (2 * PI)) with (st + X * al - ra + IZR K * (2 * PI)) by lra. exact XW.
  - rewrite wrap_minus_wrap. replace (st + X * al - st) with (X * al) by ring.
    destruct (Rlt_le_dec X (IZR n)) as [XL|XL].
    + rewrite wrap_id.
      2:{ split; [apply Rmult_le_pos; unfold X; lra|]. rewrite <- ALn. apply Rmult_lt_compat_r; assumption. }
      replace (X * al / al + 1 / 2) with y by (unfold X; field; lra). reflexivity.
    + assert (Y1 : Ztrunc y = n).
      { rewrite Ztrunc_floor by lra. apply Zfloor_imp. rewrite plus_IZR. unfold X in XL. split; lra. }
      rewrite Y1, Z.eqb_refl.
      rewrite (wrap_unique (X * al) ((X - IZR n) * al) 1).
      2:{ rewrite <- ALn. ring. }
      2:{ split; [apply Rmult_le_pos; lra|]. rewrite <- ALn. apply Rmult_lt_compat_r; [exact AL|]. unfold X; lra. }
      replace ((X - IZR n) * al / al + 1 / 2) with (y - IZR n) by (unfold X; field; lra).
      assert (py_int (y - IZR n) = 0)%Z as ->.
      { unfold py_int. rewrite Ztrunc_floor by (unfold X in XL; lra). apply Zfloor_imp. cbn [Z.add]. unfold X in XL. lra. }
      case Z.eqb_spec; lia.
Qed.
