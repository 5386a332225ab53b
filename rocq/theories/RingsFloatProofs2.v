(** Centres of tracts in binary64. *)
From Coq Require Import Reals Lra Lia.
From Flocq Require Import Core BinarySingleNaN.
Require Import Verif.Py Verif.Geom Verif.Float64 Verif.Float64Proofs.
Require Import Verif.Rings Verif.RingsSpec Verif.RingsProofs Verif.RingsProofs2.
Require Import Verif.RingsFloat Verif.RingsFloatSpec Verif.FloatOps Verif.RingsFloatProofs.
Open Scope Z_scope.

(** A coordinate less than half a tract away from the centre is given the tract of the centre. *)
Lemma find_near g r n t c : rings_wf g -> ring_has g r n -> 0 <= t <= n ->
  near (rg_size g / 2) (PI / IZR n) (position g r t n) c ->
  rings_findIndex g c = rings_findIndex g (position g r t n).
Proof.
  intros W H Ht Hn. pose proof (ring_has_lt g W r n H) as [Hr Hn1].
  assert (WLOG : exists t', 0 <= t' < n /\ position g r t n = position g r t' n).
  { destruct (Z.eq_dec t n) as [->|]; [exists 0; split; [lia|apply position_wrap; lia]|exists t; split; [lia|reflexivity]]. }
  clear Ht. destruct WLOG as (t' & Ht & E). rewrite E in *. clear E t. rename t' into t.
  rewrite (find_position g W r n t H Ht). destruct Hn as [Hd (k & Hk)]. cbn [position fst snd] in *.
  pose proof (size_pos g W) as HS. pose proof two_pi_pos as HP. pose proof PI_RGT_0 as HPI.
  apply Rabs_lt_inv in Hd.
  assert (Ed : decToRingNum g (snd c) = r).
  { apply decToRing_in; [exact W|exact Hr|]. unfold firstRingStart. lra. }
  destruct (find_cases g W c) as [[Hx _]|[[Hx _]|(r1 & n1 & t1 & H1 & Ht1 & E1 & E2 & _ & Ha & E)]].
  - exfalso. rewrite (decToRing_south g _ Hx) in Ed. lia.
  - exfalso. rewrite (decToRing_north g W _ Hx) in Ed. lia.
  - rewrite E. rewrite Ed in E1. subst r1. assert (n1 = n) by (eapply ring_has_fun; eauto). subst n1.
    assert (t1 = t); [|subst; reflexivity].
    assert (HnR : (1 <= IZR n)%R) by (apply IZR_le; lia).
    apply (arc_unique (fst c - rg_raStart g) n t1 t); try assumption.
    + replace (fst c - rg_raStart g - (IZR t1 - 1 / 2) * (2 * PI / IZR n))%R
        with (fst c - (rg_raStart g + (IZR t1 - 1 / 2) * (2 * PI / IZR n)))%R by ring. exact Ha.
    + destruct (wrap_decomp (2 * PI * IZR t / IZR n + rg_raStart g)) as (j & J).
      set (p := wrap (2 * PI * IZR t / IZR n + rg_raStart g)) in *. clearbody p.
      apply Rabs_lt_inv in Hk.
      assert (Q : (PI / IZR n <= PI)%R).
      { apply Rmult_le_reg_r with (IZR n); [lra|]. unfold Rdiv. rewrite Rmult_assoc, Rinv_l by lra.
        rewrite Rmult_1_r. rewrite <- (Rmult_1_r PI) at 1. apply Rmult_le_compat_l; lra. }
      set (q := (PI / IZR n)%R) in *.
      assert (E3 : (2 * PI / IZR n = 2 * q)%R) by (unfold q, Rdiv; ring).
      assert (E4 : (2 * PI * IZR t / IZR n = IZR t * (2 * q))%R) by (unfold q, Rdiv; ring).
      rewrite E3. rewrite E4 in J. clearbody q.
      rewrite (wrap_unique _ (fst c - p + IZR k * (2 * PI) + q)%R (- k - j)).
      * lra.
      * rewrite minus_IZR, opp_IZR. set (a := (IZR t * (2 * q))%R) in *. 
        assert (E5 : ((IZR t - 1 / 2) * (2 * q) = a - q)%R) by (unfold a; field). rewrite E5. lra.
      * lra.
Qed.

(** Ring and tract number of an index between the caps. *)
Lemma inner_pair g i : rings_wf g -> 0 < i < rings_numTracts g - 1 ->
  exists r n t, ring_has g r n /\ 0 <= t <= n /\ getRingIndices g i = Ok (r, t).
Proof.
  intros W Hi. destruct (index_cases g W i ltac:(lia)) as [?|[?|(r & n & t & H & Ht & ->)]]; [lia|lia|].
  destruct (rw_version g W) as [V|V].
  - destruct (Z.eq_dec t 0) as [->|].
    + destruct (Z.eq_dec r 0) as [->|].
      * exists 0, n, 0. split; [exact H|]. split; [lia|]. apply (indices_v0 g W 0 n 0 V H). auto.
      * destruct (ring_has_lt g W r n H) as [Hr _].
        destruct (ring_has_ex g W (r - 1) ltac:(lia)) as (m & Hm). pose proof (ring_has_lt g W _ _ Hm).
        exists (r - 1), m, m. split; [exact Hm|]. split; [lia|].
        rewrite <- (indices_v0 g W (r - 1) m m V Hm) by (right; left; split; [reflexivity|lia]).
        rewrite <- (nominal_next g (r - 1) m Hm). do 2 f_equal. lia.
    + exists r, n, t. split; [exact H|]. split; [lia|]. apply (indices_v0 g W r n t V H). left; lia.
  - exists r, n, t. split; [exact H|]. split; [lia|]. apply (indices_v1 g W r n t V H Ht).
Qed.

Open Scope R_scope.
Lemma wrapR_id r : 0 <= r < Tf -> wrapR r = r /\ npR r = r.
Proof.
  intros H. unfold wrapR. assert (E : npR r = r).
  { unfold npR. cbv zeta.
    assert (Ztrunc (r / Tf) = 0%Z) as ->.
    { pose proof (ratio_le r ltac:(lra)) as B. rewrite Ztrunc_floor by lra. apply Zfloor_imp. cbn [Z.add].
      split; [lra|]. apply Rmult_lt_reg_r with Tf; [apply Tf_pos|]. unfold Rdiv.
      rewrite Rmult_assoc, Rinv_l by (pose proof Tf_pos; lra). lra. }
    rewrite Rmult_0_l, Rminus_0_r. rewrite Rlt_bool_false by lra. reflexivity. }
  rewrite E. rewrite Rlt_bool_true by lra. split; reflexivity.
Qed.

(** The declination of the centre. *)
Lemma centre_dec g r : frings_wf g -> (0 <= r < fr_numRings g)%Z ->
  let dec := fsub (fmul (fr_size g) (float_of_int (r + 1))) (fmul f_half f_pi) in
  finite dec = true /\ Rabs (f2R dec) <= Pf / 2 /\
  Rabs (f2R dec - (ring_size (fr_numRings g) * (IZR r + 1) - 1 / 2 * PI)) <= 32 * u64.
Proof.
  intros W Hr. cbv zeta. destruct (size_val g W) as (Fs & _). destruct (size_ratio g W) as (e & He & Ee & Sb).
  destruct f_halfpi_ok as [FP EP]. pose proof (szE_bounds g W) as [SE ST]. pose proof PI_bounds as P.
  pose proof (fw_rings g W) as NB.
  set (szE := ring_size (fr_numRings g)) in *. set (s := f2R (fr_size g)) in *.
  destruct (float_of_int_ok (r + 1) ltac:(lia)) as [Fr Er]. rewrite plus_IZR in Er.
  assert (Rb : 1 <= IZR r + 1 <= IZR (fr_numRings g + 1) - 1).
  { rewrite plus_IZR. split.
    - destruct Hr as [H0 _]. apply IZR_le in H0. lra.
    - assert (IZR r <= IZR (fr_numRings g) - 1); [|lra]. rewrite <- minus_IZR. apply IZR_le. lia. }
  set (k := IZR r + 1) in *.
  assert (MB : 0 <= szE * k <= PI - szE).
  { split; [apply Rmult_le_pos; lra|]. rewrite <- ST.
    replace (IZR (fr_numRings g + 1) * szE - szE) with (szE * (IZR (fr_numRings g + 1) - 1)) by ring.
    apply Rmult_le_compat_l; lra. }
  assert (SK0 : 0 <= s * k) by (apply Rmult_le_pos; lra).
  assert (SKE : szE * k = s * k + s * k * e) by (rewrite Ee; ring).
  pose proof (rel_mul _ (s * k) e He SK0) as A1. apply Rabs_le_inv in A1.
  destruct (fmul_ok (fr_size g) (float_of_int (r + 1)) Fs Fr) as [F1 E1].
  { fold s. rewrite Er. apply big_100. rewrite Rabs_pos_eq by exact SK0.
    set (a := s * k * e) in *. set (b := s * k) in *. clearbody a b. nums. lra. }
  fold s in E1. rewrite Er in E1.
  pose proof (rnd_abs (s * k)) as A2. rewrite (Rabs_pos_eq _ SK0), <- E1 in A2. apply Rabs_le_inv in A2.
  assert (M0 : 0 <= f2R (fmul (fr_size g) (float_of_int (r + 1)))) by (rewrite E1, <- rnd_0; apply rnd_le; exact SK0).
  set (m := f2R (fmul (fr_size g) (float_of_int (r + 1)))) in *.
  set (a := s * k * e) in *. set (b := s * k) in *. clearbody a b.
  assert (MM : Rabs (m - szE * k) <= 18 * u64) by (apply Rabs_le; clear - A1 A2 SKE MB SE P SK0; nums; lra).
  apply Rabs_le_inv in MM.
  destruct (fsub_ok (fmul (fr_size g) (float_of_int (r + 1))) (fmul f_half f_pi) F1 FP) as [F2 E2].
  { fold m. rewrite EP. apply big_100. apply Rabs_le. clear - MM MB SE P. nums. lra. }
  fold m in E2. rewrite EP in E2.
  assert (B : Rabs (m - Pf / 2) <= Pf / 2) by (apply Rabs_le; clear - MM MB SE P M0; nums; lra).
  split; [exact F2|]. split.
  - rewrite E2. apply abs_round_le_generic; try apply fexp_correct; try exact Hprec53; try apply valid_rnd_round_mode; [|exact B].
    rewrite <- EP. apply f_format.
  - rewrite E2. pose proof (rnd_abs (m - Pf / 2)) as A3.
    assert (A4 : u64 * Rabs (m - Pf / 2) <= u64 * (Pf / 2)) by (apply Rmult_le_compat_l; [unfold u64; lra|exact B]).
    apply Rabs_le_inv in A3. apply Rabs_le. set (z := rnd (m - Pf / 2)) in *. clearbody z m.
    set (w := szE * k) in *. clearbody w. set (v := u64 * Rabs (m - Pf / 2)) in *. clearbody v.
    clear - A3 A4 MM P. nums. lra.
Qed.

(** Its right ascension. *)
Lemma centre_ra n t st : (1 <= n <= 2 ^ 31)%Z -> (0 <= t <= n)%Z -> finite st = true -> Rabs (f2R st) <= 8 ->
  let ra := f_wrap (fadd (fdiv (fmul f_twopi (float_of_int t)) (float_of_int n)) st) in
  finite ra = true /\ 0 <= f2R ra < Tf /\
  exists K, Rabs (f2R ra - (2 * PI * IZR t / IZR n + f2R st) + IZR K * (2 * PI)) <= 128 * u64.
Proof.
  intros Hn Ht Fs Bs. cbv zeta. pose proof (IZR_bounds n Hn) as NB. pose proof PI_bounds as P. pose proof Tf_pos as TP.
  destruct (float_of_int_ok n ltac:(lia)) as [Fn En]. destruct (float_of_int_ok t ltac:(lia)) as [Ft Et].
  destruct f_twopi_ok as [FT ET]. apply Rabs_le_inv in Bs.
  assert (TB : 0 <= IZR t <= IZR n) by (split; apply IZR_le; lia).
  assert (B0 : 0 <= Tf * IZR t <= Tf * IZR n) by (split; [apply Rmult_le_pos; lra|apply Rmult_le_compat_l; lra]).
  destruct (fmul_ok f_twopi (float_of_int t) FT Ft) as [F1 E1].
  { rewrite ET, Et. apply big_100. rewrite Rabs_pos_eq by lra. unfold Tf, Pf in *. lra. }
  rewrite ET, Et in E1.
  pose proof (rnd_abs (Tf * IZR t)) as A1. rewrite (Rabs_pos_eq (Tf * IZR t)), <- E1 in A1 by lra.
  assert (P0 : 0 <= f2R (fmul f_twopi (float_of_int t))) by (rewrite E1, <- rnd_0; apply rnd_le; lra).
  set (a := f2R (fmul f_twopi (float_of_int t))) in *.
  (* divided by n *)
  set (y := IZR t / IZR n). assert (YE : y * IZR n = IZR t) by (unfold y; field; lra).
  assert (YB : 0 <= y <= 1).
  { split; apply Rmult_le_reg_r with (IZR n); lra. }
  assert (A2 : Rabs (a / IZR n - Tf * y) <= 8 * u64).
  { replace (a / IZR n - Tf * y) with ((a - Tf * IZR t) * / IZR n) by (rewrite <- YE; field; lra).
    rewrite Rabs_mult. rewrite (Rabs_pos_eq (/ IZR n)) by (left; apply Rinv_0_lt_compat; lra).
    apply Rle_trans with ((u64 * (Tf * IZR t) + 2 * tiny) * / IZR n).
    - apply Rmult_le_compat_r; [left; apply Rinv_0_lt_compat; lra|exact A1].
    - apply Rmult_le_reg_r with (IZR n); [lra|]. rewrite Rmult_assoc, Rinv_l, Rmult_1_r by lra.
      set (k := IZR n) in *. set (j := IZR t) in *. clearbody j k. nums. lra. }
  apply Rabs_le_inv in A2.
  assert (YT : 0 <= Tf * y <= Tf).
  { split; [apply Rmult_le_pos; lra|]. rewrite <- (Rmult_1_r Tf) at 2. apply Rmult_le_compat_l; lra. }
  assert (Q0 : 0 <= a / IZR n) by (apply Rmult_le_pos; [exact P0|left; apply Rinv_0_lt_compat; lra]).
  destruct (fdiv_ok (fmul f_twopi (float_of_int t)) (float_of_int n) F1) as [F2 E2].
  { rewrite En; lra. }
  { fold a. rewrite En. apply big_100. rewrite Rabs_pos_eq by exact Q0. nums; lra. }
  fold a in E2. rewrite En in E2.
  pose proof (rnd_abs (a / IZR n)) as A3. rewrite (Rabs_pos_eq _ Q0), <- E2 in A3. apply Rabs_le_inv in A3.
  set (b := f2R (fdiv (fmul f_twopi (float_of_int t)) (float_of_int n))) in *.
  assert (A4 : Rabs (b - Tf * y) <= 16 * u64).
  { apply Rabs_le. set (x := a / IZR n) in *. set (z := Tf * y) in *. clearbody x z b. nums. lra. }
  apply Rabs_le_inv in A4.
  assert (A5 : Rabs (b + f2R st) <= 15) by (apply Rabs_le; nums; lra).
  destruct (fadd_ok (fdiv (fmul f_twopi (float_of_int t)) (float_of_int n)) st F2 Fs) as [F3 E3].
  { fold b. apply big_100. lra. }
  fold b in E3. pose proof (rnd_abs (b + f2R st)) as A6.
  assert (A7 : u64 * Rabs (b + f2R st) <= u64 * 15) by (apply Rmult_le_compat_l; [unfold u64; lra|exact A5]).
  destruct (f_wrap_val _ F3) as [F4 E4]. rewrite E3 in E4.
  destruct (wrapR_spec (rnd (b + f2R st))) as (W & K & KB & EW).
  { apply Rabs_le_inv in A5, A6. apply Rabs_lt. set (z := rnd _) in *. clearbody z. nums. lra. }
  split; [exact F4|]. rewrite E4. split; [exact W|]. exists K.
  assert (G1 : Rabs (y * (2 * PI - Tf)) <= 4 * u64).
  { rewrite Rabs_pos_eq by (apply Rmult_le_pos; [lra|unfold Tf; lra]).
    apply Rle_trans with (1 * (2 * PI - Tf)); [apply Rmult_le_compat_r; [unfold Tf; lra|lra]|].
    unfold Tf; clear - P; lra. }
  assert (G2 : Rabs (IZR K * (2 * PI - Tf)) <= 3 * (4 * u64)).
  { rewrite Rabs_mult. apply Rmult_le_compat; try apply Rabs_pos.
    - rewrite <- abs_IZR. apply (IZR_le _ 3). lia.
    - rewrite Rabs_pos_eq; unfold Tf; lra. }
  replace (2 * PI * IZR t / IZR n) with (2 * PI * y) by (unfold y; field; lra).
  replace (IZR K * (2 * PI - Tf)) with (IZR K * (2 * PI) - IZR K * Tf) in G2 by ring.
  replace (y * (2 * PI - Tf)) with (2 * PI * y - Tf * y) in G1 by ring.
  apply Rabs_le_inv in A6, EW, G1, G2. apply Rabs_le.
  set (v := u64 * Rabs (b + f2R st)) in *. set (w := wrapR (rnd (b + f2R st))) in *. set (d := rnd (b + f2R st)) in *.
  set (k1 := IZR K * (2 * PI)) in *. set (k2 := IZR K * Tf) in *. set (y1 := 2 * PI * y) in *. set (y2 := Tf * y) in *.
  clearbody v w d k1 k2 y1 y2 b. clear - A4 A6 A7 EW G1 G2. nums. lra.
Qed.
