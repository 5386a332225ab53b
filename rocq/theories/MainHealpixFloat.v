(** The Healpix angles of coordinates in binary64 (C103). *)
From Coq Require Import Reals Lra Lia.
From Flocq Require Import Core BinarySingleNaN.
Require Import Verif.Py Verif.Geom.
Require Import Verif.Float64 Verif.Float64Proofs Verif.RingsFloat Verif.RingsFloatSpec Verif.FloatOps.
Require Import Verif.RingsFloatProofs Verif.RingsFloatProofs2 Verif.EquatFloat Verif.HealpixFloat.
Open Scope Z_scope.

Local Instance fexp64_valid3 : Valid_exp fexp64 := fexp_correct 53 1024 Hprec53.

Lemma halfpi_f : rnd (Pf / 2) = (Pf / 2)%R.
Proof. destruct f_halfpi_ok as [_ EH]. rewrite <- EH. apply rnd_f. Qed.
Lemma pi_f : rnd Pf = Pf.
Proof. destruct f_pi_ok as [_ EH]. rewrite <- EH. apply rnd_f. Qed.
Lemma mhalfpi_f : rnd (- (Pf / 2)) = (- (Pf / 2))%R.
Proof. destruct f_halfpi_ok as [_ EH]. rewrite <- EH, <- B2R_Bopp. apply (rnd_f (Bopp (fmul f_half f_pi))). Qed.

Lemma lat_of t : finite t = true -> (0 <= f2R t <= Pf)%R ->
  finite (fsub t (fmul f_half f_pi)) = true /\ f2R (fsub t (fmul f_half f_pi)) = rnd (f2R t - Pf / 2)
  /\ (- (Pf / 2) <= rnd (f2R t - Pf / 2) <= Pf / 2)%R /\ (Rabs (rnd (f2R t - Pf / 2) - (f2R t - Pf / 2)) <= 2 * u64)%R.
Proof.
  intros F B. destruct f_halfpi_ok as [FH EH].
  assert (AB : (Rabs (f2R t - Pf / 2) <= Pf / 2)%R) by (apply Rabs_le; lra).
  destruct (fsub_ok t (fmul f_half f_pi) F FH) as [F1 E1].
  { apply big_100. rewrite EH. nums. lra. }
  rewrite EH in E1. split; [exact F1|]. split; [exact E1|]. split.
  - split.
    + rewrite <- mhalfpi_f at 1. apply rnd_le. lra.
    + apply Rle_trans with (rnd (Pf / 2)); [apply rnd_le; lra|rewrite halfpi_f; lra].
  - eapply Rle_trans; [apply rnd_abs|]. apply Rle_trans with (u64 * (Pf / 2) + 2 * tiny)%R; [|nums; lra].
    apply Rplus_le_compat_r, Rmult_le_compat_l; [nums; lra|exact AB].
Qed.

Lemma wrapR_range r : (0 <= wrapR r < Tf)%R.
Proof.
  assert (N : (0 <= npR r)%R).
  { unfold npR. cbv zeta. destruct (trunc_rem r Tf Tf_pos) as (A & _). apply Rabs_lt_inv in A. case Rlt_bool_spec; intros L; [|exact L].
    rewrite <- rnd_0. apply rnd_le. lra. }
  unfold wrapR. pose proof Tf_pos. case Rlt_bool_spec; lra.
Qed.

(*@ C103: for every finite theta in [0, math.pi] and finite phi, angToCoord does not raise and gives a valid SpherePoint (latitude never beyond the double of pi/2, longitude in
    [0, 2*math.pi)) at most 2^-51 radians from latitude theta - pi/2, with longitude exactly phi if that is in [0, 2*math.pi). *)
Lemma ang_to_coord_float_proof : forall theta phi,
  finite theta = true -> (0 <= f2R theta <= f2R f_pi)%R -> finite phi = true ->
  exists c, fh_angToCoord (theta, phi) = Ok c /\ f_coord c
    /\ (Rabs (f2R (snd c) - (f2R theta - PI / 2)) <= / 2251799813685248)%R
    /\ ((0 <= f2R phi < f2R f_twopi)%R -> f2R (fst c) = f2R phi).
Proof.
  intros t p F B FP. destruct f_pi_ok as [_ EP]. destruct f_twopi_ok as [_ ET]. destruct f_halfpi_ok as [FH EH]. rewrite EP in B. rewrite ET.
  destruct (lat_of t F B) as (F1 & E1 & B1 & A1). destruct (f_wrap_val p FP) as [FW EW].
  unfold fh_angToCoord, f_makeSpherePoint. cbn [fst snd].
  rewrite fltb_ok by (try exact FH; rewrite is_finite_Babs; exact F1). rewrite EH, B2R_Babs, Rlt_bool_false by (rewrite E1; apply Rabs_le; lra).
  eexists. split; [reflexivity|]. unfold f_coord, f_spherePoint. cbn [fst snd]. rewrite ET, EP, E1, EW. split; [|split].
  - split; [exact FW|]. split; [exact F1|]. split; [apply wrapR_range|]. apply Rabs_le. lra.
  - pose proof PI_bounds as P. apply Rabs_le_inv in A1. apply Rabs_le. set (r := rnd _) in *. clearbody r. nums. lra.
  - intros H. apply (wrapR_id _ H).
Qed.

Definition hp_s : f64 := f64_make 7074237752028441 (-52).
Lemma hp_s_ok : finite hp_s = true /\ f2R hp_s = (Pf / 2 + / 4503599627370496)%R.
Proof.
  destruct (f64_make_ok 7074237752028441 (-52) ltac:(lia) ltac:(lia)) as [F E]. split; [exact F|].
  unfold hp_s. rewrite E. change (bpow radix2 (-52)) with (/ 4503599627370496)%R. unfold Pf. lra.
Qed.
Lemma after_pi x : generic_format radix2 fexp64 x -> (Pf < x)%R -> (Pf + / 2251799813685248 <= x)%R.
Proof.
  intros G L. assert (G9 : generic_format radix2 fexp64 Pf).
  { destruct f_pi_ok as [_ E]. rewrite <- E. apply f_format. }
  pose proof (succ_le_lt radix2 fexp64 Pf x G9 G L) as S. rewrite succ_eq_pos in S by (nums; lra).
  rewrite ulp_neq_0 in S by (nums; lra). unfold cexp in S. rewrite (mag_unique_pos radix2 Pf 2) in S.
  - change (SpecFloat.fexp 53 1024 2) with (-51)%Z in S. change (bpow radix2 (-51)) with (/ 2251799813685248)%R in S. exact S.
  - change (bpow radix2 (2 - 1)) with 2%R. change (bpow radix2 2) with 4%R. nums. lra.
Qed.

(*@ C103: the range is sharp: angToCoord rejects every double theta above math.pi, from the next one on, and every theta at or below -2^-52. *)
Lemma ang_out_of_range_float_proof : forall theta phi,
  finite theta = true -> (f2R f_pi < f2R theta \/ f2R theta <= - / 4503599627370496)%R -> fh_angToCoord (theta, phi) = Raise InvalidParameterError.
Proof.
  intros t p F B. destruct f_pi_ok as [_ EP]. destruct f_halfpi_ok as [FH EH]. rewrite EP in B. destruct hp_s_ok as [FS ES].
  unfold fh_angToCoord, f_makeSpherePoint. cbn [fst snd].
  enough (Q : fltb (fmul f_half f_pi) (Babs (fsub t (fmul f_half f_pi))) = true) by (rewrite Q; reflexivity).
  assert (K : (f2R hp_s <= Rabs (f2R t - Pf / 2))%R).
  { rewrite ES. destruct B as [B|B].
    - pose proof (after_pi _ (f_format t) B) as A. rewrite Rabs_pos_eq; nums; lra.
    - rewrite Rabs_left1; nums; lra. }
  pose proof (Bminus_correct 53 1024 Hprec53 Hmax1024 mode_NE t (fmul f_half f_pi) F FH) as C. rewrite EH in C.
  destruct (Rlt_bool _ _).
  - destruct C as (C1 & C2 & _).
    assert (FA : finite (Babs (fsub t (fmul f_half f_pi))) = true) by (rewrite is_finite_Babs; exact C2).
    rewrite (fltb_ok _ _ FH FA), EH, B2R_Babs. unfold fsub. rewrite C1. apply Rlt_bool_true.
    rewrite <- round_NE_abs by apply fexp64_valid3. apply Rlt_le_trans with (f2R hp_s); [rewrite ES; lra|].
    rewrite <- (rnd_f hp_s) at 1. apply rnd_le. exact K.
  - destruct C as [C _]. change (Bminus mode_NE t (fmul f_half f_pi)) with (fsub t (fmul f_half f_pi)) in C.
    destruct (fsub t _) as [s|s| |s m e' H]; try discriminate C. unfold fltb. cbn [Babs].
    assert (Q : fmul f_half f_pi = f64_make 7074237752028440 (-52)) by (apply B2SF_inj; vm_compute; reflexivity).
    rewrite Q. vm_compute. reflexivity.
Qed.

(*@ C103: coordToAng maps every valid SpherePoint to Healpix angles in range (0 <= theta <= math.pi, 0 <= phi < 2*math.pi), theta at most 2^-50 radians from latitude + pi/2 and
    phi exactly the longitude. *)
Lemma coord_to_ang_float_proof : forall c, f_coord c ->
  let a := fh_coordToAng c in
  finite (fst a) = true /\ (0 <= f2R (fst a) <= f2R f_pi)%R /\ (Rabs (f2R (fst a) - (f2R (snd c) + PI / 2)) <= / 1125899906842624)%R
  /\ finite (snd a) = true /\ (0 <= f2R (snd a) < f2R f_twopi)%R /\ snd a = fst c.
Proof.
  intros [lon lat] (FL & FB & BL & BB). cbn [fst snd] in *. unfold fh_coordToAng. cbn [fst snd]. cbv zeta.
  destruct f_pi_ok as [_ EP]. destruct f_halfpi_ok as [FH EH]. rewrite EP in *. apply Rabs_le_inv in BB.
  destruct (fadd_ok lat (fmul f_half f_pi) FB FH) as [F1 E1].
  { apply big_100, Rabs_le. rewrite EH. nums. lra. }
  rewrite E1, EH. split; [exact F1|]. split.
  { split.
    - rewrite <- rnd_0. apply rnd_le. lra.
    - apply Rle_trans with (rnd Pf); [apply rnd_le; lra|rewrite pi_f; lra]. }
  split; [|auto]. pose proof (rnd_abs (f2R lat + Pf / 2)) as A.
  assert (AB : (Rabs (f2R lat + Pf / 2) <= Pf)%R) by (apply Rabs_le; lra).
  assert (A2 : (u64 * Rabs (f2R lat + Pf / 2) <= u64 * Pf)%R) by (apply Rmult_le_compat_l; [nums; lra|exact AB]).
  set (v := (u64 * Rabs _)%R) in *. clearbody v. apply Rabs_le_inv in A. apply Rabs_le. pose proof PI_bounds as P. set (r := rnd _) in *. clearbody r. nums. lra.
Qed.

(*@ C103: converting any valid SpherePoint to Healpix angles and back does not raise: it gives back exactly the longitude, and the latitude up to 2^-50 radians. *)
Lemma ang_roundtrip_float_proof : forall c, f_coord c ->
  exists c', fh_angToCoord (fh_coordToAng c) = Ok c' /\ f_coord c' /\ f2R (fst c') = f2R (fst c)
    /\ (Rabs (f2R (snd c') - f2R (snd c)) <= / 1125899906842624)%R.
Proof.
  intros [lon lat] C. destruct (coord_to_ang_float_proof _ C) as (F1 & B1 & _ & F2 & B2 & _).
  destruct (ang_to_coord_float_proof (fst (fh_coordToAng (lon, lat))) (snd (fh_coordToAng (lon, lat))) F1 B1 F2) as (c' & E & C' & _ & L).
  exists c'. rewrite <- surjective_pairing in E. split; [exact E|]. split; [exact C'|]. split; [exact (L B2)|].
  destruct f_pi_ok as [_ EP]. rewrite EP in B1. destruct (lat_of _ F1 B1) as (_ & E3 & _ & A3).
  assert (S : f2R (snd c') = rnd (f2R (fst (fh_coordToAng (lon, lat))) - Pf / 2)).
  { unfold fh_angToCoord, f_makeSpherePoint in E. destruct (fltb _ _) in E; [discriminate|]. injection E as <-. unfold f_spherePoint. cbn [fst snd].
    exact E3. }
  rewrite S. destruct C as (FL & FB & BL & BB). cbn [fst snd] in *. rewrite EP in BB. apply Rabs_le_inv in BB. destruct f_halfpi_ok as [FH EH].
  destruct (fadd_ok lat (fmul f_half f_pi) FB FH) as [_ E1].
  { apply big_100, Rabs_le. rewrite EH. nums. lra. }
  change (fst (fh_coordToAng (lon, lat))) with (fadd lat (fmul f_half f_pi)) in *. rewrite EH in E1.
  pose proof (rnd_abs (f2R lat + Pf / 2)) as A. rewrite <- E1 in A.
  assert (AB : (Rabs (f2R lat + Pf / 2) <= Pf)%R) by (apply Rabs_le; lra).
  assert (A2 : (u64 * Rabs (f2R lat + Pf / 2) <= u64 * Pf)%R) by (apply Rmult_le_compat_l; [nums; lra|exact AB]).
  set (v := (u64 * Rabs (f2R lat + Pf / 2))%R) in *. clearbody v. apply Rabs_le_inv in A, A3. apply Rabs_le.
  set (r := rnd _) in *. clearbody r. set (th := f2R (fadd lat _)) in *. clearbody th. clear - A A2 A3. nums. lra.
Qed.

(*@ C103, non-vacuity: both poles are valid, and are converted exactly: theta is math.pi at the north pole and 0 at the south pole. *)
Example ang_float_met_proof : exists north south, f_coord north /\ f_coord south
  /\ f2R (snd north) = (f2R f_pi / 2)%R /\ f2R (snd south) = (- (f2R f_pi / 2))%R
  /\ f2R (fst (fh_coordToAng north)) = f2R f_pi /\ f2R (fst (fh_coordToAng south)) = 0%R.
Proof.
  destruct f_pi_ok as [_ EP]. destruct f_twopi_ok as [_ ET]. destruct f_halfpi_ok as [FH EH]. destruct f_zero_ok as [FZ EZ].
  exists (float_of_int 0, fmul f_half f_pi), (float_of_int 0, Bopp (fmul f_half f_pi)). unfold f_coord, fh_coordToAng. cbn [fst snd].
  rewrite EP, ET. rewrite EZ. rewrite B2R_Bopp, is_finite_Bopp, FZ, FH, EH.
  assert (FO : finite (Bopp (fmul f_half f_pi)) = true) by (rewrite is_finite_Bopp; exact FH).
  destruct (fadd_ok _ _ FH FH) as [_ E1]. { apply big_100, Rabs_le. rewrite EH. nums. lra. }
  destruct (fadd_ok _ _ FO FH) as [_ E2]. { apply big_100, Rabs_le. rewrite B2R_Bopp, EH. nums. lra. }
  rewrite E1, E2, B2R_Bopp, EH. repeat split; try (nums; lra); try (apply Rabs_le; nums; lra).
  - replace (Pf / 2 + Pf / 2)%R with Pf by lra. exact pi_f.
  - replace (- (Pf / 2) + Pf / 2)%R with 0%R by lra. exact rnd_0.
Qed.
