(** The default configurations (C58). *)
From Coq Require Import Reals Lra Lia String.
From Flocq Require Import Core.Core IEEE754.Binary IEEE754.Bits.
Require Import Verif.Py Verif.Geom Verif.PatchInfo Verif.TractBuilder Verif.TractInfo Verif.Spec.
Require Import Verif.Config Verif.ConfigSpec Verif.ConfigProofs.
Open Scope list_scope.
Open Scope Z_scope.

(** The double that Python reads for the decimal number [r]. *)
Definition nearest_double (r : R) (x : binary64) : Prop :=
  is_finite 53 1024 x = true /\ forall y : binary64, (Rabs (f2r x - r) <= Rabs (f2r y - r))%R.

Lemma nearest_exact r x : is_finite 53 1024 x = true -> f2r x = r -> nearest_double r x.
Proof. intros F E. split; [exact F|]. intros y. rewrite E, Rminus_diag_eq, Rabs_R0 by reflexivity. apply Rabs_pos. Qed.

Local Instance prec53 : Prec_gt_0 53 := eq_refl.
Local Instance valid53 : Valid_exp (FLT_exp (-1074) 53) := FLT_exp_valid (-1074) 53.

(** The significand nearest to [r * 2^54], for [r] between 1/8 and 1/2. *)
Lemma nearest_rounded r x m : is_finite 53 1024 x = true -> f2r x = (IZR m * bpow radix2 (-54))%R ->
  (bpow radix2 (-2) <= r < bpow radix2 (-1))%R -> (Rabs (r * bpow radix2 54 - IZR m) < / 2)%R -> nearest_double r x.
Proof.
  intros F E Hr Hm. split; [exact F|]. intros y.
  assert (G : generic_format radix2 (FLT_exp (-1074) 53) (f2r y)) by apply generic_format_B2R.
  assert (M : (mag radix2 r = -1 :> Z)%Z).
  { apply mag_unique. assert (0 < bpow radix2 (-2))%R by apply bpow_gt_0. rewrite Rabs_pos_eq by lra. exact Hr. }
  assert (Rd : round radix2 (FLT_exp (-1074) 53) ZnearestE r = f2r x).
  { unfold round, scaled_mantissa, cexp. rewrite M. change (FLT_exp (-1074) 53 (-1)) with (-54).
    rewrite (Znearest_imp _ _ m) by exact Hm. rewrite E. reflexivity. }
  destruct (round_N_pt radix2 (FLT_exp (-1074) 53) (fun x => negb (Z.even x)) r) as [_ N].
  rewrite <- Rd. apply N. exact G.
Qed.
Lemma scale_0_333 : nearest_double (333 / 1000) f64_0_333.
Proof.
  apply (nearest_rounded _ _ 5998794703657501); [reflexivity|..].
  - unfold f2r, f64_0_333. vm_compute. lra.
  - cbn. lra.
  - change (bpow radix2 54) with (IZR 18014398509481984). unfold Rabs. destruct (Rcase_abs _); lra.
Qed.
(* 0.2 lies between 1/8 and 1/4, so double it first *)
Lemma scale_0_2 : nearest_double (1 / 5) f64_0_2.
Proof.
  split; [reflexivity|]. intros y.
  assert (G : generic_format radix2 (FLT_exp (-1074) 53) (f2r y)) by apply generic_format_B2R.
  assert (M : (mag radix2 (1 / 5) = -2 :> Z)%Z).
  { apply mag_unique. rewrite Rabs_pos_eq by lra. cbn. lra. }
  assert (Rd : round radix2 (FLT_exp (-1074) 53) ZnearestE (1 / 5) = f2r f64_0_2).
  { unfold round, scaled_mantissa, cexp. rewrite M. change (FLT_exp (-1074) 53 (-2)) with (-55).
    rewrite (Znearest_imp _ _ 7205759403792794).
    - unfold f2r, f64_0_2. vm_compute. lra.
    - change (bpow radix2 (- (-55))) with (IZR 36028797018963968). unfold Rabs. destruct (Rcase_abs _); lra. }
  destruct (round_N_pt radix2 (FLT_exp (-1074) 53) (fun x => negb (Z.even x)) (1 / 5)) as [_ N].
  rewrite <- Rd. apply N. exact G.
Qed.

(*@ C58: the default values of the five classes: the legacy tract builder with patches of 4000x4000 and border 100 (Dodeca: 250);
    overlap 1 (Dodeca: 3.5), pixel scale the double nearest to 0.333 (Dodeca: 0.2), projection STG
    (Equat: CEA), rotation 0 (Healpix: 45); rings starting at RA 0, no discrete tracts, 4 equatorial
    tracts between -1.25 and 1.25 degrees, one Healpix side in ring order. *)
Lemma default_numbers_proof : forall n,
  let is c border ov sc proj rot :=
    selected (c_tb c) = LegacyCfg (4000, 4000) border /\ nearest_double ov (c_overlap c) /\ nearest_double sc (c_scale c)
    /\ c_projection c = of_string proj /\ nearest_double rot (c_rotation c) in
  is (rings_default n) 100 1%R (333 / 1000)%R "STG"%string 0%R
  /\ (exists ra, c_class (rings_default n) = RingsCfg n ra /\ nearest_double 0 ra)
  /\ is discrete_default 100 1%R (333 / 1000)%R "STG"%string 0%R /\ c_class discrete_default = DiscreteCfg [] [] []
  /\ is equat_default 100 1%R (333 / 1000)%R "CEA"%string 0%R
  /\ (exists lo hi, c_class equat_default = EquatCfg 4 (lo, hi) /\ nearest_double (-5 / 4) lo /\ nearest_double (5 / 4) hi)
  /\ is healpix_default 100 1%R (333 / 1000)%R "STG"%string 45%R /\ c_class healpix_default = HealpixCfg 0 false
  /\ is dodeca_default 250 (7 / 2)%R (1 / 5)%R "STG"%string 0%R /\ c_class dodeca_default = DodecaCfg false.
Proof.
  intros n is.
  assert (L1 : nearest_double 1 f64_one) by (apply nearest_exact; [reflexivity|unfold f2r, f64_one; vm_compute; lra]).
  assert (L0 : nearest_double 0 f64_zero) by (apply nearest_exact; [reflexivity|reflexivity]).
  assert (L35 : nearest_double (7 / 2) f64_3_5) by (apply nearest_exact; [reflexivity|unfold f2r, f64_3_5; vm_compute; lra]).
  assert (L45 : nearest_double 45 f64_45) by (apply nearest_exact; [reflexivity|unfold f2r, f64_45; vm_compute; lra]).
  assert (Lm : nearest_double (-5 / 4) f64_m1_25) by (apply nearest_exact; [reflexivity|unfold f2r, f64_m1_25; vm_compute; lra]).
  assert (Lp : nearest_double (5 / 4) f64_1_25) by (apply nearest_exact; [reflexivity|unfold f2r, f64_1_25; vm_compute; lra]).
  pose proof scale_0_333 as S3. pose proof scale_0_2 as S2.
  unfold is.
  split; [exact (conj eq_refl (conj L1 (conj S3 (conj eq_refl L0))))|].
  split; [exists f64_zero; exact (conj eq_refl L0)|].
  split; [exact (conj eq_refl (conj L1 (conj S3 (conj eq_refl L0))))|]. split; [reflexivity|].
  split; [exact (conj eq_refl (conj L1 (conj S3 (conj eq_refl L0))))|].
  split; [exists f64_m1_25, f64_1_25; exact (conj eq_refl (conj Lm Lp))|].
  split; [exact (conj eq_refl (conj L1 (conj S3 (conj eq_refl L45))))|]. split; [reflexivity|].
  split; [exact (conj eq_refl (conj L35 (conj S2 (conj eq_refl L0))))|]. reflexivity.
Qed.
