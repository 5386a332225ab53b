(** Property theorems; generated by tools/mkprops.py from MainDefaults.v. *)
From Coq Require Import Reals Lra Lia String.
From Flocq Require Import Core.Core IEEE754.Binary IEEE754.Bits.
Require Import Verif.Py Verif.Geom Verif.PatchInfo Verif.TractBuilder Verif.TractInfo Verif.Spec.
Require Import Verif.Config Verif.ConfigSpec Verif.ConfigProofs.
Require Import Verif.MainDefaults.
Open Scope list_scope.
Open Scope Z_scope.

(** C58: the default values of the five classes: the legacy tract builder with patches of 4000x4000 and border 100 (Dodeca: 250);
    overlap 1 (Dodeca: 3.5), pixel scale the double nearest to 0.333 (Dodeca: 0.2), projection STG
    (Equat: CEA), rotation 0 (Healpix: 45); rings starting at RA 0, no discrete tracts, 4 equatorial
    tracts between -1.25 and 1.25 degrees, one Healpix side in ring order. *)
Theorem default_numbers : forall n,
  let is c border ov sc proj rot :=
    selected (c_tb c) = LegacyCfg (4000, 4000) border /\ nearest_double ov (c_overlap c) /\ nearest_double sc (c_scale c)
    /\ c_projection c = of_string proj /\ nearest_double rot (c_rotation c) in
  is (rings_default n) 100 1%R (333 / 1000)%R "STG"%string 0%R
  /\ (exists ra, c_class (rings_default n) = RingsCfg n ra /\ nearest_double 0 ra)
  /\ is discrete_default 100 1%R (333 / 1000)%R "STG"%string 0%R /\ c_class discrete_default = DiscreteCfg [] [] []
  /\ is equat_default 100 1%R (333 / 1000)%R "CEA"%string 0%R
  /\ (exists lo hi, c_class equat_default = EquatCfg 4 (lo, hi) /\ nearest_double (-5 / 4) lo /\ nearest_double (5 / 4) hi)
  /\ is healpix_default 100 1%R (333 / 1000)%R "STG"%string 45%R /\ c_class healpix_default = HealpixCfg 0 false
  /\ is dodeca_default 250 (7 / 2)%R (1 / 5)%R "STG"%string 0%R /\ c_class dodeca_default = DodecaCfg false.
Proof. exact default_numbers_proof. Qed.
Print Assumptions default_numbers.
