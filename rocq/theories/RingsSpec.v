(** Vocabulary for the properties of [RingsSkyMap]. *)
From Coq Require Import Reals.
Require Import Verif.Py Verif.Geom Verif.TractInfo Verif.SkyMap Verif.Rings.
Open Scope Z_scope.

(** A rings layout: at least one ring, at least one tract in each ring, rings of
    equal declination size which with the two polar half rings span 180 degrees.
    Those made by the constructor are such layouts ([rings_init_wf]); stating theorems for every layout
    makes them independent of how the tract counts were rounded. *)
Record rings_wf (g : rings) : Prop := {
  rw_rings : 1 <= rg_numRings g;
  rw_len : Z.of_nat (length (rg_nums g)) = rg_numRings g;
  rw_pos : forall n, In n (rg_nums g) -> 1 <= n;
  rw_size : rg_size g = (PI / (IZR (rg_numRings g) + 1))%R;
  rw_version : rg_version g = 0 \/ rg_version g = 1 }.

(** Layouts whose rings have at least [k] tracts. *)
Definition at_least (k : Z) (g : rings) : Prop := forall n, In n (rg_nums g) -> k <= n.

(** Ring [r] has [n] tracts. *)
Definition ring_has (g : rings) (r n : Z) : Prop :=
  0 <= r /\ nth_error (rg_nums g) (Z.to_nat r) = Some n.

(** The number of tracts in the rings south of ring [r]. *)
Definition before (g : rings) (r : Z) : Z := zsum (firstn (Z.to_nat r) (rg_nums g)).

(** The index that the documented numbering (south cap first, then the rings
    from south to north, each from raStart eastward) gives to tract [t] of ring [r]. *)
Definition nominal_index (g : rings) (r t : Z) : Z := 1 + before g r + t.

Definition with_version (g : rings) (v : Z) : rings :=
  mkRings (rg_numRings g) (rg_nums g) (rg_size g) (rg_raStart g) v.

(** Longitude [x] lies in the range from [lo] eastward to [hi]. *)
Definition in_ra (lo hi x : R) : Prop :=
  (lo <= hi /\ lo <= x <= hi \/ hi < lo /\ (lo <= x \/ x <= hi))%R.
Definition strictly_in_ra (lo hi x : R) : Prop :=
  (lo <= hi /\ lo < x < hi \/ hi < lo /\ (lo < x \/ x < hi))%R.

(** The coordinate lies in the RA/Dec range (closed; open). *)
Definition in_range (range : R * R * R * R) (c : sphere) : Prop :=
  let '(raMin, raMax, decMin, decMax) := range in
  in_ra raMin raMax (fst c) /\ (decMin <= snd c <= decMax)%R.
Definition inside_range (range : R * R * R * R) (c : sphere) : Prop :=
  let '(raMin, raMax, decMin, decMax) := range in
  strictly_in_ra raMin raMax (fst c) /\ (decMin < snd c < decMax)%R.

(** A coordinate as [geom.SpherePoint] stores it. *)
Definition on_sphere (c : sphere) : Prop :=
  (0 <= fst c < 2 * PI /\ - (PI / 2) <= snd c <= PI / 2)%R.

(** The coordinate is less than (at most) [dd] away in declination and [dr] away
    in right ascension (modulo 360 degrees) from the position [p]. *)
Definition near (dd dr : R) (p coord : sphere) : Prop :=
  (Rabs (snd coord - snd p) < dd /\ exists k : Z, Rabs (fst coord - fst p + IZR k * (2 * PI)) < dr)%R.
Definition near_or_at (dd dr : R) (p coord : sphere) : Prop :=
  (Rabs (snd coord - snd p) <= dd /\ exists k : Z, Rabs (fst coord - fst p + IZR k * (2 * PI)) <= dr)%R.
