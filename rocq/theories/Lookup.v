(** [findTract] of a sky map object, whatever its class; and C86's condition on
    configurations. *)
From Coq Require Import Reals String ZArith.
Require Import Verif.Py Verif.Geom Verif.PatchInfo Verif.TractBuilder Verif.TractInfo Verif.SkyMap.
Require Import Verif.Rings Verif.Sphere Verif.Maps Verif.Dodeca Verif.Config Verif.WcsSpec.
Import ListNotations.
Open Scope list_scope.
Open Scope R_scope.

(** ringsSkyMap.py:244-260, baseSkyMap.py:172-204 (Discrete, Equat),
    healpixSkyMap.py:113-118, dodecaSkyMap.py:124-137.  The ring layout and the
    dodecahedron are kept by the constructors; here they are
    computed again from what they were computed from. *)
Definition map_findTract (angle_to_pixel : Z -> bool -> R * R -> Z) (offset : sphere -> R -> R -> sphere) (order : set_order)
    (m : skymap) (coord : sphere) : SM sphere (tract sphere) :=
  match c_class (m_config m) with
  | RingsCfg n ra =>
      smbind (smlift (rings_init n (f2r ra) (match m_version m with VerInt z => z | VerTuple _ => (-1)%Z end)))
             (fun g => rings_findTract offset (m_def m) g coord)
  | DiscreteCfg _ _ _ => base_findTract offset separation (m_def m) coord
  | HealpixCfg n nest => healpix_findTract angle_to_pixel offset (m_def m) (2 ^ n) nest coord
  | EquatCfg _ _ => equat_findTract offset (m_def m) coord
  | DodecaCfg b =>
      smbind (smlift (Dodecahedron_init order b)) (fun D => dodeca_findTract offset (m_def m) D coord)
  end.

(** ** Specification *)

(** Configurations whose tracts are large enough for every coordinate
    (Equat: of the declination range; Discrete: near enough to a listed centre).  Angles in degrees as configured. *)
Definition covered (c : config) (coord : sphere) : Prop :=
  let overlap := f2r (c_overlap c) * (PI / 180) in
  let part := axis_part (f2r (c_rotation c) * (PI / 180)) in
  match c_class c with
  | RingsCfg n _ =>
      (3 <= n)%Z
      /\ let height := PI / (IZR n + 1) in
         exists name dist limit, In (name, dist, limit) zenithal_kinds /\ c_projection c = of_string name
           /\ 0 <= height / 2 + overlap < limit /\ 3 / 4 * height <= part * (height / 2 + overlap)
  | DiscreteCfg ras decs radii =>
      length ras = length radii /\ length decs = length radii /\ (forall d, In d decs -> -90 <= f2r d <= 90)
      /\ exists name dist limit, In (name, dist, limit) zenithal_kinds /\ c_projection c = of_string name
           /\ exists k ra dec, nth_error ras k = Some ra /\ nth_error decs k = Some dec
                /\ forall radius, In radius radii ->
                     0 <= f2r radius * (PI / 180) + overlap < limit
                     /\ separation coord (spherePoint (f2r ra * (PI / 180)) (f2r dec * (PI / 180)))
                          <= part * (f2r radius * (PI / 180) + overlap)
  | HealpixCfg _ _ => False
  | EquatCfg n (d0, d1) =>
      (2 <= n)%Z /\ c_projection c = of_string "CEA" /\ 0 <= f2r (c_overlap c)
      /\ Rabs (f2r d0) + f2r (c_overlap c) / 2 < 90 /\ Rabs (f2r d1) + f2r (c_overlap c) / 2 < 90
      /\ (f2r d0 * (PI / 180) <= snd coord <= f2r d1 * (PI / 180) \/ f2r d1 * (PI / 180) <= snd coord <= f2r d0 * (PI / 180))
  | DodecaCfg _ =>
      c_projection c = of_string "STG" /\ 2.9 <= f2r (c_overlap c) <= 177
      \/ c_projection c = of_string "TAN" /\ 0 <= f2r (c_overlap c) <= 90
  end.
