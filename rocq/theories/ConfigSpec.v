(** The vocabulary for properties of sky map objects, their hash and pickling. *)
From Coq Require Import Reals.
From Flocq Require Import IEEE754.Binary IEEE754.Bits.
Require Import Verif.Py Verif.TractBuilder Verif.TractInfo Verif.SkyMap Verif.SkySpec Verif.Rings Verif.Dodeca.
Require Import Verif.Config.
Open Scope Z_scope.

(** The configurations agree on every value that takes part in the hash: class
    and its fields, kind and values of the selected tract builder, overlap, pixel
    scale, projection and rotation.  (Values of the tract builder that is not
    selected do not take part.)  Doubles are compared bit by bit. *)
Definition same_settings (c c' : config) : Prop :=
  c_class c = c_class c' /\ selected (c_tb c) = selected (c_tb c')
  /\ c_overlap c = c_overlap c' /\ c_scale c = c_scale c'
  /\ c_projection c = c_projection c' /\ c_rotation c = c_rotation c'.

(** The configurations agree on every value that takes part in the hash, where
    doubles are compared by [P]. *)
Definition agree (P : binary64 -> binary64 -> Prop) (c c' : config) : Prop :=
  selected (c_tb c) = selected (c_tb c') /\ c_projection c = c_projection c'
  /\ P (c_overlap c) (c_overlap c') /\ P (c_scale c) (c_scale c') /\ P (c_rotation c) (c_rotation c')
  /\ match c_class c, c_class c' with
     | RingsCfg n ra, RingsCfg n' ra' => n = n' /\ P ra ra'
     | DiscreteCfg ras decs radii, DiscreteCfg ras' decs' radii' =>
         Forall2 P ras ras' /\ Forall2 P decs decs' /\ Forall2 P radii radii'
     | EquatCfg n (a, b), EquatCfg n' (a', b') => n = n' /\ P a a' /\ P b b'
     | DodecaCfg b, DodecaCfg b' => b = b'
     | HealpixCfg n nest, HealpixCfg n' nest' => n = n' /\ nest = nest'
     | _, _ => False
     end.
(** The two doubles are finite and denote the same number. *)
Definition same_number (x y : binary64) : Prop :=
  is_finite 53 1024 x = true /\ is_finite 53 1024 y = true /\ B2R 53 1024 x = B2R 53 1024 y.
(** They have the same sign bit (this matters for zeros only). *)
Definition same_sign (x y : binary64) : Prop := Bsign 53 1024 x = Bsign 53 1024 y.

(** A value of a 32-bit field. *)
Definition int32 (z : Z) : Prop := - 2 ^ 31 <= z < 2 ^ 31.

(** All values fit the fields of the packed representation. *)
Definition packable (c : config) : Prop :=
  (forall ch, In ch (c_projection c) -> 0 <= ch < 128)
  /\ match selected (c_tb c) with
     | LegacyCfg (w, h) border => int32 w /\ int32 h /\ int32 border
     | CellCfg (w, h) border n m => int32 w /\ int32 h /\ int32 border /\ int32 n /\ int32 m
     end
  /\ match c_class c with
     | RingsCfg n _ | EquatCfg n _ | HealpixCfg n _ => int32 n
     | DiscreteCfg ras decs radii => length ras = length radii /\ length decs = length radii
     | DodecaCfg _ => True
     end.

Section Objects.
Variable offset : sphere -> R -> R -> sphere.
Variable sha1 : bytes -> bytes.

(** What a user can do to a sky map object: access tracts (directly, by
    iterating or by searching), ask for the hash, compare. *)
Inductive used (m : skymap) : skymap -> Prop :=
| used_not : used m m
| used_access m1 s : used m m1 -> accesses offset (m_def m1) (m_state m1) s ->
    used m (mkMap (m_config m1) (m_version m1) (m_def m1) s (m_sha1 m1))
| used_sha m1 m2 r : used m m1 -> getSha1 sha1 m1 = (m2, r) -> used m m2.
End Objects.

(** The order of the operations on the backward compatible properties and on the
    choice of the tract builder. *)
Inductive cfg_op :=
| SetInner (v : pair2) | SetBorder (v : Z) | Select (n : tb_name) | SetCells (v : cells_cfg).
Definition do_op (c : config) (o : cfg_op) : config :=
  match o with
  | SetInner v => setPatchInnerDimensions c v
  | SetBorder v => setPatchBorder c v
  | Select n => selectBuilder c n
  | SetCells v => setCells c v
  end.
Definition do_ops (c : config) (l : list cfg_op) : config := fold_left do_op l c.
(** The last value set for a property by the sequence, if any. *)
Fixpoint last_of {A} (pick : cfg_op -> option A) (l : list cfg_op) (init : A) : A :=
  match l with
  | [] => init
  | o :: l => last_of pick l (match pick o with Some v => v | None => init end)
  end.
Definition inner_of (o : cfg_op) := match o with SetInner v => Some v | _ => None end.
Definition border_of (o : cfg_op) := match o with SetBorder v => Some v | _ => None end.
Definition name_of (o : cfg_op) := match o with Select v => Some v | _ => None end.
Definition cells_of (o : cfg_op) := match o with SetCells v => Some v | _ => None end.
