(** The vocabulary for properties of registration. *)
From Coq Require Import Reals String.
Require Import Verif.Py Verif.Geom Verif.PatchInfo Verif.TractBuilder Verif.TractInfo Verif.Spec.
Require Import Verif.SkyMap Verif.SkySpec Verif.Register.
Open Scope list_scope.
Open Scope Z_scope.

Section Register.
Context {Sky : Type}.
Variable offset : Sky -> R -> R -> Sky.

(** The dimension records and datasets are the same (runs and dataset types may differ). *)
Definition same_records (r r' : registry Sky) : Prop :=
  g_skymaps r' = g_skymaps r /\ g_tracts r' = g_tracts r /\ g_patches r' = g_patches r
  /\ g_datasets r' = g_datasets r.

(** [m] is the largest patch count along an axis. *)
Definition largest_count (axis : pair2 -> Z) (d : skydef Sky) (s : smstate Sky) (m : Z) : Prop :=
  (forall i t, holds offset d i s t -> axis (t_numPatches t) <= m)
  /\ exists i t, holds offset d i s t /\ axis (t_numPatches t) = m.

(** The records of the patches of tract [i], in row order: patch (x, y) has
    number [y * stride + x] and the sky region of its outer box. *)
Definition patch_block (name : string) (b : builder) (stride : Z) (i : Z) (t : tract Sky)
    (block : list (patch_rec Sky)) : Prop :=
  exists nx ny, t_numPatches t = (nx, ny) /\ 0 <= nx /\ 0 <= ny
    /\ Z.of_nat (List.length block) = nx * ny
    /\ forall x y, 0 <= x < nx -> 0 <= y < ny ->
         exists p, tract_getPatchInfo b t (IxIndex2D x y) = Ok p
           /\ nth_error block (Z.to_nat (y * nx + x))
              = Some (mkPatchRec name i (y * stride + x) x y
                        (patch_getOuterSkyPolygon p (Some (t_wcs t)))).

(** [r'] is [r] with the complete records of the map added: one skymap record,
    one tract record per tract, the patch records of every tract, one dataset. *)
Definition completely_registered (d : skydef Sky) (name : string) (hash : list Z)
    (s : smstate Sky) (r r' : registry Sky) : Prop :=
  exists nxMax nyMax tracts blocks last_tract,
    largest_count fst d s nxMax /\ largest_count snd d s nyMax
    /\ holds offset d (last (sm_log s) 0) s last_tract
    /\ g_skymaps r' = g_skymaps r ++ [mkSkyRec name hash (sd_num d) nxMax nyMax]
    /\ g_tracts r' = g_tracts r ++ tracts
    /\ g_patches r' = g_patches r ++ concat blocks
    /\ g_datasets r' = g_datasets r ++ [(name, hash)]
    /\ Forall2 (fun i tr => exists t, holds offset d i s t
                  /\ tr = mkTractRec name i (tract_getOuterSkyPolygon t)) (zrange 0 (sd_num d)) tracts
    /\ Forall2 (fun i block => exists t, holds offset d i s t
                  /\ patch_block name (sm_builder s) (fst (t_numPatches last_tract)) i t block)
               (zrange 0 (sd_num d)) blocks.

(** Every operation works. *)
Definition no_faults : nat -> fault := fun _ => NoFault.

(** Every tract of the map can be generated, at any time. *)
Definition generable (d : skydef Sky) : Prop :=
  forall s i, sm_reachable offset d s -> 0 <= i < sd_num d ->
    exists s' t, sm_getitem offset d i s = (s', Ok t).

(** A repository reached from an empty one by registering any sky maps, with
    any failures and crashes. *)
Inductive reg_history : registry Sky -> Prop :=
| rh_empty : reg_history (mkReg [] [] [] [] [] [])
| rh_register r faults d sha name s s' u' out :
    reg_history r -> cfg_ok (sd_cfg d) -> sm_reachable offset d s ->
    register offset faults d sha name s (butler_on r) = (s', u', out) ->
    reg_history (u_durable u').

(** Integrity of a repository. *)
Definition tract_key (t : tract_rec Sky) := (tr_skymap t, tr_tract t).
Definition patch_key (p : patch_rec Sky) := (pr_skymap p, pr_tract p, pr_patch p).
Record sound (r : registry Sky) : Prop := {
  sn_names : NoDup (map k_name (g_skymaps r));
  sn_hashes : NoDup (map k_hash (g_skymaps r));
  sn_tract_keys : NoDup (map tract_key (g_tracts r));
  sn_patch_keys : NoDup (map patch_key (g_patches r));
  (** the tracts of a registered map are exactly 0 .. tract_max - 1 *)
  sn_tracts : forall n i, In (n, i) (map tract_key (g_tracts r)) <->
     exists k, In k (g_skymaps r) /\ k_name k = n /\ 0 <= i < k_tract_max k;
  (** patch records belong to a registered tract and are in the range of the skymap record *)
  sn_patches : forall p, In p (g_patches r) ->
     exists k, In k (g_skymaps r) /\ k_name k = pr_skymap p /\ 0 <= pr_tract p < k_tract_max k
       /\ 0 <= pr_patch p < k_nx_max k * k_ny_max k /\ 0 <= pr_x p < k_nx_max k /\ 0 <= pr_y p < k_ny_max k;
  (** exactly the registered maps are stored *)
  sn_datasets : g_datasets r = map (fun k => (k_name k, k_hash k)) (g_skymaps r) }.
End Register.
