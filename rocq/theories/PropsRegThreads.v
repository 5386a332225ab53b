(** Property theorems; generated by tools/mkprops.py from MainRegThreads.v. *)
From Coq Require Import Reals Lia Relations String.
Require Import Verif.Py Verif.Geom Verif.PatchInfo Verif.TractBuilder Verif.TractInfo Verif.Spec.
Require Import Verif.SkyMap Verif.SkySpec Verif.PatchProofs Verif.TractProofs Verif.SkyProofs Verif.SkyProofs2 Verif.MainSky Verif.Examples.
Require Import Verif.Sphere Verif.Maps Verif.Rings Verif.RingsSpec Verif.Uniform Verif.MainRings2.
Require Import Verif.Register Verif.RegSpec Verif.RegProofs3 Verif.MainRegister.
Require Import Verif.Threads Verif.ThreadsProofs Verif.MainThreads Verif.RegThreads Verif.RegThreadsProofs.
Require Import Verif.MainRegThreads.
Open Scope list_scope.
Open Scope Z_scope.

(** C93: let a map of which all tracts have the same patch counts (as all Rings maps with the TAN or STG projection have)
    be registered by one thread while others use it, with any failures of the butler.  Whatever the
    others do and when, the registration ends as it would have ended without them, and
    leaves the same records. *)
Theorem registering_uniform : forall (Sky : Type) (offset : Sky -> R -> R -> Sky) d cnt s0 n faults sha name r J out,
  cfg_ok (sd_cfg d) -> sd_kind d = CachingMap -> sm_reachable offset d s0 -> uniform_counts offset d cnt ->
  registering offset faults d s0 n sha name r J -> j_out J = Some out ->
  exists s', register offset faults d sha name s0 (butler_on r) = (s', j_butler J, out).
Proof. exact registering_uniform_proof. Qed.
Print Assumptions registering_uniform.

(** C93: the same for every map of which all tracts exist when the threads start (always so for Equat and Dodeca,
    and for the others after iterating over the map), whatever the patch counts. *)
Theorem registering_all_tracts_exist : forall (Sky : Type) (offset : Sky -> R -> R -> Sky) d s0 n faults sha name r J out,
  sm_reachable offset d s0 ->
  (sd_kind d = EagerMap \/ forall i, 0 <= i < sd_num d -> exists t, holds offset d i s0 t) ->
  registering offset faults d s0 n sha name r J -> j_out J = Some out ->
  exists s', register offset faults d sha name s0 (butler_on r) = (s', j_butler J, out).
Proof. exact registering_all_tracts_exist_proof. Qed.
Print Assumptions registering_all_tracts_exist.

(** C93: a Rings map with the TAN or STG projection, from its construction on: what registration returns, raises and
    leaves in the repository does not depend on other threads that use the map. *)
Theorem registering_rings : forall c S mk ov g s0 n faults sha name r J out, cfg_ok c -> rings_wf g -> standard_wcs S mk ->
  let d := rings_def c mk ov g in
  sm_reachable sphere_offset d s0 -> registering sphere_offset faults d s0 n sha name r J -> j_out J = Some out ->
  exists s', register sphere_offset faults d sha name s0 (butler_on r) = (s', j_butler J, out).
Proof. exact registering_rings_proof. Qed.
Print Assumptions registering_rings.

(** C93: and the other threads are not affected by the registration: their calls are as in C75, so that on a map with equal patch
    counts each gets the answer it gets alone. *)
Theorem registering_others : forall (Sky : Type) (offset : Sky -> R -> R -> Sky) d s0 n faults sha name r J,
  registering offset faults d s0 n sha name r J ->
  schedule offset d s0 (j_proc J)
  /\ forall cnt, cfg_ok (sd_cfg d) -> sd_kind d = CachingMap -> sm_reachable offset d s0 -> uniform_counts offset d cnt ->
     (forall c t a, In (c, a) (pr_done (j_proc J)) -> call_tract c = Some t ->
        (exists b, in_use offset (sd_cfg d) b t) /\ forall b, in_use offset (sd_cfg d) b t -> patch_answer b c = Some a)
     /\ (forall i a, In (CGet i, a) (pr_done (j_proc J)) ->
          match a, snd (sm_getitem offset d i s0) with
          | ATract (Ok t), Ok t' => same_tract t t'
          | ATract (Raise e), Raise e' => e = e'
          | _, _ => False
          end).
Proof. exact registering_others_proof. Qed.
Print Assumptions registering_others.

(** C93: registration never waits for another thread: in every state, for every map, if the registering thread goes on alone
    the registration ends. *)
Theorem registering_never_blocks : forall (Sky : Type) (offset : Sky -> R -> R -> Sky) d s0 n faults sha name r J,
  registering offset faults d s0 n sha name r J ->
  exists J' out, clos_refl_trans _ (jstep offset faults d s0 n) J J' /\ j_out J' = Some out
    /\ forall m, m <> n -> pr_threads (j_proc J') m = pr_threads (j_proc J) m.
Proof. exact registering_never_blocks_proof. Qed.
Print Assumptions registering_never_blocks.

(** C93 REFUTED for maps whose tracts differ in patch counts: a map that registers normally when no other thread uses it, but whose
    registration raises IndexError if another thread makes skymap[0] at the same time. *)
Theorem registering_refuted : exists d s0,
  cfg_ok (sd_cfg d) /\ sm_new flat_offset d = Ok s0 /\ sm_reachable flat_offset d s0
  /\ forall name hash,
       (exists s' u', register flat_offset no_faults d (Ok hash) name s0 (butler_on empty_reg) = (s', u', Done tt))
       /\ exists n J, registering flat_offset no_faults d s0 n (Ok hash) name empty_reg J /\ j_out J = Some (Raised IndexError).
Proof. exact registering_refuted_proof. Qed.
Print Assumptions registering_refuted.

(** C93: the hypotheses are met: a map of two tracts with 3 x 2 patches each; one thread has asked for skymap[1] and has not finished when
    another starts to register the map; the registration can end, and then it has returned and
    the repository holds the complete records. *)
Example registering_example : exists d s0, cfg_ok (sd_cfg d) /\ sd_kind d = CachingMap /\ sm_reachable flat_offset d s0
  /\ uniform_counts flat_offset d (3, 2)
  /\ forall name hash,
       exists p J0 q J, registering flat_offset no_faults d s0 1 (Ok hash) name empty_reg J0 /\ j_proc J0 = p
         /\ pr_threads p 0%nat = Some (CGet 1, q) /\ q <> call_prog flat_offset d (CGet 1)
         /\ registering flat_offset no_faults d s0 1 (Ok hash) name empty_reg J /\ pr_threads (j_proc J) 0%nat = Some (CGet 1, q)
         /\ j_out J = Some (Done tt)
         /\ List.length (g_patches (u_durable (j_butler J))) = 12%nat.
Proof. exact registering_example_proof. Qed.
