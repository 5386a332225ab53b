(** Property theorems; generated by tools/mkprops.py from MainThreads.v. *)
From Coq Require Import Reals Lia Relations.
Require Import Verif.Py Verif.Geom Verif.PatchInfo Verif.TractBuilder Verif.TractInfo Verif.Spec.
Require Import Verif.SkyMap Verif.SkySpec Verif.PatchProofs Verif.TractProofs Verif.SkyProofs Verif.SkyProofs2 Verif.MainSky Verif.Examples.
Require Import Verif.Sphere Verif.Maps Verif.Rings Verif.RingsSpec Verif.Uniform Verif.MainRings2.
Require Import Verif.Threads Verif.ThreadsProofs.
Require Import Verif.MainThreads.
Open Scope Z_scope.

(** C75: a call that no other thread interrupts does what the model of one thread says. *)
Theorem threads_one_alone : forall (Sky : Type) (offset : Sky -> R -> R -> Sky) d c s,
  sm_reachable offset d s -> run (call_prog offset d c) s = seq_answer offset d c s.
Proof. exact threads_one_alone_proof. Qed.
Print Assumptions threads_one_alone.

(** C75: if all tracts exist when the threads start (always so for Equat and Dodeca, and for the others after
    iterating over the map), then under every schedule the map never changes and every call of every
    thread returns what it would have returned without other threads. *)
Theorem threads_all_tracts_exist : forall (Sky : Type) (offset : Sky -> R -> R -> Sky) d s0 p,
  sm_reachable offset d s0 ->
  (sd_kind d = EagerMap \/ forall i, 0 <= i < sd_num d -> exists t, holds offset d i s0 t) ->
  schedule offset d s0 p ->
  pr_map p = s0 /\ forall c a, In (c, a) (pr_done p) -> a = snd (seq_answer offset d c s0).
Proof. exact threads_all_tracts_exist_proof. Qed.
Print Assumptions threads_all_tracts_exist.

(** C75: on every map made tract by tract (Rings, Discrete, Healpix), under every schedule, skymap[i] returns a
    tract with the contents it has without other threads (or raises the same exception). *)
Theorem threads_get : forall (Sky : Type) (offset : Sky -> R -> R -> Sky) d s0 p i a,
  cfg_ok (sd_cfg d) -> sd_kind d = CachingMap -> sm_reachable offset d s0 -> schedule offset d s0 p ->
  In (CGet i, a) (pr_done p) ->
  match a, snd (sm_getitem offset d i s0) with
  | ATract (Ok t), Ok t' => same_tract t t'
  | ATract (Raise e), Raise e' => e = e'
  | _, _ => False
  end.
Proof. exact threads_get_proof. Qed.
Print Assumptions threads_get.

(** C75: if moreover all tracts of the map have the same patch counts (as all Rings maps with the TAN or STG projection do), then
    under every schedule every question to a tract gets the answer it gets without other threads right after the
    tract was made, and whenever a tract has been obtained the shared builder fits it. *)
Theorem threads_uniform : forall (Sky : Type) (offset : Sky -> R -> R -> Sky) d n s0 p,
  cfg_ok (sd_cfg d) -> sd_kind d = CachingMap -> sm_reachable offset d s0 -> uniform_counts offset d n ->
  schedule offset d s0 p ->
  (forall c t a, In (c, a) (pr_done p) -> call_tract c = Some t ->
     (exists b, in_use offset (sd_cfg d) b t) /\ forall b, in_use offset (sd_cfg d) b t -> patch_answer b c = Some a)
  /\ (forall i t, In (CGet i, ATract (Ok t)) (pr_done p) -> in_use offset (sd_cfg d) (sm_builder (pr_map p)) t).
Proof. exact threads_uniform_proof. Qed.
Print Assumptions threads_uniform.

(** C75: a Rings map with the TAN or STG projection, shared by threads from its construction on: no call of any
    thread gets an answer it would not get without the others. *)
Theorem threads_rings : forall c S mk ov g s0 p, cfg_ok c -> rings_wf g -> standard_wcs S mk ->
  let d := rings_def c mk ov g in
  sm_reachable sphere_offset d s0 -> schedule sphere_offset d s0 p ->
  (forall i a, In (CGet i, a) (pr_done p) ->
     match a, snd (sm_getitem sphere_offset d i s0) with
     | ATract (Ok t), Ok t' => same_tract t t'
     | ATract (Raise e), Raise e' => e = e'
     | _, _ => False
     end)
  /\ (forall q t a, In (q, a) (pr_done p) -> call_tract q = Some t ->
     forall b, in_use sphere_offset c b t -> patch_answer b q = Some a).
Proof. exact threads_rings_proof. Qed.
Print Assumptions threads_rings.

(** C75: no call waits for another thread: a thread that goes on alone finishes its call. *)
Theorem threads_never_block : forall (Sky : Type) (offset : Sky -> R -> R -> Sky) d s0 p n c q,
  pr_threads p n = Some (c, q) ->
  exists p' a, clos_refl_trans _ (pstep offset d s0) p p' /\ pr_threads p' n = None
    /\ (forall m, m <> n -> pr_threads p' m = pr_threads p m) /\ pr_done p' = pr_done p ++ [(c, a)].
Proof. exact threads_never_block_proof. Qed.
Print Assumptions threads_never_block.

(** C75 REFUTED for identity: two threads that ask for the same new tract at the same time get two different tract
    objects (with one thread it is always the same object, C21). *)
Theorem threads_identity_refuted :
  exists d s0 p t t', cfg_ok (sd_cfg d) /\ sm_reachable flat_offset d s0 /\ schedule flat_offset d s0 p
    /\ In (CGet 1, ATract (Ok t)) (pr_done p) /\ In (CGet 1, ATract (Ok t')) (pr_done p) /\ t_oid t <> t_oid t'.
Proof. exact threads_identity_refuted_proof. Qed.
Print Assumptions threads_identity_refuted.

(** C75 REFUTED for maps whose tracts differ in patch counts: with another thread making a tract, getPatchInfo for
    a patch of an existing tract can raise RuntimeError ("not in tract"), which it never does with one thread,
    whatever was accessed before. *)
Theorem threads_torn_refuted :
  (exists d s0 p t q, cfg_ok (sd_cfg d) /\ sm_reachable flat_offset d s0 /\ holds flat_offset d 0 s0 t
    /\ tract_getPatchInfo (sm_builder s0) t (IxIndex2D 2 0) = Ok q
    /\ schedule flat_offset d s0 p /\ In (CPatch t (IxIndex2D 2 0), APatch (Raise RuntimeError)) (pr_done p))
  /\ (forall (Sky : Type) (offset : Sky -> R -> R -> Sky) d s i t ix,
        cfg_ok (sd_cfg d) -> sm_reachable offset d s -> holds offset d i s t ->
        tract_getPatchInfo (sm_builder s) t ix <> Raise RuntimeError).
Proof. exact threads_torn_refuted_proof. Qed.
Print Assumptions threads_torn_refuted.

(** C75, non-vacuity: a map of two tracts of equal patch counts; one thread makes its second tract
    and another asks this tract for its patch (2, 1). *)
Example threads_hypotheses_met :
  exists d s0 p t q, cfg_ok (sd_cfg d) /\ sd_kind d = CachingMap /\ sm_reachable flat_offset d s0
    /\ uniform_counts flat_offset d (3, 2) /\ schedule flat_offset d s0 p
    /\ In (CGet 1, ATract (Ok t)) (pr_done p) /\ In (CPatch t (IxIndex2D 2 1), APatch (Ok q)) (pr_done p).
Proof. exact threads_hypotheses_met_proof. Qed.
