(** Property theorems; generated by tools/mkprops.py from MainRegMany.v. *)
From Coq Require Import Reals String Lia Relations.
Require Import Verif.Py Verif.Geom Verif.PatchInfo Verif.TractBuilder Verif.TractInfo Verif.Spec.
Require Import Verif.SkyMap Verif.SkySpec Verif.PatchProofs Verif.TractProofs Verif.SkyProofs Verif.SkyProofs2 Verif.MainSky Verif.Examples.
Require Import Verif.Sphere Verif.Maps Verif.Rings Verif.RingsSpec Verif.Uniform Verif.MainRings2.
Require Import Verif.Register Verif.RegSpec Verif.RegProofs3 Verif.MainRegister.
Require Import Verif.Concurrent Verif.ConcProofs Verif.MainConcurrent.
Require Import Verif.Threads Verif.ThreadsProofs Verif.MainThreads Verif.RegThreads Verif.RegThreadsProofs Verif.MainRegThreads.
Require Import Verif.RegMany Verif.RegManyProofs.
Require Import Verif.MainRegMany.
Open Scope list_scope.
Open Scope Z_scope.

(** C97: any number of threads of a process register one sky map object (all tracts exist, or all have the same patch counts), while others
    of its threads use it and other processes register sky maps in the same repository.  Whatever is done and when, it is what could have been
    done by as many processes each with a sky map object of its own: the same repository, and each registration
    has ended in the same way. *)
Theorem shared_refines : forall (Sky : Type) (offset : Sky -> R -> R -> Sky) d s0 r0 w,
  cfg_ok (sd_cfg d) -> sm_reachable offset d s0 -> shareable offset d s0 -> happens offset d s0 r0 w ->
  exists cs (pos opos : nat -> nat), sys_steps offset (r0, []) (w_repo w, cs)
    /\ (forall n t, w_regs w n = Some t ->
          exists c, nth_error cs (pos n) = Some c /\ c_req c = mkRequest d (rt_sha t) (rt_name t) s0 /\ c_out c = rt_out t)
    /\ (forall i c, nth_error (w_others w) i = Some c -> nth_error cs (opos i) = Some c)
    /\ (forall n m, w_regs w n <> None -> w_regs w m <> None -> pos n = pos m -> n = m)
    /\ (forall n i, w_regs w n <> None -> nth_error (w_others w) i <> None -> pos n <> opos i)
    /\ (forall i j, nth_error (w_others w) i <> None -> nth_error (w_others w) j <> None -> opos i = opos j -> i = j).
Proof. exact shared_refines_proof. Qed.
Print Assumptions shared_refines.

(** C97: conversely, whatever processes that register this map from this state can do, threads that share the map object can do. *)
Theorem shared_complete : forall (Sky : Type) (offset : Sky -> R -> R -> Sky) d s0 r0 D cs,
  cfg_ok (sd_cfg d) -> sm_reachable offset d s0 -> shareable offset d s0 -> sys_steps offset (r0, []) (D, cs) ->
  (forall c, In c cs -> rq_map (c_req c) = d /\ rq_start (c_req c) = s0) ->
  exists w, happens offset d s0 r0 w /\ w_repo w = D /\ w_others w = []
    /\ forall n, match nth_error cs n with
       | Some c => exists t, w_regs w n = Some t /\ rt_sha t = rq_sha (c_req c) /\ rt_name t = rq_name (c_req c) /\ rt_out t = c_out c
       | None => w_regs w n = None
       end.
Proof. exact shared_complete_proof. Qed.
Print Assumptions shared_complete.

(** C97: so the records of the repository are always those left by some history of registrations made one after the other; no
    registration's records are ever there in part. *)
Theorem shared_serialisable : forall (Sky : Type) (offset : Sky -> R -> R -> Sky) d s0 r0 w,
  cfg_ok (sd_cfg d) -> sm_reachable offset d s0 -> shareable offset d s0 -> reg_history offset r0 -> happens offset d s0 r0 w ->
  (exists r, reg_history offset r /\ same_records r (w_repo w)) /\ sound (w_repo w).
Proof. exact shared_serialisable_proof. Qed.
Print Assumptions shared_serialisable.

(** C97: a use of the repository by a registering thread leaves the records as they are, or it adds the complete records of the
    map, whose name and hash were not there; after that the registration does nothing but return normally, unless the thread is killed.  So a
    registration that raises has added nothing. *)
Theorem shared_all_or_nothing : forall (Sky : Type) (offset : Sky -> R -> R -> Sky) d s0 r0 w n t t' D',
  cfg_ok (sd_cfg d) -> sm_reachable offset d s0 -> shareable offset d s0 -> reg_history offset r0 -> happens offset d s0 r0 w ->
  w_regs w n = Some t -> repo_step (w_repo w) t D' t' ->
  same_records (w_repo w) D'
  \/ exists hash s1, rt_sha t = Ok hash
       /\ ~ In (rt_name t) (map k_name (g_skymaps (w_repo w))) /\ ~ In hash (map k_hash (g_skymaps (w_repo w)))
       /\ accesses offset d s0 s1 /\ completely_registered offset d (rt_name t) hash s1 (w_repo w) D'
       /\ rt_out t' = None
       /\ forall D1 D2 t2, repo_step D1 t' D2 t2 -> D2 = D1 /\ (rt_out t2 = Some (Done tt) \/ rt_out t2 = Some Crashed).
Proof. exact shared_all_or_nothing_proof. Qed.
Print Assumptions shared_all_or_nothing.

(** C97: from then on, a registration that has returned normally has the map in the repository: a skymap record with its name, hash and
    number of tracts.  Of the threads that register the map under different names at most one returns normally. *)
Theorem shared_returned : forall (Sky : Type) (offset : Sky -> R -> R -> Sky) d s0 r0 w,
  cfg_ok (sd_cfg d) -> sm_reachable offset d s0 -> shareable offset d s0 -> reg_history offset r0 -> happens offset d s0 r0 w ->
  (forall n t, w_regs w n = Some t -> rt_out t = Some (Done tt) ->
     exists hash k, rt_sha t = Ok hash /\ In k (g_skymaps (w_repo w))
       /\ k_name k = rt_name t /\ k_hash k = hash /\ k_tract_max k = sd_num d)
  /\ (forall n1 n2 t1 t2 hash, w_regs w n1 = Some t1 -> w_regs w n2 = Some t2 -> rt_out t1 = Some (Done tt) -> rt_out t2 = Some (Done tt) ->
        rt_sha t1 = Ok hash -> rt_sha t2 = Ok hash -> rt_name t1 = rt_name t2).
Proof. exact shared_returned_proof. Qed.
Print Assumptions shared_returned.

(** C97: a registering thread never waits for another thread: in every state it can go on alone until it is about to use the repository or to
    end. *)
Theorem shared_never_blocks : forall (Sky : Type) (offset : Sky -> R -> R -> Sky) d s0 r0 w n t,
  cfg_ok (sd_cfg d) -> sm_reachable offset d s0 -> shareable offset d s0 -> happens offset d s0 r0 w ->
  w_regs w n = Some t -> rt_out t = None ->
  exists w' t', clos_refl_trans _ (world_step offset d s0) w w' /\ w_repo w' = w_repo w /\ w_others w' = w_others w
    /\ w_regs w' n = Some t' /\ rt_out t' = None /\ (forall c k, rt_job t' <> JAsk c k)
    /\ (forall m, m <> n -> w_regs w' m = w_regs w m /\ pr_threads (w_proc w') m = pr_threads (w_proc w) m).
Proof. exact shared_never_blocks_proof. Qed.
Print Assumptions shared_never_blocks.

(** C97: every Rings map with the TAN or STG projection can be shared in this way. *)
Theorem shared_rings : forall c S mk ov g s0, cfg_ok c -> rings_wf g -> standard_wcs S mk ->
  shareable sphere_offset (rings_def c mk ov g) s0.
Proof. exact shared_rings_proof. Qed.
Print Assumptions shared_rings.

(** C97: the hypotheses are met by threads that really overlap: a map of two tracts with 3 x 2 patches each; two threads register it under the
    same name.  When the second has returned normally, leaving the complete records, the first has written all its
    records in a transaction that it has not committed; or the first has returned normally too and there is still one record of each. *)
Example shared_example : exists d s0, cfg_ok (sd_cfg d) /\ sm_reachable flat_offset d s0 /\ shareable flat_offset d s0
  /\ reg_history flat_offset empty_reg
  /\ forall name hash, exists D s1, completely_registered flat_offset d name hash s1 empty_reg D
     /\ (exists w t0 t1, happens flat_offset d s0 empty_reg w /\ w_repo w = D /\ w_regs w 0%nat = Some t0 /\ w_regs w 1%nat = Some t1
           /\ rt_name t0 = name /\ rt_name t1 = name /\ rt_sha t0 = Ok hash /\ rt_sha t1 = Ok hash
           /\ rt_out t0 = None /\ rt_out t1 = Some (Done tt))
     /\ (exists w t0 t1, happens flat_offset d s0 empty_reg w /\ same_records D (w_repo w) /\ w_regs w 0%nat = Some t0 /\ w_regs w 1%nat = Some t1
           /\ rt_name t0 = name /\ rt_name t1 = name
           /\ rt_out t0 = Some (Done tt) /\ rt_out t1 = Some (Done tt)).
Proof. exact shared_example_proof. Qed.
