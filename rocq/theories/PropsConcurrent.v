(** Property theorems; generated by tools/mkprops.py from MainConcurrent.v. *)
From Coq Require Import Reals Lra String.
Require Import Verif.Py Verif.Geom Verif.PatchInfo Verif.TractBuilder Verif.TractInfo Verif.Spec.
Require Import Verif.PatchProofs Verif.TractProofs Verif.Examples.
Require Import Verif.SkyMap Verif.SkySpec Verif.SkyProofs Verif.SkyProofs2 Verif.MainSky.
Require Import Verif.Register Verif.RegSpec Verif.RegProofs Verif.RegProofs2 Verif.RegProofs3 Verif.MainRegister.
Require Import Verif.Concurrent Verif.ConcProofs.
Require Import Verif.MainConcurrent.
Open Scope list_scope.
Open Scope Z_scope.

(** C88: any number of processes register any sky maps in the same repository; their butler operations interleave
    in any way, any of them may fail or crash at any time.  At every moment the skymap, tract and patch records and
    the datasets of the repository are, in the same order, those left by some history of registrations made one after
    the other; in particular the repository is sound: no process' records are ever there in part. *)
Theorem concurrent_serialisable :
  forall (Sky : Type) (offset : Sky -> R -> R -> Sky) r0 D cs,
  reg_history offset r0 -> sys_steps offset (r0, []) (D, cs) ->
  (exists r, reg_history offset r /\ same_records r D) /\ sound D.
Proof. exact concurrent_serialisable_proof. Qed.
Print Assumptions concurrent_serialisable.

(** C88: a step of any process leaves the records as they are, or it is the commit of that process: it adds the
    complete records of its map, whose name and hash were not there; after that the process does nothing but return
    normally, unless it crashes.  So a process that raises has added nothing. *)
Theorem concurrent_all_or_nothing :
  forall (Sky : Type) (offset : Sky -> R -> R -> Sky) r0 D cs1 c cs2 D' c',
  reg_history offset r0 -> sys_steps offset (r0, []) (D, cs1 ++ c :: cs2) -> client_step D c D' c' ->
  same_records D D'
  \/ exists hash s1, let q := c_req c in
       rq_sha q = Ok hash /\ ~ In (rq_name q) (map k_name (g_skymaps D)) /\ ~ In hash (map k_hash (g_skymaps D))
       /\ accesses offset (rq_map q) (rq_start q) s1
       /\ completely_registered offset (rq_map q) (rq_name q) hash s1 D D'
       /\ c_req c' = q /\ c_out c' = None
       /\ forall D1 D2 c2, client_step D1 c' D2 c2 -> D2 = D1 /\ (c_out c2 = Some (Done tt) \/ c_out c2 = Some Crashed).
Proof. exact concurrent_all_or_nothing_proof. Qed.
Print Assumptions concurrent_all_or_nothing.

(** C88: from then on, a process that has returned normally has its map in the repository: a skymap record with
    its name, hash and number of tracts.  So of processes registering different maps (hashes)
    under one name, or one map under different names, at most one returns normally. *)
Theorem concurrent_returned :
  forall (Sky : Type) (offset : Sky -> R -> R -> Sky) r0 D cs,
  reg_history offset r0 -> sys_steps offset (r0, []) (D, cs) ->
  (forall c, In c cs -> c_out c = Some (Done tt) ->
     exists hash k, rq_sha (c_req c) = Ok hash /\ In k (g_skymaps D)
       /\ k_name k = rq_name (c_req c) /\ k_hash k = hash /\ k_tract_max k = sd_num (rq_map (c_req c)))
  /\ (forall c1 c2 h1 h2, In c1 cs -> In c2 cs -> c_out c1 = Some (Done tt) -> c_out c2 = Some (Done tt) ->
        rq_sha (c_req c1) = Ok h1 -> rq_sha (c_req c2) = Ok h2 ->
        (rq_name (c_req c1) = rq_name (c_req c2) <-> h1 = h2)).
Proof. exact concurrent_returned_proof. Qed.
Print Assumptions concurrent_returned.

(** C88: everything a process can do alone (Register.v: any failures, crashes, results) is among the executions of the
    system: whatever the other processes have done, it can run from its start to its end without interruption, with
    the same outcome and the same repository. *)
Theorem concurrent_alone :
  forall (Sky : Type) (offset : Sky -> R -> R -> Sky) r0 D cs q faults s' u' out,
  reg_history offset r0 -> sys_steps offset (r0, []) (D, cs) ->
  cfg_ok (sd_cfg (rq_map q)) -> sm_reachable offset (rq_map q) (rq_start q) ->
  register offset faults (rq_map q) (rq_sha q) (rq_name q) (rq_start q) (butler_on D) = (s', u', out) ->
  exists c', c_req c' = q /\ c_out c' = Some out /\ sys_steps offset (r0, []) (u_durable u', cs ++ [c']).
Proof. exact concurrent_alone_proof. Qed.
Print Assumptions concurrent_alone.

(** C88: the hypotheses are met by executions that really overlap.  Two processes register the same map (equal patch
    counts in all tracts) under the same new name.  The second begins its transaction, then the first registers the
    map and returns.  If the second does not see that, it writes all its records, but then its commit cannot succeed
    and the records stay as the first left them, complete; if it sees it, it returns normally and adds nothing. *)
Theorem concurrent_same_map :
  forall (Sky : Type) (offset : Sky -> R -> R -> Sky) d n name hash s r,
  cfg_ok (sd_cfg d) -> 0 < sd_num d -> generable offset d -> uniform_counts offset d n ->
  sm_reachable offset d s -> reg_history offset r ->
  ~ In name (map k_name (g_skymaps r)) -> ~ In hash (map k_hash (g_skymaps r)) ->
  let q := mkRequest d (Ok hash) name s in
  exists D c1 s1, c_req c1 = q /\ c_out c1 = Some (Done tt)
    /\ completely_registered offset d name hash s1 r D
    /\ (exists c2, sys_steps offset (r, []) (D, [c2; c1]) /\ c_req c2 = q /\ c_out c2 = None
          /\ (exists s2 p, c_prog c2 = PCommit s2 p) /\ completely_registered offset d name hash s1 r (merge r (c_delta c2))
          /\ (forall D' c', client_step D c2 D' c' -> D' = D /\ c_out c' <> Some (Done tt))
          /\ (forall e, exists c', client_step D c2 D c' /\ c_out c' = Some (Raised e)))
    /\ (exists c2 D2, sys_steps offset (r, []) (D2, [c2; c1]) /\ same_records D D2 /\ c_req c2 = q /\ c_out c2 = Some (Done tt)).
Proof. exact concurrent_same_map_proof. Qed.
Print Assumptions concurrent_same_map.

(** C88: the map of [registration_example] is such a map. *)
Example concurrent_example :
  exists s0, cfg_ok (sd_cfg uniform_map) /\ 0 < sd_num uniform_map /\ generable flat_offset uniform_map
    /\ uniform_counts flat_offset uniform_map (3, 2) /\ sm_reachable flat_offset uniform_map s0
    /\ reg_history flat_offset (mkReg [] [] [] [] [] []).
Proof. exact concurrent_example_proof. Qed.
