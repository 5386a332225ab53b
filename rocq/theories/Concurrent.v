(** Registrations by several processes at the same time.

    [BaseSkyMap.register] (python/lsst/skymap/baseSkyMap.py:387-475) as a
    sequence of butler operations, so that the operations of several processes,
    each with its own sky map object and its own butler on the same repository,
    can be interleaved.  Register.v has the same function for one process;
    [register_prog_adequate] (ConcProofs.v) shows that the two agree. *)
From Coq Require Import Reals String.
Require Import Verif.Py Verif.Geom Verif.PatchInfo Verif.TractBuilder Verif.TractInfo Verif.SkyMap Verif.Register.
Require Import Verif.Spec Verif.SkySpec.
Open Scope list_scope.
Open Scope Z_scope.

Section Concurrent.
Context {Sky : Type}.
Variable offset : Sky -> R -> R -> Sky.
Notation registry := (registry Sky).

(** What a process still has to do.  [s] is the state of its sky map.
    [PEnd]: return or raise; [POp]: a butler operation, whose result selects
    the rest; [PBegin], [PCommit]: begin and end of
    [with butler.transaction():]; an exception in between rolls back. *)
Inductive prog :=
| PEnd (s : smstate Sky) (r : res unit)
| POp (s : smstate Sky) (f : registry -> res (registry * bool)) (k : bool -> prog)
| PBegin (p : prog)
| PCommit (s : smstate Sky) (p : prog).

(** Operations without a result. *)
Definition unit_op (f : registry -> res (registry * unit)) (r : registry) : res (registry * bool) :=
  wa <- f r ;; Ok (fst wa, true).

(** baseSkyMap.py:446-471, the loop body for one tract. *)
Definition prog_tract (name : string) (t : tract Sky) (s : smstate Sky) (k : smstate Sky -> prog) : prog :=
  POp s (unit_op (insertTract (mkTractRec name (t_id t) (tract_getOuterSkyPolygon t)))) (fun _ =>
  match on_tract (patch_records name) t s with
  | (s1, Ok recs) => POp s1 (unit_op (insertPatches recs)) (fun _ => k s1)
  | (s1, Raise e) => PEnd s1 (Raise e)
  end).
(** baseSkyMap.py:446, [for tractInfo in self]. *)
Fixpoint prog_for (d : skydef Sky) (name : string) (ids : list Z) (s : smstate Sky)
    (k : smstate Sky -> prog) : prog :=
  match ids with
  | [] => k s
  | i :: ids =>
      match sm_getitem offset d i s with
      | (s1, Ok t) => prog_tract name t s1 (fun s2 => prog_for d name ids s2 k)
      | (s1, Raise e) => PEnd s1 (Raise e)
      end
  end.
(** baseSkyMap.py:443-475, the transaction. *)
Definition prog_tx (d : skydef Sky) (name : string) (hash : list Z) (rec : sky_rec) (s : smstate Sky) : prog :=
  PBegin (POp s (syncSkymap rec) (fun inserted =>
    if inserted then
      prog_for d name (zrange 0 (sd_num d)) s (fun s1 =>
        POp s1 (unit_op (putSkyMap name hash)) (fun _ => PCommit s1 (PEnd s1 (Ok tt))))
    else PCommit s (PEnd s (Ok tt)))).
(** baseSkyMap.py:387-475 [BaseSkyMap.register]; as in Register.v. *)
Definition register_prog (d : skydef Sky) (sha : res (list Z)) (name : string) (s : smstate Sky) : prog :=
  match sm_iter offset d s with
  | (s1, Raise e) => PEnd s1 (Raise e)
  | (s1, Ok ts) =>
      match py_max (map (fun t => fst (t_numPatches t)) ts), py_max (map (fun t => snd (t_numPatches t)) ts), sha with
      | Ok nxMax, Ok nyMax, Ok hash =>
          POp s1 (unit_op (registerRun "skymaps"%string)) (fun _ =>
          POp s1 (unit_op (registerDatasetType "skyMap"%string)) (fun _ =>
          prog_tx d name hash (mkSkyRec name hash (sm_len d s1) nxMax nyMax) s1))
      | Raise e, _, _ => PEnd s1 (Raise e)
      | Ok _, Raise e, _ => PEnd s1 (Raise e)
      | Ok _, Ok _, Raise e => PEnd s1 (Raise e)
      end
  end.

(** The program run by one process alone, with the butler of Register.v. *)
Definition rolled_back (u : butler Sky) : butler Sky :=
  if u_in_tx u then mkButler (u_durable u) (u_durable u) false (u_ops u) else u.
Fixpoint run_alone (faults : nat -> fault) (p : prog) (u : butler Sky) : smstate Sky * butler Sky * outcome unit :=
  match p with
  | PEnd s (Ok x) => (s, u, Done x)
  | PEnd s (Raise e) => (s, rolled_back u, Raised e)
  | POp s f k =>
      match bop faults f s u with
      | (_, u', Done b) => run_alone faults (k b) u'
      | (_, u', Raised e) => (s, rolled_back u', Raised e)
      | (_, u', Crashed) => (s, u', Crashed)
      end
  | PBegin p => run_alone faults p (mkButler (u_durable u) (u_work u) true (u_ops u))
  | PCommit s p =>
      let rolled := mkButler (u_durable u) (u_durable u) false (S (u_ops u)) in
      let committed := mkButler (u_work u) (u_work u) false (S (u_ops u)) in
      match faults (u_ops u) with
      | CrashBefore => (s, rolled, Crashed)
      | Fails e => (s, rolled, Raised e)
      | CrashAfter => (s, committed, Crashed)
      | NoFault => run_alone faults p committed
      end
  end.

(** ** The system

    The database (external) is modelled by what it guarantees: a process sees,
    inside its transaction, a state of the repository that was committed at
    some time since the transaction began, with its own uncommitted records
    added (this includes snapshot isolation and read committed); a commit
    succeeds only if the keys are still valid. *)

Definition merge (r x : registry) : registry :=
  mkReg (g_runs r ++ g_runs x) (g_types r ++ g_types x) (g_skymaps r ++ g_skymaps x)
        (g_tracts r ++ g_tracts x) (g_patches r ++ g_patches x) (g_datasets r ++ g_datasets x).
(** The records of [w] that are not in [r], where [w] extends [r]. *)
Definition since (r w : registry) : registry :=
  mkReg (skipn (List.length (g_runs r)) (g_runs w)) (skipn (List.length (g_types r)) (g_types w))
        (skipn (List.length (g_skymaps r)) (g_skymaps w)) (skipn (List.length (g_tracts r)) (g_tracts w))
        (skipn (List.length (g_patches r)) (g_patches w)) (skipn (List.length (g_datasets r)) (g_datasets w)).
Definition empty_registry : registry := mkReg [] [] [] [] [] [].

(** The key constraints of the tables: unique keys and foreign keys. *)
Record keys_valid (r : registry) : Prop := {
  kv_names : NoDup (map k_name (g_skymaps r));
  kv_hashes : NoDup (map k_hash (g_skymaps r));
  kv_tracts : NoDup (map (fun t => (tr_skymap t, tr_tract t)) (g_tracts r));
  kv_patches : NoDup (map (fun p => (pr_skymap p, pr_tract p, pr_patch p)) (g_patches r));
  kv_datasets : NoDup (map fst (g_datasets r));
  kv_tract_skymap : forall t, In t (g_tracts r) -> In (tr_skymap t) (map k_name (g_skymaps r));
  kv_patch_tract : forall p, In p (g_patches r) ->
     In (pr_skymap p, pr_tract p) (map (fun t => (tr_skymap t, tr_tract t)) (g_tracts r)) }.

(** The call [skyMap.register(name, butler)]: the map, its [getSha1()], the name
    and the state of the sky map object at the call. *)
Record request := mkRequest {
  rq_map : skydef Sky; rq_sha : res (list Z); rq_name : string; rq_start : smstate Sky }.

(** A process that registers a sky map.  [c_base], [c_delta]: what it sees of
    the repository in its transaction, and its uncommitted records. *)
Record client := mkClient {
  c_req : request; c_prog : prog; c_tx : bool; c_base : registry; c_delta : registry;
  c_out : option (outcome unit) }.
Definition new_client (q : request) : client :=
  mkClient q (register_prog (rq_map q) (rq_sha q) (rq_name q) (rq_start q)) false empty_registry empty_registry None.

(** A step of one process that is still running, on the repository [D]. *)
Inductive client_step : registry -> client -> registry -> client -> Prop :=
| st_return D q s x base delta tx :
    client_step D (mkClient q (PEnd s (Ok x)) tx base delta None)
                D (mkClient q (PEnd s (Ok x)) tx base delta (Some (Done x)))
| st_raise D q s e base delta tx :
    client_step D (mkClient q (PEnd s (Raise e)) tx base delta None)
                D (mkClient q (PEnd s (Raise e)) tx base delta (Some (Raised e)))
(** an operation outside a transaction *)
| st_direct D q s f k base delta D' b : f D = Ok (D', b) ->
    client_step D (mkClient q (POp s f k) false base delta None)
                D' (mkClient q (k b) false base delta None)
| st_direct_raise D q s f k base delta e : f D = Raise e ->
    client_step D (mkClient q (POp s f k) false base delta None)
                D (mkClient q (POp s f k) false base delta (Some (Raised e)))
(** an operation inside its transaction *)
| st_tx D q s f k base delta w b : f (merge base delta) = Ok (w, b) ->
    client_step D (mkClient q (POp s f k) true base delta None)
                D (mkClient q (k b) true base (since base w) None)
| st_tx_raise D q s f k base delta e : f (merge base delta) = Raise e ->
    client_step D (mkClient q (POp s f k) true base delta None)
                D (mkClient q (POp s f k) true base delta (Some (Raised e)))
| st_begin D q p base delta :
    client_step D (mkClient q (PBegin p) false base delta None)
                D (mkClient q p true D empty_registry None)
(** it may see what others have committed meanwhile *)
| st_refresh D q p base delta :
    client_step D (mkClient q p true base delta None)
                D (mkClient q p true D delta None)
| st_commit D q s p base delta : keys_valid (merge D delta) ->
    client_step D (mkClient q (PCommit s p) true base delta None)
                (merge D delta) (mkClient q p false base delta None)
(** any operation, and the commit, may fail; a crash may happen at any time *)
| st_fail D c e : c_out c = None -> (forall s r, c_prog c <> PEnd s r) ->
    client_step D c D (mkClient (c_req c) (c_prog c) (c_tx c) (c_base c) (c_delta c) (Some (Raised e)))
| st_crash D c : c_out c = None ->
    client_step D c D (mkClient (c_req c) (c_prog c) (c_tx c) (c_base c) (c_delta c) (Some Crashed)).

(** A process starts to register a map, or one of the processes takes a step. *)
Inductive sys_step : registry * list client -> registry * list client -> Prop :=
| sys_start D cs q :
    cfg_ok (sd_cfg (rq_map q)) -> sm_reachable offset (rq_map q) (rq_start q) ->
    sys_step (D, cs) (D, cs ++ [new_client q])
| sys_client D cs1 c cs2 D' c' :
    client_step D c D' c' -> sys_step (D, cs1 ++ c :: cs2) (D', cs1 ++ c' :: cs2).
Inductive sys_steps : registry * list client -> registry * list client -> Prop :=
| ss_refl x : sys_steps x x
| ss_step x y z : sys_steps x y -> sys_step y z -> sys_steps x z.
End Concurrent.
Arguments prog Sky : clear implicits.
Arguments request Sky : clear implicits.
Arguments client Sky : clear implicits.
