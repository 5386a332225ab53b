(** Several threads of a process register the same sky map object, in a
    repository in which other processes register sky maps too.

    Each registering thread does the job of RegThreads.v
    (python/lsst/skymap/baseSkyMap.py:387-475 as calls of the shared sky map and butler
    operations) with a butler of its own on the repository of Concurrent.v; the
    database (external) is modelled by what it guarantees, as there. *)
From Coq Require Import Reals String.
Require Import Verif.Py Verif.Geom Verif.PatchInfo Verif.TractBuilder Verif.TractInfo Verif.SkyMap Verif.Register.
Require Import Verif.Spec Verif.SkySpec.
Require Import Verif.Concurrent Verif.Threads Verif.RegThreads.
Open Scope list_scope.
Open Scope Z_scope.

Section RegMany.
Context {Sky : Type}.
Variable offset : Sky -> R -> R -> Sky.
Notation registry := (registry Sky).
Notation process := (process (Sky := Sky)).

(** A thread that registers the map under [rt_name]: what it still has to do, and as in
    Concurrent.v whether it is in its transaction, what it sees there, its uncommitted records, and how it
    has ended.  A thread that registers twice is counted as two. *)
Record registrant := mkRegistrant {
  rt_sha : res (list Z); rt_name : string; rt_job : job Sky; rt_tx : bool; rt_base : registry; rt_delta : registry;
  rt_out : option (outcome unit) }.

(** A use of the repository by such a thread (baseSkyMap.py:439-475), on the repository [D]; as [client_step] of Concurrent.v. *)
Inductive repo_step : registry -> registrant -> registry -> registrant -> Prop :=
| rs_return D h n x tx base delta :
    repo_step D (mkRegistrant h n (JEnd (Ok x)) tx base delta None) D (mkRegistrant h n (JEnd (Ok x)) tx base delta (Some (Done x)))
| rs_raise D h n e tx base delta :
    repo_step D (mkRegistrant h n (JEnd (Raise e)) tx base delta None) D (mkRegistrant h n (JEnd (Raise e)) tx base delta (Some (Raised e)))
(** an operation outside a transaction *)
| rs_direct D h n f k base delta D' b : f D = Ok (D', b) ->
    repo_step D (mkRegistrant h n (JOp f k) false base delta None) D' (mkRegistrant h n (k b) false base delta None)
| rs_direct_raise D h n f k base delta e : f D = Raise e ->
    repo_step D (mkRegistrant h n (JOp f k) false base delta None) D (mkRegistrant h n (JOp f k) false base delta (Some (Raised e)))
(** an operation inside its transaction *)
| rs_tx D h n f k base delta w b : f (merge base delta) = Ok (w, b) ->
    repo_step D (mkRegistrant h n (JOp f k) true base delta None) D (mkRegistrant h n (k b) true base (since base w) None)
| rs_tx_raise D h n f k base delta e : f (merge base delta) = Raise e ->
    repo_step D (mkRegistrant h n (JOp f k) true base delta None) D (mkRegistrant h n (JOp f k) true base delta (Some (Raised e)))
| rs_begin D h n j base delta :
    repo_step D (mkRegistrant h n (JBegin j) false base delta None) D (mkRegistrant h n j true D empty_registry None)
(** it may see what others have committed meanwhile *)
| rs_refresh D h n j base delta :
    repo_step D (mkRegistrant h n j true base delta None) D (mkRegistrant h n j true D delta None)
| rs_commit D h n j base delta : keys_valid (merge D delta) ->
    repo_step D (mkRegistrant h n (JCommit j) true base delta None) (merge D delta) (mkRegistrant h n j false base delta None)
(** any operation, and the commit, may fail; a thread may be killed at any time *)
| rs_fail D h n j tx base delta e : (forall r, j <> JEnd r) -> (forall c k, j <> JAsk c k) ->
    repo_step D (mkRegistrant h n j tx base delta None) D (mkRegistrant h n j tx base delta (Some (Raised e)))
| rs_crash D h n j tx base delta :
    repo_step D (mkRegistrant h n j tx base delta None) D (mkRegistrant h n j tx base delta (Some Crashed)).

(** The repository, the registrations by other processes, the process that holds the
    sky map [d], and its registering threads. *)
Record world := mkWorld {
  w_repo : registry; w_others : list (client Sky); w_proc : process; w_regs : nat -> option registrant }.
Definition set_reg (f : nat -> option registrant) (n : nat) (t : registrant) : nat -> option registrant :=
  fun m => if Nat.eqb m n then Some t else f m.

Variable d : skydef Sky.
(** A thread starts [skymap.register(name, butler)] (baseSkyMap.py:387). *)
Definition new_registrant (s0 : smstate Sky) (sha : res (list Z)) (name : string) : registrant :=
  mkRegistrant sha name (register_job (sd_num d) (sm_len d s0) sha name) false empty_registry empty_registry None.

Inductive world_step (s0 : smstate Sky) : world -> world -> Prop :=
| ws_start D cs p regs n sha name :
    regs n = None -> pr_threads p n = None ->
    world_step s0 (mkWorld D cs p regs) (mkWorld D cs p (set_reg regs n (new_registrant s0 sha name)))
(** any step of a thread that does not register, or an atomic action of a registering one in its call *)
| ws_threads D cs p p' regs :
    pstep offset d s0 p p' ->
    (forall n t, regs n = Some t -> rt_out t = None -> (pr_threads p n = None <-> pr_threads p' n = None)) ->
    world_step s0 (mkWorld D cs p regs) (mkWorld D cs p' regs)
(** a registering thread calls a method, and gets its answer *)
| ws_call D cs p p' regs n h m c k tx base delta :
    regs n = Some (mkRegistrant h m (JAsk c k) tx base delta None) ->
    pr_threads p n = None -> pstep offset d s0 p p' -> pr_threads p' n = Some (c, call_prog offset d c) ->
    world_step s0 (mkWorld D cs p regs) (mkWorld D cs p' regs)
| ws_answer D cs p regs n h m c k a tx base delta :
    regs n = Some (mkRegistrant h m (JAsk c k) tx base delta None) ->
    pr_threads p n = Some (c, PRet a) ->
    world_step s0 (mkWorld D cs p regs)
      (mkWorld D cs (mkProc (pr_map p) (set_thread (pr_threads p) n None) (pr_done p ++ [(c, a)]))
         (set_reg regs n (mkRegistrant h m (k a) tx base delta None)))
(** a registering thread uses the repository *)
| ws_repo D D' cs p regs n t t' :
    regs n = Some t -> repo_step D t D' t' ->
    world_step s0 (mkWorld D cs p regs) (mkWorld D' cs p (set_reg regs n t'))
(** another process starts to register a map, or takes a step *)
| ws_others D D' cs cs' p regs :
    sys_step offset (D, cs) (D', cs') ->
    world_step s0 (mkWorld D cs p regs) (mkWorld D' cs' p regs).

(** What can happen when the threads start with the map in the state [s0] and the repository [r0]. *)
Inductive happens (s0 : smstate Sky) (r0 : registry) : world -> Prop :=
| hp_start : happens s0 r0 (mkWorld r0 [] (mkProc s0 (fun _ => None) []) (fun _ => None))
| hp_step w w' : happens s0 r0 w -> world_step s0 w w' -> happens s0 r0 w'.

(** The maps that can be shared: all tracts exist already (always so for Equat and Dodeca), or all
    tracts have the same patch counts (so for Rings with the TAN or STG projection). *)
Definition shareable (s0 : smstate Sky) : Prop :=
  sd_kind d = EagerMap \/ (forall i, 0 <= i < sd_num d -> exists t, holds offset d i s0 t)
  \/ (sd_kind d = CachingMap /\ exists cnt, uniform_counts offset d cnt).
End RegMany.
Arguments registrant Sky : clear implicits.
Arguments world Sky : clear implicits.
