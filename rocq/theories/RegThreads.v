(** Registration of a sky map by one thread while other threads use the same
    sky map object.

    [BaseSkyMap.register] (python/lsst/skymap/baseSkyMap.py:387-475) as a
    sequence of calls of the sky map and its tracts (Threads.v), each made of atomic
    actions between which the other threads act, and of butler operations (Register.v).
    One thread registers; the butler is not used by the other threads. *)
From Coq Require Import Reals String.
Require Import Verif.Py Verif.Geom Verif.PatchInfo Verif.TractBuilder Verif.TractInfo Verif.SkyMap Verif.Register.
Require Verif.Concurrent.
Require Import Verif.Threads.
Open Scope list_scope.
Open Scope Z_scope.

Section RegThreads.
Context {Sky : Type}.
Variable offset : Sky -> R -> R -> Sky.
Notation registry := (registry Sky).
Notation call := (call (Sky := Sky)).
Notation answer := (answer (Sky := Sky)).
Notation process := (process (Sky := Sky)).

(** What the registering thread still has to do: return or raise, call a method, use
    the butler, begin or end [with butler.transaction():]. *)
Inductive job :=
| JEnd (r : res unit)
| JAsk (c : call) (k : answer -> job)
| JOp (f : registry -> res (registry * bool)) (k : bool -> job)
| JBegin (j : job)
| JCommit (j : job).

(** The answers of the methods used. *)
Definition job_get (i : Z) (k : tract Sky -> job) : job :=
  JAsk (CGet i) (fun a => match a with
    | ATract (Ok t) => k t
    | ATract (Raise e) => JEnd (Raise e)
    | _ => JEnd (Raise TypeError)
    end).
Definition job_patch (t : tract Sky) (i : pair2) (k : patch (wcs Sky) -> job) : job :=
  JAsk (CPatch t (IxIndex2D (fst i) (snd i))) (fun a => match a with
    | APatch (Ok p) => k p
    | APatch (Raise e) => JEnd (Raise e)
    | _ => JEnd (Raise TypeError)
    end).
Definition job_seq (t : tract Sky) (p : patch (wcs Sky)) (k : Z -> job) : job :=
  JAsk (CSeq t (IxIndex2D (fst (p_index p)) (snd (p_index p)))) (fun a => match a with
    | ANum (Ok n) => k n
    | ANum (Raise e) => JEnd (Raise e)
    | _ => JEnd (Raise TypeError)
    end).

(** baseSkyMap.py:417: the tracts, one after the other. *)
Fixpoint job_list (ids : list Z) (acc : list (tract Sky)) (k : list (tract Sky) -> job) : job :=
  match ids with
  | [] => k (rev acc)
  | i :: ids => job_get i (fun t => job_list ids (t :: acc) k)
  end.
(** baseSkyMap.py:460-472: the patch records of a tract; the patches are
    generated one at a time (tractInfo.py:405-409). *)
Fixpoint job_patches (name : string) (t : tract Sky) (ixs : list pair2) (acc : list (patch_rec Sky))
    (k : list (patch_rec Sky) -> job) : job :=
  match ixs with
  | [] => k (rev acc)
  | i :: ixs =>
      job_patch t i (fun p => job_seq t p (fun n =>
        job_patches name t ixs
          (mkPatchRec name (t_id t) n (fst (p_index p)) (snd (p_index p))
             (patch_getOuterSkyPolygon p (Some (t_wcs t))) :: acc) k))
  end.
(** baseSkyMap.py:449-473, the loop body for one tract. *)
Definition job_tract (name : string) (t : tract Sky) (k : job) : job :=
  JOp (Concurrent.unit_op (insertTract (mkTractRec name (t_id t) (tract_getOuterSkyPolygon t)))) (fun _ =>
  job_patches name t (let '(nx, ny) := t_numPatches t in grid nx ny) [] (fun recs =>
  JOp (Concurrent.unit_op (insertPatches recs)) (fun _ => k))).
Fixpoint job_for (name : string) (ids : list Z) (k : job) : job :=
  match ids with
  | [] => k
  | i :: ids => job_get i (fun t => job_tract name t (job_for name ids k))
  end.
(** baseSkyMap.py:387-475 [BaseSkyMap.register]; [num] is the number of tracts, over which
    [__iter__] goes, [len] is [len(self)] (neither ever changes), [sha] is the result of
    [getSha1()]. *)
Definition register_job (num len : Z) (sha : res (list Z)) (name : string) : job :=
  job_list (zrange 0 num) [] (fun ts =>
  match py_max (map (fun t => fst (t_numPatches t)) ts), py_max (map (fun t => snd (t_numPatches t)) ts), sha with
  | Ok nxMax, Ok nyMax, Ok hash =>
      JOp (Concurrent.unit_op (registerRun "skymaps"%string)) (fun _ =>
      JOp (Concurrent.unit_op (registerDatasetType "skyMap"%string)) (fun _ =>
      JBegin (JOp (syncSkymap (mkSkyRec name hash len nxMax nyMax)) (fun inserted =>
        if inserted then
          job_for name (zrange 0 num)
            (JOp (Concurrent.unit_op (putSkyMap name hash)) (fun _ => JCommit (JEnd (Ok tt))))
        else JCommit (JEnd (Ok tt))))))
  | Raise e, _, _ => JEnd (Raise e)
  | Ok _, Raise e, _ => JEnd (Raise e)
  | Ok _, Ok _, Raise e => JEnd (Raise e)
  end).

Section Faults.
Variable faults : nat -> fault.
Variable d : skydef Sky.

(** The end of the transaction. *)
Definition commit (u : butler Sky) : butler Sky * outcome unit :=
  let rolled := mkButler (u_durable u) (u_durable u) false (S (u_ops u)) in
  let committed := mkButler (u_work u) (u_work u) false (S (u_ops u)) in
  match faults (u_ops u) with
  | CrashBefore => (rolled, Crashed)
  | Fails e => (rolled, Raised e)
  | CrashAfter => (committed, Crashed)
  | NoFault => (committed, Done tt)
  end.

(** The job done by a thread that is alone. *)
Fixpoint run_job (j : job) (s : smstate Sky) (u : butler Sky) : smstate Sky * butler Sky * outcome unit :=
  match j with
  | JEnd (Ok x) => (s, u, Done x)
  | JEnd (Raise e) => (s, Concurrent.rolled_back u, Raised e)
  | JAsk c k => let '(s', a) := seq_answer offset d c s in run_job (k a) s' u
  | JOp f k =>
      match bop faults f s u with
      | (_, u', Done b) => run_job (k b) s u'
      | (_, u', Raised e) => (s, Concurrent.rolled_back u', Raised e)
      | (_, u', Crashed) => (s, u', Crashed)
      end
  | JBegin j => run_job j s (mkButler (u_durable u) (u_work u) true (u_ops u))
  | JCommit j => match commit u with
                 | (u', Done _) => run_job j s u'
                 | (u', o) => (s, u', o)
                 end
  end.

(** The process with a registering thread, number [n]: what it still has to do, its
    butler, and how it has ended. *)
Record jstate := mkJ { j_proc : process; j_job : job; j_butler : butler Sky; j_out : option (outcome unit) }.

Inductive jstep (s0 : smstate Sky) (n : nat) : jstate -> jstate -> Prop :=
(** any step of another thread, or an atomic action of this thread in its call *)
| js_threads p p' j u o :
    pstep offset d s0 p p' -> (pr_threads p n = None <-> pr_threads p' n = None) ->
    jstep s0 n (mkJ p j u o) (mkJ p' j u o)
| js_call p p' c k u :
    pr_threads p n = None -> pstep offset d s0 p p' -> pr_threads p' n = Some (c, call_prog offset d c) ->
    jstep s0 n (mkJ p (JAsk c k) u None) (mkJ p' (JAsk c k) u None)
| js_answer p c k a u :
    pr_threads p n = Some (c, PRet a) ->
    jstep s0 n (mkJ p (JAsk c k) u None)
      (mkJ (mkProc (pr_map p) (set_thread (pr_threads p) n None) (pr_done p ++ [(c, a)])) (k a) u None)
| js_op p f k u s' u' b :
    bop faults f (pr_map p) u = (s', u', Done b) ->
    jstep s0 n (mkJ p (JOp f k) u None) (mkJ p (k b) u' None)
| js_op_raise p f k u s' u' e :
    bop faults f (pr_map p) u = (s', u', Raised e) ->
    jstep s0 n (mkJ p (JOp f k) u None) (mkJ p (JOp f k) (Concurrent.rolled_back u') (Some (Raised e)))
| js_op_crash p f k u s' u' :
    bop faults f (pr_map p) u = (s', u', Crashed) ->
    jstep s0 n (mkJ p (JOp f k) u None) (mkJ p (JOp f k) u' (Some Crashed))
| js_begin p j u :
    jstep s0 n (mkJ p (JBegin j) u None) (mkJ p j (mkButler (u_durable u) (u_work u) true (u_ops u)) None)
| js_commit p j u u' x :
    commit u = (u', Done x) -> jstep s0 n (mkJ p (JCommit j) u None) (mkJ p j u' None)
| js_commit_fails p j u u' o :
    commit u = (u', o) -> (forall x, o <> Done x) ->
    jstep s0 n (mkJ p (JCommit j) u None) (mkJ p (JCommit j) u' (Some o))
| js_return p x u : jstep s0 n (mkJ p (JEnd (Ok x)) u None) (mkJ p (JEnd (Ok x)) u (Some (Done x)))
| js_raise p e u :
    jstep s0 n (mkJ p (JEnd (Raise e)) u None) (mkJ p (JEnd (Raise e)) (Concurrent.rolled_back u) (Some (Raised e))).

(** The registration of the map under [name], in the repository [r], by thread [n], started when the process
    is in any state [p] that its threads can reach from [s0]. *)
Inductive registering (s0 : smstate Sky) (n : nat) (sha : res (list Z)) (name : string) (r : registry) : jstate -> Prop :=
| rg_start p : schedule offset d s0 p -> pr_threads p n = None ->
    registering s0 n sha name r (mkJ p (register_job (sd_num d) (sm_len d s0) sha name) (butler_on r) None)
| rg_step J J' : registering s0 n sha name r J -> jstep s0 n J J' -> registering s0 n sha name r J'.
End Faults.
End RegThreads.
Arguments job Sky : clear implicits.
Arguments jstate Sky : clear implicits.
