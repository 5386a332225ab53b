(** getSha1, hash(), [==] and [!=] of sky map objects that several threads use at
    the same time: baseSkyMap.py:308-318 and 344-365 as sequences of atomic accesses to the
    attribute [_sha1] of the objects.  What else threads do with the objects (access tracts and patches)
    neither reads nor writes [_sha1], and the hashed bytes depend on the configuration only, which never changes, so
    it is left out. *)
From Coq Require Import Reals.
Require Import Verif.Py Verif.Sphere Verif.SkyMap Verif.Config.
Open Scope list_scope.
Open Scope Z_scope.

Section ShaThreads.
Variable sha1 : bytes -> bytes.
Variable pyhash : bytes -> Z.
(** The objects that exist (by number), in the state in which the threads find them. *)
Variable objs : nat -> skymap.

(** What a thread still has to do: read or write the attribute [_sha1] of an object. *)
Inductive sprog (A : Type) :=
| SRet (a : A)
| SRead (i : nat) (k : option bytes -> sprog A)
| SWrite (i : nat) (b : bytes) (k : sprog A).
Arguments SRet {A}. Arguments SRead {A}. Arguments SWrite {A}.

(** baseSkyMap.py:357-365 [getSha1], called in a larger computation [k]; the attribute is
    read again for the [return].  [None] could be returned if it were reset. *)
Definition getSha1_p {A} (i : nat) (k : res (option bytes) -> sprog A) : sprog A :=
  SRead i (fun v =>
    match v with
    | Some _ => SRead i (fun v' => k (Ok v'))
    | None =>
        match hashed_bytes (m_config (objs i)) with
        | Raise e => k (Raise e)
        | Ok b => SWrite i (sha1 b) (SRead i (fun v' => k (Ok v')))
        end
    end).

(** The calls, and what they answer.  The right operand of [==] and [!=] is an object or, with [None], something
    without [getSha1]. *)
Inductive scall := CSha (i : nat) | CHash (i : nat) | CEq (i : nat) (j : option nat) | CNe (i : nat) (j : option nat).
Inductive sanswer := RBytes (r : res (option bytes)) | RInt (r : res Z) | RBool (r : res bool).

Definition opt_eqb (a b : option bytes) : bool :=
  match a, b with
  | None, None => true
  | Some a, Some b => bytes_eqb a b
  | _, _ => false
  end.
(** baseSkyMap.py:311-315 [__eq__] *)
Definition eq_p {A} (i : nat) (j : option nat) (k : res bool -> sprog A) : sprog A :=
  getSha1_p i (fun r =>
    match r with
    | Raise e => k (Raise e)
    | Ok a =>
        match j with
        | None => k (Ok false)
        | Some j => getSha1_p j (fun r2 => match r2 with Raise e => k (Raise e) | Ok b => k (Ok (opt_eqb a b)) end)
        end
    end).
(** baseSkyMap.py:308-309 [__hash__] (the hash of None is not modelled: TypeError) and 317-318 [__ne__] *)
Definition scall_prog (c : scall) : sprog sanswer :=
  match c with
  | CSha i => getSha1_p i (fun r => SRet (RBytes r))
  | CHash i => getSha1_p i (fun r => SRet (RInt (v <- r ;; match v with Some b => Ok (pyhash b) | None => Raise TypeError end)))
  | CEq i j => eq_p i j (fun r => SRet (RBool r))
  | CNe i j => eq_p i j (fun r => SRet (RBool (b <- r ;; Ok (negb b))))
  end.

(** The process: the attributes, the calls in progress and the calls that have returned or raised. *)
Record sprocess := mkSProc {
  sp_attr : nat -> option bytes;
  sp_threads : nat -> option (scall * sprog sanswer);
  sp_done : list (scall * sanswer) }.
Definition upd {A} (f : nat -> A) (n : nat) (a : A) : nat -> A := fun m => if Nat.eqb m n then a else f m.

Inductive sp_step : sprocess -> sprocess -> Prop :=
| ss_call p n c : sp_threads p n = None ->
    sp_step p (mkSProc (sp_attr p) (upd (sp_threads p) n (Some (c, scall_prog c))) (sp_done p))
| ss_read p n c i k : sp_threads p n = Some (c, SRead i k) ->
    sp_step p (mkSProc (sp_attr p) (upd (sp_threads p) n (Some (c, k (sp_attr p i)))) (sp_done p))
| ss_write p n c i b k : sp_threads p n = Some (c, SWrite i b k) ->
    sp_step p (mkSProc (upd (sp_attr p) i (Some b)) (upd (sp_threads p) n (Some (c, k))) (sp_done p))
| ss_ret p n c a : sp_threads p n = Some (c, SRet a) ->
    sp_step p (mkSProc (sp_attr p) (upd (sp_threads p) n None) (sp_done p ++ [(c, a)])).
Inductive sp_reachable : sprocess -> Prop :=
| sr_start : sp_reachable (mkSProc (fun i => m_sha1 (objs i)) (fun _ => None) [])
| sr_step p p' : sp_reachable p -> sp_step p p' -> sp_reachable p'.

(** What the call answers when no other thread is there and the objects are in the state [objs] (Config.v). *)
Definition answer_alone (c : scall) : sanswer :=
  let other := fun j : option nat => match j with Some j => OMap (objs j) | None => OOther end in
  match c with
  | CSha i => RBytes (b <- snd (getSha1 sha1 (objs i)) ;; Ok (Some b))
  | CHash i => RInt (snd (map_hash sha1 pyhash (objs i)))
  | CEq i j => RBool (snd (py_eq sha1 (objs i) (other j)))
  | CNe i j => RBool (snd (py_ne sha1 (objs i) (other j)))
  end.
End ShaThreads.
Arguments SRet {A}. Arguments SRead {A}. Arguments SWrite {A}.
