(** Property theorems; generated by tools/mkprops.py from MainShaThreads.v. *)
From Coq Require Import Reals Lia Relations.
Require Import Verif.Py Verif.Sphere Verif.SkyMap Verif.SkySpec.
Require Import Verif.Config Verif.ConfigSpec Verif.ConfigProofs Verif.MainConfig Verif.ShaThreads.
Require Import Verif.MainShaThreads.
Open Scope list_scope.
Open Scope Z_scope.

(** C94: sky maps of any kind, used before in any way, and any number of threads that call getSha1, hash(), == and != on them: whatever
    the interleaving, each call that has ended has returned or raised what it does when no other thread is there. *)
Theorem sha_threads_alone : forall offset skyWcs p2a bnd order sha1 pyhash objs p c a,
  live_maps offset skyWcs p2a bnd order sha1 objs ->
  sp_reachable sha1 pyhash objs p -> In (c, a) (sp_done p) -> a = answer_alone sha1 pyhash objs c.
Proof. exact sha_threads_alone_proof. Qed.
Print Assumptions sha_threads_alone.

(** C94: in particular getSha1 never returns None; the calls that have ended agree with each other: all getSha1 calls on one object gave the
    same result, == is reflexive, symmetric and transitive, != is its negation, and objects found equal have the same hash(). *)
Theorem sha_threads_coherent : forall offset skyWcs p2a bnd order sha1 pyhash objs p,
  live_maps offset skyWcs p2a bnd order sha1 objs -> sp_reachable sha1 pyhash objs p ->
  let said c a := In (c, a) (sp_done p) in
  (forall i, ~ said (CSha i) (RBytes (Ok None)))
  /\ (forall i a a', said (CSha i) a -> said (CSha i) a' -> a = a')
  /\ (forall i b, said (CEq i (Some i)) (RBool (Ok b)) -> b = true)
  /\ (forall i j b b', said (CEq i (Some j)) (RBool (Ok b)) -> said (CEq j (Some i)) (RBool (Ok b')) -> b = b')
  /\ (forall i j k b, said (CEq i (Some j)) (RBool (Ok true)) -> said (CEq j (Some k)) (RBool (Ok true)) ->
        said (CEq i (Some k)) (RBool (Ok b)) -> b = true)
  /\ (forall i o b b', said (CEq i o) (RBool (Ok b)) -> said (CNe i o) (RBool (Ok b')) -> b' = negb b)
  /\ (forall i b, said (CEq i None) (RBool (Ok b)) -> b = false)
  /\ (forall i j a a', said (CEq i (Some j)) (RBool (Ok true)) -> said (CHash i) a -> said (CHash j) a' ->
        a = a' /\ exists h, a = RInt (Ok h)).
Proof. exact sha_threads_coherent_proof. Qed.
Print Assumptions sha_threads_coherent.

(** C94: the kept digest: whatever a thread finds in the attribute is the digest of the map, and once there it stays the same. *)
Theorem sha_threads_kept : forall offset skyWcs p2a bnd order sha1 pyhash objs p,
  live_maps offset skyWcs p2a bnd order sha1 objs -> sp_reachable sha1 pyhash objs p ->
  (forall i h, sp_attr p i = Some h -> snd (getSha1 sha1 (objs i)) = Ok h)
  /\ (forall p' i h, sp_step sha1 pyhash objs p p' -> sp_attr p i = Some h -> sp_attr p' i = Some h).
Proof. exact sha_threads_kept_proof. Qed.
Print Assumptions sha_threads_kept.

(** C94: no call waits for another thread: from every state a thread that goes on alone ends its call. *)
Theorem sha_threads_never_block : forall sha1 pyhash objs p n c q, sp_threads p n = Some (c, q) ->
  exists p' a, clos_refl_trans _ (sp_step sha1 pyhash objs) p p' /\ sp_threads p' n = None /\ sp_done p' = sp_done p ++ [(c, a)]
    /\ forall m, m <> n -> sp_threads p' m = sp_threads p m.
Proof. exact sha_threads_never_block_proof. Qed.
Print Assumptions sha_threads_never_block.

(** C94: the model of one thread is included: a call made alone answers as in C44. *)
Theorem sha_threads_one : forall offset skyWcs p2a bnd order sha1 pyhash objs c,
  live_maps offset skyWcs p2a bnd order sha1 objs ->
  exists p, sp_reachable sha1 pyhash objs p /\ sp_done p = [(c, answer_alone sha1 pyhash objs c)].
Proof. exact sha_threads_one_proof. Qed.
Print Assumptions sha_threads_one.

(** C94: the hypotheses are met: two threads have both found that a new map has no digest yet and are both about to store it; then both end. *)
Example sha_threads_example : forall offset skyWcs p2a bnd order sha1 pyhash,
  exists objs h k0 k1 p p',
    live_maps offset skyWcs p2a bnd order sha1 objs /\ m_sha1 (objs 0%nat) = None /\ snd (getSha1 sha1 (objs 0%nat)) = Ok h
    /\ sp_reachable sha1 pyhash objs p
    /\ sp_threads p 0%nat = Some (CHash 0, SWrite 0 h k0) /\ sp_threads p 1%nat = Some (CEq 0 (Some 1%nat), SWrite 0 h k1)
    /\ sp_reachable sha1 pyhash objs p'
    /\ sp_done p' = [(CEq 0 (Some 1%nat), RBool (Ok true)); (CHash 0, RInt (Ok (pyhash h)))].
Proof. exact sha_threads_example_proof. Qed.
