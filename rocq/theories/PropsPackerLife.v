(** Property theorems; generated by tools/mkprops.py from MainPackerLife.v. *)
From Coq Require Import String Lia Relations.
Require Import Verif.Py Verif.Packers Verif.PackerLife.
Require Import Verif.MainPackerLife.
Open Scope string_scope.
Open Scope list_scope.
Open Scope Z_scope.

(** C95: as long as nobody changes the band mapping, a packer answers every pack, unpack and maxBits as it would when new,
    whatever was asked before, in however many threads and in whatever interleaving. *)
Theorem packer_life : forall p seen s c a, lives p false seen s -> In (c, a) (l_done s) -> a = kanswer_of p c.
Proof. exact packer_life_proof. Qed.
Print Assumptions packer_life.

(** C95: if the mapping is changed meanwhile, every unpack, every maxBits and every pack answers as a new packer would with some contents that the mapping
    has had; pack is excepted only if the number of its band has been changed. *)
Theorem packer_life_changes : forall p seen s c a, lives p true seen s -> In (c, a) (l_done s) ->
  (exists m, In m seen /\ a = kanswer_of (with_bands p m) c)
  \/ exists d b m m' i, c = CPack d /\ d_band d = Some b /\ In m seen /\ In m' seen
       /\ dict_get m (Some b) = Some i /\ dict_get m' (Some b) <> Some i.
Proof. exact packer_life_changes_proof. Qed.
Print Assumptions packer_life_changes.

(** C95: unpack never notices a change of the mapping once it has made its list of bands: from then on every unpack answers as a packer with
    the contents that the mapping had when the list was made, whatever it contains now; a pack answers by the present contents. *)
Theorem unpack_keeps_bands : forall p seen s0 m0 s new n a,
  lives p true seen s0 -> (forall t, l_threads s0 t = None) -> l_list s0 = Some (map fst m0) ->
  later p s0 s -> l_done s = l_done s0 ++ new -> In (CUnpack n, a) new -> a = AUnpack (packer_unpack (with_bands p m0) n).
Proof. exact unpack_keeps_bands_proof. Qed.
Print Assumptions unpack_keeps_bands.

(** C95: no call waits for another thread. *)
Theorem packer_never_blocks : forall p s t c q, l_threads s t = Some (c, q) ->
  exists s' a, clos_refl_trans _ (kstep p) s s' /\ l_threads s' t = None /\ l_done s' = l_done s ++ [(c, a)]
    /\ forall m, m <> t -> l_threads s' m = l_threads s m.
Proof. exact packer_never_blocks_proof. Qed.
Print Assumptions packer_never_blocks.

(** C95 REFUTED if the mapping is changed: a packer whose unpack has been used, to whose mapping a third band is then added, packs data ids of this band but
    raises IndexError when asked to unpack them, though a new packer with the same mapping does both. *)
Theorem packer_changes_refuted : exists p d n seen s,
  packer_init (mkFixed "s" (Some (mkSkymapRec 10 3 3))) None (Some [(Some "g", 0); (Some "r", 1)]) (Some 3) None None = Ok p
  /\ lives p true seen s
  /\ l_done s = [(CUnpack 0, AUnpack (Ok (mkDataId "s" 0 0 (Some "g")))); (CPack d, APack (Ok n)); (CUnpack n, AUnpack (Raise IndexError))]
  /\ l_dict s = [(Some "g", 0); (Some "r", 1); (Some "i", 2)]
  /\ packer_pack (with_bands p (l_dict s)) d = Ok n /\ packer_unpack (with_bands p (l_dict s)) n = Ok d.
Proof. exact packer_changes_refuted_proof. Qed.
Print Assumptions packer_changes_refuted.

(** C95: the hypotheses are met: two threads ask a new packer at the same time to unpack an id; both have found no list of bands and are about to
    store one; both calls end, and a data id packed before has come back. *)
Example packer_life_example : exists p n s s' l k0 k1,
  packer_init (mkFixed "s" (Some (mkSkymapRec 10 3 3))) None None None None None = Ok p
  /\ lives p false [p_bands p] s /\ l_threads s 0%nat = Some (CUnpack n, KSetList l k0) /\ l_threads s 1%nat = Some (CUnpack 0, KSetList l k1)
  /\ lives p false [p_bands p] s'
  /\ l_done s' = [(CPack (mkDataId "s" 4 5 (Some "i")), APack (Ok n)); (CUnpack 0, AUnpack (Raise ValueError));
                  (CUnpack n, AUnpack (Ok (mkDataId "s" 4 5 (Some "i"))))].
Proof. exact packer_life_example_proof. Qed.
