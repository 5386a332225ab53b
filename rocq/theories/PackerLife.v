(** A packer over its life: packers.py:238-276 with the two objects that a packer keeps, the
    band mapping, which is the caller's dict, and the list of bands made by the first [unpack]; used by
    any number of threads, as sequences of atomic reads and writes of these objects. *)
From Coq Require Import String.
Require Import Verif.Py Verif.Packers.
Open Scope list_scope.
Open Scope Z_scope.

(** What a thread still has to do: read the mapping, read or set [_bands_list]. *)
Inductive kprog (A : Type) :=
| KRet (a : A)
| KDict (k : band_map -> kprog A)
| KList (k : option (list band_key) -> kprog A)
| KSetList (l : list band_key) (k : kprog A).
Arguments KRet {A}. Arguments KDict {A}. Arguments KList {A}. Arguments KSetList {A}.

Inductive kcall := CPack (d : data_id) | CUnpack (n : Z) | CBits.
Inductive kanswer := APack (r : res Z) | AUnpack (r : res data_id) | ABits (b : Z).

(** packers.py:246-265 [_pack] (and the check of [DimensionPacker.pack], external): the mapping is read
    for [get] and again for the number. *)
Definition pack_p (p : packer) (d : data_id) : kprog (res Z) :=
  if negb (String.eqb (d_skymap d) (f_skymap (p_fixed p))) then KRet (Raise ValueError)
  else if p_n_patches p <=? d_patch d then KRet (Raise ValueError)
  else if p_n_tracts p <=? d_tract d then KRet (Raise ValueError)
  else
    let packed := d_patch d + p_n_patches p * d_tract d in
    if negb (p_n_bands p =? 0) then
      match d_band d with
      | None => KRet (Raise KeyError)
      | Some b =>
          KDict (fun m =>
          match dict_get m (Some b) with
          | None => KRet (Raise ValueError)
          | Some band_index =>
              if p_n_bands p <=? band_index then KRet (Raise ValueError)
              else KDict (fun m' =>
                match dict_get m' (Some b) with
                | None => KRet (Raise KeyError)
                | Some v => KRet (Ok (packed + v * p_n_patches p * p_n_tracts p))
                end)
          end)
      end
    else KRet (Ok packed).

(** packers.py:275-276: the tract and patch of [packedId], and the data id with the band, if any. *)
Definition finish_unpack (p : packer) (band : option band_key) (packedId : Z) : res data_id :=
  tp <- py_divmod packedId (p_n_patches p) ;;
  match band with
  | Some (Some b) => Ok (mkDataId (f_skymap (p_fixed p)) (fst tp) (snd tp) (Some b))
  | Some None => Raise ValueError
  | None => if name_in "band" (p_dims p) then Raise KeyError
            else Ok (mkDataId (f_skymap (p_fixed p)) (fst tp) (snd tp) None)
  end.
(** packers.py:267-276 [unpack]: [_bands_list] is made from the mapping if it is not there, then read for the
    index. *)
Definition unpack_p (p : packer) (packedId : Z) : kprog (res data_id) :=
  if negb (p_n_bands p =? 0) then
    match py_divmod packedId (p_n_tracts p * p_n_patches p) with
    | Raise e => KRet (Raise e)
    | Ok (index, rest) =>
        let last := KList (fun v =>
          match v with
          | None => KRet (Raise TypeError)
          | Some l => KRet (b <- py_nth l index ;; finish_unpack p (Some b) rest)
          end) in
        KList (fun v => match v with Some _ => last | None => KDict (fun m => KSetList (map fst m) last) end)
    end
  else KRet (finish_unpack p None packedId).

Fixpoint kmap {A B} (f : A -> B) (q : kprog A) : kprog B :=
  match q with
  | KRet a => KRet (f a)
  | KDict k => KDict (fun m => kmap f (k m))
  | KList k => KList (fun v => kmap f (k v))
  | KSetList l k => KSetList l (kmap f k)
  end.
(** packers.py:238-244: [maxBits] reads only numbers that never change. *)
Definition kcall_prog (p : packer) (c : kcall) : kprog kanswer :=
  match c with
  | CPack d => kmap APack (pack_p p d)
  | CUnpack n => kmap AUnpack (unpack_p p n)
  | CBits => KRet (ABits (packer_maxBits p))
  end.

(** The packer in use: the contents of the mapping, [_bands_list], the calls in progress, the calls that have ended. *)
Record klife := mkLife {
  l_dict : band_map; l_list : option (list band_key);
  l_threads : nat -> option (kcall * kprog kanswer); l_done : list (kcall * kanswer) }.
Definition kupd {A} (f : nat -> A) (n : nat) (a : A) : nat -> A := fun m => if Nat.eqb m n then a else f m.

Inductive kstep (p : packer) : klife -> klife -> Prop :=
| ks_call s n c : l_threads s n = None ->
    kstep p s (mkLife (l_dict s) (l_list s) (kupd (l_threads s) n (Some (c, kcall_prog p c))) (l_done s))
| ks_dict s n c k : l_threads s n = Some (c, KDict k) ->
    kstep p s (mkLife (l_dict s) (l_list s) (kupd (l_threads s) n (Some (c, k (l_dict s)))) (l_done s))
| ks_list s n c k : l_threads s n = Some (c, KList k) ->
    kstep p s (mkLife (l_dict s) (l_list s) (kupd (l_threads s) n (Some (c, k (l_list s)))) (l_done s))
| ks_setlist s n c l k : l_threads s n = Some (c, KSetList l k) ->
    kstep p s (mkLife (l_dict s) (Some l) (kupd (l_threads s) n (Some (c, k))) (l_done s))
| ks_ret s n c a : l_threads s n = Some (c, KRet a) ->
    kstep p s (mkLife (l_dict s) (l_list s) (kupd (l_threads s) n None) (l_done s ++ [(c, a)])).

(** The lives of the packer [p]: [changes] says whether the mapping can be changed meanwhile by someone who has
    it; [seen] are the contents that the mapping has had, the present ones first. *)
Inductive lives (p : packer) (changes : bool) : list band_map -> klife -> Prop :=
| lv_new : lives p changes [p_bands p] (mkLife (p_bands p) None (fun _ => None) [])
| lv_step seen s s' : lives p changes seen s -> kstep p s s' -> lives p changes seen s'
| lv_change seen s m : lives p changes seen s -> changes = true ->
    lives p changes (m :: seen) (mkLife m (l_list s) (l_threads s) (l_done s)).

(** A packer like [p] with the mapping [m]. *)
Definition with_bands (p : packer) (m : band_map) : packer :=
  mkPacker (p_fixed p) (p_dims p) m (p_n_bands p) (p_n_tracts p) (p_n_patches p).
(** What it answers (Packers.v). *)
Definition kanswer_of (p : packer) (c : kcall) : kanswer :=
  match c with
  | CPack d => APack (packer_pack p d)
  | CUnpack n => AUnpack (packer_unpack p n)
  | CBits => ABits (packer_maxBits p)
  end.
