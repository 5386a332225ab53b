(** Several Python threads using one sky map object.

    Each access to shared mutable state in python/lsst/skymap/cachingSkyMap.py and
    tractBuilder.py is one atomic action: reading or writing an element of
    [_tractCache], and reading or writing the attributes [_numPatches], [_tractBBox]
    and [_initialized] of the tract builder, which all tracts of the map share (CPython
    executes each of these as one indivisible bytecode).  Everything else that the
    methods compute is local to the thread or immutable.  Between two actions of
    a thread, other threads may do any number of theirs. *)
From Coq Require Import Reals.
Require Import Verif.Py Verif.Float64 Verif.Geom Verif.PatchInfo Verif.TractBuilder Verif.TractInfo.
Require Import Verif.SkyMap.
Open Scope Z_scope.

Section Threads.
Context {Sky : Type}.
Variable offset : Sky -> R -> R -> Sky.

(** What a thread still has to do in a call: atomic actions and then a result. *)
Inductive prog (A : Type) : Type :=
| PRet (a : A)
| PSlot (i : Z) (k : res (option (tract Sky)) -> prog A)    (* self._tractCache[i] *)
| PStore (i : Z) (t : tract Sky) (k : prog A)               (* self._tractCache[i] = t *)
| PNew (i : Z) (k : nat -> prog A)                          (* a new object (for tract i) *)
| PSetNum (v : pair2) (k : prog A)                          (* self._numPatches = v *)
| PSetBox (v : box) (k : prog A)                            (* self._tractBBox = v *)
| PSetInit (k : prog A)                                     (* self._initialized = True *)
| PInit (k : bool -> prog A)                                (* self._initialized *)
| PNum (k : pair2 -> prog A)                                (* self._numPatches *)
| PBox (k : box -> prog A).                                 (* self._tractBBox *)

(** The shared state with another tract builder state. *)
Definition with_builder (s : smstate Sky) (b : builder) : smstate Sky :=
  mkSM (sm_tracts s) b (sm_next s) (sm_log s).

(** One atomic action. *)
Definition act {A} (p : prog A) (s : smstate Sky) : option (smstate Sky * prog A) :=
  let b := sm_builder s in
  match p with
  | PRet _ _ => None
  | PSlot _ i k => Some (s, k (py_nth (sm_tracts s) i))
  | PStore _ i t k => Some (fst (sm_store i t s), k)
  | PNew _ i k => Some (mkSM (sm_tracts s) b (S (sm_next s)) (sm_log s ++ [i]), k (sm_next s))
  | PSetNum _ v k =>
      Some (with_builder s (mkBuilder (b_config b) (b_patchInner b) (b_patchBorder b) (b_initialized b) v (b_tractBBox b)), k)
  | PSetBox _ v k =>
      Some (with_builder s (mkBuilder (b_config b) (b_patchInner b) (b_patchBorder b) (b_initialized b) (b_numPatches b) v), k)
  | PSetInit _ k =>
      Some (with_builder s (mkBuilder (b_config b) (b_patchInner b) (b_patchBorder b) true (b_numPatches b) (b_tractBBox b)), k)
  | PInit _ k => Some (s, k (b_initialized b))
  | PNum _ k => Some (s, k (b_numPatches b))
  | PBox _ k => Some (s, k (b_tractBBox b))
  end.

(** The call run by one thread without interruption. *)
Fixpoint run {A} (p : prog A) (s : smstate Sky) : smstate Sky * A :=
  let b := sm_builder s in
  match p with
  | PRet _ a => (s, a)
  | PSlot _ i k => run (k (py_nth (sm_tracts s) i)) s
  | PStore _ i t k => run k (fst (sm_store i t s))
  | PNew _ i k => run (k (sm_next s)) (mkSM (sm_tracts s) b (S (sm_next s)) (sm_log s ++ [i]))
  | PSetNum _ v k =>
      run k (with_builder s (mkBuilder (b_config b) (b_patchInner b) (b_patchBorder b) (b_initialized b) v (b_tractBBox b)))
  | PSetBox _ v k =>
      run k (with_builder s (mkBuilder (b_config b) (b_patchInner b) (b_patchBorder b) (b_initialized b) (b_numPatches b) v))
  | PSetInit _ k =>
      run k (with_builder s (mkBuilder (b_config b) (b_patchInner b) (b_patchBorder b) true (b_numPatches b) (b_tractBBox b)))
  | PInit _ k => run (k (b_initialized b)) s
  | PNum _ k => run (k (b_numPatches b)) s
  | PBox _ k => run (k (b_tractBBox b)) s
  end.

Fixpoint pbind {A B} (p : prog A) (f : A -> prog B) : prog B :=
  match p with
  | PRet _ a => f a
  | PSlot _ i k => PSlot _ i (fun r => pbind (k r) f)
  | PStore _ i t k => PStore _ i t (pbind k f)
  | PNew _ i k => PNew _ i (fun n => pbind (k n) f)
  | PSetNum _ v k => PSetNum _ v (pbind k f)
  | PSetBox _ v k => PSetBox _ v (pbind k f)
  | PSetInit _ k => PSetInit _ (pbind k f)
  | PInit _ k => PInit _ (fun b => pbind (k b) f)
  | PNum _ k => PNum _ (fun n => pbind (k n) f)
  | PBox _ k => PBox _ (fun b => pbind (k b) f)
  end.
(** Sequencing with exceptions. *)
Definition ptry {A B} (p : prog (res A)) (f : A -> prog (res B)) : prog (res B) :=
  pbind p (fun r => match r with Ok a => f a | Raise e => PRet _ (Raise e) end).

(** The new tract object gets its identity. *)
Definition with_oid (t : tract Sky) (oid : nat) : tract Sky :=
  mkTract oid (t_id t) (t_ctr t) (t_verts t) (t_overlap t) (t_numPatches t) (t_bbox t) (t_wcs t) (t_innerBoxCorners t).

(** cachingSkyMap.py:80-92 [CachingSkyMap.__getitem__], the [generateTract] methods, and
    tractBuilder.py:87-92: the cache is read, read again if the tract is there; else the
    tract is computed, which stores patch counts, box and flag in the shared
    builder, and is put into the cache.  baseSkyMap.py:299-300 for maps that make
    all tracts in their constructor. *)
Definition getitem_p (d : skydef Sky) (i : Z) : prog (res (tract Sky)) :=
  let result := fun r : res (option (tract Sky)) =>
    match r with Ok (Some t) => Ok t | Ok None => Raise TypeError | Raise e => Raise e end in
  match sd_kind d with
  | CachingMap =>
      if (i <? 0) || (sd_num d <? i) then PRet _ (Raise IndexError)
      else PSlot _ i (fun r =>
        match r with
        | Raise e => PRet _ (Raise e)
        | Ok (Some _) => PSlot _ i (fun r' => PRet _ (result r'))
        | Ok None =>
            match (a <- sd_args d i ;; make_tract offset (builder_init (sd_cfg d)) 0 i a) with
            | Raise e => PRet _ (Raise e)
            | Ok (b', t) =>
                PNew _ i (fun oid =>
                PSetNum _ (b_numPatches b')
               (PSetBox _ (b_tractBBox b')
               (PSetInit _
               (PStore _ i (with_oid t oid)
               (PRet _ (Ok (with_oid t oid)))))))
            end
        end)
  | EagerMap => PSlot _ i (fun r => PRet _ (result r))
  end.

(** The attributes of the builder that never change, for the configuration [c]. *)
Definition inner_of (c : tb_config) : pair2 := b_patchInner (builder_init c).
Definition border_of (c : tb_config) : Z := b_patchBorder (builder_init c).

(** tractBuilder.py:144-165 [getSequentialPatchIndexFromPair]: [_numPatches] is read after the checks. *)
Definition seqFromPair_p (ix : pyindex) : prog (res Z) :=
  match ix with
  | IxIndex2D x y | IxSeq [x; y] => PNum _ (fun n => PRet _ (Ok (fst n * y + x)))
  | _ => PRet _ (Raise ValueError)
  end.
(** tractBuilder.py:167-181 [getPatchIndexPair] *)
Definition indexPair_p (n : Z) : prog (res pair2) :=
  PNum _ (fun v => PRet _ (x <- py_mod n (fst v) ;; y <- py_floordiv n (fst v) ;; Ok (x, y))).

(** tractBuilder.py:223-253 and 320-354 [getPatchInfo]: reads of [_initialized]; of
    [_numPatches] for a number, for each axis and for the sequential index; and of
    [_tractBBox] for the check and (legacy) for the clipping. *)
Definition getPatchInfo_p {W} (c : tb_config) (ix : pyindex) (w : W) : prog (res (patch W)) :=
  PInit _ (fun init =>
  if negb init then PRet _ (Raise RuntimeError)
  else ptry (match ix with
             | IxIndex2D x y => PRet _ (Ok (x, y))
             | IxNum n => indexPair_p n
             | IxSeq _ | IxOther => PRet _ (index2D_of_star ix)
             end) (fun i =>
    let '(x, y) := i in
    PNum _ (fun n1 => if negb ((0 <=? x) && (x <? fst n1)) then PRet _ (Raise IndexError)
    else PNum _ (fun n2 => if negb ((0 <=? y) && (y <? snd n2)) then PRet _ (Raise IndexError)
    else
      let innerBBox := box_make (x * fst (inner_of c), y * snd (inner_of c)) (inner_of c) in
      PBox _ (fun b1 => if negb (box_contains_box b1 innerBBox) then PRet _ (Raise RuntimeError)
      else
        let grown := box_grow innerBBox (border_of c) in
        match c with
        | LegacyCfg _ _ =>
            PBox _ (fun b2 => ptry (seqFromPair_p (IxIndex2D x y)) (fun s =>
              PRet _ (PatchInfo_init (x, y) innerBBox (box_clip grown b2) s w (IxSeq [0; 0]) 0 0 0)))
        | CellCfg (cw, ch) cellBorder nInner nBorder =>
            ptry (seqFromPair_p (IxIndex2D x y)) (fun s =>
              PRet _ (PatchInfo_init (x, y) innerBBox grown s w (IxIndex2D cw ch) cellBorder nInner nBorder))
        end))))).

(** tractInfo.py:211-222 [findPatch] *)
Definition findPatch_p (c : tb_config) (t : tract Sky) (coord : Sky) : prog (res (patch (wcs Sky))) :=
  match skyToPixel (t_wcs t) coord with
  | PixRaise WDomainError | PixRaise WRuntimeError => PRet _ (Raise LookupError)
  | PixRaise WOtherError => PRet _ (Raise WcsError)
  | pixel =>
      let '(px, py) := point2I_of_pix pixel in
      if negb (box_contains_point (t_bbox t) (px, py)) then PRet _ (Raise LookupError)
      else match (ix <- py_int_truediv px (fst (inner_of c)) ;;
                  iy <- py_int_truediv py (snd (inner_of c)) ;; Ok [ix; iy]) with
           | Ok l => getPatchInfo_p c (IxSeq l) (t_wcs t)
           | Raise e => PRet _ (Raise e)
           end
  end.

(** A comprehension over [l]. *)
Fixpoint mapM_p {A B} (f : A -> prog (res B)) (l : list A) : prog (res (list B)) :=
  match l with
  | [] => PRet _ (Ok [])
  | x :: l => ptry (f x) (fun y => ptry (mapM_p f l) (fun ys => PRet _ (Ok (y :: ys))))
  end.

(** tractInfo.py:224-268 [findPatchList] *)
Definition findPatchList_p (c : tb_config) (t : tract Sky) (coordList : list Sky)
  : prog (res (list (patch (wcs Sky)))) :=
  match fold_left (include_caught (t_wcs t)) coordList (Ok Box2DEmpty) with
  | Raise e => PRet _ (Raise e)
  | Ok box2D =>
      let bbox := box_clip (box_grow (box_of_box2d box2D) (border_of c)) (t_bbox t) in
      if box_isEmpty bbox then PRet _ (Ok [])
      else
        match (llx <- py_int_truediv (minx bbox) (fst (inner_of c)) ;;
               lly <- py_int_truediv (miny bbox) (snd (inner_of c)) ;;
               urx <- py_int_truediv (maxx bbox) (fst (inner_of c)) ;;
               ury <- py_int_truediv (maxy bbox) (snd (inner_of c)) ;;
               Ok (flat_map (fun xInd => map (fun yInd => (xInd, yInd)) (zrange lly (ury + 1)))
                            (zrange llx (urx + 1)))) with
        | Raise e => PRet _ (Raise e)
        | Ok l => mapM_p (fun i => getPatchInfo_p c (IxSeq [fst i; snd i]) (t_wcs t)) l
        end
  end.

(** tractInfo.py:405-409 [__iter__], run to exhaustion *)
Definition tract_iter_p (c : tb_config) (t : tract Sky) : prog (res (list (patch (wcs Sky)))) :=
  mapM_p (fun i => getPatchInfo_p c (IxIndex2D (fst i) (snd i)) (t_wcs t))
         (let '(nx, ny) := t_numPatches t in grid nx ny).

(** The calls that threads make: [skymap[i]] and questions to a tract. *)
Inductive call :=
| CGet (i : Z)
| CPatch (t : tract Sky) (ix : pyindex)
| CSeq (t : tract Sky) (ix : pyindex)
| CPair (t : tract Sky) (n : Z)
| CFind (t : tract Sky) (coord : Sky)
| CFindList (t : tract Sky) (coords : list Sky)
| CIter (t : tract Sky).
Inductive answer :=
| ATract (r : res (tract Sky))
| APatch (r : res (patch (wcs Sky)))
| ANum (r : res Z)
| APair (r : res pair2)
| APatches (r : res (list (patch (wcs Sky)))).

Definition call_prog (d : skydef Sky) (c : call) : prog answer :=
  let cfg := sd_cfg d in
  match c with
  | CGet i => pbind (getitem_p d i) (fun r => PRet _ (ATract r))
  | CPatch t ix => pbind (getPatchInfo_p cfg ix (t_wcs t)) (fun r => PRet _ (APatch r))
  | CSeq _ ix => pbind (seqFromPair_p ix) (fun r => PRet _ (ANum r))
  | CPair _ n => pbind (indexPair_p n) (fun r => PRet _ (APair r))
  | CFind t coord => pbind (findPatch_p cfg t coord) (fun r => PRet _ (APatch r))
  | CFindList t coords => pbind (findPatchList_p cfg t coords) (fun r => PRet _ (APatches r))
  | CIter t => pbind (tract_iter_p cfg t) (fun r => PRet _ (APatches r))
  end.

(** The answer to a question about the patches of a tract while the builder is [b], as
    in the model of one thread (TractInfo.v). *)
Definition patch_answer (b : builder) (c : call) : option answer :=
  match c with
  | CGet _ => None
  | CPatch t ix => Some (APatch (tract_getPatchInfo b t ix))
  | CSeq _ ix => Some (ANum (getSequentialPatchIndexFromPair b ix))
  | CPair _ n => Some (APair (getPatchIndexPair b n))
  | CFind t coord => Some (APatch (findPatch b t coord))
  | CFindList t coords => Some (APatches (findPatchList b t coords))
  | CIter t => Some (APatches (tract_iter b t))
  end.
(** The call in the model of one thread (SkyMap.v). *)
Definition seq_answer (d : skydef Sky) (c : call) (s : smstate Sky) : smstate Sky * answer :=
  match c with
  | CGet i => let '(s', r) := sm_getitem offset d i s in (s', ATract r)
  | _ => (s, match patch_answer (sm_builder s) c with Some a => a | None => ATract (Raise TypeError) end)
  end.

(** The tract that a call is about. *)
Definition call_tract (c : call) : option (tract Sky) :=
  match c with
  | CGet _ => None
  | CPatch t _ | CSeq t _ | CPair t _ | CFind t _ | CFindList t _ | CIter t => Some t
  end.

(** The process: the sky map, what each thread is doing, and the calls that have returned. *)
Record process := mkProc {
  pr_map : smstate Sky; pr_threads : nat -> option (call * prog answer); pr_done : list (call * answer) }.
Definition set_thread (f : nat -> option (call * prog answer)) (n : nat) v : nat -> option (call * prog answer) :=
  fun m => if Nat.eqb m n then v else f m.

(** A step of any of the threads.  A thread may ask a tract that some thread has obtained, or
    that was obtained before the threads were started, when the map was in the state [s0]. *)
Inductive pstep (d : skydef Sky) (s0 : smstate Sky) : process -> process -> Prop :=
| ps_call p n c :
    pr_threads p n = None ->
    (forall t, call_tract c = Some t ->
       exists i, In (CGet i, ATract (Ok t)) (pr_done p) \/ (0 <= i /\ sm_getitem offset d i s0 = (s0, Ok t))) ->
    pstep d s0 p (mkProc (pr_map p) (set_thread (pr_threads p) n (Some (c, call_prog d c))) (pr_done p))
| ps_act p n c q s' q' :
    pr_threads p n = Some (c, q) -> act q (pr_map p) = Some (s', q') ->
    pstep d s0 p (mkProc s' (set_thread (pr_threads p) n (Some (c, q'))) (pr_done p))
| ps_return p n c a :
    pr_threads p n = Some (c, PRet _ a) ->
    pstep d s0 p (mkProc (pr_map p) (set_thread (pr_threads p) n None) (pr_done p ++ [(c, a)])).

(** What can be reached when the threads start on the map in state [s0]. *)
Inductive schedule (d : skydef Sky) (s0 : smstate Sky) : process -> Prop :=
| sc_start : schedule d s0 (mkProc s0 (fun _ => None) [])
| sc_step p p' : schedule d s0 p -> pstep d s0 p p' -> schedule d s0 p'.
End Threads.
Arguments PRet {Sky A}.  Arguments PSlot {Sky A}.  Arguments PStore {Sky A}.  Arguments PNew {Sky A}.
Arguments PSetNum {Sky A}.  Arguments PSetBox {Sky A}.  Arguments PSetInit {Sky A}.
Arguments PInit {Sky A}.  Arguments PNum {Sky A}.  Arguments PBox {Sky A}.
