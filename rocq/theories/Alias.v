(** Identity of the mutable objects that a sky map hands out.

    lsst.geom Box2I and Extent2I are mutable (the code itself assigns to their
    elements, tractBuilder.py:84-85, and grows and clips boxes in place,
    tractBuilder.py:244-246).  This file models the same methods as TractInfo.v,
    TractBuilder.v and PatchInfo.v with a heap of such objects, so that it is
    visible which calls return an object of their own and which return the very
    object that the sky map, a patch or a cell keeps.  The values computed are
    those of the methods modelled there, applied to what the objects hold now.
    Index2D, SpherePoint, SkyWcs, ints and tuples are immutable. *)
From Coq Require Import Reals.
Require Import Verif.Py Verif.Geom Verif.PatchInfo Verif.TractBuilder Verif.TractInfo Verif.SkyMap.
Open Scope Z_scope.

(** The Box2I and Extent2I objects; an object is its number. *)
Record heap := mkHeap { h_box : list box; h_ext : list pair2 }.
Inductive ref := RBox (n : nat) | RExt (n : nat).
Inductive value := VBox (b : box) | VExt (e : pair2).

Definition box_at (h : heap) (n : nat) : box := nth n (h_box h) box_empty.
Definition ext_at (h : heap) (n : nat) : pair2 := nth n (h_ext h) (0, 0).
(** A new object. *)
Definition new_box (h : heap) (b : box) : heap * nat :=
  (mkHeap (h_box h ++ [b]) (h_ext h), length (h_box h)).
Definition new_ext (h : heap) (e : pair2) : heap * nat :=
  (mkHeap (h_box h) (h_ext h ++ [e]), length (h_ext h)).
(** In-place change of an object by whoever has it (a value of the other class
    does not apply). *)
Definition change (h : heap) (r : ref) (v : value) : heap :=
  match r, v with
  | RBox n, VBox b => mkHeap (list_set (h_box h) n b) (h_ext h)
  | RExt n, VExt e => mkHeap (h_box h) (list_set (h_ext h) n e)
  | _, _ => h
  end.
Definition value_at (h : heap) (r : ref) : value :=
  match r with RBox n => VBox (box_at h n) | RExt n => VExt (ext_at h n) end.

Section Alias.
Context {Sky : Type}.
Variable offset : Sky -> R -> R -> Sky.

(** tractBuilder.py:215-221, 305-318, 89-92: the builder keeps the Extent2I of
    the patch dimensions and the Box2I of the tract last set up.  (The cell
    dimensions it keeps are handed out only as copies, patchInfo.py:79, and
    nothing changes them: they stay in the configuration.) *)
Record hbuilder := mkHB {
  hb_config : tb_config; hb_dims : nat; hb_border : Z; hb_initialized : bool;
  hb_numPatches : pair2; hb_tractBBox : nat }.
Definition read_builder (h : heap) (b : hbuilder) : builder :=
  mkBuilder (hb_config b) (ext_at h (hb_dims b)) (hb_border b) (hb_initialized b)
            (hb_numPatches b) (box_at h (hb_tractBBox b)).

(** tractInfo.py:87-97: the tract keeps its Box2I; [ht_attrs] has the other
    (immutable) attributes, its [t_bbox] is not used. *)
Record htract := mkHT { ht_attrs : tract Sky; ht_bbox : nat }.
Definition read_tract (h : heap) (t : htract) : tract Sky :=
  let a := ht_attrs t in
  mkTract (t_oid a) (t_id a) (t_ctr a) (t_verts a) (t_overlap a) (t_numPatches a)
          (box_at h (ht_bbox t)) (t_wcs a) (t_innerBoxCorners a).

(** patchInfo.py:68-87: the patch keeps two Box2I and one Extent2I. *)
Record hpatch := mkHP { hp_attrs : patch (wcs Sky); hp_inner : nat; hp_outer : nat; hp_cellInner : nat }.
Definition read_patch (h : heap) (p : hpatch) : patch (wcs Sky) :=
  let a := hp_attrs p in
  mkPatch (p_index a) (p_seq a) (box_at h (hp_inner p)) (box_at h (hp_outer p)) (p_wcs a)
          (ext_at h (hp_cellInner p)) (p_cellBorder a) (p_nBorder a) (p_numCells a).

(** cellInfo.py:46-53: the cell keeps two Box2I. *)
Record hcell := mkHC { hc_attrs : cell (wcs Sky); hc_inner : nat; hc_outer : nat }.
Definition read_cell (h : heap) (c : hcell) : cell (wcs Sky) :=
  let a := hc_attrs c in
  mkCell (c_index a) (c_seq a) (box_at h (hc_inner c)) (box_at h (hc_outer c)) (c_wcs a).

(** Which call an object that the user has came from. *)
Inductive origin :=
| FromTractBBox              (* tract.bbox *)
| FromPatchDims              (* tract.patch_inner_dimensions *)
| FromPatch (k : nat)        (* inner_bbox, outer_bbox, cell_inner_dimensions of the k-th patch *)
| FromCell (k : nat).        (* inner_bbox, outer_bbox of the k-th cell *)

(** The process: the objects, the sky map, and what the user holds. *)
Record world := mkWorld {
  w_heap : heap;
  w_builder : hbuilder; w_tracts : list (option htract); w_next : nat; w_log : list Z;
  w_patches : list hpatch; w_cells : list hcell; w_given : list (origin * ref) }.

(** The sky map as the model of SkyMap.v sees it. *)
Definition read_map (w : world) : smstate Sky :=
  mkSM (map (option_map (read_tract (w_heap w))) (w_tracts w))
       (read_builder (w_heap w) (w_builder w)) (w_next w) (w_log w).

(** A new tract: [make_tract] with the builder as it is; setupPatches assigns
    [_numPatches], [_tractBBox] (a new Box2I, tractBuilder.py:91) and
    [_initialized] (89-92), and the tract keeps a new Box2I (tractInfo.py:143). *)
Definition w_generate (d : skydef Sky) (i : Z) (w : world) : world * res htract :=
  match (a <- sd_args d i ;; make_tract offset (read_builder (w_heap w) (w_builder w)) (w_next w) i a) with
  | Ok (b, t) =>
      let '(h1, lb) := new_box (w_heap w) (b_tractBBox b) in
      let '(h2, lt) := new_box h1 (t_bbox t) in
      let o := w_builder w in
      (mkWorld h2 (mkHB (hb_config o) (hb_dims o) (hb_border o) (b_initialized b) (b_numPatches b) lb)
               (w_tracts w) (S (w_next w)) (w_log w ++ [i]) (w_patches w) (w_cells w) (w_given w),
       Ok (mkHT t lt))
  | Raise e => (w, Raise e)
  end.

Definition set_tracts (w : world) (l : list (option htract)) : world :=
  mkWorld (w_heap w) (w_builder w) l (w_next w) (w_log w) (w_patches w) (w_cells w) (w_given w).

(** cachingSkyMap.py:80-92, baseSkyMap.py:299-300 [__getitem__]: as [sm_getitem]. *)
Definition w_getitem (d : skydef Sky) (i : Z) (w : world) : world * res htract :=
  match sd_kind d with
  | CachingMap =>
      if (i <? 0) || (sd_num d <? i) then (w, Raise IndexError)
      else match py_nth (w_tracts w) i with
           | Raise e => (w, Raise e)
           | Ok (Some t) => (w, Ok t)
           | Ok None =>
               match w_generate d i w with
               | (w', Ok t) => (set_tracts w' (list_set (w_tracts w') (Z.to_nat i) (Some t)), Ok t)
               | (w', Raise e) => (w', Raise e)
               end
           end
  | EagerMap =>
      match py_nth (w_tracts w) i with
      | Raise e => (w, Raise e)
      | Ok (Some t) => (w, Ok t)
      | Ok None => (w, Raise TypeError)
      end
  end.

(** Constructors, as [sm_new]; the builder's own objects come first (the box does
    not exist yet in Python). *)
Definition w_start (d : skydef Sky) (l : list (option htract)) : world :=
  let b := builder_init (sd_cfg d) in
  mkWorld (mkHeap [b_tractBBox b] [b_patchInner b])
          (mkHB (b_config b) 0 (b_patchBorder b) (b_initialized b) (b_numPatches b) 0)
          l 0 [] [] [] [].
Fixpoint w_fill (d : skydef Sky) (ids : list Z) (w : world) : res world :=
  match ids with
  | [] => Ok w
  | i :: ids =>
      match w_generate d i w with
      | (w', Ok t) => w_fill d ids (set_tracts w' (w_tracts w' ++ [Some t]))
      | (_, Raise e) => Raise e
      end
  end.
Definition w_new (d : skydef Sky) : res world :=
  match sd_kind d with
  | CachingMap => Ok (w_start d (repeat None (Z.to_nat (sd_num d))))
  | EagerMap => w_fill d (zrange 0 (sd_num d)) (w_start d [])
  end.

(** The calls that make patches: tract[index], findPatch, findPatchList and the
    iteration over a tract, as functions of builder and tract. *)
Inductive query := QIndex (ix : pyindex) | QFind (c : Sky) | QFindList (cs : list Sky) | QIter.
Definition ask (q : query) (b : builder) (t : tract Sky) : res (list (patch (wcs Sky))) :=
  match q with
  | QIndex ix => p <- tract_getPatchInfo b t ix ;; Ok [p]
  | QFind c => p <- findPatch b t c ;; Ok [p]
  | QFindList cs => findPatchList b t cs
  | QIter => tract_iter b t
  end.

(** Each patch is a new object with a new inner box (tractBuilder.py:239, 336), a
    new outer box (244, 341: a copy, grown in place) and a new Extent2I for the
    cells (patchInfo.py:79). *)
Definition new_patch (h : heap) (p : patch (wcs Sky)) : heap * hpatch :=
  let '(h1, i) := new_box h (p_inner p) in
  let '(h2, o) := new_box h1 (p_outer p) in
  let '(h3, e) := new_ext h2 (p_cellInner p) in
  (h3, mkHP p i o e).
Fixpoint new_patches (h : heap) (l : list (patch (wcs Sky))) : heap * list hpatch :=
  match l with
  | [] => (h, [])
  | p :: l => let '(h1, x) := new_patch h p in
              let '(h2, xs) := new_patches h1 l in (h2, x :: xs)
  end.
(** patchInfo.py:250-252: new boxes for each cell. *)
Definition new_cell (h : heap) (c : cell (wcs Sky)) : heap * hcell :=
  let '(h1, i) := new_box h (c_inner c) in
  let '(h2, o) := new_box h1 (c_outer c) in
  (h2, mkHC c i o).

(** What the user can do. *)
Inductive action :=
| AGetitem (i : Z)                    (* skymap[i] *)
| ABBox (i : Z)                       (* bbox of the tract i that exists *)
| ADims (i : Z)                       (* patch_inner_dimensions of it *)
| AQuery (i : Z) (q : query)          (* patches of it *)
| AInner (k : nat) | AOuter (k : nat) | ACellDims (k : nat)   (* attributes of the k-th patch *)
| ACell (k : nat) (ix : pyindex)      (* a cell of the k-th patch *)
| ACellInner (k : nat) | ACellOuter (k : nat)                 (* attributes of the k-th cell *)
| AChange (j : nat) (v : value).      (* change the j-th object obtained, in place *)

Definition set_heap (w : world) (h : heap) : world :=
  mkWorld h (w_builder w) (w_tracts w) (w_next w) (w_log w) (w_patches w) (w_cells w) (w_given w).
Definition give (w : world) (o : origin) (r : ref) : world :=
  mkWorld (w_heap w) (w_builder w) (w_tracts w) (w_next w) (w_log w) (w_patches w) (w_cells w)
          (w_given w ++ [(o, r)]).
Definition slot (w : world) (i : Z) : option htract :=
  if i <? 0 then None else match nth_error (w_tracts w) (Z.to_nat i) with Some o => o | None => None end.

(** The effect of one call; a call that raises or whose object does not exist has none. *)
Definition act (d : skydef Sky) (a : action) (w : world) : world :=
  match a with
  | AGetitem i => fst (w_getitem d i w)
  | ABBox i =>                       (* tractInfo.py:270-273: geom.Box2I(self._bbox), a copy *)
      match slot w i with
      | Some t => let '(h, n) := new_box (w_heap w) (box_at (w_heap w) (ht_bbox t)) in
                  give (set_heap w h) FromTractBBox (RBox n)
      | None => w
      end
  | ADims i =>                       (* tractInfo.py:331-334, tractBuilder.py:124-127: the object itself *)
      match slot w i with
      | Some _ => give w FromPatchDims (RExt (hb_dims (w_builder w)))
      | None => w
      end
  | AQuery i q =>
      match slot w i with
      | Some t =>
          match ask q (read_builder (w_heap w) (w_builder w)) (read_tract (w_heap w) t) with
          | Ok l => let '(h, ps) := new_patches (w_heap w) l in
                    mkWorld h (w_builder w) (w_tracts w) (w_next w) (w_log w)
                            (w_patches w ++ ps) (w_cells w) (w_given w)
          | Raise _ => w
          end
      | None => w
      end
  | AInner k =>                      (* patchInfo.py:125-133: the object itself *)
      match nth_error (w_patches w) k with
      | Some p => give w (FromPatch k) (RBox (hp_inner p)) | None => w end
  | AOuter k =>                      (* patchInfo.py:137-145: the object itself *)
      match nth_error (w_patches w) k with
      | Some p => give w (FromPatch k) (RBox (hp_outer p)) | None => w end
  | ACellDims k =>                   (* patchInfo.py:262-265: the object itself *)
      match nth_error (w_patches w) k with
      | Some p => give w (FromPatch k) (RExt (hp_cellInner p)) | None => w end
  | ACell k ix =>                    (* patchInfo.py:209-260 *)
      match nth_error (w_patches w) k with
      | Some p => match getCellInfo (read_patch (w_heap w) p) ix with
                  | Ok c => let '(h, x) := new_cell (w_heap w) c in
                            mkWorld h (w_builder w) (w_tracts w) (w_next w) (w_log w)
                                    (w_patches w) (w_cells w ++ [x]) (w_given w)
                  | Raise _ => w
                  end
      | None => w
      end
  | ACellInner k =>                  (* cellInfo.py:91-99 *)
      match nth_error (w_cells w) k with
      | Some c => give w (FromCell k) (RBox (hc_inner c)) | None => w end
  | ACellOuter k =>                  (* cellInfo.py:103-111 *)
      match nth_error (w_cells w) k with
      | Some c => give w (FromCell k) (RBox (hc_outer c)) | None => w end
  | AChange j v =>
      match nth_error (w_given w) j with
      | Some (_, r) => set_heap w (change (w_heap w) r v) | None => w end
  end.
End Alias.
Arguments htract Sky : clear implicits.
Arguments hpatch Sky : clear implicits.
Arguments hcell Sky : clear implicits.
Arguments world Sky : clear implicits.
Arguments query Sky : clear implicits.
Arguments action Sky : clear implicits.
