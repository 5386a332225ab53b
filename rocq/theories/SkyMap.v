(** Model of python/lsst/skymap/baseSkyMap.py (tract access and searches) and
    python/lsst/skymap/cachingSkyMap.py.

    A sky map object is a state: its list of tracts ([None] = not generated
    yet), the one tract builder object that all its tracts share, the number of
    tract objects created so far (used as the identity of the next one), and a
    ghost log of the indices for which a tract was generated.  Methods are
    state-passing functions; the state persists when an exception is raised. *)
From Coq Require Import Reals.
From Flocq Require Import Raux.
Require Import Verif.Py Verif.Geom Verif.PatchInfo Verif.TractBuilder Verif.TractInfo.
Open Scope Z_scope.

Section SkyMap.
Context {Sky : Type}.
Variable offset : Sky -> R -> R -> Sky.

(** The arguments with which a sky map class constructs a tract: those of
    [TractInfo] (used by Equat, Dodeca, Healpix) or of [ExplicitTractInfo] (used
    by Discrete and Rings), without id and tract builder. *)
Inductive tract_args :=
| PlainArgs (ctr : Sky) (verts : list Sky) (overlap : R) (w : wcs Sky)
            (corners : option ((R * R) * (R * R)))
| ExplicitArgs (ctr : Sky) (radius overlap : R) (w : wcs Sky)
            (corners : option ((R * R) * (R * R))).

(** Construction of the tract [id] with the (shared) builder. *)
Definition make_tract (b : builder) (oid : nat) (id : Z) (a : tract_args)
  : res (builder * tract Sky) :=
  match a with
  | PlainArgs ctr verts overlap w corners =>
      TractInfo_init offset b oid id ctr verts overlap w corners
  | ExplicitArgs ctr radius overlap w corners =>
      ExplicitTractInfo_init offset b oid id ctr radius overlap w corners
  end.

(** Maps built tract by tract on demand ([CachingSkyMap]: Rings, Discrete,
    Healpix) and maps whose constructor builds all tracts (Equat, Dodeca). *)
Inductive sm_kind := CachingMap | EagerMap.

(** What a class and its (frozen) configuration determine: kind, tract builder
    configuration, number of tracts, and the arguments of each tract. *)
Record skydef := mkDef {
  sd_kind : sm_kind; sd_cfg : tb_config; sd_num : Z; sd_args : Z -> res tract_args }.

Record smstate := mkSM {
  sm_tracts : list (option (tract Sky)); sm_builder : builder; sm_next : nat; sm_log : list Z }.

(** State-passing computations with exceptions. *)
Definition SM (A : Type) : Type := smstate -> smstate * res A.
Definition smret {A} (a : A) : SM A := fun s => (s, Ok a).
Definition smlift {A} (r : res A) : SM A := fun s => (s, r).
Definition smbind {A B} (m : SM A) (f : A -> SM B) : SM B :=
  fun s => match m s with
           | (s', Ok a) => f a s'
           | (s', Raise e) => (s', Raise e)
           end.
Notation "x <-- m ;; k" := (smbind m (fun x => k))
  (at level 61, m at next level, right associativity).

(** The tract builder object as it is now. *)
Definition sm_cur_builder : SM builder := fun s => (s, Ok (sm_builder s)).

(** A new tract with the shared builder: the [generateTract] methods
    (ringsSkyMap.py:148-156, discreteSkyMap.py:75, healpixSkyMap.py:134) and the
    loop bodies of equatSkyMap.py:92-99, dodecaSkyMap.py:84-93. *)
Definition generateTract (d : skydef) (index : Z) : SM (tract Sky) := fun s =>
  match (a <- sd_args d index ;; make_tract (sm_builder s) (sm_next s) index a) with
  | Ok (b, t) => (mkSM (sm_tracts s) b (S (sm_next s)) (sm_log s ++ [index]), Ok t)
  | Raise e => (s, Raise e)
  end.

(** [lst[i] = v] for [0 <= i < len lst] (the only case used). *)
Fixpoint list_set {A} (l : list A) (i : nat) (v : A) : list A :=
  match l, i with
  | [], _ => []
  | _ :: l, O => v :: l
  | x :: l, S i => x :: list_set l i v
  end.
Definition sm_store (index : Z) (t : tract Sky) : SM unit := fun s =>
  (mkSM (list_set (sm_tracts s) (Z.to_nat index) (Some t)) (sm_builder s) (sm_next s) (sm_log s),
   Ok tt).

(** cachingSkyMap.py:80-92 [CachingSkyMap.__getitem__] and baseSkyMap.py:299-300
    [BaseSkyMap.__getitem__].  The index is an int. *)
Definition sm_getitem (d : skydef) (index : Z) : SM (tract Sky) :=
  match sd_kind d with
  | CachingMap =>
      if (index <? 0) || (sd_num d <? index) then smlift (Raise IndexError)
      else
        c <-- (fun s => (s, py_nth (sm_tracts s) index)) ;;
        match c with
        | Some t => smret t
        | None =>
            t <-- generateTract d index ;;
            _ <-- sm_store index t ;;
            smret t
        end
  | EagerMap =>
      c <-- (fun s => (s, py_nth (sm_tracts s) index)) ;;
      match c with
      | Some t => smret t
      | None => smlift (Raise TypeError)      (* cannot happen *)
      end
  end.

(** [for x in l: acc.append(f x)] with state. *)
Fixpoint smmap {A B} (f : A -> SM B) (l : list A) : SM (list B) :=
  match l with
  | [] => smret []
  | x :: xs => y <-- f x ;; ys <-- smmap f xs ;; smret (y :: ys)
  end.

(** Constructors: cachingSkyMap.py:51-56 [CachingSkyMap.__init__]
    ([[None] * numTracts]), and the loops of equatSkyMap.py:72-99 and
    dodecaSkyMap.py:74-93, which append each new tract; with
    baseSkyMap.py:158-170, which makes the tract builder. *)
Fixpoint eager_fill (d : skydef) (ids : list Z) : SM unit :=
  match ids with
  | [] => smret tt
  | i :: ids =>
      t <-- generateTract d i ;;
      _ <-- (fun s => (mkSM (sm_tracts s ++ [Some t]) (sm_builder s) (sm_next s) (sm_log s), Ok tt)) ;;
      eager_fill d ids
  end.
Definition sm_new (d : skydef) : res smstate :=
  match sd_kind d with
  | CachingMap =>
      Ok (mkSM (repeat None (Z.to_nat (sd_num d))) (builder_init (sd_cfg d)) 0 [])
  | EagerMap =>
      match eager_fill d (zrange 0 (sd_num d)) (mkSM [] (builder_init (sd_cfg d)) 0 []) with
      | (s, Ok _) => Ok s
      | (_, Raise e) => Raise e
      end
  end.

(** cachingSkyMap.py:76-78 and baseSkyMap.py:305-306 [__len__]. *)
Definition sm_len (d : skydef) (s : smstate) : Z :=
  match sd_kind d with
  | CachingMap => sd_num d
  | EagerMap => Z.of_nat (length (sm_tracts s))
  end.

(** cachingSkyMap.py:71-74 and baseSkyMap.py:302-303 [__iter__], run to
    exhaustion: the loop [for tract in self: f] for a body [f] that may touch
    the state. *)
Definition sm_for {B} (d : skydef) (f : tract Sky -> SM B) : SM (list B) :=
  smmap (fun i => t <-- sm_getitem d i ;; f t) (zrange 0 (sd_num d)).
Definition sm_iter (d : skydef) : SM (list (tract Sky)) := sm_for d smret.

(** A method of a tract, called through the tract's reference to the shared
    builder in its current state. *)
Definition on_tract {A} (m : builder -> tract Sky -> res A) (t : tract Sky) : SM A :=
  b <-- sm_cur_builder ;; smlift (m b t).

(** [list.sort] on (separation, position, tract) tuples: positions are distinct,
    so the tracts themselves are never compared. *)
Definition key_le (a b : R * Z * tract Sky) : bool :=
  Rlt_bool (fst (fst a)) (fst (fst b))
  || (Req_bool (fst (fst a)) (fst (fst b)) && (snd (fst a) <=? snd (fst b))).
Fixpoint insert_key (x : R * Z * tract Sky) (l : list (R * Z * tract Sky)) :=
  match l with
  | [] => [x]
  | y :: ys => if key_le x y then x :: l else y :: insert_key x ys
  end.
Fixpoint sort_keys (l : list (R * Z * tract Sky)) :=
  match l with
  | [] => []
  | x :: xs => insert_key x (sort_keys xs)
  end.

(** baseSkyMap.py:172-204 [BaseSkyMap.findTract]; [sep] is
    [SpherePoint.separation] in degrees. *)
Definition base_findTract (sep : Sky -> Sky -> R) (d : skydef) (coord : Sky) : SM (tract Sky) :=
  ts <-- sm_iter d ;;
  let keyed := map (fun it => (sep coord (t_ctr (snd it)), fst it, snd it))
                   (combine (zrange 0 (Z.of_nat (length ts))) ts) in
  smlift (match sort_keys keyed with
          | [] => Raise IndexError
          | k :: _ => Ok (snd k)
          end).

(** baseSkyMap.py:206-245 [BaseSkyMap.findTractIdArray]; the list of
    coordinates is given. *)
Definition base_findTractIdArray (findTract : Sky -> SM (tract Sky)) (coords : list Sky)
  : SM (list Z) :=
  smmap (fun c => t <-- findTract c ;; smret (t_id t)) coords.

(** baseSkyMap.py:247-274 [BaseSkyMap.findTractPatchList] *)
Notation patch_list := (list (patch (wcs Sky))).
Definition nonempty {A} (l : list A) : bool := match l with [] => false | _ => true end.
Definition base_findTractPatchList (d : skydef) (coordList : list Sky)
  : SM (list (tract Sky * patch_list)) :=
  r <-- sm_for d (fun t =>
    pl <-- on_tract (fun b t => findPatchList b t coordList) t ;; smret (t, pl)) ;;
  smret (filter (fun tp => nonempty (snd tp)) r).

(** [(tractInfo, patchList) in retList]: tuples compare element by element;
    TractInfo has no [__eq__] (identity), lists compare element by element with
    [PatchInfo.__eq__]. *)
Fixpoint patches_eqb (l l' : patch_list) : bool :=
  match l, l' with
  | [], [] => true
  | p :: l, q :: l' => patch_eqb p q && patches_eqb l l'
  | _, _ => false
  end.
Definition pair_mem (x : tract Sky * patch_list) (l : list (tract Sky * patch_list)) : bool :=
  existsb (fun y => Nat.eqb (t_oid (fst y)) (t_oid (fst x)) && patches_eqb (snd y) (snd x)) l.

(** baseSkyMap.py:276-297 [BaseSkyMap.findClosestTractPatchList]; also the loop
    body of ringsSkyMap.py:361-368.  [acc] is [retList]. *)
Definition add_tract (coordList : list Sky) (t : tract Sky) (acc : list (tract Sky * patch_list))
  : SM (list (tract Sky * patch_list)) :=
  pl <-- on_tract (fun b t => findPatchList b t coordList) t ;;
  smret (if nonempty pl && negb (pair_mem (t, pl) acc) then acc ++ [(t, pl)] else acc).
Fixpoint closest_loop (findTract : Sky -> SM (tract Sky)) (coordList todo : list Sky)
    (acc : list (tract Sky * patch_list)) : SM (list (tract Sky * patch_list)) :=
  match todo with
  | [] => smret acc
  | c :: todo =>
      t <-- findTract c ;;
      acc' <-- add_tract coordList t acc ;;
      closest_loop findTract coordList todo acc'
  end.
Definition findClosestTractPatchList (findTract : Sky -> SM (tract Sky)) (coordList : list Sky)
  : SM (list (tract Sky * patch_list)) :=
  closest_loop findTract coordList coordList [].
End SkyMap.
Arguments tract_args Sky : clear implicits.
Arguments skydef Sky : clear implicits.
Arguments smstate Sky : clear implicits.
Arguments SM Sky A : clear implicits.
Notation "x <-- m ;; k" := (smbind m (fun x => k))
  (at level 61, m at next level, right associativity).
