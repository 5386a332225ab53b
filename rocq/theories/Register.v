(** Model of [BaseSkyMap.register] (python/lsst/skymap/baseSkyMap.py:387-475).

    The butler is external.  It is modelled by the records it holds and by what
    each operation used here does to them; every operation (and the final
    commit) may also fail with any exception or be interrupted by a crash of the
    process, before or after its effect, as decided by an arbitrary [faults].
    Inside a transaction the effects are visible to the process at once but
    durable only after the commit.  One process at a time. *)
From Coq Require Import Reals String.
Require Import Verif.Py Verif.Geom Verif.PatchInfo Verif.TractBuilder Verif.TractInfo Verif.SkyMap.
Open Scope string_scope.
Open Scope Z_scope.

Section Register.
Context {Sky : Type}.
Variable offset : Sky -> R -> R -> Sky.

(** The dimension records of skymap, tract and patch (baseSkyMap.py:419-425,
    450-454, 462-470).  A region is given by the vertices of its polygon. *)
Record sky_rec := mkSkyRec {
  k_name : string; k_hash : list Z; k_tract_max : Z; k_nx_max : Z; k_ny_max : Z }.
Record tract_rec := mkTractRec { tr_skymap : string; tr_tract : Z; tr_region : list Sky }.
Record patch_rec := mkPatchRec {
  pr_skymap : string; pr_tract : Z; pr_patch : Z; pr_x : Z; pr_y : Z; pr_region : list Sky }.

(** Contents of the repository: collections, dataset types, dimension records,
    and the skyMap datasets (name and hash of the stored map). *)
Record registry := mkReg {
  g_runs : list string; g_types : list string;
  g_skymaps : list sky_rec; g_tracts : list tract_rec; g_patches : list patch_rec;
  g_datasets : list (string * list Z) }.

Inductive fault := NoFault | Fails (e : exn) | CrashBefore | CrashAfter.

(** [u_durable]: what survives a crash; [u_work]: what the process sees;
    [u_ops]: number of operations so far (selects the fault). *)
Record butler := mkButler { u_durable : registry; u_work : registry; u_in_tx : bool; u_ops : nat }.
(** A butler just opened on a repository. *)
Definition butler_on (r : registry) : butler := mkButler r r false 0.

Inductive outcome (A : Type) := Done (a : A) | Raised (e : exn) | Crashed.
Arguments Done {A}.  Arguments Raised {A}.  Arguments Crashed {A}.

(** Programs that use the sky map object and the butler. *)
Definition BM (A : Type) : Type := smstate Sky -> butler -> smstate Sky * butler * outcome A.
Definition bret {A} (a : A) : BM A := fun s u => (s, u, Done a).
Definition bbind {A B} (m : BM A) (f : A -> BM B) : BM B := fun s u =>
  match m s u with
  | (s', u', Done a) => f a s' u'
  | (s', u', Raised e) => (s', u', Raised e)
  | (s', u', Crashed) => (s', u', Crashed)
  end.
Notation "x <~ m ;; k" := (bbind m (fun x => k)) (at level 61, m at next level, right associativity).
Definition braise {A} (e : exn) : BM A := fun s u => (s, u, Raised e).
Definition blift {A} (r : res A) : BM A := match r with Ok a => bret a | Raise e => braise e end.
(** A method of the sky map. *)
Definition bsky {A} (m : SM Sky A) : BM A := fun s u =>
  match m s with
  | (s', Ok a) => (s', u, Done a)
  | (s', Raise e) => (s', u, Raised e)
  end.

Section Faults.
Variable faults : nat -> fault.

(** One butler operation with effect [f]. *)
Definition bop {A} (f : registry -> res (registry * A)) : BM A := fun s u =>
  let u1 := mkButler (u_durable u) (u_work u) (u_in_tx u) (S (u_ops u)) in
  match faults (u_ops u) with
  | CrashBefore => (s, u1, Crashed)
  | Fails e => (s, u1, Raised e)
  | flt =>
      match f (u_work u) with
      | Raise e => (s, u1, Raised e)
      | Ok (w, a) =>
          let u2 := mkButler (if u_in_tx u then u_durable u else w) w (u_in_tx u) (S (u_ops u)) in
          (s, u2, match flt with CrashAfter => Crashed | _ => Done a end)
      end
  end.

(** [with butler.transaction(): body] *)
Definition transaction {A} (body : BM A) : BM A := fun s u =>
  match body s (mkButler (u_durable u) (u_work u) true (u_ops u)) with
  | (s', u', Done a) =>
      let rolled := mkButler (u_durable u') (u_durable u') false (S (u_ops u')) in
      let committed := mkButler (u_work u') (u_work u') false (S (u_ops u')) in
      match faults (u_ops u') with
      | CrashBefore => (s', rolled, Crashed)
      | Fails e => (s', rolled, Raised e)
      | CrashAfter => (s', committed, Crashed)
      | NoFault => (s', committed, Done a)
      end
  | (s', u', Raised e) => (s', mkButler (u_durable u') (u_durable u') false (u_ops u'), Raised e)
  | (s', u', Crashed) => (s', u', Crashed)
  end.

(** [registerRun], [registerDatasetType]: add unless present. *)
Definition add_name (n : string) (l : list string) : list string :=
  if existsb (String.eqb n) l then l else l ++ [n].
Definition registerRun (n : string) (r : registry) : res (registry * unit) :=
  Ok (mkReg (add_name n (g_runs r)) (g_types r) (g_skymaps r) (g_tracts r) (g_patches r) (g_datasets r), tt).
Definition registerDatasetType (n : string) (r : registry) : res (registry * unit) :=
  Ok (mkReg (g_runs r) (add_name n (g_types r)) (g_skymaps r) (g_tracts r) (g_patches r) (g_datasets r), tt).

Definition hash_eqb (a b : list Z) : bool := if list_eq_dec Z.eq_dec a b then true else false.
Definition sky_rec_eqb (a b : sky_rec) : bool :=
  String.eqb (k_name a) (k_name b) && hash_eqb (k_hash a) (k_hash b)
  && (k_tract_max a =? k_tract_max b) && (k_nx_max a =? k_nx_max b) && (k_ny_max a =? k_ny_max b).

(** [syncDimensionData("skymap", record)]: the name is the primary key, the hash
    is unique; returns whether the record was inserted. *)
Definition syncSkymap (k : sky_rec) (r : registry) : res (registry * bool) :=
  match find (fun k' => String.eqb (k_name k') (k_name k)) (g_skymaps r) with
  | Some k' => if sky_rec_eqb k' k then Ok (r, false) else Raise ConflictingDefinitionError
  | None =>
      if existsb (fun k' => hash_eqb (k_hash k') (k_hash k)) (g_skymaps r)
      then Raise ConflictingDefinitionError
      else Ok (mkReg (g_runs r) (g_types r) (g_skymaps r ++ [k]) (g_tracts r) (g_patches r) (g_datasets r), true)
  end.

(** [insertDimensionData("tract", record)]: primary key (skymap, tract), the
    skymap must exist. *)
Definition insertTract (t : tract_rec) (r : registry) : res (registry * unit) :=
  if existsb (fun t' => String.eqb (tr_skymap t') (tr_skymap t) && (tr_tract t' =? tr_tract t)) (g_tracts r)
     || negb (existsb (fun k => String.eqb (k_name k) (tr_skymap t)) (g_skymaps r))
  then Raise ButlerFailure
  else Ok (mkReg (g_runs r) (g_types r) (g_skymaps r) (g_tracts r ++ [t]) (g_patches r) (g_datasets r), tt).

(** [insertDimensionData("patch", *records)]: primary key (skymap, tract, patch),
    the tract must exist; all or none. *)
Definition same_patch_key (p q : patch_rec) : bool :=
  String.eqb (pr_skymap p) (pr_skymap q) && (pr_tract p =? pr_tract q) && (pr_patch p =? pr_patch q).
Definition insertPatch (p : patch_rec) (r : registry) : res registry :=
  if existsb (same_patch_key p) (g_patches r)
     || negb (existsb (fun t => String.eqb (tr_skymap t) (pr_skymap p) && (tr_tract t =? pr_tract p)) (g_tracts r))
  then Raise ButlerFailure
  else Ok (mkReg (g_runs r) (g_types r) (g_skymaps r) (g_tracts r) (g_patches r ++ [p]) (g_datasets r)).
Fixpoint insertPatches0 (ps : list patch_rec) (r : registry) : res registry :=
  match ps with
  | [] => Ok r
  | p :: ps => r' <- insertPatch p r ;; insertPatches0 ps r'
  end.
Definition insertPatches (ps : list patch_rec) (r : registry) : res (registry * unit) :=
  r' <- insertPatches0 ps r ;; Ok (r', tt).

(** [butler.put(self, datasetType, {"skymap": name}, run)] *)
Definition putSkyMap (name : string) (hash : list Z) (r : registry) : res (registry * unit) :=
  if existsb (fun nh => String.eqb (fst nh) name) (g_datasets r) then Raise ConflictingDefinitionError
  else Ok (mkReg (g_runs r) (g_types r) (g_skymaps r) (g_tracts r) (g_patches r)
                 (g_datasets r ++ [(name, hash)]), tt).

(** [max(l)] *)
Definition py_max (l : list Z) : res Z :=
  match l with [] => Raise ValueError | x :: l => Ok (fold_left Z.max l x) end.

(** baseSkyMap.py:446-471, the loop body for one tract.  The patch records are
    computed after the patches; neither changes any state. *)
Definition patch_record (name : string) (b : builder) (t : tract Sky) (p : patch (wcs Sky)) : res patch_rec :=
  n <- getSequentialPatchIndex b p ;;
  Ok (mkPatchRec name (t_id t) n (fst (p_index p)) (snd (p_index p))
                 (patch_getOuterSkyPolygon p (Some (t_wcs t)))).
Definition patch_records (name : string) (b : builder) (t : tract Sky) : res (list patch_rec) :=
  ps <- tract_iter b t ;; mapM (patch_record name b t) ps.
Definition register_tract (name : string) (t : tract Sky) : BM unit :=
  _ <~ bop (insertTract (mkTractRec name (t_id t) (tract_getOuterSkyPolygon t))) ;;
  recs <~ bsky (on_tract (patch_records name) t) ;;
  bop (insertPatches recs).

(** [for tractInfo in self: body] *)
Fixpoint bfor (d : skydef Sky) (body : tract Sky -> BM unit) (ids : list Z) : BM unit :=
  match ids with
  | [] => bret tt
  | i :: ids => t <~ bsky (sm_getitem offset d i) ;; _ <~ body t ;; bfor d body ids
  end.

(** baseSkyMap.py:387-475 [BaseSkyMap.register]; [sha] is the result of
    [getSha1()].  The [except] clause re-raises the same exception class. *)
Definition register (d : skydef Sky) (sha : res (list Z)) (name : string) : BM unit :=
  ts <~ bsky (sm_iter offset d) ;;
  nxMax <~ blift (py_max (map (fun t => fst (t_numPatches t)) ts)) ;;
  nyMax <~ blift (py_max (map (fun t => snd (t_numPatches t)) ts)) ;;
  hash <~ blift sha ;;
  len <~ bsky (fun s => (s, Ok (sm_len d s))) ;;
  let skyMapRecord := mkSkyRec name hash len nxMax nyMax in
  _ <~ bop (registerRun "skymaps") ;;
  _ <~ bop (registerDatasetType "skyMap") ;;
  transaction (
    inserted <~ bop (syncSkymap skyMapRecord) ;;
    if inserted : bool then
      _ <~ bfor d (register_tract name) (zrange 0 (sd_num d)) ;;
      bop (putSkyMap name hash)
    else bret tt).
End Faults.
End Register.
Arguments tract_rec Sky : clear implicits.
Arguments patch_rec Sky : clear implicits.
Arguments registry Sky : clear implicits.
Arguments butler Sky : clear implicits.
Arguments Done {A}.  Arguments Raised {A}.  Arguments Crashed {A}.
