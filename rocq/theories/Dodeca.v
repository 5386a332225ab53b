(** Model of python/lsst/skymap/detail/dodecahedron.py and
    python/lsst/skymap/dodecaSkyMap.py.  Coordinates, dot products and angles
    are exact reals (the code uses doubles); roundings to a number of decimals
    are modelled. *)
From Coq Require Import Reals.
From Flocq Require Import Core.Raux Core.Generic_fmt Core.Round_NE.
Require Import Verif.Py Verif.Geom Verif.PatchInfo Verif.TractBuilder Verif.TractInfo Verif.SkyMap.
Require Import Verif.Rings Verif.Sphere.
Open Scope R_scope.

(** [numpy.round(x, n)] and [round(x, n)]: to the nearest multiple of 10^-n,
    ties to even. *)
Definition np_round (x : R) (n : nat) : R := IZR (ZnearestE (x * 10 ^ n)) / 10 ^ n.

(** [numpy.max(l)] and [numpy.argmax(l)] (position of the first maximum);
    ValueError for an empty list. *)
Definition np_max (l : list R) : res R :=
  match l with [] => Raise ValueError | x :: l => Ok (fold_left Rmax l x) end.
Fixpoint argmax_loop (l : list R) (pos best : nat) (bestVal : R) : nat :=
  match l with
  | [] => best
  | x :: l => if Rlt_bool bestVal x then argmax_loop l (S pos) pos x
              else argmax_loop l (S pos) best bestVal
  end.
Definition np_argmax (l : list R) : res nat :=
  match l with [] => Raise ValueError | x :: l => Ok (argmax_loop l 1 0 x) end.

(** [numpy.arange(len(l))[l == m]]: the positions with value [m], ascending. *)
Definition where_eq (l : list R) (m : R) : list nat :=
  map fst (filter (fun ix => Req_bool (snd ix) m) (combine (seq 0 (length l)) l)).

(** 3x3 matrices by rows; [numpy.dot]. *)
Notation mat := (vec * vec * vec)%type.
Definition row0 (m : mat) : vec := fst (fst m).
Definition row1 (m : mat) : vec := snd (fst m).
Definition row2 (m : mat) : vec := snd m.
Definition mat_vec (m : mat) (v : vec) : vec := (dot (row0 m) v, dot (row1 m) v, dot (row2 m) v).
Definition col (m : mat) (f : vec -> R) : vec := (f (row0 m), f (row1 m), f (row2 m)).
Definition mat_mul (a b : mat) : mat :=
  let row v := (dot v (col b vx), dot v (col b vy), dot v (col b vz)) in
  (row (row0 a), row (row1 a), row (row2 a)).

(** dodecahedron.py:116-135 [computeRotationMatrix]; [axis] is 0, 1 or 2. *)
Definition rot_entry (cosAng sinAng : R) (axis r c : nat) : R :=
  if (Nat.eqb r axis && Nat.eqb c axis)%bool then 1
  else if (Nat.eqb r ((axis + 1) mod 3) && Nat.eqb c ((axis + 1) mod 3))%bool then cosAng
  else if (Nat.eqb r ((axis + 2) mod 3) && Nat.eqb c ((axis + 1) mod 3))%bool then sinAng
  else if (Nat.eqb r ((axis + 1) mod 3) && Nat.eqb c ((axis + 2) mod 3))%bool then - sinAng
  else if (Nat.eqb r ((axis + 2) mod 3) && Nat.eqb c ((axis + 2) mod 3))%bool then cosAng
  else 0.
Definition computeRotationMatrix (angle : R) (axis : nat) : mat :=
  let e := rot_entry (cos angle) (sin angle) axis in
  ((e 0 0, e 0 1, e 0 2), (e 1 0, e 1 1, e 1 2), (e 2 0, e 2 1, e 2 2))%nat.

(** dodecahedron.py:138-169 [_computeCoordTransform] *)
Definition computeCoordTransform (vec0 vec1 : vec) (vec1NegativeX : bool) : mat :=
  let xAng := atan2 (vy vec0) (vz vec0) in
  let xRotMat := computeRotationMatrix xAng 0 in
  let vec0RotX := mat_vec xRotMat vec0 in
  let yAng := - atan2 (vx vec0RotX) (vz vec0RotX) in
  let yRotMat := computeRotationMatrix yAng 1 in
  let xyRotMat := mat_mul yRotMat xRotMat in
  let vec1RotXY := mat_vec xyRotMat vec1 in
  let xVal := if vec1NegativeX then - vx vec1RotXY else vx vec1RotXY in
  let zAng := - atan2 (vy vec1RotXY) xVal in
  let zRotMat := computeRotationMatrix zAng 2 in
  mat_mul zRotMat xyRotMat.

(** dodecahedron.py:201-223 [_computeFullVecList] *)
Definition sign_choices (v : R) : list R := if Req_bool v 0 then [0] else [v; - v].
Definition computeFullVecList (basisSet : list vec) : list vec :=
  flat_map (fun b =>
    let vecLen := sqrt (vx b * vx b + vy b * vy b + vz b * vz b) in
    flat_map (fun z => flat_map (fun y => map (fun x => (x / vecLen, y / vecLen, z / vecLen))
      (sign_choices (vx b))) (sign_choices (vy b))) (sign_choices (vz b))) basisSet.

(** dodecahedron.py:226-243 [_findCloseIndexSet]; the set as an ascending list. *)
Definition findCloseIndexSet (vecList : list vec) (ind : nat) : res (list nat) :=
  v <- py_nth vecList (Z.of_nat ind) ;;
  let dots := map (fun w => np_round (dot w v) 2) vecList in
  let dots := list_set dots ind (- (9 * 10 ^ 99)) in
  m <- np_max dots ;;
  Ok (where_eq dots m).

(** dodecahedron.py:246-270 [_findCloseList] *)
Definition findCloseList (vecList : list vec) (v : vec) : res (list vec * list nat) :=
  let dots := map (fun w => np_round (dot w v) 2) vecList in
  m <- np_max dots ;;
  let indList := where_eq dots m in
  retList <- mapM (fun i => py_nth vecList (Z.of_nat i)) indList ;;
  Ok (retList, indList).

(** dodecahedron.py:273-287 [_findClosePair] *)
Definition findClosePair (vecList : list vec) (ind : nat) : res (vec * vec) :=
  v <- py_nth vecList (Z.of_nat ind) ;;
  let other := (firstn ind vecList ++ skipn (S ind) vecList)%list in
  ind1 <- np_argmax (map (fun w => dot w v) other) ;;
  w <- py_nth other (Z.of_nat ind1) ;;
  Ok (v, w).

(** dodecahedron.py:290-302 [_sortedVectorList].  When the first two components
    of two keys are equal, Python compares the numpy arrays, which raises ValueError. *)
Definition vecToSort (v : vec) : R * R :=
  let ang := np_round (atan2 (vy v) (vx v)) 2 in
  let ang := if Rlt_bool ang 0 then ang + 2 * PI else ang in
  (- np_round (vz v) 1, ang).
Definition key_lt (a b : R * R) : res bool :=
  if Req_bool (fst a) (fst b) then
    if Req_bool (snd a) (snd b) then Raise ValueError else Ok (Rlt_bool (snd a) (snd b))
  else Ok (Rlt_bool (fst a) (fst b)).
Fixpoint insert_vec (v : vec) (l : list vec) : res (list vec) :=
  match l with
  | [] => Ok [v]
  | w :: ws =>
      lt <- key_lt (vecToSort v) (vecToSort w) ;;
      if lt : bool then Ok (v :: w :: ws) else r <- insert_vec v ws ;; Ok (w :: r)
  end.
Fixpoint sortedVectorList (l : list vec) : res (list vec) :=
  match l with
  | [] => Ok []
  | v :: l => s <- sortedVectorList l ;; insert_vec v s
  end.

(** Python sets iterate in an order that the language leaves open: [order path S]
    is the order in which the set [S] is run through by the loop at [path]. *)
Definition set_order : Type := list nat -> list nat -> list nat.

(** [for x in l: acc = f(acc, x)], stopping at the first exception. *)
Fixpoint foldM {A B} (f : B -> A -> res B) (l : list A) (acc : B) : res B :=
  match l with
  | [] => Ok acc
  | x :: l => acc <- f acc x ;; foldM f l acc
  end.

(** A dict keyed by frozensets of ints (given as lists), in insertion order. *)
Definition mem (x : nat) (l : list nat) : bool := existsb (Nat.eqb x) l.
Definition set_eqb (a b : list nat) : bool := (forallb (fun x => mem x b) a && forallb (fun x => mem x a) b)%bool.
Definition vdict : Type := list (list nat * vec).
Definition has_key (d : vdict) (k : list nat) : bool := existsb (fun kv => set_eqb k (fst kv)) d.

(** dodecahedron.py:172-198 [_computeDodecahedronVertices] *)
Definition computeDodecahedronVertices (order : set_order) (faceVecList : list vec) : res (list vec) :=
  closeIndSetList <- mapM (fun i =>
      s <- findCloseIndexSet faceVecList i ;;
      if Nat.eqb (length s) 5 then Ok s else Raise RuntimeError)
    (seq 0 (length faceVecList)) ;;
  vertexDict <- foldM (fun vd (i_close : nat * list nat) =>
      let (i, iClose) := i_close in
      foldM (fun vd j =>
          jClose <- py_nth closeIndSetList (Z.of_nat j) ;;
          let shared := filter (fun k => mem k jClose) iClose in
          if Nat.eqb (length shared) 2 then
            foldM (fun vd k =>
                if has_key vd [i; j; k] then Ok vd
                else
                  fi <- py_nth faceVecList (Z.of_nat i) ;;
                  fj <- py_nth faceVecList (Z.of_nat j) ;;
                  fk <- py_nth faceVecList (Z.of_nat k) ;;
                  let v := vadd (vadd fi fj) fk in
                  Ok (vd ++ [([i; j; k], vscale (/ sqrt (dot v v)) v)])%list)
              (order [i; j] shared) vd
          else Raise RuntimeError)
        (order [i] iClose) vd)
    (combine (seq 0 (length closeIndSetList)) closeIndSetList) [] ;;
  Ok (map snd vertexDict).

Record dodecahedron := mkDodec { dd_withFacesOnPoles : bool; dd_vertices : list vec; dd_faces : list vec }.

(** dodecahedron.py:17-45 [Dodecahedron.__init__] *)
Definition golden : R := (1 + sqrt 5) / 2.
Definition Dodecahedron_init (order : set_order) (withFacesOnPoles : bool) : res dodecahedron :=
  let g := golden in
  let unrotFaces := computeFullVecList [(0, 1, g); (1, g, 0); (g, 0, 1)] in
  unrotVertices <- computeDodecahedronVertices order unrotFaces ;;
  rotMat <- (if withFacesOnPoles
             then p <- findClosePair unrotFaces 0 ;; Ok (computeCoordTransform (fst p) (snd p) false)
             else p <- findClosePair unrotVertices 0 ;; Ok (computeCoordTransform (fst p) (snd p) true)) ;;
  faces <- sortedVectorList (map (mat_vec rotMat) unrotFaces) ;;
  Ok (mkDodec withFacesOnPoles (map (mat_vec rotMat) unrotVertices) faces).

(** dodecahedron.py:57-70 [getFaceCtr] *)
Definition getFaceCtr (D : dodecahedron) (ind : Z) : res vec := py_nth (dd_faces D) ind.

(** [lst.pop(i)] *)
Definition list_pop {A} (l : list A) (i : nat) : list A := (firstn i l ++ skipn (S i) l)%list.

(** dodecahedron.py:72-95 [getVertices]: the while loop runs [n] = len(vertexList)
    times, each time removing one element. *)
Fixpoint sort_loop (n : nat) (vertexList : list vec) (last : vec) : res (list vec) :=
  match n with
  | O => Ok []
  | S n =>
      near <- findCloseList vertexList last ;;
      nv <- py_nth (fst near) 0 ;;
      ni <- py_nth (snd near) 0 ;;
      r <- sort_loop n (list_pop vertexList ni) nv ;;
      Ok (nv :: r)
  end.
Definition getVertices (D : dodecahedron) (ind : Z) : res (list vec) :=
  faceVec <- getFaceCtr D ind ;;
  vi <- findCloseList (dd_vertices D) faceVec ;;
  v0 <- py_nth (fst vi) 0 ;;
  let rest := skipn 1 (fst vi) in
  r <- sort_loop (length rest) rest v0 ;;
  Ok (v0 :: r).

(** dodecahedron.py:97-110 [getFaceInd] *)
Definition getFaceInd (D : dodecahedron) (v : vec) : res nat :=
  np_argmax (map (fun f => dot f v) (dd_faces D)).

(** ** DodecaSkyMap *)

(** dodecaSkyMap.py:74-93, the loop body: the arguments of tract [id]. *)
Definition dodeca_args (makeWcs : sphere -> wcs sphere) (tractOverlap : R) (D : dodecahedron) (id : Z)
  : res (tract_args sphere) :=
  tractVec <- getFaceCtr D id ;;
  tractCoord <- coordFromVec tractVec (Some 0) ;;
  vertexVecList <- getVertices D id ;;
  vertexCoordList <- mapM (fun v => coordFromVec v (Some (fst tractCoord))) vertexVecList ;;
  Ok (PlainArgs tractCoord vertexCoordList (deg tractOverlap) (makeWcs tractCoord) None).

(** dodecaSkyMap.py:68-93 [DodecaSkyMap.__init__] *)
Definition dodeca_def (c : tb_config) (makeWcs : sphere -> wcs sphere) (tractOverlap : R) (D : dodecahedron)
  : skydef sphere :=
  mkDef EagerMap c 12 (dodeca_args makeWcs tractOverlap D).
Definition dodeca_new (order : set_order) (offset : sphere -> R -> R -> sphere) (c : tb_config)
    (makeWcs : sphere -> wcs sphere) (tractOverlap : R) (withTractsOnPoles : bool)
  : res (dodecahedron * smstate sphere) :=
  D <- Dodecahedron_init order withTractsOnPoles ;;
  s <- sm_new offset (dodeca_def c makeWcs tractOverlap D) ;;
  Ok (D, s).

(** dodecaSkyMap.py:124-137 [findTract] *)
Definition dodeca_findTract (offset : sphere -> R -> R -> sphere) (d : skydef sphere) (D : dodecahedron)
    (coord : sphere) : SM sphere (tract sphere) :=
  i <-- smlift (getFaceInd D (vec_of coord)) ;;
  sm_getitem offset d (Z.of_nat i).
