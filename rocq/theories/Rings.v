(** Model of python/lsst/skymap/ringsSkyMap.py.

    Angles are exact reals in radians (the code uses doubles; only the numbers
    of tracts per ring and positions at exact boundaries could differ).  A
    coordinate is a pair (longitude, latitude) as [geom.SpherePoint] stores it:
    longitude in [0, 2 pi), latitude in [-pi/2, pi/2]. *)
From Coq Require Import Reals.
From Flocq Require Import Raux.
Require Import Verif.Py Verif.Geom Verif.PatchInfo Verif.TractBuilder Verif.TractInfo Verif.SkyMap.
Open Scope Z_scope.

Notation sphere := (R * R)%type.

(** [lsst.geom.Angle.wrap] (external): the equivalent angle in [0, 2 pi). *)
Definition wrap (a : R) : R := (a - IZR (Zfloor (a / (2 * PI))) * (2 * PI))%R.
(** [x*geom.degrees] in radians. *)
Definition deg (x : R) : R := (x * (PI / 180))%R.
(** [int(x)]: truncation toward zero. *)
Definition py_int (x : R) : Z := Ztrunc x.
(** [sphgeom.NormalizedAngle(a)] (external): angles in [0, 2 pi], both included
    ([NormalizedAngleInterval.full()] is [0, 2 pi]), are kept, others reduced. *)
Definition normalizedAngle (a : R) : R :=
  if Rle_bool 0 a && Rle_bool a (2 * PI) then a else wrap a.
(** [geom.SpherePoint(lon, lat)] (external): the longitude is wrapped. *)
Definition spherePoint (lon lat : R) : sphere := (wrap lon, lat).

(** The attributes of a [RingsSkyMap]: [config.numRings], [_ringNums],
    [_ringSize], [_raStart], [_version]. *)
Record rings := mkRings {
  rg_numRings : Z; rg_nums : list Z; rg_size : R; rg_raStart : R; rg_version : Z }.

(** ringsSkyMap.py:84 [_ringSize] *)
Definition ring_size (numRings : Z) : R := (PI / (IZR numRings + 1))%R.

(** ringsSkyMap.py:87-90 the number of tracts of ring [i]. *)
Definition ring_count (ringSize : R) (i : Z) : Z :=
  let startDec := (ringSize * (IZR i + 1 / 2) - 1 / 2 * PI)%R in
  let stopDec := (startDec + ringSize)%R in
  let dec := Rmin (Rabs startDec) (Rabs stopDec) in
  py_int (2 * PI * cos dec / ringSize) + 1.

(** ringsSkyMap.py:79-93 [RingsSkyMap.__init__]; [raStart] is the config value
    in degrees. *)
Definition rings_init (numRings : Z) (raStart : R) (version : Z) : res rings :=
  if negb ((version =? 0) || (version =? 1)) then Raise AssertionError
  else
    let size := ring_size numRings in
    Ok (mkRings numRings (map (ring_count size) (zrange 0 numRings)) size (deg raStart) version).

(** ringsSkyMap.py:91 [numTracts] *)
Definition rings_numTracts (g : rings) : Z := zsum (rg_nums g) + 2.

(** ringsSkyMap.py:113-123 the two loops of [getRingIndices], from ring [ring]
    whose and whose successors' sizes are [nums]. *)
Fixpoint ring_loop (version0 : bool) (nums : list Z) (ring tractNum : Z) : pair2 :=
  match nums with
  | [] => (ring, tractNum)
  | n :: nums' =>
      if (if version0 then n <? tractNum else n <=? tractNum)
      then ring_loop version0 nums' (ring + 1) (tractNum - n)
      else (ring, tractNum)
  end.

(** ringsSkyMap.py:95-124 [getRingIndices] *)
Definition getRingIndices (g : rings) (index : Z) : res pair2 :=
  if index =? 0 then Ok (-1, 0)
  else if index =? rings_numTracts g - 1 then Ok (rg_numRings g, 0)
  else if (index <? 0) || (rings_numTracts g <=? index) then Raise IndexError
  else Ok (ring_loop (rg_version g =? 0) (rg_nums g) 0 (index - 1)).

(** ringsSkyMap.py:158-196 [getRaDecRange]: (raMin, raMax, decMin, decMax). *)
Definition getRaDecRange (g : rings) (index : Z) : res (R * R * R * R) :=
  ri <- getRingIndices g index ;;
  let '(ringNum, tractNum) := ri in
  if ringNum =? -1 then
    Ok (0, 2 * PI, - PI / 2, - PI / 2 + (IZR ringNum + 3 / 2) * rg_size g)%R
  else if ringNum =? rg_numRings g then
    Ok (0, 2 * PI, - PI / 2 + (IZR ringNum + 1 / 2) * rg_size g, PI / 2)%R
  else
    n <- py_nth (rg_nums g) ringNum ;;
    let deltaStart := ((IZR tractNum - 1 / 2) * 2 * PI / IZR n)%R in
    let deltaStop := ((IZR tractNum + 1 / 2) * 2 * PI / IZR n)%R in
    Ok (wrap (rg_raStart g + deltaStart), wrap (rg_raStart g + deltaStop),
        - PI / 2 + (IZR ringNum + 1 / 2) * rg_size g,
        - PI / 2 + (IZR ringNum + 3 / 2) * rg_size g)%R.

(** ringsSkyMap.py:128-138 the centre of a tract. *)
Definition rings_center (g : rings) (index : Z) : res sphere :=
  ri <- getRingIndices g index ;;
  let '(ringNum, tractNum) := ri in
  if ringNum =? -1 then Ok (spherePoint 0 (- (1 / 2) * PI))
  else if ringNum =? rg_numRings g then Ok (spherePoint 0 (1 / 2 * PI))
  else
    n <- py_nth (rg_nums g) ringNum ;;
    let dec := (rg_size g * (IZR ringNum + 1) - 1 / 2 * PI)%R in
    let ra := wrap (2 * PI * IZR tractNum / IZR n + rg_raStart g) in
    Ok (spherePoint ra dec).

(** ringsSkyMap.py:126-156 [generateTract]: the arguments of the tract.
    [makeWcs] is [self._wcsFactory.makeWcs(crPixPos=(0, 0), crValCoord=...)] and
    [tractOverlap] the config value in degrees. *)
Definition rings_args (makeWcs : sphere -> wcs sphere) (tractOverlap : R) (g : rings) (index : Z)
  : res (tract_args sphere) :=
  center <- rings_center g index ;;
  range <- getRaDecRange g index ;;
  let '(raMin, raMax, decMin, decMax) := range in
  Ok (ExplicitArgs center (1 / 2 * rg_size g)%R (deg tractOverlap) (makeWcs center)
                   (Some ((normalizedAngle raMin, decMin), (normalizedAngle raMax, decMax)))).

(** The class as a sky map. *)
Definition rings_def (c : tb_config) (makeWcs : sphere -> wcs sphere) (tractOverlap : R) (g : rings)
  : skydef sphere :=
  mkDef CachingMap c (rings_numTracts g) (rings_args makeWcs tractOverlap g).

(** ringsSkyMap.py:212 [firstRingStart] *)
Definition firstRingStart (g : rings) : R := (rg_size g * (1 / 2) - 1 / 2 * PI)%R.

(** ringsSkyMap.py:198-219 [_decToRingNum] *)
Definition decToRingNum (g : rings) (dec : R) : Z :=
  if Rlt_bool dec (firstRingStart g) then -1
  else if Rlt_bool (firstRingStart g * -1) dec then rg_numRings g
  else py_int ((dec - firstRingStart g) / rg_size g).

(** ringsSkyMap.py:221-242 [_raToTractNum] *)
Definition raToTractNum (g : rings) (ra : R) (ringNum : Z) : res Z :=
  if (ringNum =? -1) || (ringNum =? rg_numRings g) then Ok 0
  else if negb ((0 <=? ringNum) && (ringNum <? rg_numRings g)) then Raise AssertionError
  else
    n <- py_nth (rg_nums g) ringNum ;;
    let tractNum := py_int (wrap (ra - rg_raStart g) / (2 * PI / IZR n) + 1 / 2) in
    Ok (if tractNum =? n then 0 else tractNum).

(** [sum(self._ringNums[:ringNum], tractNum + 1)] *)
Definition ring_index (g : rings) (ringNum tractNum : Z) : Z :=
  zsum (py_prefix (rg_nums g) ringNum) + (tractNum + 1).

(** ringsSkyMap.py:244-260 [findTract], up to the final [self[...]]: the index. *)
Definition rings_findIndex (g : rings) (coord : sphere) : res Z :=
  let ringNum := decToRingNum g (snd coord) in
  if ringNum =? -1 then Ok 0
  else if ringNum =? rg_numRings g then Ok (rings_numTracts g - 1)
  else
    tractNum <- raToTractNum g (fst coord) ringNum ;;
    let ringNum := if (rg_version g =? 0) && (tractNum =? 0) && negb (ringNum =? 0)
                   then ringNum + 1 else ringNum in
    Ok (ring_index g ringNum tractNum).

(** ringsSkyMap.py:262-308 [findTractIdArray], for one element: every numpy
    operation of the method acts element by element, masks being conditions.
    [% (2 pi)] is [wrap]. *)
Definition rings_findId1 (g : rings) (degrees : bool) (radec : R * R) : res Z :=
  let ra := if degrees then deg (fst radec) else fst radec in
  let dec := if degrees then deg (snd radec) else snd radec in
  let first := firstRingStart g in
  let r0 := 0 in
  let r1 := if Rlt_bool dec first then -1 else r0 in
  let r2 := if Rlt_bool (-1 * first) dec then rg_numRings g else r1 in
  let ringNum := if Rle_bool first dec && Rle_bool dec (-1 * first)
                 then py_int ((dec - first) / rg_size g) else r2 in
  let i0 := -1 in
  let i1 := if ringNum =? -1 then 0 else i0 in
  let i2 := if ringNum =? rg_numRings g then rings_numTracts g - 1 else i1 in
  if negb (i2 <? 0) then Ok i2
  else
    n <- py_nth (rg_nums g) ringNum ;;
    let tractNum := py_int (wrap (ra - rg_raStart g) / (2 * PI / IZR n) + 1 / 2) in
    let tractNum := if tractNum =? n then 0 else tractNum in
    let ringNum := if (rg_version g =? 0) && ((tractNum =? 0) && negb (ringNum =? 0))
                   then ringNum + 1 else ringNum in
    (* _ringCumulative = cumsum([0] + ringNums), indexed by ringNum *)
    cum <- py_nth (map (fun k => zsum (firstn k (rg_nums g))) (seq 0 (S (length (rg_nums g))))) ringNum ;;
    Ok (cum + tractNum + 1).
Definition rings_findTractIdArray (g : rings) (degrees : bool) (radecs : list (R * R)) : res (list Z) :=
  mapM (rings_findId1 g degrees) radecs.

Section Methods.
Variable offset : sphere -> R -> R -> sphere.

(** ringsSkyMap.py:244-260 [findTract] *)
Definition rings_findTract (d : skydef sphere) (g : rings) (coord : sphere) : SM sphere (tract sphere) :=
  i <-- smlift (rings_findIndex g coord) ;; sm_getitem offset d i.

(** [if tract.contains(coord): tractList.append(tract)] (ringsSkyMap.py:348-350) *)
Definition try_tract (d : skydef sphere) (coord : sphere) (index : Z) (acc : list (tract sphere))
  : SM sphere (list (tract sphere)) :=
  t <-- sm_getitem offset d index ;;
  c <-- smlift (tract_contains t coord) ;;
  smret (if c then acc ++ [t] else acc).
Fixpoint try_tracts (d : skydef sphere) (coord : sphere) (indices : list Z) (acc : list (tract sphere))
  : SM sphere (list (tract sphere)) :=
  match indices with
  | [] => smret acc
  | i :: rest => acc' <-- try_tract d coord i acc ;; try_tracts d coord rest acc'
  end.

(** ringsSkyMap.py:334-347 the indices tried in ring [r]. *)
Definition ring_candidates (g : rings) (r tractNum n : Z) : list Z :=
  map (fun t =>
         let t := if t <? 0 then t + n else if n - 1 <? t then t - n else t in
         let extra := if (rg_version g =? 0) && (t =? 0) && negb (r =? 0) then 1 else 0 in
         ring_index g (r + extra) t)
      [tractNum - 1; tractNum; tractNum + 1].

(** ringsSkyMap.py:328-350 the loop over adjacent rings. *)
Fixpoint try_rings (d : skydef sphere) (g : rings) (coord : sphere) (rs : list Z)
    (acc : list (tract sphere)) : SM sphere (list (tract sphere)) :=
  match rs with
  | [] => smret acc
  | r :: rest =>
      if (r <? 0) || (rg_numRings g <=? r) then try_rings d g coord rest acc
      else
        tractNum <-- smlift (raToTractNum g (fst coord) r) ;;
        n <-- smlift (py_nth (rg_nums g) r) ;;
        acc' <-- try_tracts d coord (ring_candidates g r tractNum n) acc ;;
        try_rings d g coord rest acc'
  end.

(** ringsSkyMap.py:310-359 [findAllTracts] *)
Definition rings_findAllTracts (d : skydef sphere) (g : rings) (coord : sphere)
  : SM sphere (list (tract sphere)) :=
  let ringNum := decToRingNum g (snd coord) in
  acc <-- try_rings d g coord [ringNum - 1; ringNum; ringNum + 1] [] ;;
  try_tracts d coord [0; sd_num d - 1] acc.

(** ringsSkyMap.py:361-368 [findTractPatchList] *)
Fixpoint rings_patch_loop (d : skydef sphere) (g : rings) (coordList todo : list sphere)
    (acc : list (tract sphere * list (patch (wcs sphere))))
  : SM sphere (list (tract sphere * list (patch (wcs sphere)))) :=
  match todo with
  | [] => smret acc
  | c :: todo =>
      ts <-- rings_findAllTracts d g c ;;
      acc' <-- fold_left (fun m t => acc <-- m ;; add_tract coordList t acc) ts (smret acc) ;;
      rings_patch_loop d g coordList todo acc'
  end.
Definition rings_findTractPatchList (d : skydef sphere) (g : rings) (coordList : list sphere) :=
  rings_patch_loop d g coordList coordList [].
End Methods.
