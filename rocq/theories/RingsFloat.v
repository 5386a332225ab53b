(** The look-up methods of python/lsst/skymap/ringsSkyMap.py in IEEE binary64 arithmetic, operation by operation as the
    code computes them (Rings.v has the same methods over exact reals).

    Simplifications: the numbers of tracts per ring are given (they come from libm's [cos]); the patches and tracts
    themselves are not part of this file. *)
From Coq Require Import Reals.
From Flocq Require Import Core BinarySingleNaN.
Require Import Verif.Py Verif.Geom Verif.Float64 Verif.TractInfo Verif.SkyMap Verif.Rings.
Import ListNotations.
Open Scope Z_scope.

Notation f64 := (binary_float 53 1024).
Definition fadd (x y : f64) : f64 := @Bplus 53 1024 Hprec53 Hmax1024 mode_NE x y.
Definition fsub (x y : f64) : f64 := @Bminus 53 1024 Hprec53 Hmax1024 mode_NE x y.
Definition fmul (x y : f64) : f64 := @Bmult 53 1024 Hprec53 Hmax1024 mode_NE x y.
Definition fdiv (x y : f64) : f64 := @Bdiv 53 1024 Hprec53 Hmax1024 mode_NE x y.
Definition fltb (x y : f64) : bool := Bltb x y.
Definition fleb (x y : f64) : bool := Bleb x y.
Notation f2R := (@B2R 53 1024).
Notation finite := (@is_finite 53 1024).

(** The double [m * 2^e]. *)
Definition f64_make (m e : Z) : f64 := @binary_normalize 53 1024 Hprec53 Hmax1024 mode_NE m e false.
Definition f_half : f64 := f64_make 1 (-1).
(** [math.pi], [np.pi], lsst.geom's [PI]: 0x1.921fb54442d18p+1 *)
Definition f_pi : f64 := f64_make 7074237752028440 (-51).
(** [2*math.pi], lsst.geom's [TWOPI] *)
Definition f_twopi : f64 := fmul (float_of_int 2) f_pi.

(** [fmod(x, y)] of C (external): exact. *)
Definition fmod (x y : f64) : f64 :=
  match x, y with
  | B754_finite sx mx ex _, B754_finite _ my ey _ =>
      let e := Z.min ex ey in
      @binary_normalize 53 1024 Hprec53 Hmax1024 mode_NE
        (cond_Zopp sx ((Zpos mx * 2 ^ (ex - e)) mod (Zpos my * 2 ^ (ey - e)))) e sx
  | B754_zero _, B754_finite _ _ _ _ | B754_zero _, B754_infinity _ | B754_finite _ _ _ _, B754_infinity _ => x
  | _, _ => B754_nan
  end.
(** [lsst.geom.Angle.wrap] (external): [fmod] by [TWOPI], [TWOPI] added to negative results, and 0 if that gives [TWOPI]. *)
Definition f_wrap (x : f64) : f64 :=
  let w := fmod x f_twopi in
  let w := if fltb w (float_of_int 0) then fadd w f_twopi else w in
  if fltb w f_twopi then w else float_of_int 0.
(** numpy's [a % b] (external) *)
Definition np_mod (a b : f64) : f64 :=
  let m := fmod a b in
  if Beqb m (float_of_int 0) then float_of_int 0
  else if negb (Bool.eqb (fltb b (float_of_int 0)) (fltb m (float_of_int 0))) then fadd m b else m.
(** [int(x)] *)
Definition f_int (x : f64) : res Z :=
  match x with
  | B754_nan => Raise ValueError
  | B754_infinity _ => Raise OverflowError
  | _ => Ok (Btrunc x)
  end.
(** [np.deg2rad(x)] (external): times [NPY_PI/180]. *)
Definition np_deg2rad (x : f64) : f64 := fmul x (fdiv f_pi (float_of_int 180)).
(** [x*geom.degrees] or [x*geom.radians] in radians (external): the value of [degrees] is [PI/180]. *)
Definition f_rad (degrees : bool) (x : f64) : f64 :=
  if degrees then fmul x (fdiv f_pi (float_of_int 180)) else x.

(** [config.numRings], [_ringNums], [_raStart] (radians), [_version] *)
Record frings := mkFRings { fr_numRings : Z; fr_nums : list Z; fr_raStart : f64; fr_version : Z }.

(** ringsSkyMap.py:84 [_ringSize] *)
Definition fr_size (g : frings) : f64 := fdiv f_pi (float_of_int (fr_numRings g + 1)).
(** ringsSkyMap.py:211, 274 [firstRingStart] *)
Definition fr_first (g : frings) : f64 := fsub (fmul (fr_size g) f_half) (fmul f_half f_pi).
(** ringsSkyMap.py:91 *)
Definition fr_numTracts (g : frings) : Z := zsum (fr_nums g) + 2.

(** ringsSkyMap.py:197-219 [_decToRingNum] *)
Definition fr_decToRingNum (g : frings) (dec : f64) : res Z :=
  if fltb dec (fr_first g) then Ok (-1)
  else if fltb (fmul (fr_first g) (float_of_int (-1))) dec then Ok (fr_numRings g)
  else f_int (fdiv (fsub dec (fr_first g)) (fr_size g)).

(** [int(w/(2*math.pi/n) + 0.5)], [n] counted as 0 (ringsSkyMap.py:240-242, 292-294) *)
Definition fr_tractNum (w : f64) (n : Z) : res Z :=
  k <- f_int (fadd (fdiv w (fdiv f_twopi (float_of_int n))) f_half) ;;
  Ok (if k =? n then 0 else k).

(** ringsSkyMap.py:221-242 [_raToTractNum] *)
Definition fr_raToTractNum (g : frings) (ra : f64) (ringNum : Z) : res Z :=
  if (ringNum =? -1) || (ringNum =? fr_numRings g) then Ok 0
  else if negb ((0 <=? ringNum) && (ringNum <? fr_numRings g)) then Raise AssertionError
  else
    n <- py_nth (fr_nums g) ringNum ;;
    fr_tractNum (f_wrap (fsub ra (fr_raStart g))) n.

(** [geom.SpherePoint(ra, dec)] (external): the longitude is wrapped. *)
Definition f_spherePoint (ra dec : f64) : f64 * f64 := (f_wrap ra, dec).

(** ringsSkyMap.py:244-260 [findTract], up to the final [self[...]]: the index. *)
Definition fr_findIndex (g : frings) (coord : f64 * f64) : res Z :=
  ringNum <- fr_decToRingNum g (snd coord) ;;
  if ringNum =? -1 then Ok 0
  else if ringNum =? fr_numRings g then Ok (fr_numTracts g - 1)
  else
    tractNum <- fr_raToTractNum g (fst coord) ringNum ;;
    let ringNum := if (fr_version g =? 0) && (tractNum =? 0) && negb (ringNum =? 0)
                   then ringNum + 1 else ringNum in
    Ok (zsum (py_prefix (fr_nums g) ringNum) + (tractNum + 1)).

(** ringsSkyMap.py:126-139 the centre of a tract. [getRingIndices] computes with ints only: it is the method of Rings.v
    applied to the tract counts. [*geom.radians] multiplies by 1. *)
Definition fr_center (g : frings) (index : Z) : res (f64 * f64) :=
  ri <- getRingIndices (mkRings (fr_numRings g) (fr_nums g) 0 0 (fr_version g)) index ;;
  let '(ringNum, tractNum) := ri in
  if ringNum =? -1 then Ok (f_spherePoint (float_of_int 0) (fmul (f64_make (-1) (-1)) f_pi))
  else if ringNum =? fr_numRings g then Ok (f_spherePoint (float_of_int 0) (fmul f_half f_pi))
  else
    n <- py_nth (fr_nums g) ringNum ;;
    let dec := fsub (fmul (fr_size g) (float_of_int (ringNum + 1))) (fmul f_half f_pi) in
    let ra := f_wrap (fadd (fdiv (fmul f_twopi (float_of_int tractNum)) (float_of_int n)) (fr_raStart g)) in
    Ok (f_spherePoint ra dec).

(** ringsSkyMap.py:262-308 [findTractIdArray], for one element (all numpy operations act element by element; the
    conversions to int32 are of numbers below 2^31). *)
Definition fr_findId1 (g : frings) (degrees : bool) (radec : f64 * f64) : res Z :=
  let ra := if degrees then np_deg2rad (fst radec) else fst radec in
  let dec := if degrees then np_deg2rad (snd radec) else snd radec in
  let first := fr_first g in
  let neg := fmul (float_of_int (-1)) first in
  let r1 := if fltb dec first then -1 else 0 in
  let r2 := if fltb neg dec then fr_numRings g else r1 in
  ringNum <- (if fleb first dec && fleb dec neg then f_int (fdiv (fsub dec first) (fr_size g)) else Ok r2) ;;
  let i1 := if ringNum =? -1 then 0 else -1 in
  let i2 := if ringNum =? fr_numRings g then fr_numTracts g - 1 else i1 in
  if negb (i2 <? 0) then Ok i2
  else
    n <- py_nth (fr_nums g) ringNum ;;
    tractNum <- fr_tractNum (np_mod (fsub ra (fr_raStart g)) f_twopi) n ;;
    let ringNum := if (fr_version g =? 0) && ((tractNum =? 0) && negb (ringNum =? 0))
                   then ringNum + 1 else ringNum in
    cum <- py_nth (map (fun k => zsum (firstn k (fr_nums g))) (seq 0 (S (length (fr_nums g))))) ringNum ;;
    Ok (cum + tractNum + 1).
Definition fr_findTractIdArray (g : frings) (degrees : bool) (radecs : list (f64 * f64)) : res (list Z) :=
  mapM (fr_findId1 g degrees) radecs.

(** ringsSkyMap.py:328-347 the indices tried in ring [r]; the wrapped tract numbers and indices are computed with ints only. *)
Definition fr_ring_candidates (g : frings) (coord : f64 * f64) (r : Z) : res (list Z) :=
  if (r <? 0) || (fr_numRings g <=? r) then Ok []
  else
    tractNum <- fr_raToTractNum g (fst coord) r ;;
    n <- py_nth (fr_nums g) r ;;
    Ok (ring_candidates (mkRings (fr_numRings g) (fr_nums g) 0 0 (fr_version g)) r tractNum n).
(** ringsSkyMap.py:323-355 [findAllTracts]: the indices tried, in order. *)
Definition fr_candidates (g : frings) (coord : f64 * f64) : res (list Z) :=
  ringNum <- fr_decToRingNum g (snd coord) ;;
  a <- fr_ring_candidates g coord (ringNum - 1) ;;
  b <- fr_ring_candidates g coord ringNum ;;
  c <- fr_ring_candidates g coord (ringNum + 1) ;;
  Ok (a ++ b ++ c ++ [0; fr_numTracts g - 1]).
(** ringsSkyMap.py:310-359 [findAllTracts]. Simplifications: the tracts [d] and their [contains] have exact pixel positions;
    the exceptions of the number arithmetic come before any tract is made. *)
Definition fr_findAllTracts (offset : sphere -> R -> R -> sphere) (d : skydef sphere) (g : frings) (coord : f64 * f64)
  : SM sphere (list (tract sphere)) :=
  l <-- smlift (fr_candidates g coord) ;;
  try_tracts offset d (f2R (fst coord), f2R (snd coord)) l [].
