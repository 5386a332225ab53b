(** Property theorems; generated by tools/mkprops.py from MainMisc.v. *)
From Coq Require Import Reals Lra Lia.
From Flocq Require Import Raux.
Require Import Verif.Py Verif.Geom Verif.PatchInfo Verif.TractBuilder Verif.TractInfo Verif.Spec.
Require Import Verif.PatchProofs Verif.CellProofs Verif.TractProofs Verif.Examples.
Require Import Verif.SkyMap Verif.SkySpec Verif.SkyProofs Verif.SkyProofs2 Verif.MainSky.
Require Import Verif.Rings Verif.RingsSpec Verif.RingsProofs Verif.RingsProofs2 Verif.Sphere Verif.SphereProofs Verif.TractBox Verif.Uniform.
Require Import Verif.Maps Verif.MapsProofs Verif.MainMaps Verif.Region Verif.RegionProofs.
Require Import Verif.Dodeca Verif.DodecaSpec Verif.DodecaProofs3 Verif.DodecaProofs4 Verif.MainDodeca.
Require Import Verif.RingsNum Verif.MainRings Verif.MainRings2 Verif.SkyMapLog Verif.MiscSpec.
Require Import Verif.MainMisc.
Open Scope Z_scope.

(** C65: the attributes of a patch: tract[index], for an Index2D, a pair or a number, has the position (x, y)
    that the index denotes, sequential index y*nx + x, the projection of the tract, and the cell
    geometry of the configuration (none for the legacy builder). *)
Theorem patch_attributes :
  forall (Sky : Type) (offset : Sky -> R -> R -> Sky) c b t ix p nx ny,
  cfg_ok c -> in_use offset c b t -> t_numPatches t = (nx, ny) -> tract_getPatchInfo b t ix = Ok p ->
  exists x y, 0 <= x < nx /\ 0 <= y < ny
    /\ (ix = IxIndex2D x y \/ ix = IxSeq [x; y] \/ ix = IxNum (y * nx + x))
    /\ p_index p = (x, y) /\ p_seq p = y * nx + x /\ p_wcs p = t_wcs t
    /\ match c with
       | LegacyCfg _ _ => p_numCells p = (0, 0) /\ p_cellInner p = (0, 0) /\ p_cellBorder p = 0
       | CellCfg dims cb n nb => p_numCells p = (n + 2 * nb, n + 2 * nb) /\ p_cellInner p = dims /\ p_cellBorder p = cb
       end.
Proof. exact patch_attributes_proof. Qed.
Print Assumptions patch_attributes.

(** C65: the attributes of a cell: patch[index] has the position (x, y) that the index denotes, sequential
    index y*n + x where n is the number of cells along a side, and the projection of the tract. *)
Theorem cell_attributes :
  forall (Sky : Type) (offset : Sky -> R -> R -> Sky) cw ch cb nI nB b t X Y p ix cl,
  let c := CellCfg (cw, ch) cb nI nB in
  cfg_ok c -> in_use offset c b t -> tract_getPatchInfo b t (IxIndex2D X Y) = Ok p -> getCellInfo p ix = Ok cl ->
  let n := nI + 2 * nB in
  exists x y, 0 <= x < n /\ 0 <= y < n
    /\ (ix = IxIndex2D x y \/ ix = IxSeq [x; y] \/ ix = IxNum (y * n + x))
    /\ c_index cl = (x, y) /\ c_seq cl = y * n + x /\ c_wcs cl = t_wcs t.
Proof. exact cell_attributes_proof. Qed.
Print Assumptions cell_attributes.

(** C65: cells and patches are independent of how they are reached: equal positions give the identical
    patch, so index, sequential number and pair are interchangeable names of it. *)
Theorem patch_names :
  forall (Sky : Type) (offset : Sky -> R -> R -> Sky) c b t x y nx ny,
  cfg_ok c -> in_use offset c b t -> t_numPatches t = (nx, ny) -> 0 <= x < nx -> 0 <= y < ny ->
  exists p, tract_getPatchInfo b t (IxIndex2D x y) = Ok p
    /\ tract_getPatchInfo b t (IxSeq [x; y]) = Ok p /\ tract_getPatchInfo b t (IxNum (y * nx + x)) = Ok p.
Proof. exact patch_names_proof. Qed.
Print Assumptions patch_names.

(** C66: two cells compare equal exactly if they have the same index and the same inner and outer boxes
    (the projection is not compared). *)
Theorem cell_equality : forall (W : Type) (a b : cell W),
  cell_eqb a b = true <-> c_index a = c_index b /\ c_inner a = c_inner b /\ c_outer a = c_outer b.
Proof. exact cell_equality_proof. Qed.
Print Assumptions cell_equality.

(** C66: two patches compare equal exactly if they have the same index, inner and outer boxes, number of
    cells and cell border (the projection and the size of the cells are not compared). *)
Theorem patch_equality : forall (W : Type) (a b : patch W),
  patch_eqb a b = true <->
  p_index a = p_index b /\ p_inner a = p_inner b /\ p_outer a = p_outer b
  /\ p_numCells a = p_numCells b /\ p_cellBorder a = p_cellBorder b.
Proof. exact patch_equality_proof. Qed.
Print Assumptions patch_equality.

(** C66: both are equivalence relations. *)
Theorem equality_equivalence : forall (W : Type),
  (forall a : cell W, cell_eqb a a = true)
  /\ (forall a b : cell W, cell_eqb a b = cell_eqb b a)
  /\ (forall a b c : cell W, cell_eqb a b = true -> cell_eqb b c = true -> cell_eqb a c = true)
  /\ (forall p : patch W, patch_eqb p p = true)
  /\ (forall p q : patch W, patch_eqb p q = patch_eqb q p)
  /\ (forall p q r : patch W, patch_eqb p q = true -> patch_eqb q r = true -> patch_eqb p r = true).
Proof. exact equality_equivalence_proof. Qed.
Print Assumptions equality_equivalence.

(** C66: within a tract, and between two tracts in use of the same configuration, patches compare equal exactly
    if they have the same index and the same outer box; in one tract exactly if they have the same index. *)
Theorem patch_equality_tract :
  forall (Sky : Type) (offset : Sky -> R -> R -> Sky) c b t b' t' ix p ix' p',
  cfg_ok c -> in_use offset c b t -> in_use offset c b' t' ->
  tract_getPatchInfo b t ix = Ok p -> tract_getPatchInfo b' t' ix' = Ok p' ->
  (patch_eqb p p' = true <-> p_index p = p_index p' /\ p_outer p = p_outer p')
  /\ (b = b' -> t = t' -> (patch_eqb p p' = true <-> p = p') /\ (p = p' <-> p_index p = p_index p')).
Proof. exact patch_equality_tract_proof. Qed.
Print Assumptions patch_equality_tract.

(** C67, EquatSkyMap: tract i of n has as vertices the corners of the slice from RA 360*i/n to 360*(i+1)/n degrees
    and the configured declinations, in counterclockwise order starting at the south west, its centre in the
    middle of the slice, the projection of the equatorial point at that RA, and contains every point half
    the overlap away from a vertex in any of 24 directions (where they can be projected). *)
Theorem equat_tracts : forall offset c mk ov n dec0 dec1 d s i t,
  cfg_ok c -> 0 < n -> equat_def c mk ov n (dec0, dec1) = Ok d -> sm_reachable offset d s -> holds offset d i s t ->
  let lon k := deg (360 * k / IZR n) in
  0 <= i < n /\ sm_len d s = n
  /\ let w := mk (spherePoint (lon (IZR i + 1 / 2)) 0)%R in
     let verts := [spherePoint (lon (IZR i)) (deg dec0); spherePoint (lon (IZR i + 1)) (deg dec0);
                   spherePoint (lon (IZR i + 1)) (deg dec1); spherePoint (lon (IZR i)) (deg dec1)]%R in
     tract_with i (spherePoint (lon (IZR i + 1 / 2)) (deg ((dec0 + dec1) / 2)))%R verts (deg ov) w t
     /\ forall v, In v verts -> contains_around offset w (deg ov) t v.
Proof. exact equat_tracts_proof. Qed.
Print Assumptions equat_tracts.

(** C67, DiscreteSkyMap: tract i has the centre, overlap and projection of the configuration (its vertices and
    the points it contains: discrete_tracts, C18). *)
Theorem discrete_contents : forall offset c mk ov dc s i t,
  let d := discrete_def c mk ov dc in
  cfg_ok c -> sm_reachable offset d s -> holds offset d i s t ->
  exists ra dec radius, py_nth (dc_ra dc) i = Ok ra /\ py_nth (dc_dec dc) i = Ok dec /\ py_nth (dc_radius dc) i = Ok radius
    /\ let ctr := spherePoint (deg ra) (deg dec) in
       t_id t = i /\ t_ctr t = ctr /\ t_overlap t = deg ov /\ same_projection (mk ctr) (t_wcs t)
       /\ forall k, 0 <= k < 4 -> contains_projected (mk ctr) t (offset ctr (IZR k * (PI / 2))%R (deg radius + deg ov)%R).
Proof. exact discrete_contents_proof. Qed.
Print Assumptions discrete_contents.

(** C67, HealpixSkyMap: tract i has the centre and the vertices that angToCoord gives for HEALPixel i, the
    configured overlap, the projection of its centre, and contains the points half the overlap away from
    each vertex. *)
Theorem healpix_contents : forall p2a bnd offset c mk ov k nest d s i t,
  cfg_ok c -> healpix_def p2a bnd c mk ov k nest = Ok d -> sm_reachable offset d s -> holds offset d i s t ->
  exists ctr verts, angToCoord (p2a (2 ^ k) nest i) = Ok ctr
    /\ Forall2 (fun ang v => angToCoord ang = Ok v) (bnd (2 ^ k) nest i) verts
    /\ tract_with i ctr verts (deg ov) (mk ctr) t
    /\ forall v, In v verts -> contains_around offset (mk ctr) (deg ov) t v.
Proof. exact healpix_contents_proof. Qed.
Print Assumptions healpix_contents.

(** C67, RingsSkyMap: tract i, which is tract k of n of ring r, is centred at RA raStart + 360*k/n degrees and
    declination -90 + 180*(r+1)/(numRings+1) degrees, the caps at the poles; it has the configured overlap and
    the projection of its centre, and contains the points at half a ring height plus the overlap from its centre
    in the four cardinal directions. *)
Theorem rings_contents : forall offset c mk ov numRings raStart version g s i t,
  1 <= numRings -> rings_init numRings raStart version = Ok g ->
  let d := rings_def c mk ov g in
  cfg_ok c -> sm_reachable offset d s -> holds offset d i s t ->
  t_id t = i /\ t_overlap t = deg ov /\ same_projection (mk (t_ctr t)) (t_wcs t)
  /\ (forall k, 0 <= k < 4 ->
        contains_projected (mk (t_ctr t)) t (offset (t_ctr t) (IZR k * (PI / 2)) (deg (180 / (IZR numRings + 1)) / 2 + deg ov))%R)
  /\ (i = 0 -> t_ctr t = (0, - (PI / 2))%R)
  /\ (i = rings_numTracts g - 1 -> t_ctr t = (0, PI / 2)%R)
  /\ (forall r k n, getRingIndices g i = Ok (r, k) -> ring_has g r n ->
        t_ctr t = spherePoint (deg (raStart + 360 * IZR k / IZR n)) (deg (-90 + 180 * (IZR r + 1) / (IZR numRings + 1)))%R).
Proof. exact rings_contents_proof. Qed.
Print Assumptions rings_contents.

(** C67, DodecaSkyMap: tract i is centred on face i of the dodecahedron; its vertices are those of the face; it has
    the configured overlap and the projection of its centre, and contains the points half the overlap away
    from each vertex. *)
Theorem dodeca_contents : forall order offset c mk ov b D s0 s i t, any_order order -> cfg_ok c ->
  dodeca_new order offset c mk ov b = Ok (D, s0) -> accesses offset (dodeca_def c mk ov D) s0 s ->
  holds offset (dodeca_def c mk ov D) i s t ->
  exists f vs, getFaceCtr D i = Ok f /\ getVertices D i = Ok vs
    /\ vec_of (t_ctr t) = f /\ map vec_of (t_verts t) = vs
    /\ t_id t = i /\ t_overlap t = deg ov /\ same_projection (mk (t_ctr t)) (t_wcs t)
    /\ forall v, In v (t_verts t) -> contains_around offset (mk (t_ctr t)) (deg ov) t v.
Proof. exact dodeca_contents_proof. Qed.
Print Assumptions dodeca_contents.

(** C68: findTractIdArray of the base class, for any findTract (search) of the map, in any state: with a declination
    outside [-90, 90] degrees among the elements it raises InvalidParameterError and leaves the map alone;
    otherwise the result has, for each element, the id of the tract that findTract returns for the
    coordinate (in radians or degrees); extra elements of the longer argument are ignored; it fails only
    if findTract fails for one of the elements. *)
Theorem base_findTractIdArray_correct : forall (offset : sphere -> R -> R -> sphere) (d : skydef sphere) (ft : sphere -> SM sphere (tract sphere))
  ra dec (degrees : bool) (s s' : smstate sphere) r,
  search offset d ft -> sm_reachable offset d s -> base_idArray ft ra dec degrees s = (s', r) ->
  let unit x := if degrees then deg x else x in
  let valid := forall x y, In (x, y) (combine ra dec) -> (Rabs (unit y) <= PI / 2)%R in
  accesses offset d s s'
  /\ (~ valid -> r = Raise InvalidParameterError /\ s' = s)
  /\ (forall ids, r = Ok ids -> valid /\
        Forall2 (fun rd id => exists t, ft (spherePoint (unit (fst rd)) (unit (snd rd))) s' = (s', Ok t) /\ t_id t = id)
                (combine ra dec) ids)
  /\ (forall e, valid -> r = Raise e -> exists x y s1, In (x, y) (combine ra dec) /\ accesses offset d s s1
        /\ ft (spherePoint (unit x) (unit y)) s1 = (s', Raise e)).
Proof. exact base_findTractIdArray_correct_proof. Qed.
Print Assumptions base_findTractIdArray_correct.

(** C69: logSkyMapInfo writes len(skymap) and then, for the tracts in order of their ids, the id, the corners of
    the tract's outer sky polygon and its patch counts; the messages already in the log stay; it changes the
    map only by accesses, and fails only if some tract cannot be generated, having logged the ones before. *)
Theorem logSkyMapInfo_correct : forall offset d s log s' log' r,
  sm_reachable offset d s -> logSkyMapInfo offset d (s, log) = ((s', log'), r) ->
  accesses offset d s s'
  /\ exists k ts, 0 <= k /\ Forall2 (fun i t => t_id t = i /\ holds offset d i s' t) (zrange 0 k) ts
     /\ log' = log ++ MsgCount (sm_len d s)
               :: map (fun t => MsgTract (t_id t) (tract_getOuterSkyPolygon t) (fst (t_numPatches t)) (snd (t_numPatches t))) ts
     /\ (r = Ok tt -> k = Z.max 0 (sd_num d))
     /\ (forall e, r = Raise e -> k < sd_num d /\ exists s1, accesses offset d s s1 /\ sm_getitem offset d k s1 = (s', Raise e)).
Proof. exact logSkyMapInfo_correct_proof. Qed.
Print Assumptions logSkyMapInfo_correct.

(** C65, C66, non-vacuity: patch (1, 0) of a tract with the default cells, and cell (2, 3) of it, which is not equal
    to cell (3, 2). *)
Example cell_of_patch_example :
  exists b t p c1 c2, cfg_ok cell_default /\ in_use flat_offset cell_default b t
    /\ tract_getPatchInfo b t (IxIndex2D 1 0) = Ok p /\ t_numPatches t = (4, 2)
    /\ getCellInfo p (IxIndex2D 2 3) = Ok c1 /\ getCellInfo p (IxNum 47) = Ok c2
    /\ cell_eqb c1 c1 = true /\ cell_eqb c1 c2 = false /\ patch_eqb p p = true.
Proof. exact cell_of_patch_example_proof. Qed.

(** C67 - C69, non-vacuity: on the default rings map with three rings, findTractIdArray of (0, 0) and (10, 95)
    degrees is refused, of (0, 0) succeeds, and logSkyMapInfo logs all tracts. *)
Example rings_log_example : forall g log, rings_init 3 0 1 = Ok g ->
  let d := rings_def legacy_default (stg_wcs (arcsec_scale (333 / 1000))) 1 g in
  let ft := rings_findTract sphere_offset d g in
  exists s, sm_reachable sphere_offset d s /\ search sphere_offset d ft
    /\ base_idArray ft [0; 10]%R [0; 95]%R true s = (s, Raise InvalidParameterError)
    /\ (exists s' id, base_idArray ft [0; 10]%R [0]%R true s = (s', Ok [id]))
    /\ exists s' log', logSkyMapInfo sphere_offset d (s, log) = ((s', log'), Ok tt) /\ length log' = (length log + 27)%nat.
Proof. exact rings_log_example_proof. Qed.
