(** Property theorems; generated by tools/mkprops.py from MainDodeca.v. *)
From Coq Require Import Reals Lra Lia Permutation Sorted.
From Flocq Require Import Core.Raux.
Require Import Verif.Py Verif.Geom Verif.PatchInfo Verif.TractBuilder Verif.TractInfo Verif.Spec.
Require Import Verif.PatchProofs Verif.TractProofs.
Require Import Verif.SkyMap Verif.SkySpec Verif.SkyProofs Verif.SkyProofs2 Verif.MainSky.
Require Import Verif.Rings Verif.RingsSpec Verif.RingsProofs Verif.Sphere Verif.SphereProofs Verif.TractBox Verif.Uniform Verif.MapsProofs.
Require Import Verif.Dodeca Verif.DodecaSpec Verif.DodecaZ Verif.DodecaProofs Verif.DodecaProofs2 Verif.DodecaProofs3 Verif.DodecaProofs4.
Require Import Verif.MainDodeca.
Open Scope R_scope.

(** C38: in whatever order Python runs through its sets, the constructor of Dodecahedron succeeds in both
    orientations, with 12 different face vectors and 20 different vertices, all of length one. *)
Theorem dodecahedron_counts : forall order b, any_order order ->
  exists D, Dodecahedron_init order b = Ok D
    /\ length (dd_faces D) = 12%nat /\ NoDup (dd_faces D) /\ Forall unit_vec (dd_faces D)
    /\ length (dd_vertices D) = 20%nat /\ NoDup (dd_vertices D) /\ Forall unit_vec (dd_vertices D).
Proof. exact dodecahedron_counts_proof. Qed.
Print Assumptions dodecahedron_counts.

(** C38: every face has exactly five nearest faces: five others have scalar product 1/sqrt(5) with it, all
    remaining faces are in the opposite hemisphere, and the opposite vector of every face is a face. *)
Theorem face_neighbours : forall order b D f, any_order order -> Dodecahedron_init order b = Ok D ->
  In f (dd_faces D) ->
  exists ns, length ns = 5%nat /\ NoDup ns
    /\ (forall g, In g ns <-> In g (dd_faces D) /\ g <> f /\ dot f g = / sqrt 5)
    /\ (forall g, In g (dd_faces D) -> g <> f -> ~ In g ns -> dot f g <= - / sqrt 5)
    /\ In (vscale (-1) f) (dd_faces D).
Proof. exact face_neighbours_proof. Qed.
Print Assumptions face_neighbours.

(** C38: getVertices of a face succeeds and gives five different vertices, exactly those nearest to the face
    vector, in such an order that successive ones (cyclically) have scalar product sqrt(5)/3, which is the largest
    possible between different vertices: they are joined by an edge. *)
Theorem face_vertices : forall order b D i f, any_order order -> Dodecahedron_init order b = Ok D ->
  (0 <= i < 12)%Z -> getFaceCtr D i = Ok f ->
  exists vs, getVertices D i = Ok vs /\ length vs = 5%nat /\ NoDup vs
    /\ (forall v, In v vs <-> In v (dd_vertices D) /\ forall u, In u (dd_vertices D) -> dot f u <= dot f v)
    /\ (forall v u, In (v, u) (cyclic_pairs vs) -> dot v u = sqrt 5 / 3)
    /\ (forall v u, In v (dd_vertices D) -> In u (dd_vertices D) -> v <> u -> dot v u <= sqrt 5 / 3).
Proof. exact face_vertices_proof. Qed.
Print Assumptions face_vertices.

(** C39: computeRotationMatrix is a rotation (lengths, angles and handedness are preserved) about the given
    axis, for every angle. *)
Theorem rotation_matrix : forall angle axis, (axis < 3)%nat ->
  rotation (computeRotationMatrix angle axis)
  /\ let e := nth axis [(1, 0, 0); (0, 1, 0); (0, 0, 1)] (0, 0, 0) in
     mat_vec (computeRotationMatrix angle axis) e = e.
Proof. exact rotation_matrix_proof. Qed.
Print Assumptions rotation_matrix.

(** C39: for all vectors, the matrix of _computeCoordTransform is a rotation and takes vec0 to the +z axis. *)
Theorem coord_transform_rotation : forall vec0 vec1 neg,
  rotation (computeCoordTransform vec0 vec1 neg)
  /\ mat_vec (computeCoordTransform vec0 vec1 neg) vec0 = (0, 0, norm vec0).
Proof. exact coord_transform_rotation_proof. Qed.
Print Assumptions coord_transform_rotation.

(** C39: without vec1NegativeX, vec1 is taken into the xz plane with x >= 0, for all vectors. *)
Theorem coord_transform_second : forall vec0 vec1,
  let w := mat_vec (computeCoordTransform vec0 vec1 false) vec1 in vy w = 0 /\ 0 <= vx w.
Proof. exact coord_transform_second_proof. Qed.
Print Assumptions coord_transform_second.

(** C39 REFUTED for vec1NegativeX: with vec0 = +z and vec1 = (1, 1, 0), vec1 is taken to the -y axis instead of
    the half plane of negative x. *)
Theorem coord_transform_negative_refuted :
  let w := mat_vec (computeCoordTransform (0, 0, 1) (1, 1, 0) true) (1, 1, 0) in
  vx w = 0 /\ vy w < 0.
Proof. exact coord_transform_negative_refuted_proof. Qed.
Print Assumptions coord_transform_negative_refuted.

(** C39: with vec1NegativeX, if both vectors are in the xz plane (as are the two that are
    used), vec1 is taken into the xz plane with x <= 0. *)
Theorem coord_transform_negative_xz : forall vec0 vec1, vy vec0 = 0 -> vy vec1 = 0 ->
  let w := mat_vec (computeCoordTransform vec0 vec1 true) vec1 in vy w = 0 /\ vx w <= 0.
Proof. exact coord_transform_negative_xz_proof. Qed.
Print Assumptions coord_transform_negative_xz.

(** C39: with vec1NegativeX, for a vec0 that is not on the x axis: vec1 is taken into the xz plane with x <= 0 exactly if it
    lies in the plane through vec0 and the x axis. *)
Theorem coord_transform_negative_exact : forall vec0 vec1, vy vec0 <> 0 \/ vz vec0 <> 0 ->
  let w := mat_vec (computeCoordTransform vec0 vec1 true) vec1 in
  (vy w = 0 /\ vx w <= 0) <-> vy vec0 * vz vec1 = vz vec0 * vy vec1.
Proof. exact coord_transform_negative_exact_proof. Qed.
Print Assumptions coord_transform_negative_exact.

(** C39: with faces on the poles, face 0 is the north pole, face 11 the south pole, one of the faces nearest
    to face 0 is in the direction of RA 0; in both orientations the faces are numbered by decreasing z. *)
Theorem polar_faces : forall order D, any_order order -> Dodecahedron_init order true = Ok D ->
  getFaceCtr D 0 = Ok (0, 0, 1) /\ getFaceCtr D 11 = Ok (0, 0, -1)
  /\ exists f, In f (dd_faces D) /\ vz f = / sqrt 5 /\ vy f = 0 /\ 0 < vx f.
Proof. exact polar_faces_proof. Qed.
Print Assumptions polar_faces.

(** C39: the faces are numbered by decreasing z, in both orientations. *)
Theorem faces_by_z : forall order b D i j f g, any_order order -> Dodecahedron_init order b = Ok D ->
  (0 <= i < j)%Z -> (j < 12)%Z -> getFaceCtr D i = Ok f -> getFaceCtr D j = Ok g -> vz g <= vz f.
Proof. exact faces_by_z_proof. Qed.
Print Assumptions faces_by_z.

(** C39: with vertices on the poles, both poles are vertices. *)
Theorem polar_vertices : forall order D, any_order order -> Dodecahedron_init order false = Ok D ->
  In (0, 0, 1) (dd_vertices D) /\ In (0, 0, -1) (dd_vertices D).
Proof. exact polar_vertices_proof. Qed.
Print Assumptions polar_vertices.

(** C40: a DodecaSkyMap can be constructed in both orientations with any valid tract builder configuration, any
    overlap and any WCS that does not raise unexpected exceptions; it has 12 tracts. *)
Theorem dodeca_constructed : forall order offset c mk ov b, any_order order -> cfg_ok c ->
  (forall ctr p e, skyToPixel (mk ctr) p <> PixRaise e) ->
  exists D s, dodeca_new order offset c mk ov b = Ok (D, s) /\ sm_len (dodeca_def c mk ov D) s = 12%Z
    /\ sm_reachable offset (dodeca_def c mk ov D) s.
Proof. exact dodeca_constructed_proof. Qed.
Print Assumptions dodeca_constructed.

(** C40: in any state of the map, findTract of DodecaSkyMap returns, for every coordinate, the same tract
    object as the default findTract (nearest centre; ties included), without changing the state. *)
Theorem dodeca_findTract_default : forall order offset c mk ov b D s0 s coord, any_order order ->
  dodeca_new order offset c mk ov b = Ok (D, s0) -> accesses offset (dodeca_def c mk ov D) s0 s ->
  exists t, dodeca_findTract offset (dodeca_def c mk ov D) D coord s = (s, Ok t)
    /\ base_findTract offset separation (dodeca_def c mk ov D) coord s = (s, Ok t)
    /\ holds offset (dodeca_def c mk ov D) (t_id t) s t
    /\ forall j u, holds offset (dodeca_def c mk ov D) j s u -> separation coord (t_ctr t) <= separation coord (t_ctr u).
Proof. exact dodeca_findTract_default_proof. Qed.
Print Assumptions dodeca_findTract_default.

(** C40: the coordinate lies in the inner pentagon of the tract that findTract returns: on the same side as the
    centre of the great circle through each pair of successive vertices; and a coordinate strictly inside the
    pentagon of some tract gets that tract. *)
Theorem dodeca_pentagons : forall order offset c mk ov b D s0 s coord t, any_order order ->
  dodeca_new order offset c mk ov b = Ok (D, s0) -> accesses offset (dodeca_def c mk ov D) s0 s ->
  (dodeca_findTract offset (dodeca_def c mk ov D) D coord s = (s, Ok t) -> in_pentagon t coord)
  /\ (forall i, holds offset (dodeca_def c mk ov D) i s t -> strictly_in_pentagon t coord ->
        dodeca_findTract offset (dodeca_def c mk ov D) D coord s = (s, Ok t)).
Proof. exact dodeca_pentagons_proof. Qed.
Print Assumptions dodeca_pentagons.

(** C36, C40: findTract of a Dodeca map is a search in the sense used by findClosestTractPatchList. *)
Theorem dodeca_findTract_search : forall order offset c mk ov b D s0, any_order order ->
  dodeca_new order offset c mk ov b = Ok (D, s0) ->
  search offset (dodeca_def c mk ov D) (dodeca_findTract offset (dodeca_def c mk ov D) D).
Proof. exact dodeca_findTract_search_proof. Qed.
Print Assumptions dodeca_findTract_search.

(** C38-C40, non-vacuity: with sets run through in ascending order and a stereographic WCS, the default
    orientation can be constructed, and the centre of every tract is strictly inside its own pentagon. *)
Example dodeca_example : any_order (fun _ s => s)
  /\ forall c scale ov b, cfg_ok c -> exists D s, dodeca_new (fun _ s => s) sphere_offset c (stg_wcs scale) ov b = Ok (D, s)
    /\ forall i, (0 <= i < 12)%Z -> exists t, holds sphere_offset (dodeca_def c (stg_wcs scale) ov D) i s t
        /\ strictly_in_pentagon t (t_ctr t).
Proof. exact dodeca_example_proof. Qed.

(** C39: when sets are run through in ascending order (as CPython does for these sets), the default orientation
    has a vertex adjacent to the one at the north pole in the direction of RA 180 degrees. *)
Theorem polar_vertex_default : forall D, Dodecahedron_init (fun _ s => s) false = Ok D ->
  exists v, In v (dd_vertices D) /\ dot (0, 0, 1) v = sqrt 5 / 3 /\ vy v = 0 /\ vx v < 0.
Proof. exact polar_vertex_default_proof. Qed.
Print Assumptions polar_vertex_default.
