(** The dodecahedron and the Dodeca map (C36, C38-C40). *)
From Coq Require Import Reals Lra Lia Permutation Sorted.
From Flocq Require Import Core.Raux.
Require Import Verif.Py Verif.Geom Verif.PatchInfo Verif.TractBuilder Verif.TractInfo Verif.Spec.
Require Import Verif.PatchProofs Verif.TractProofs.
Require Import Verif.SkyMap Verif.SkySpec Verif.SkyProofs Verif.SkyProofs2 Verif.MainSky.
Require Import Verif.Rings Verif.RingsSpec Verif.RingsProofs Verif.Sphere Verif.SphereProofs Verif.TractBox Verif.Uniform Verif.MapsProofs.
Require Import Verif.Dodeca Verif.DodecaSpec Verif.DodecaZ Verif.DodecaProofs Verif.DodecaProofs2 Verif.DodecaProofs3 Verif.DodecaProofs4.
Open Scope R_scope.

(*@ C38: in whatever order Python runs through its sets, the constructor of Dodecahedron succeeds in both
    orientations, with 12 different face vectors and 20 different vertices, all of length one. *)
Lemma dodecahedron_counts_proof : forall order b, any_order order ->
  exists D, Dodecahedron_init order b = Ok D
    /\ length (dd_faces D) = 12%nat /\ NoDup (dd_faces D) /\ Forall unit_vec (dd_faces D)
    /\ length (dd_vertices D) = 20%nat /\ NoDup (dd_vertices D) /\ Forall unit_vec (dd_vertices D).
Proof.
  intros order b Ho. destruct (init_ok order b Ho) as (D & m & ts & fs & E & _ & Sh). exists D. split; [exact E|].
  pose proof (fs_len _ _ _ _ Sh) as Lf. pose proof (Permutation_length (sh_ts _ _ _ _ Sh)) as Lt.
  rewrite (sh_faces _ _ _ _ Sh), (sh_verts _ _ _ _ Sh), !map_length. split; [exact Lf|]. split.
  { apply NoDup_map_in.
    - intros x y Hx Hy. apply (pf_inj _ _ _ _ Sh); now apply (fs_lt _ _ _ _ Sh).
    - apply (Permutation_NoDup (Permutation_sym (sh_fs _ _ _ _ Sh))), seq_NoDup. }
  split.
  { apply Forall_forall. intros v Hv. apply in_map_iff in Hv. destruct Hv as (f & <- & Hf).
    apply (pf_unit _ _ _ _ Sh), (fs_lt _ _ _ _ Sh), Hf. }
  split; [exact Lt|]. split.
  { apply NoDup_map_in.
    - intros x y Hx Hy Exy. apply (ts_in _ _ _ _ Sh) in Hx, Hy.
      apply (rigid_inj _ _ _ (sh_rigid _ _ _ _ Sh)) in Exy; [now apply vv_one|now apply phi_v_unit|now apply phi_v_unit].
    - apply (Permutation_NoDup (Permutation_sym (sh_ts _ _ _ _ Sh))), canon_nodup. }
  apply Forall_forall. intros v Hv. apply in_map_iff in Hv. destruct Hv as (t & <- & Ht).
  apply (pv_unit _ _ _ _ Sh), (ts_in _ _ _ _ Sh), Ht.
Qed.

(*@ C38: every face has exactly five nearest faces: five others have scalar product 1/sqrt(5) with it, all
    remaining faces are in the opposite hemisphere, and the opposite vector of every face is a face. *)
Lemma face_neighbours_proof : forall order b D f, any_order order -> Dodecahedron_init order b = Ok D ->
  In f (dd_faces D) ->
  exists ns, length ns = 5%nat /\ NoDup ns
    /\ (forall g, In g ns <-> In g (dd_faces D) /\ g <> f /\ dot f g = / sqrt 5)
    /\ (forall g, In g (dd_faces D) -> g <> f -> ~ In g ns -> dot f g <= - / sqrt 5)
    /\ In (vscale (-1) f) (dd_faces D).
Proof.
  intros order b D f Ho E Hf. destruct (shape_of order b D Ho E) as (_ & m & ts & fs & Sh).
  rewrite (sh_faces _ _ _ _ Sh) in *. apply in_map_iff in Hf. destruct Hf as (i & <- & Hi). apply (fs_lt _ _ _ _ Sh) in Hi.
  set (pf := fun i => mat_vec m (phi_f i)).
  assert (Adj : forall n, In n (nth i adjs []) -> (n < 12)%nat).
  { intros n Hin. assert (K : forallb (fun f => forallb (fun n => Nat.ltb n 12) (nth f adjs [])) (seq 0 12) = true) by (vm_compute; reflexivity).
    rewrite forallb_forall in K. specialize (K i ltac:(apply in_seq; lia)). rewrite forallb_forall in K. apply Nat.ltb_lt, K, Hin. }
  pose proof inv_sqrt5 as S5.
  exists (map pf (nth i adjs [])). split; [rewrite map_length; clear -Hi; do 12 (destruct i as [|i]; [reflexivity|]); lia|].
  split; [|split; [|split]].
  - apply NoDup_map_in; [intros x y Hx Hy; apply (pf_inj _ _ _ _ Sh); now apply Adj|].
    clear -Hi. do 12 (destruct i as [|i]; [cbn; repeat constructor; cbn; intuition discriminate|]). lia.
  - intros g. split.
    + intros Hg. apply in_map_iff in Hg. destruct Hg as (n & <- & Hn). pose proof (Adj n Hn) as Hn12.
      split; [apply (in_map pf); now apply (fs_in _ _ _ _ Sh)|]. fold (pf i).
      assert (Dn : dot (pf i) (pf n) = dot (phi_f i) (phi_f n)) by apply (sh_rigid _ _ _ _ Sh).
      destruct (ff_cases i n Hi Hn12) as [[-> _]|[(_ & Hne & En)|(Hno & _)]]; [exfalso| |tauto].
      { assert (K : forallb (fun f => negb (mem f (nth f adjs []))) (seq 0 12) = true) by (vm_compute; reflexivity).
        rewrite forallb_forall in K. specialize (K n ltac:(apply in_seq; lia)). apply mem_In in Hn. rewrite Hn in K. discriminate. }
      split; [|congruence]. intros C. apply (pf_inj _ _ _ _ Sh) in C; [congruence|assumption|assumption].
    + intros (Hg & Hne & Hd). apply in_map_iff in Hg. destruct Hg as (n & <- & Hn). apply (fs_lt _ _ _ _ Sh) in Hn.
      apply (in_map pf). replace (dot _ _) with (dot (phi_f i) (phi_f n)) in Hd by (symmetry; apply (sh_rigid _ _ _ _ Sh)).
      destruct (ff_cases i n Hi Hn) as [[-> _]|[(Hin & _)|(_ & _ & [X|X])]]; [now exfalso; apply Hne|assumption| |]; lra.
  - intros g Hg Hne Hno. apply in_map_iff in Hg. destruct Hg as (n & <- & Hn). apply (fs_lt _ _ _ _ Sh) in Hn.
    replace (dot _ _) with (dot (phi_f i) (phi_f n)) by (symmetry; apply (sh_rigid _ _ _ _ Sh)). destruct (ff_cases i n Hi Hn) as [[-> _]|[(Hin & _)|(_ & _ & [X|X])]]; [now exfalso; apply Hne| | |]; try lra.
    exfalso. apply Hno. now apply (in_map pf).
  - destruct (f_opposite i Hi) as (j & Hj & Dj). fold (pf i).
    replace (vscale (-1) (pf i)) with (pf j); [apply (in_map pf); now apply (fs_in _ _ _ _ Sh)|].
    apply unit_dot_m1; [now apply (pf_unit _ _ _ _ Sh)|now apply (pf_unit _ _ _ _ Sh)|]. unfold pf. now rewrite (sh_rigid _ _ _ _ Sh).
Qed.

(*@ C38: getVertices of a face succeeds and gives five different vertices, exactly those nearest to the face
    vector, in such an order that successive ones (cyclically) have scalar product sqrt(5)/3, which is the largest
    possible between different vertices: they are joined by an edge. *)
Lemma face_vertices_proof : forall order b D i f, any_order order -> Dodecahedron_init order b = Ok D ->
  (0 <= i < 12)%Z -> getFaceCtr D i = Ok f ->
  exists vs, getVertices D i = Ok vs /\ length vs = 5%nat /\ NoDup vs
    /\ (forall v, In v vs <-> In v (dd_vertices D) /\ forall u, In u (dd_vertices D) -> dot f u <= dot f v)
    /\ (forall v u, In (v, u) (cyclic_pairs vs) -> dot v u = sqrt 5 / 3)
    /\ (forall v u, In v (dd_vertices D) -> In u (dd_vertices D) -> v <> u -> dot v u <= sqrt 5 / 3).
Proof.
  intros order b D i f Ho E Hi Hf. destruct (shape_of order b D Ho E) as (_ & m & ts & fs & Sh).
  destruct (face_at _ _ _ _ Sh i Hi) as (k & _ & Hk & Ek). rewrite Hf in Ek. injection Ek as Ek.
  rewrite Ek in *. set (pv := fun t => mat_vec m (phi_v t)).
  destruct (verts_at _ _ _ _ Sh i k Hf Hk) as (Ev & _).
  destruct (path_facts _ _ _ _ Sh k Hk) as (P1 & P2 & P3 & P4 & _). set (l := zverts (filter (mem k) ts)) in *.
  exists (map pv l). split; [exact Ev|]. split; [now rewrite map_length|].
  assert (Inj : forall t u, In t canon -> In u canon -> pv t = pv u -> t = u).
  { intros x y Hx Hy Exy. apply (rigid_inj _ _ _ (sh_rigid _ _ _ _ Sh)) in Exy; [now apply vv_one|now apply phi_v_unit|now apply phi_v_unit]. }
  assert (Vin : forall v, In v (dd_vertices D) <-> exists t, v = pv t /\ In t canon).
  { intros v. rewrite (sh_verts _ _ _ _ Sh), in_map_iff. split; intros (t & A & B).
    - exists t. split; [symmetry; exact A|]. now apply (ts_in _ _ _ _ Sh).
    - exists t. split; [symmetry; exact A|]. now apply (ts_in _ _ _ _ Sh). }
  assert (Dp : forall t, dot (mat_vec m (phi_f k)) (pv t) = dot (phi_f k) (phi_v t)) by (intros t; apply (sh_rigid _ _ _ _ Sh)).
  split; [|split; [|split]].
  - apply NoDup_map_in; [|exact P2]. intros x y Hx Hy. apply P3 in Hx, Hy. apply Inj; tauto.
  - intros v. split.
    + intros Hv. apply in_map_iff in Hv. destruct Hv as (t & <- & Ht). apply P3 in Ht. destruct Ht as [Ct Ft].
      split; [apply Vin; eauto|]. intros u Hu. apply Vin in Hu. destruct Hu as (u' & -> & Hu). rewrite !Dp. apply fv_le; auto.
    + intros [Hv Hmax]. apply Vin in Hv. destruct Hv as (t & -> & Ht). apply in_map, P3. split; [exact Ht|].
      destruct (in_dec Nat.eq_dec k t) as [|N]; [assumption|exfalso].
      assert (Hex : exists u, In u canon /\ In k u).
      { destruct l as [|u l'] eqn:El; [discriminate|]. exists u. apply P3. now left. }
      destruct Hex as (u & Cu & Ku). pose proof (Hmax (pv u) ltac:(apply Vin; eauto)) as H. rewrite !Dp in H.
      destruct (fv_le k u t Hk Cu Ht Ku) as [_ H2]. specialize (H2 N). lra.
  - intros v u Hvu. unfold cyclic_pairs in Hvu. 
    assert (CM : forall a b0, combine (map pv a) (map pv b0) = map (fun pq => (pv (fst pq), pv (snd pq))) (combine a b0)).
    { intros a. induction a as [|y a IH]; intros [|z b0]; cbn; try reflexivity. now rewrite IH. }
    assert (Hex : exists t t', In (t, t') (cyclic_pairs l) /\ v = pv t /\ u = pv t').
    { unfold cyclic_pairs. destruct l as [|x r]; [destruct Hvu|]. cbn [map] in Hvu.
      change (pv x :: map pv r) with (map pv (x :: r)) in Hvu. change [pv x] with (map pv [x]) in Hvu. rewrite <- map_app, CM in Hvu.
      apply in_map_iff in Hvu. destruct Hvu as ([t t'] & Et & Hin). cbn [fst snd] in Et. exists t, t'. split; [exact Hin|].
      split; [exact (f_equal fst (eq_sym Et))|exact (f_equal snd (eq_sym Et))]. }
    destruct Hex as (t & t' & Hin & -> & ->). unfold pv. rewrite (sh_rigid _ _ _ _ Sh). now apply P4.
  - intros v u Hv Hu Hne. apply Vin in Hv, Hu. destruct Hv as (t & -> & Ht), Hu as (t' & -> & Ht').
    unfold pv. rewrite (sh_rigid _ _ _ _ Sh). apply vv_le; auto. congruence.
Qed.

(*@ C39: computeRotationMatrix is a rotation (lengths, angles and handedness are preserved) about the given
    axis, for every angle. *)
Lemma rotation_matrix_proof : forall angle axis, (axis < 3)%nat ->
  rotation (computeRotationMatrix angle axis)
  /\ let e := nth axis [(1, 0, 0); (0, 1, 0); (0, 0, 1)] (0, 0, 0) in
     mat_vec (computeRotationMatrix angle axis) e = e.
Proof.
  intros angle axis Ha. split; [apply rot_rigid; exact Ha|]. cbn zeta.
  destruct axis as [|[|[|?]]]; [| | |lia]; cbn [nth]; rewrite ?rotx_vec, ?roty_vec, ?rotz_vec; unfold vx, vy, vz; cbn [fst snd]; apply vec_eq; ring.
Qed.

(*@ C39: for all vectors, the matrix of _computeCoordTransform is a rotation and takes vec0 to the +z axis. *)
Lemma coord_transform_rotation_proof : forall vec0 vec1 neg,
  rotation (computeCoordTransform vec0 vec1 neg)
  /\ mat_vec (computeCoordTransform vec0 vec1 neg) vec0 = (0, 0, norm vec0).
Proof. intros. split; [apply transform_rigid|apply transform_first]. Qed.

(*@ C39: without vec1NegativeX, vec1 is taken into the xz plane with x >= 0, for all vectors. *)
Lemma coord_transform_second_proof : forall vec0 vec1,
  let w := mat_vec (computeCoordTransform vec0 vec1 false) vec1 in vy w = 0 /\ 0 <= vx w.
Proof. intros. destruct (transform_second vec0 vec1). split; assumption. Qed.

(*@ C39 REFUTED for vec1NegativeX: with vec0 = +z and vec1 = (1, 1, 0), vec1 is taken to the -y axis instead of
    the half plane of negative x. *)
Lemma coord_transform_negative_refuted_proof :
  let w := mat_vec (computeCoordTransform (0, 0, 1) (1, 1, 0) true) (1, 1, 0) in
  vx w = 0 /\ vy w < 0.
Proof.
  cbn zeta. pose proof (transform_second_neg (0, 0, 1) (1, 1, 0)) as T. cbn zeta in T.
  assert (A0 : atan2 0 1 = 0).
  { unfold atan2. rewrite Rlt_bool_true by lra. replace (0 / 1) with 0 by field. apply atan_0. }
  assert (R0 : forall v, mat_vec (computeRotationMatrix 0 0) v = v).
  { intros [[a b] c]. rewrite rotx_vec, cos_0, sin_0. unfold vx, vy, vz. cbn [fst snd]. apply vec_eq; ring. }
  assert (R1 : forall v, mat_vec (computeRotationMatrix (- 0) 1) v = v).
  { intros [[a b] c]. rewrite Ropp_0, roty_vec, cos_0, sin_0. unfold vx, vy, vz. cbn [fst snd]. apply vec_eq; ring. }
  change (vy (0, 0, 1)) with 0 in T. change (vz (0, 0, 1)) with 1 in T. rewrite A0, R0 in T.
  change (vx (0, 0, 1)) with 0 in T. change (vz (0, 0, 1)) with 1 in T. rewrite A0 in T.
  rewrite mat_mul_vec, R0, R1 in T. destruct T as (T1 & T2 & _).
  change (vx (1, 1, 0)) with 1 in T1, T2. change (vy (1, 1, 0)) with 1 in T1, T2.
  set (r := sqrt (1 * 1 + 1 * 1)) in *. assert (Hr : 0 < r) by (apply sqrt_lt_R0; lra).
  generalize dependent (mat_vec (computeCoordTransform (0, 0, 1) (1, 1, 0) true) (1, 1, 0)). intros w T1 T2. split; nra.
Qed.

(*@ C39: with vec1NegativeX, if both vectors are in the xz plane (as are the two that are
    used), vec1 is taken into the xz plane with x <= 0. *)
Lemma coord_transform_negative_xz_proof : forall vec0 vec1, vy vec0 = 0 -> vy vec1 = 0 ->
  let w := mat_vec (computeCoordTransform vec0 vec1 true) vec1 in vy w = 0 /\ vx w <= 0.
Proof.
  intros v0 v1 H0 H1 w. pose proof (transform_second_neg v0 v1) as T. cbn zeta in T. fold w in T.
  set (xa := atan2 (vy v0) (vz v0)) in *.
  assert (Sx : sin xa = 0).
  { unfold xa. rewrite H0. unfold atan2. destruct (Rlt_bool_spec 0 (vz v0)).
    - replace (0 / vz v0) with 0 by (field; lra). rewrite atan_0. apply sin_0.
    - destruct (Rlt_bool_spec (vz v0) 0).
      + rewrite Rle_bool_true by lra. replace (0 / vz v0) with 0 by (field; lra). rewrite atan_0, Rplus_0_l. apply sin_PI.
      + rewrite !Rlt_bool_false by lra. apply sin_0. }
  set (ya := - atan2 _ _) in T. rewrite mat_mul_vec in T. set (u := mat_vec _ (mat_vec _ v1)) in T.
  assert (Hu : vy u = 0).
  { unfold u. rewrite roty_vec, vyE, rotx_vec, vyE, Sx, H1. ring. }
  rewrite Hu in T. destruct T as (T1 & T2 & _). set (r := sqrt (vx u * vx u + 0 * 0)) in *.
  destruct (Req_dec (vx u) 0) as [Z|Z].
  - assert (Hw : exists za, w = mat_vec (computeRotationMatrix za 2) u).
    { unfold w, computeCoordTransform. cbv zeta. rewrite !mat_mul_vec. eexists. reflexivity. }
    destruct Hw as (za & ->). rewrite rotz_vec, vxE, vyE, Hu, Z. split; [ring|lra].
  - assert (Hr : 0 < r) by (apply sqrt_lt_R0; nra). clearbody w u r. split; nra.
Qed.

(*@ C39: with vec1NegativeX, for a vec0 that is not on the x axis: vec1 is taken into the xz plane with x <= 0 exactly if it
    lies in the plane through vec0 and the x axis. *)
Lemma coord_transform_negative_exact_proof : forall vec0 vec1, vy vec0 <> 0 \/ vz vec0 <> 0 ->
  let w := mat_vec (computeCoordTransform vec0 vec1 true) vec1 in
  (vy w = 0 /\ vx w <= 0) <-> vy vec0 * vz vec1 = vz vec0 * vy vec1.
Proof.
  intros v0 v1 Hn w. pose proof (transform_second_neg v0 v1) as T. cbn zeta in T. fold w in T.
  destruct (polar_xy (vz v0) (vy v0)) as [P1 P2].
  set (xa := atan2 (vy v0) (vz v0)) in *. set (rho := sqrt (vz v0 * vz v0 + vy v0 * vy v0)) in *.
  assert (Hrho : rho <> 0).
  { intros E. rewrite E in P1, P2. destruct Hn as [H|H]; apply H; lra. }
  set (ya := - atan2 _ _) in T. rewrite mat_mul_vec in T. set (u := mat_vec _ (mat_vec _ v1)) in T.
  assert (Hu : rho * vy u = vz v0 * vy v1 - vy v0 * vz v1).
  { unfold u. rewrite roty_vec, vyE, rotx_vec, vyE. rewrite P1, P2. ring. }
  assert (Hw : exists za, w = mat_vec (computeRotationMatrix za 2) u).
  { unfold w, computeCoordTransform. cbv zeta. rewrite !mat_mul_vec. eexists. reflexivity. }
  clearbody u w. destruct T as (T1 & T2 & _).
  pose proof (sqrt_pos (vx u * vx u + vy u * vy u)) as Hr.
  assert (Er : sqrt (vx u * vx u + vy u * vy u) * sqrt (vx u * vx u + vy u * vy u) = vx u * vx u + vy u * vy u)
    by (apply sqrt_sqrt; nra).
  set (r := sqrt (vx u * vx u + vy u * vy u)) in *. clearbody r.
  assert (Q : vy v0 * vz v1 = vz v0 * vy v1 <-> vy u = 0).
  { split; intros H; [|rewrite H in Hu; lra]. apply (Rmult_eq_reg_l rho); [|exact Hrho]. rewrite Hu, H. ring. }
  rewrite Q. split.
  - intros [H1 H2]. rewrite H1 in T2. destruct (Req_dec (vy u) 0) as [|Hy]; [assumption|exfalso].
    assert (Hx : vx u = 0) by (apply (Rmult_eq_reg_r (vy u)); [lra|exact Hy]). rewrite Hx in *. nra.
  - intros H. rewrite H in *. destruct (Req_dec r 0) as [Hr0|Hr0].
    2:{ split; [apply (Rmult_eq_reg_l r); [lra|exact Hr0]|]. apply (Rmult_le_reg_l r); nra. }
    assert (Hx : vx u = 0) by nra. destruct Hw as (za & ->). rewrite rotz_vec, vxE, vyE, H, Hx. split; [ring|lra].
Qed.

(*@ C39: with faces on the poles, face 0 is the north pole, face 11 the south pole, one of the faces nearest
    to face 0 is in the direction of RA 0; in both orientations the faces are numbered by decreasing z. *)
Lemma polar_faces_proof : forall order D, any_order order -> Dodecahedron_init order true = Ok D ->
  getFaceCtr D 0 = Ok (0, 0, 1) /\ getFaceCtr D 11 = Ok (0, 0, -1)
  /\ exists f, In f (dd_faces D) /\ vz f = / sqrt 5 /\ vy f = 0 /\ 0 < vx f.
Proof.
  intros order D Ho E. destruct (shape_of order true D Ho E) as (Eb & m & ts & fs & Sh).
  pose proof (sh_pole _ _ _ _ Sh) as P. rewrite Eb in P. destruct P as [P (j & Hj & Px & Py)].
  pose proof inv_sqrt5 as S5.
  assert (Zd : forall i, vz (mat_vec m (phi_f i)) = dot (phi_f 0) (phi_f i)).
  { intros i. rewrite <- (sh_rigid _ _ _ _ Sh), P. unfold dot, vx, vy, vz. cbn. ring. }
  assert (Sorted : forall a b x y, (a < b)%nat -> nth_error fs a = Some x -> nth_error fs b = Some y -> vz (mat_vec m (phi_f y)) <= vz (mat_vec m (phi_f x))).
  { intros a b x y Hab Hx Hy. apply before_z.
    - apply (pf_apart _ _ _ _ Sh); eapply (fs_lt _ _ _ _ Sh), nth_error_In; eauto.
    - eapply (sorted_nth _ _ (sh_sorted _ _ _ _ Sh) a b); [exact Hab| |]; rewrite (sh_faces _ _ _ _ Sh), nth_error_map, ?Hx, ?Hy; reflexivity. }
  assert (At : forall i, (i < 12)%nat -> exists k, (k < 12)%nat /\ nth_error fs k = Some i).
  { intros i Hi. apply (fs_in _ _ _ _ Sh), In_nth_error in Hi. destruct Hi as (k & Hk). exists k. split; [|exact Hk].
    rewrite <- (fs_len _ _ _ _ Sh). apply nth_error_Some. congruence. }
  split; [|split].
  - destruct (face_at _ _ _ _ Sh 0%Z ltac:(lia)) as (f & Hn & Hf & ->). f_equal.
    destruct (At 0%nat ltac:(lia)) as (k & Hk & Ek). destruct k as [|k].
    + change (Z.to_nat 0) with 0%nat in Hn. rewrite Ek in Hn. injection Hn as <-. exact P.
    + exfalso. pose proof (Sorted 0%nat (S k) f 0%nat ltac:(lia) Hn Ek) as Hle. rewrite !Zd in Hle.
      rewrite (phi_f_unit 0) in Hle by lia.
      destruct (ff_cases 0 f ltac:(lia) Hf) as [[<- _]|[(_ & _ & X)|(_ & _ & [X|X])]]; try lra.
      pose proof (Permutation_NoDup (Permutation_sym (sh_fs _ _ _ _ Sh)) (seq_NoDup 12 0)) as ND.
      rewrite NoDup_nth_error in ND. specialize (ND 0%nat (S k)). rewrite (fs_len _ _ _ _ Sh) in ND.
      assert (0%nat = S k) by (apply ND; [lia|]; change (Z.to_nat 0) with 0%nat in Hn; congruence). discriminate.
  - destruct (face_at _ _ _ _ Sh 11%Z ltac:(lia)) as (f & Hn & Hf & ->). f_equal. change (Z.to_nat 11) with 11%nat in Hn.
    destruct (f_opposite 0 ltac:(lia)) as (q & Hq & Dq). destruct (At q Hq) as (k & Hk & Ek).
    assert (Hz : vz (mat_vec m (phi_f f)) <= -1).
    { destruct (Nat.eq_dec k 11) as [-> | Hne].
      - rewrite Ek in Hn. injection Hn as <-. rewrite Zd, Dq. lra.
      - pose proof (Sorted k 11%nat q f ltac:(lia) Ek Hn) as Hle. rewrite (Zd q), Dq in Hle. exact Hle. }
    rewrite Zd in Hz. assert (Dm : dot (phi_f 0) (phi_f f) = -1).
    { destruct (ff_cases 0 f ltac:(lia) Hf) as [[_ X]|[(_ & _ & X)|(_ & _ & [X|X])]]; lra. }
    apply unit_dot_m1 in Dm; [|apply phi_f_unit; lia|apply phi_f_unit; exact Hf].
    rewrite Dm. transitivity (vscale (-1) (mat_vec m (phi_f 0))).
    + unfold mat_vec. destruct (row0 m) as [[? ?] ?], (row1 m) as [[? ?] ?], (row2 m) as [[? ?] ?], (phi_f 0) as [[? ?] ?].
      unfold vscale, dot, vx, vy, vz. cbn. apply vec_eq; ring.
    + rewrite P. unfold vscale, vx, vy, vz. cbn. apply vec_eq; ring.
  - assert (Hj12 : (j < 12)%nat) by (clear -Hj; cbn in Hj; lia). exists (mat_vec m (phi_f j)).
    split; [rewrite (sh_faces _ _ _ _ Sh); apply (in_map (fun i => mat_vec m (phi_f i))); now apply (fs_in _ _ _ _ Sh)|].
    assert (Z : vz (mat_vec m (phi_f j)) = / sqrt 5).
    { rewrite Zd. destruct (ff_cases 0 j ltac:(lia) Hj12) as [[<- _]|[(_ & _ & X)|(N & _)]]; [exfalso; cbn in Hj; lia|exact X|tauto]. }
    split; [exact Z|]. split; [exact Py|]. destruct Px as [Px|Px]; [exact Px|exfalso].
    pose proof (pf_unit _ _ _ _ Sh j Hj12) as U. unfold unit_vec, dot in U. rewrite Py, <- Px, Z in U. nra.
Qed.

(*@ C39: the faces are numbered by decreasing z, in both orientations. *)
Lemma faces_by_z_proof : forall order b D i j f g, any_order order -> Dodecahedron_init order b = Ok D ->
  (0 <= i < j)%Z -> (j < 12)%Z -> getFaceCtr D i = Ok f -> getFaceCtr D j = Ok g -> vz g <= vz f.
Proof.
  intros order b D i j f g Ho E Hij Hj Hf Hg. destruct (shape_of order b D Ho E) as (_ & m & ts & fs & Sh).
  destruct (face_at _ _ _ _ Sh i ltac:(lia)) as (x & Hx & Hx12 & Ex). destruct (face_at _ _ _ _ Sh j ltac:(lia)) as (y & Hy & Hy12 & Ey).
  rewrite Hf in Ex. rewrite Hg in Ey. injection Ex as ->. injection Ey as ->.
  apply before_z.
  - apply (pf_apart _ _ _ _ Sh); assumption.
  - eapply (sorted_nth _ _ (sh_sorted _ _ _ _ Sh) (Z.to_nat i) (Z.to_nat j)); [lia| |]; rewrite (sh_faces _ _ _ _ Sh), nth_error_map, ?Hx, ?Hy; reflexivity.
Qed.

(*@ C39: with vertices on the poles, both poles are vertices. *)
Lemma polar_vertices_proof : forall order D, any_order order -> Dodecahedron_init order false = Ok D ->
  In (0, 0, 1) (dd_vertices D) /\ In (0, 0, -1) (dd_vertices D).
Proof.
  intros order D Ho E. destruct (shape_of order false D Ho E) as (Eb & m & ts & fs & Sh).
  pose proof (sh_pole _ _ _ _ Sh) as P. rewrite Eb in P. destruct P as (t & Ht & P).
  rewrite (sh_verts _ _ _ _ Sh). split.
  - rewrite <- P. apply (in_map (fun t => mat_vec m (phi_v t))). now apply (ts_in _ _ _ _ Sh).
  - destruct (v_opposite t Ht) as (u & Hu & Du).
    replace (0, 0, -1) with (mat_vec m (phi_v u)); [apply (in_map (fun t => mat_vec m (phi_v t))); now apply (ts_in _ _ _ _ Sh)|].
    rewrite <- (sh_rigid _ _ _ _ Sh) in Du. apply unit_dot_m1 in Du.
    + rewrite Du, P. unfold vscale, vx, vy, vz. cbn. apply vec_eq; ring.
    + now apply (pv_unit _ _ _ _ Sh).
    + now apply (pv_unit _ _ _ _ Sh).
Qed.

(*@ C40: a DodecaSkyMap can be constructed in both orientations with any valid tract builder configuration, any
    overlap and any WCS that does not raise unexpected exceptions; it has 12 tracts. *)
Lemma dodeca_constructed_proof : forall order offset c mk ov b, any_order order -> cfg_ok c ->
  (forall ctr p e, skyToPixel (mk ctr) p <> PixRaise e) ->
  exists D s, dodeca_new order offset c mk ov b = Ok (D, s) /\ sm_len (dodeca_def c mk ov D) s = 12%Z
    /\ sm_reachable offset (dodeca_def c mk ov D) s.
Proof.
  intros order offset c mk ov b Ho Hc Hp. destruct (init_ok order b Ho) as (D & m & ts & fs & E & _ & Sh).
  destruct (eager_new_ok offset (dodeca_def c mk ov D) eq_refl Hc) as (s & Es).
  { intros i Hi. destruct (dodeca_args_ok D m ts fs Sh mk ov i Hi) as (f & ctr & vcs & _ & _ & Ea & _).
    eexists. split; [exact Ea|]. intros p e _. apply Hp. }
  assert (Hr : sm_reachable offset (dodeca_def c mk ov D) s) by (exists s; split; [exact Es|constructor]).
  exists D, s. unfold dodeca_new. rewrite E. cbn [bind]. rewrite Es. split; [reflexivity|]. split; [|exact Hr].
  apply (eager_index_range_proof _ offset (dodeca_def c mk ov D) s 0 eq_refl Hr). cbn. lia.
Qed.

(*@ C40: in any state of the map, findTract of DodecaSkyMap returns, for every coordinate, the same tract
    object as the default findTract (nearest centre; ties included), without changing the state. *)
Lemma dodeca_findTract_default_proof : forall order offset c mk ov b D s0 s coord, any_order order ->
  dodeca_new order offset c mk ov b = Ok (D, s0) -> accesses offset (dodeca_def c mk ov D) s0 s ->
  exists t, dodeca_findTract offset (dodeca_def c mk ov D) D coord s = (s, Ok t)
    /\ base_findTract offset separation (dodeca_def c mk ov D) coord s = (s, Ok t)
    /\ holds offset (dodeca_def c mk ov D) (t_id t) s t
    /\ forall j u, holds offset (dodeca_def c mk ov D) j s u -> separation coord (t_ctr t) <= separation coord (t_ctr u).
Proof.
  intros order offset c mk ov b D s0 s coord Ho En Ha. unfold dodeca_new in En.
  destruct (Dodecahedron_init order b) as [D'|] eqn:E; [|discriminate]. cbn [bind] in En.
  destruct (sm_new offset (dodeca_def c mk ov D')) as [s'|] eqn:Es; [|discriminate]. cbn [bind] in En. injection En as -> ->.
  destruct (shape_of order b D Ho E) as (_ & m & ts & fs & Sh). set (d := dodeca_def c mk ov D) in *.
  assert (Hr : sm_reachable offset d s) by (exists s0; split; assumption).
  destruct (dodeca_find D m ts fs Sh offset c mk ov coord s Hr) as (i & t & Ef & Hh & Hm). fold d in Ef, Hh, Hm.
  assert (Hid : t_id t = Z.of_nat i) by (eapply (holds_id offset d s); eauto).
  assert (Sep : forall x y, dot (vec_of coord) (vec_of y) <= dot (vec_of coord) (vec_of x) -> separation coord x <= separation coord y).
  { intros x y H. unfold separation. pose proof (dot_bound _ _ (vec_of_unit coord) (vec_of_unit x)). pose proof (dot_bound _ _ (vec_of_unit coord) (vec_of_unit y)).
    destruct (Rle_lt_dec (acos (dot (vec_of coord) (vec_of x))) (acos (dot (vec_of coord) (vec_of y)))) as [|L]; [assumption|].
    apply Rlt_le in L as L'. apply acos_le_inv in L'; [|lra|lra]. replace (dot (vec_of coord) (vec_of x)) with (dot (vec_of coord) (vec_of y)) in L by lra. lra. }
  exists t. split; [exact Ef|]. split; [|split; [now rewrite Hid|]].
  2:{ intros j u Hu. apply Sep. now apply (Hm j). }
  destruct (base_findTract offset separation d coord s) as [s' r] eqn:Eb.
  destruct (base_findTract_nearest_proof _ offset separation d coord s s' r Hr Eb) as (Hacc & _ & Hok & Hbad).
  pose proof (accesses_eager offset d s s' eq_refl Hacc) as ->.
  destruct r as [u|e].
  - destruct (Hok u eq_refl) as (k & Hk & Hhu & Hmin). f_equal. f_equal.
    destruct (Hmin (Z.of_nat i)) as (t' & Ht' & Hle & Htie).
    { destruct (dodeca_holds D m ts fs Sh offset c mk ov s _ _ Hr Hh) as (X & _). exact X. }
    pose proof (holds_fun offset d s (Z.of_nat i) t' t Ht' Hh) as ->.
    destruct (Hm k u Hhu) as [A B]. apply separation_le_inv in Hle.
    assert (Eq : dot (vec_of coord) (vec_of (t_ctr u)) = dot (vec_of coord) (vec_of (t_ctr t))) by lra.
    specialize (B Eq). assert (k <= Z.of_nat i)%Z by (apply Htie; unfold separation; now rewrite Eq).
    assert (k = Z.of_nat i) as -> by lia. now apply (holds_fun offset d s (Z.of_nat i)).
  - exfalso. destruct (Hbad e eq_refl ltac:(cbn; lia)) as (j & s1 & Hj & Ha1 & Hg).
    pose proof (accesses_eager offset d s s1 eq_refl Ha1) as ->.
    destruct (dodeca_holds_all D offset c mk ov s j Hr Hj) as (u & _ & Hu). fold d in Hu. rewrite Hu in Hg. discriminate.
Qed.

(*@ C40: the coordinate lies in the inner pentagon of the tract that findTract returns: on the same side as the
    centre of the great circle through each pair of successive vertices; and a coordinate strictly inside the
    pentagon of some tract gets that tract. *)
Lemma dodeca_pentagons_proof : forall order offset c mk ov b D s0 s coord t, any_order order ->
  dodeca_new order offset c mk ov b = Ok (D, s0) -> accesses offset (dodeca_def c mk ov D) s0 s ->
  (dodeca_findTract offset (dodeca_def c mk ov D) D coord s = (s, Ok t) -> in_pentagon t coord)
  /\ (forall i, holds offset (dodeca_def c mk ov D) i s t -> strictly_in_pentagon t coord ->
        dodeca_findTract offset (dodeca_def c mk ov D) D coord s = (s, Ok t)).
Proof.
  intros order offset c mk ov b D s0 s coord t Ho En Ha. unfold dodeca_new in En.
  destruct (Dodecahedron_init order b) as [D'|] eqn:E; [|discriminate]. cbn [bind] in En.
  destruct (sm_new offset (dodeca_def c mk ov D')) as [s'|] eqn:Es; [|discriminate]. cbn [bind] in En. injection En as -> ->.
  destruct (shape_of order b D Ho E) as (_ & m & ts & fs & Sh). set (d := dodeca_def c mk ov D) in *.
  assert (Hr : sm_reachable offset d s) by (exists s0; split; assumption).
  destruct (dodeca_find D m ts fs Sh offset c mk ov coord s Hr) as (i & t' & Ef & Hh & Hm). fold d in Ef, Hh, Hm.
  (* some vector w, seen through the rotation *)
  assert (HG : exists w, forall i, dot (mat_vec m (phi_f i)) (vec_of coord) = dot (phi_f i) w).
  { exists (dot (col m vx) (vec_of coord), dot (col m vy) (vec_of coord), dot (col m vz) (vec_of coord)).
    intros k. unfold mat_vec, col. destruct (row0 m) as [[? ?] ?], (row1 m) as [[? ?] ?], (row2 m) as [[? ?] ?], (phi_f k) as [[? ?] ?], (vec_of coord) as [[? ?] ?].
    unfold dot, vx, vy, vz. cbn. ring. }
  split.
  - intros Et. rewrite Ef in Et. injection Et as <-. intros p q Hpq n.
    destruct (dodeca_edges D m ts fs Sh offset c mk ov s (Z.of_nat i) t' coord Hr Hh) as (f & Hn & Hf & Ec & H1 & _).
    destruct (H1 p q Hpq) as (k & kk & Hk & Hpos & Eq). unfold n. rewrite Eq.
    assert (Hk12 : (k < 12)%nat).
    { assert (K : forallb (fun f => forallb (fun n => Nat.ltb n 12) (nth f adjs [])) (seq 0 12) = true) by (vm_compute; reflexivity).
      rewrite forallb_forall in K. specialize (K f ltac:(apply in_seq; lia)). rewrite forallb_forall in K. apply Nat.ltb_lt, K, Hk. }
    pose proof (fs_in _ _ _ _ Sh k Hk12) as Hin. apply In_nth_error in Hin. destruct Hin as (j & Hj).
    assert (Hj12 : (j < 12)%nat) by (rewrite <- (fs_len _ _ _ _ Sh); apply nth_error_Some; congruence).
    destruct (dodeca_holds_all D offset c mk ov s (Z.of_nat j) Hr ltac:(lia)) as (u & Hu).
    destruct (dodeca_holds D m ts fs Sh offset c mk ov s (Z.of_nat j) u Hr Hu) as (_ & _ & f' & Hf' & _ & Eu & _).
    rewrite Nat2Z.id, Hj in Hf'. injection Hf' as <-. destruct (Hm _ _ Hu) as [Hle _]. rewrite Eu, Ec in Hle.
    rewrite !(dot_comm (vec_of coord)) in Hle. apply Rmult_le_pos; lra.
  - intros j Hj Hin. destruct (dodeca_edges D m ts fs Sh offset c mk ov s j t coord Hr Hj) as (f & Hn & Hf & Ec & _ & H2).
    destruct (nearest_all (fun k => dot (mat_vec m (phi_f k)) (vec_of coord)) f Hf HG) as [_ Hall].
    assert (Hadj : forall n, In n (nth f adjs []) -> dot (mat_vec m (phi_f n)) (vec_of coord) < dot (mat_vec m (phi_f f)) (vec_of coord)).
    { intros n Hnn. destruct (H2 n Hnn) as (p & q & k & Hpq & Hk & Eq). pose proof (Hin p q Hpq) as H. cbn zeta in H. rewrite Eq in H. nra. }
    specialize (Hall Hadj). cbn beta in Hall.
    destruct (dodeca_holds D m ts fs Sh offset c mk ov s _ t' Hr Hh) as (Hi12 & _ & f' & Hf' & Hf'12 & Et' & _).
    destruct (Nat.eq_dec f' f) as [-> | Hne].
    + assert (Hij : Z.to_nat (Z.of_nat i) = Z.to_nat j).
      { pose proof (Permutation_NoDup (Permutation_sym (sh_fs _ _ _ _ Sh)) (seq_NoDup 12 0)) as ND.
        rewrite NoDup_nth_error in ND. apply ND; [rewrite (fs_len _ _ _ _ Sh); lia|congruence]. }
      assert (Z.of_nat i = j) as <- by (destruct Hj as [? _]; lia).
      rewrite (holds_fun offset d s _ t t' Hj Hh). exact Ef.
    + exfalso. specialize (Hall f' Hf'12 Hne). destruct (Hm j t Hj) as [Hle _]. rewrite Ec, Et' in Hle.
      rewrite !(dot_comm (vec_of coord)) in Hle. lra.
Qed.

(*@ C36, C40: findTract of a Dodeca map is a search in the sense used by findClosestTractPatchList. *)
Lemma dodeca_findTract_search_proof : forall order offset c mk ov b D s0, any_order order ->
  dodeca_new order offset c mk ov b = Ok (D, s0) ->
  search offset (dodeca_def c mk ov D) (dodeca_findTract offset (dodeca_def c mk ov D) D).
Proof.
  intros order offset c mk ov b D s0 Ho En.
  assert (K : forall coord s, sm_reachable offset (dodeca_def c mk ov D) s ->
     exists t, dodeca_findTract offset (dodeca_def c mk ov D) D coord s = (s, Ok t) /\ holds offset (dodeca_def c mk ov D) (t_id t) s t).
  { intros coord s (s1 & E1 & Ha).
    assert (s1 = s0) as ->.
    { unfold dodeca_new in En. destruct (Dodecahedron_init order b) as [D'|]; [|discriminate]. cbn [bind] in En.
      destruct (sm_new offset (dodeca_def c mk ov D')) as [s'|] eqn:Es; [|discriminate]. cbn [bind] in En. injection En as -> ->. congruence. }
    destruct (dodeca_findTract_default_proof order offset c mk ov b D s0 s coord Ho En Ha) as (t & A & _ & B & _). eauto. }
  constructor.
  - intros coord s s' r Hr H. destruct (K coord s Hr) as (t & E & _). rewrite E in H. injection H as <- _. constructor.
  - intros coord s s' t Hr H. destruct (K coord s Hr) as (t' & E & Hh). rewrite E in H. injection H as <- <-. eauto.
  - intros coord s s' t s1 Hr H Ha. destruct (K coord s Hr) as (t' & E & Hh). rewrite E in H. injection H as <- <-.
    pose proof (accesses_eager offset (dodeca_def c mk ov D) s s1 eq_refl Ha) as ->. exact E.
Qed.

(*@ C38-C40, non-vacuity: with sets run through in ascending order and a stereographic WCS, the default
    orientation can be constructed, and the centre of every tract is strictly inside its own pentagon. *)
Example dodeca_example_proof : any_order (fun _ s => s)
  /\ forall c scale ov b, cfg_ok c -> exists D s, dodeca_new (fun _ s => s) sphere_offset c (stg_wcs scale) ov b = Ok (D, s)
    /\ forall i, (0 <= i < 12)%Z -> exists t, holds sphere_offset (dodeca_def c (stg_wcs scale) ov D) i s t
        /\ strictly_in_pentagon t (t_ctr t).
Proof.
  assert (Ho : any_order (fun _ s => s)) by (intros p s; apply Permutation_refl). split; [exact Ho|].
  intros c scale ov b Hc.
  destruct (dodeca_constructed_proof (fun _ s => s) sphere_offset c (stg_wcs scale) ov b Ho Hc) as (D & s & E & _ & Hr).
  { intros ctr p e. apply zenithal_no_raise. }
  exists D, s. split; [exact E|]. intros i Hi.
  destruct (dodeca_holds_all D sphere_offset c (stg_wcs scale) ov s i Hr Hi) as (t & Ht). exists t. split; [exact Ht|].
  assert (Ei : Dodecahedron_init (fun _ s => s) b = Ok D).
  { unfold dodeca_new in E. destruct (Dodecahedron_init (fun _ s => s) b) as [D'|]; [|discriminate]. cbn [bind] in E.
    destruct (sm_new sphere_offset (dodeca_def c (stg_wcs scale) ov D')) as [s'|]; [|discriminate]. cbn [bind] in E. injection E as -> ->. reflexivity. }
  destruct (shape_of _ b D Ho Ei) as (_ & m & ts & fs & Sh).
  destruct (dodeca_edges D m ts fs Sh sphere_offset c (stg_wcs scale) ov s i t (t_ctr t) Hr Ht) as (f & Hn & Hf & Ec & H1 & _).
  intros p q Hpq n. destruct (H1 p q Hpq) as (k & kk & Hk & Hpos & Eq). unfold n. rewrite Eq, Ec, !(sh_rigid _ _ _ _ Sh).
  assert (Hk12 : (k < 12)%nat).
  { assert (K : forallb (fun f => forallb (fun n => Nat.ltb n 12) (nth f adjs [])) (seq 0 12) = true) by (vm_compute; reflexivity).
    rewrite forallb_forall in K. specialize (K f ltac:(apply in_seq; lia)). rewrite forallb_forall in K. apply Nat.ltb_lt, K, Hk. }
  rewrite (phi_f_unit f Hf), (dot_comm (phi_f k)). pose proof inv_sqrt5.
  destruct (ff_cases f k Hf Hk12) as [[-> _]|[(_ & _ & ->)|(N & _)]]; [exfalso|nra|tauto].
  assert (K : forallb (fun f => negb (mem f (nth f adjs []))) (seq 0 12) = true) by (vm_compute; reflexivity).
  rewrite forallb_forall in K. specialize (K k ltac:(apply in_seq; lia)). apply mem_In in Hk. rewrite Hk in K. discriminate.
Qed.

(** The keys of the vertex dictionary. *)
Definition kstep (ks : list (list nat)) (t : list nat) : list (list nat) :=
  if existsb (set_eqb t) ks then ks else (ks ++ [t])%list.
Lemma vstep_keys ts : forall ks, fold_left vstep ts (map key_vec ks) = map key_vec (fold_left kstep ts ks).
Proof.
  induction ts as [|t ts IH]; intros ks; [reflexivity|]. cbn [fold_left]. rewrite <- IH. f_equal.
  unfold vstep, kstep, has_key. replace (existsb _ (map key_vec ks)) with (existsb (set_eqb t) ks).
  - destruct (existsb (set_eqb t) ks); [reflexivity|]. now rewrite map_app.
  - induction ks as [|k ks IHk]; cbn; [reflexivity|]. now rewrite IHk.
Qed.

Lemma default_keys : exists keys, fold_left kstep (visits (fun _ s => s)) [] = ([0; 1; 8] :: [0; 1; 9] :: keys)%nat
     /\ forallb (fun t => negb (leqb (sort3 t) [0; 1; 8]%nat) && existsb (leqb t) all_tri)%bool ([0; 1; 9] :: keys)%nat = true.
Proof.
  exists (skipn 2 (fold_left kstep (visits (fun _ s => s)) [])). split; vm_compute; reflexivity.
Qed.

Lemma default_vertices : exists keys,
  computeDodecahedronVertices (fun _ s => s) unrot_faces = Ok (map phi_v ([0; 1; 8] :: [0; 1; 9] :: keys)%nat)
  /\ forallb (fun t => negb (leqb (sort3 t) [0; 1; 8]%nat) && existsb (leqb t) all_tri)%bool ([0; 1; 9] :: keys)%nat = true.
Proof.
  assert (Ho : any_order (fun _ s => s)) by (intros p s; apply Permutation_refl).
  destruct default_keys as (keys & Ek & Hk). exists keys. split; [|exact Hk].
  rewrite (vertices_fold _ Ho). pose proof (vstep_keys (visits (fun _ s => s)) []) as X. rewrite Ek in X.
  generalize dependent (visits (fun _ s => s)). intros vs Ek X. change (map key_vec []) with (@nil (list nat * vec)) in X. rewrite X, map_map. reflexivity.
Qed.

(*@ C39: when sets are run through in ascending order (as CPython does for these sets), the default orientation
    has a vertex adjacent to the one at the north pole in the direction of RA 180 degrees. *)
Lemma polar_vertex_default_proof : forall D, Dodecahedron_init (fun _ s => s) false = Ok D ->
  exists v, In v (dd_vertices D) /\ dot (0, 0, 1) v = sqrt 5 / 3 /\ vy v = 0 /\ vx v < 0.
Proof.
  intros D E. destruct default_vertices as (keys & Ek & Hk). rewrite forallb_forall in Hk.
  unfold Dodecahedron_init in E. rewrite faces_eq, Ek in E. cbn [bind] in E.
  assert (Norm : forall t, In t all_tri -> phi_v t = phi_v (sort3 t) /\ In (sort3 t) canon).
  { intros t Ht. destruct (tri_good t Ht) as (_ & _ & _ & _ & _ & _ & _ & Hc & Es & _). split; [unfold phi_v; now rewrite Es|exact Hc]. }
  assert (C8 : In [0; 1; 8]%nat canon) by (vm_compute; tauto). assert (C9 : In [0; 1; 9]%nat canon) by (vm_compute; tauto).
  assert (D89 : dot (phi_v [0; 1; 9]%nat) (phi_v [0; 1; 8]%nat) = sqrt 5 / 3).
  { rewrite dot_vv. replace (zdot _ _) with (4, 7)%Z by reflexivity. pose proof sqrt5_sq as S. pose proof val69_pos as P.
    unfold val, golden in *. cbn [fst snd] in *. apply (Rmult_eq_reg_r (6 + 9 * ((1 + sqrt 5) / 2))); [|lra].
    unfold Rdiv at 1. rewrite Rmult_assoc, Rinv_l, Rmult_1_r by lra. nra. }
  assert (Ep : findClosePair (map phi_v ([0; 1; 8] :: [0; 1; 9] :: keys)%nat) 0 = Ok (phi_v [0; 1; 8]%nat, phi_v [0; 1; 9]%nat)).
  { unfold findClosePair. cbn [map]. rewrite (py_nth_in _ (Z.of_nat 0) (phi_v [0; 1; 8]%nat)) by (cbn; lia || reflexivity).
    cbn [bind firstn app skipn]. change (phi_v [0; 1; 9]%nat :: map phi_v keys)%list with (map phi_v ([0; 1; 9] :: keys)%nat).
    set (l := ([0; 1; 9] :: keys)%nat) in *.
    destruct (np_argmax_spec (map (fun w => dot w (phi_v [0; 1; 8]%nat)) (map phi_v l))) as (i & y & Ei & Hy & Hm); [discriminate|].
    destruct (Hm 0%nat _ eq_refl) as [H0 H1].
    assert (i = 0%nat) as ->.
    { cut (i <= 0)%nat; [lia|]. apply H1. apply Rle_antisym; [exact H0|].
      rewrite map_map, nth_error_map in Hy.
      destruct (nth_error l i) as [t|] eqn:Et; [|discriminate]. injection Hy as <-.
      apply nth_error_In, Hk, andb_true_iff in Et. destruct Et as [Et1 Et2]. apply existsb_exists in Et2.
      destruct Et2 as (u & Hu & Eu). apply leqb_eq in Eu. subst u. destruct (Norm t Hu) as [-> Ht]. rewrite D89.
      apply vv_le; [exact Ht|exact C8|]. intros Eq. rewrite Eq in Et1. discriminate. }
    rewrite Ei. cbn [bind]. reflexivity. }
  rewrite Ep in E. cbn [bind fst snd] in E. set (m := computeCoordTransform _ _ true) in E.
  destruct (sortedVectorList _) as [fc|]; [|discriminate]. cbn [bind] in E. injection E as <-. cbn [dd_vertices].
  exists (mat_vec m (phi_v [0; 1; 9]%nat)). split; [cbn [map]; right; now left|].
  assert (Y : forall t, vy (vval (Fsum t)) = 0 -> vy (phi_v t) = 0).
  { intros t Ht. unfold phi_v. unfold vscale. rewrite vyE, Ht. ring. }
  destruct (coord_transform_negative_xz_proof (phi_v [0; 1; 8]%nat) (phi_v [0; 1; 9]%nat)) as [Wy Wx].
  { apply Y. unfold vval. rewrite vyE. unfold val. cbn. ring. }
  { apply Y. unfold vval. rewrite vyE. unfold val. cbn. ring. }
  fold m in Wy, Wx. destruct (transform_rigid (phi_v [0; 1; 8]%nat) (phi_v [0; 1; 9]%nat) true) as [Rg _]. fold m in Rg.
  assert (P8 : mat_vec m (phi_v [0; 1; 8]%nat) = (0, 0, 1)).
  { unfold m. rewrite transform_first. apply vec_eq; try reflexivity. unfold norm. rewrite (phi_v_unit _ C8). apply sqrt_1. }
  assert (Dz : dot (0, 0, 1) (mat_vec m (phi_v [0; 1; 9]%nat)) = sqrt 5 / 3) by (rewrite <- P8, Rg, dot_comm; exact D89).
  split; [exact Dz|]. split; [exact Wy|]. destruct Wx as [Wx|Wx]; [exact Wx|exfalso].
  pose proof (phi_v_unit _ C9) as U. unfold unit_vec in U. rewrite <- Rg in U.
  set (v := mat_vec m (phi_v [0; 1; 9]%nat)) in *. clearbody v. unfold dot in U, Dz. rewrite Wy, Wx in U.
  rewrite vxE, vyE, vzE in Dz. assert (Z : vz v = sqrt 5 / 3) by lra. rewrite Z in U. pose proof sqrt5_sq. nra.
Qed.
