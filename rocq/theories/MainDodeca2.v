(** The inner sky polygons of the Dodeca map (C70). *)
From Coq Require Import Reals Lra Lia Permutation Sorted.
From Flocq Require Import Core.Raux.
Require Import Verif.Py Verif.Geom Verif.PatchInfo Verif.TractBuilder Verif.TractInfo Verif.Spec.
Require Import Verif.PatchProofs Verif.TractProofs.
Require Import Verif.SkyMap Verif.SkySpec Verif.SkyProofs Verif.SkyProofs2 Verif.MainSky.
Require Import Verif.Rings Verif.RingsSpec Verif.RingsProofs Verif.Sphere Verif.SphereProofs Verif.TractBox Verif.Uniform Verif.MapsProofs.
Require Import Verif.Dodeca Verif.DodecaSpec Verif.DodecaZ Verif.DodecaProofs Verif.DodecaProofs2 Verif.DodecaProofs3 Verif.DodecaProofs4.
Require Import Verif.Region Verif.RegionProofs Verif.HullProofs Verif.MainDodeca.
Open Scope R_scope.

(** Two vertices of one face. *)
Lemma face_vv f t u : In t canon -> In u canon -> In f t -> In f u -> t <> u ->
  dot (phi_v t) (phi_v u) = sqrt 5 / 3 \/ dot (phi_v t) (phi_v u) = 1 / 3.
Proof.
  intros Ht Hu Ft Fu Hne.
  assert (E : forallb (fun t => forallb (fun u => negb (existsb (fun f => mem f u) t) || leqb t u || zeqb (zdot (Fsum t) (Fsum u)) (4, 7)%Z
      || zeqb (zdot (Fsum t) (Fsum u)) (2, 3)%Z) canon) canon = true) by (vm_compute; reflexivity).
  rewrite forallb_forall in E. specialize (E t Ht). rewrite forallb_forall in E. specialize (E u Hu).
  rewrite !orb_true_iff, negb_true_iff in E.
  assert (X : existsb (fun f => mem f u) t = true) by (apply existsb_exists; exists f; split; [exact Ft|now apply mem_In]).
  rewrite X in E. destruct E as [[[E|E]|E]|E]; [discriminate|apply leqb_eq in E; contradiction| |].
  - left. apply zeqb_eq in E. rewrite dot_vv, E. pose proof sqrt5_sq as S. pose proof val69_pos as P.
    unfold val, golden in *. cbn [fst snd] in *. apply (Rmult_eq_reg_r (6 + 9 * ((1 + sqrt 5) / 2))); [|lra].
    unfold Rdiv at 1. rewrite Rmult_assoc, Rinv_l, Rmult_1_r by lra. nra.
  - right. apply zeqb_eq in E. rewrite dot_vv, E. pose proof val69_pos as P.
    unfold val in *. cbn [fst snd] in *. apply (Rmult_eq_reg_r (6 + 9 * golden)); [|lra].
    unfold Rdiv at 1. rewrite Rmult_assoc, Rinv_l, Rmult_1_r by lra. lra.
Qed.

Lemma face_independent a b c : unit_vec a -> unit_vec b -> unit_vec c ->
  (forall x y, (x, y) = (a, b) \/ (x, y) = (b, c) \/ (x, y) = (a, c) -> dot x y = sqrt 5 / 3 \/ dot x y = 1 / 3) ->
  det a b c <> 0.
Proof.
  intros Ua Ub Uc H E. pose proof (det_gram a b c) as G. rewrite E in G. unfold unit_vec in *. rewrite Ua, Ub, Uc in G.
  pose proof sqrt5_sq as S. assert (2.236 < sqrt 5 < 2.2361) by (pose proof golden_bounds; unfold golden in *; lra).
  destruct (H a b (or_introl eq_refl)) as [X | X]; destruct (H b c (or_intror (or_introl eq_refl))) as [Y | Y];
    destruct (H a c (or_intror (or_intror eq_refl))) as [Z | Z]; rewrite X, Y, Z in G; nra.
Qed.

Lemma cyclic_pairs_map {A B} (g : A -> B) l : cyclic_pairs (map g l) = map (fun pq => (g (fst pq), g (snd pq))) (cyclic_pairs l).
Proof.
  destruct l as [|x r]; [reflexivity|]. unfold cyclic_pairs. cbn [map]. change (map g r ++ [g x])%list with (map g r ++ map g [x])%list.
  rewrite <- map_app. change (g x :: map g r) with (map g (x :: r)). generalize (x :: r) (r ++ [x])%list. clear.
  induction l as [|a l IH]; intros [|b m]; cbn; try reflexivity. now rewrite IH.
Qed.

(** The five vertices of a tract. *)
Lemma dodeca_face D m ts fs (Sh : shape D m ts fs) offset c mk ov s i t :
  sm_reachable offset (dodeca_def c mk ov D) s -> holds offset (dodeca_def c mk ov D) i s t ->
  exists f v0 v1 v2 v3 v4, (f < 12)%nat /\ vec_of (t_ctr t) = mat_vec m (phi_f f) /\ t_verts t = [v0; v1; v2; v3; v4]
  /\ Permutation (map vec_of (t_verts t)) (map (fun t => mat_vec m (phi_v t)) (filter (mem f) canon))
  /\ (forall p q, In (p, q) (cyclic_pairs (t_verts t)) -> dot (vec_of p) (vec_of q) = sqrt 5 / 3)
  /\ (forall p q, In (p, q) (cyclic_pairs (t_verts t)) -> det (vec_of p) (vec_of q) (vec_of (t_ctr t)) <> 0)
  /\ (forall p q x, In (p, q) (cyclic_pairs (t_verts t)) -> In x (t_verts t) ->
        0 <= det (vec_of p) (vec_of q) (vec_of x) * det (vec_of p) (vec_of q) (vec_of (t_ctr t)))
  /\ (forall j k l, (j < k)%nat -> (k < l)%nat -> (l < 5)%nat ->
        det (nth j (map vec_of (t_verts t)) (0, 0, 0)) (nth k (map vec_of (t_verts t)) (0, 0, 0)) (nth l (map vec_of (t_verts t)) (0, 0, 0)) <> 0).
Proof.
  intros Hr Hh. destruct (dodeca_holds D m ts fs Sh offset c mk ov s i t Hr Hh) as (_ & _ & f & Hn & Hf & Ec & Ev).
  destruct (path_facts _ _ _ _ Sh f Hf) as (P1 & P2 & P3 & P4 & P5). set (l := zverts (filter (mem f) ts)) in *.
  assert (Adj : forall n, In n (nth f adjs []) -> (n < 12)%nat).
  { intros n Hin. assert (K : forallb (fun f => forallb (fun n => Nat.ltb n 12) (nth f adjs [])) (seq 0 12) = true) by (vm_compute; reflexivity).
    rewrite forallb_forall in K. specialize (K f ltac:(apply in_seq; lia)). rewrite forallb_forall in K. apply Nat.ltb_lt, K, Hin. }
  assert (Edge : forall p q x, In (p, q) (cyclic_pairs (t_verts t)) -> In x (t_verts t) ->
            0 <= det (vec_of p) (vec_of q) (vec_of x) * det (vec_of p) (vec_of q) (vec_of (t_ctr t))).
  { intros p q x Hpq Hx. destruct (dodeca_edges D m ts fs Sh offset c mk ov s i t x Hr Hh) as (f' & Hn' & _ & _ & H1 & _).
    rewrite Hn in Hn'. injection Hn' as <-. destruct (H1 p q Hpq) as (n & k & Hin & Hk & E). unfold det. rewrite E.
    apply (in_map vec_of) in Hx. rewrite Ev in Hx. apply in_map_iff in Hx. destruct Hx as (u & <- & Hu). apply P3 in Hu. destruct Hu as [Hu1 Hu2].
    rewrite !(sh_rigid _ _ _ _ Sh). apply Rmult_le_pos; [lra|]. pose proof (Adj n Hin) as Hn12.
    assert (dot (phi_f n) (phi_v u) <= dot (phi_f f) (phi_v u)); [|lra].
    assert (It : In (zdot (F f) (Fsum u), rfv f u) fv_tab) by (apply in_lookup; now apply fv_known).
    assert (In' : In (zdot (F n) (Fsum u), rfv n u) fv_tab) by (apply in_lookup; now apply fv_known).
    pose proof (fv_max f u Hf Hu1) as [_ Et]. apply mem_In in Hu2. rewrite Hu2 in Et. apply Z.eqb_eq in Et. rewrite Et in It.
    rewrite !dot_fv. pose proof sqrt_2133 as S. assert (Hi : 0 < / sqrt (val z2133)) by (apply Rinv_0_lt_compat; lra).
    unfold Rdiv. apply Rmult_le_compat_r; [lra|]. pose proof golden_bounds as B.
    generalize dependent (zdot (F f) (Fsum u)). intros zt It. generalize dependent (zdot (F n) (Fsum u)). intros zu Iu.
    cbn in It. repeat destruct It as [It|It]; try (injection It as <-); try discriminate; try (destruct It; fail).
    cbn in Iu. repeat destruct Iu as [Iu|Iu]; try (destruct Iu; fail); injection Iu as <- Er; unfold val; cbn [fst snd]; nra. }
    assert (Hlen : length (t_verts t) = 5%nat) by (rewrite <- (map_length vec_of), Ev, map_length; exact P1).
    destruct (t_verts t) as [|v0 [|v1 [|v2 [|v3 [|v4 [|? ?]]]]]] eqn:Et; try discriminate Hlen.
    destruct l as [|t0 [|t1 [|t2 [|t3 [|t4 [|? ?]]]]]]; try discriminate P1.
    cbn [map] in Ev.
    assert (E0 := f_equal (fun l => nth 0 l (0, 0, 0)) Ev). cbn [nth] in E0.
    assert (E1 := f_equal (fun l => nth 1 l (0, 0, 0)) Ev). cbn [nth] in E1.
    assert (E2 := f_equal (fun l => nth 2 l (0, 0, 0)) Ev). cbn [nth] in E2.
    assert (E3 := f_equal (fun l => nth 3 l (0, 0, 0)) Ev). cbn [nth] in E3.
    assert (E4 := f_equal (fun l => nth 4 l (0, 0, 0)) Ev). cbn [nth] in E4.
    assert (Hno : forall x y, In x (cyclic_pairs [v0; v1; v2; v3; v4]) -> x = y -> det (vec_of (fst y)) (vec_of (snd y)) (vec_of (t_ctr t)) <> 0).
    { intros [p q] y Hpq <-. cbn [fst snd].
      destruct (dodeca_edges D m ts fs Sh offset c mk ov s i t (t_ctr t) Hr Hh) as (f' & Hn' & _ & _ & H1 & _).
      rewrite Hn in Hn'. injection Hn' as <-. rewrite Et in H1. destruct (H1 p q Hpq) as (n & k & Hk1 & Hk & E).
      intros Z0. unfold det in Z0. rewrite Z0, Ec, !(sh_rigid _ _ _ _ Sh) in E. rewrite (phi_f_unit f Hf), (dot_comm (phi_f n)) in E. pose proof inv_sqrt5.
      destruct (ff_cases f n Hf (Adj n Hk1)) as [[-> _]|[(_ & _ & X)|(N & _)]]; [|rewrite X in E; nra|tauto].
      assert (K : forallb (fun f => negb (mem f (nth f adjs []))) (seq 0 12) = true) by (vm_compute; reflexivity).
      rewrite forallb_forall in K. specialize (K n ltac:(apply in_seq; lia)). apply mem_In in Hk1. rewrite Hk1 in K. discriminate. }
    assert (VV : forall a b, In a [t0; t1; t2; t3; t4] -> In b [t0; t1; t2; t3; t4] -> a <> b ->
       dot (mat_vec m (phi_v a)) (mat_vec m (phi_v b)) = sqrt 5 / 3 \/ dot (mat_vec m (phi_v a)) (mat_vec m (phi_v b)) = 1 / 3).
    { intros a b Ha Hb Hab. rewrite !(sh_rigid _ _ _ _ Sh). apply P3 in Ha, Hb. destruct Ha, Hb. now apply (face_vv f). }
    assert (Ind : forall a b d, In a [t0; t1; t2; t3; t4] -> In b [t0; t1; t2; t3; t4] -> In d [t0; t1; t2; t3; t4] -> a <> b -> b <> d -> a <> d ->
       det (mat_vec m (phi_v a)) (mat_vec m (phi_v b)) (mat_vec m (phi_v d)) <> 0).
    { intros a b d Ha Hb Hd N1 N2 N3.
      apply face_independent; [apply (pv_unit _ _ _ _ Sh); now apply P3|apply (pv_unit _ _ _ _ Sh); now apply P3|apply (pv_unit _ _ _ _ Sh); now apply P3|].
      intros x y [X|[X|X]]; injection X as -> ->; now apply VV. }
    exists f, v0, v1, v2, v3, v4. split; [exact Hf|]. split; [exact Ec|]. split; [reflexivity|].
    split; [|split; [|split; [|split]]].
    + cbn [map] in Ev |- *. rewrite Ev. change (Permutation (map (fun t => mat_vec m (phi_v t)) [t0; t1; t2; t3; t4]) (map (fun t => mat_vec m (phi_v t)) (filter (mem f) canon))).
      apply Permutation_map. apply NoDup_Permutation; [exact P2|apply NoDup_filter; exact canon_nodup|].
      intros x. rewrite filter_In, mem_In. apply P3.
    + intros p q Hpq. assert (Ev' : map vec_of [v0; v1; v2; v3; v4] = map (fun t => mat_vec m (phi_v t)) [t0; t1; t2; t3; t4]) by exact Ev.
      apply (in_map (fun pq => (vec_of (fst pq), vec_of (snd pq)))) in Hpq. rewrite <- cyclic_pairs_map, Ev', cyclic_pairs_map in Hpq.
      apply in_map_iff in Hpq. destruct Hpq as ([a b] & X & Hab). cbn [fst snd] in X.
      assert (X1 := f_equal fst X). assert (X2 := f_equal snd X). cbn [fst snd] in X1, X2. rewrite <- X1, <- X2, (sh_rigid _ _ _ _ Sh).
      exact (proj1 (proj2 (proj2 (P4 a b Hab)))).
    + intros p q Hpq. exact (Hno _ (p, q) Hpq eq_refl).
    + exact Edge.
    + intros j k l Hjk Hkl Hl. cbn [map]. rewrite E0, E1, E2, E3, E4.
      change [mat_vec m (phi_v t0); mat_vec m (phi_v t1); mat_vec m (phi_v t2); mat_vec m (phi_v t3); mat_vec m (phi_v t4)] with (map (fun t => mat_vec m (phi_v t)) [t0; t1; t2; t3; t4]).
      assert (Nth : forall z, (z < 5)%nat -> nth z (map (fun t => mat_vec m (phi_v t)) [t0; t1; t2; t3; t4]) (0, 0, 0) = mat_vec m (phi_v (nth z [t0; t1; t2; t3; t4] []))).
      { intros z Hz. rewrite (nth_indep _ (0,0,0) (mat_vec m (phi_v []))) by (rewrite map_length; exact Hz). apply (map_nth (fun t => mat_vec m (phi_v t))). }
      rewrite !Nth by lia. apply Ind; try (apply nth_In; cbn; lia).
      * intros X. apply (NoDup_nth [t0; t1; t2; t3; t4] []) in X; cbn; try lia. exact P2.
      * intros X. apply (NoDup_nth [t0; t1; t2; t3; t4] []) in X; cbn; try lia. exact P2.
      * intros X. apply (NoDup_nth [t0; t1; t2; t3; t4] []) in X; cbn; try lia. exact P2.
Qed.

Lemma dodeca_polygon D m ts fs (Sh : shape D m ts fs) offset c mk ov s i t coord :
  sm_reachable offset (dodeca_def c mk ov D) s -> holds offset (dodeca_def c mk ov D) i s t ->
  region_contains (getInnerSkyPolygon t) coord <-> in_pentagon t coord.
Proof.
  intros Hr Hh. destruct (dodeca_face D m ts fs Sh offset c mk ov s i t Hr Hh) as (f & v0 & v1 & v2 & v3 & v4 & Hf & Ec & Et & _ & _ & Hno & Edge & Ind).
  unfold region_contains, getInnerSkyPolygon. split.
  - intros (ws & Hl & Hw & E) p q Hpq n. rewrite E.
    set (e := dot n (vec_of (t_ctr t))).
    pose proof (combination_nonneg (vscale e n) ws (map vec_of (t_verts t)) Hw) as K.
    rewrite dot_vscale_l in K. rewrite Rmult_comm. apply K. intros v Hv. apply in_map_iff in Hv. destruct Hv as (x & <- & Hx).
    rewrite dot_vscale_l, Rmult_comm. exact (Edge p q x Hpq Hx).
  - intros Hin.
    destruct (pentagon_cone (vec_of v0) (vec_of v1) (vec_of v2) (vec_of v3) (vec_of v4) (vec_of (t_ctr t)) (vec_of coord)) as (ws & Hw1 & Hw2 & Hw3).
    + intros p q Hpq. change [vec_of v0; vec_of v1; vec_of v2; vec_of v3; vec_of v4] with (map vec_of [v0; v1; v2; v3; v4]) in Hpq.
      rewrite cyclic_pairs_map in Hpq. apply in_map_iff in Hpq. destruct Hpq as ([a b] & X & Hab). injection X as <- <-. rewrite <- Et in Hab. exact (Hno a b Hab).
    + intros p q r Hpq Hrr. change [vec_of v0; vec_of v1; vec_of v2; vec_of v3; vec_of v4] with (map vec_of [v0; v1; v2; v3; v4]) in Hpq, Hrr.
      rewrite cyclic_pairs_map in Hpq. apply in_map_iff in Hpq. destruct Hpq as ([a b] & X & Hab). injection X as <- <-.
      apply in_map_iff in Hrr. destruct Hrr as (x & <- & Hx). rewrite <- Et in Hab, Hx. now apply Edge.
    + intros p q Hpq. change [vec_of v0; vec_of v1; vec_of v2; vec_of v3; vec_of v4] with (map vec_of [v0; v1; v2; v3; v4]) in Hpq.
      rewrite cyclic_pairs_map in Hpq. apply in_map_iff in Hpq. destruct Hpq as ([a b] & X & Hab). injection X as <- <-.
      rewrite <- Et in Hab. exact (Hin a b Hab).
    + generalize (Ind 0 1 2 ltac:(lia) ltac:(lia) ltac:(lia))%nat. rewrite Et. cbn [map nth]. auto.
    + generalize (Ind 1 2 3 ltac:(lia) ltac:(lia) ltac:(lia))%nat. rewrite Et. cbn [map nth]. auto.
    + generalize (Ind 2 3 4 ltac:(lia) ltac:(lia) ltac:(lia))%nat. rewrite Et. cbn [map nth]. auto.
    + generalize (Ind 0 2 3 ltac:(lia) ltac:(lia) ltac:(lia))%nat. rewrite Et. cbn [map nth]. auto.
    + generalize (Ind 0 3 4 ltac:(lia) ltac:(lia) ltac:(lia))%nat. rewrite Et. cbn [map nth]. auto.
    + exists ws. rewrite Et, map_length. split; [exact Hw1|]. split; [exact Hw2|exact Hw3].
Qed.

(*@ C70: the inner sky polygons of the Dodeca map cover the sky: the polygon (the convex hull of the tract's
    vertices) consists exactly of the coordinates on the inner side of its five edges, it is also the inner sky
    region, the polygon of the tract that findTract returns contains the coordinate, and a coordinate that is
    strictly inside the polygon of a tract is in the polygon of no other tract. *)
Lemma dodeca_inner_polygons_proof : forall order offset c mk ov b D s0 s, any_order order ->
  dodeca_new order offset c mk ov b = Ok (D, s0) -> accesses offset (dodeca_def c mk ov D) s0 s ->
  (forall i t coord, holds offset (dodeca_def c mk ov D) i s t ->
     getInnerSkyRegion t = getInnerSkyPolygon t
     /\ (region_contains (getInnerSkyPolygon t) coord <-> in_pentagon t coord))
  /\ (forall coord, exists t, dodeca_findTract offset (dodeca_def c mk ov D) D coord s = (s, Ok t)
        /\ region_contains (getInnerSkyPolygon t) coord)
  /\ (forall i j t u coord, holds offset (dodeca_def c mk ov D) i s t -> holds offset (dodeca_def c mk ov D) j s u ->
        strictly_in_pentagon t coord -> region_contains (getInnerSkyPolygon u) coord -> t = u).
Proof.
  intros order offset c mk ov b D s0 s Ho En Ha.
  assert (En' := En). unfold dodeca_new in En'.
  destruct (Dodecahedron_init order b) as [D'|] eqn:E; [|discriminate]. cbn [bind] in En'.
  destruct (sm_new offset (dodeca_def c mk ov D')) as [s'|] eqn:Es; [|discriminate]. cbn [bind] in En'. injection En' as -> ->.
  destruct (shape_of order b D Ho E) as (_ & m & ts & fs & Sh). set (d := dodeca_def c mk ov D) in *.
  assert (Hr : sm_reachable offset d s) by (exists s0; split; assumption).
  split; [|split].
  - intros i t coord Hh. split; [|now apply (dodeca_polygon D m ts fs Sh offset c mk ov s i t coord)].
    destruct (holds_args offset d s i t Hr Hh) as (Hi & a & b1 & b' & oid & Ea & _ & Hm).
    destruct (dodeca_args_ok D m ts fs Sh mk ov i Hi) as (f & ctr & vcs & _ & _ & Ea' & _).
    change (sd_args d i) with (dodeca_args mk ov D i) in Ea. rewrite Ea' in Ea. injection Ea as <-.
    unfold getInnerSkyRegion, getInnerSkyPolygon.
    assert (X : t_innerBoxCorners t = None).
    { cbn [make_tract] in Hm. unfold TractInfo_init in Hm. now apply tract_build_keeps in Hm. }
    now rewrite X.
  - intros coord. destruct (dodeca_findTract_default_proof order offset c mk ov b D s0 s coord Ho En Ha) as (t & Ef & _ & Hh & _).
    fold d in Ef, Hh. exists t. split; [exact Ef|]. apply (dodeca_polygon D m ts fs Sh offset c mk ov s (t_id t) t coord Hr Hh).
    apply (dodeca_pentagons_proof order offset c mk ov b D s0 s coord t Ho En Ha). exact Ef.
  - intros i j t u coord Ht Hu Hs Hc. apply (dodeca_polygon D m ts fs Sh offset c mk ov s j u coord Hr Hu) in Hc.
    destruct (dodeca_edges D m ts fs Sh offset c mk ov s i t coord Hr Ht) as (f & Hn & Hf & Ec & _ & H2).
    destruct (dodeca_edges D m ts fs Sh offset c mk ov s j u coord Hr Hu) as (g & Hng & Hg & Ecg & _ & H2g).
    (* both are nearest *)
    assert (HG : exists w, forall i, dot (mat_vec m (phi_f i)) (vec_of coord) = dot (phi_f i) w).
    { exists (dot (col m vx) (vec_of coord), dot (col m vy) (vec_of coord), dot (col m vz) (vec_of coord)).
      intros k. unfold mat_vec, col. destruct (row0 m) as [[? ?] ?], (row1 m) as [[? ?] ?], (row2 m) as [[? ?] ?], (phi_f k) as [[? ?] ?], (vec_of coord) as [[? ?] ?].
      unfold dot, vx, vy, vz. cbn. ring. }
    destruct (nearest_all (fun k => dot (mat_vec m (phi_f k)) (vec_of coord)) f Hf HG) as [_ Hall].
    assert (Hadj : forall n, In n (nth f adjs []) -> dot (mat_vec m (phi_f n)) (vec_of coord) < dot (mat_vec m (phi_f f)) (vec_of coord)).
    { intros n Hnn. destruct (H2 n Hnn) as (p & q & k & Hpq & Hk & Eq). pose proof (Hs p q Hpq) as H. cbn zeta in H. rewrite Eq in H. nra. }
    specialize (Hall Hadj). cbn beta in Hall.
    destruct (nearest_all (fun k => dot (mat_vec m (phi_f k)) (vec_of coord)) g Hg HG) as [Hallg _].
    assert (Hadjg : forall n, In n (nth g adjs []) -> dot (mat_vec m (phi_f n)) (vec_of coord) <= dot (mat_vec m (phi_f g)) (vec_of coord)).
    { intros n Hnn. destruct (H2g n Hnn) as (p & q & k & Hpq & Hk & Eq). pose proof (Hc p q Hpq) as H. cbn zeta in H. rewrite Eq in H. nra. }
    specialize (Hallg Hadjg). cbn beta in Hallg.
    destruct (Nat.eq_dec g f) as [-> | Hne].
    + assert (Hij : Z.to_nat i = Z.to_nat j).
      { pose proof (Permutation_NoDup (Permutation_sym (sh_fs _ _ _ _ Sh)) (seq_NoDup 12 0)) as ND.
        rewrite NoDup_nth_error in ND. apply ND; [|congruence].
        apply nth_error_Some. congruence. }
      assert (i = j) as <- by (destruct Ht as [? _], Hu as [? _]; lia).
      exact (holds_fun offset d s _ t u Ht Hu).
    + exfalso. specialize (Hall g Hg Hne). specialize (Hallg f Hf). lra.
Qed.
