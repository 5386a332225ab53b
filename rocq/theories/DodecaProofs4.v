(** The dodecahedron and the map built on it. *)
From Coq Require Import Reals Lra Lia Permutation Sorted.
From Flocq Require Import Core.Raux.
Require Import Verif.Py Verif.Geom Verif.PatchInfo Verif.TractBuilder Verif.TractInfo Verif.Spec.
Require Import Verif.PatchProofs Verif.TractProofs.
Require Import Verif.SkyMap Verif.SkySpec Verif.SkyProofs Verif.SkyProofs2 Verif.MainSky.
Require Import Verif.Rings Verif.RingsSpec Verif.RingsProofs Verif.Sphere Verif.SphereProofs Verif.TractBox Verif.Uniform Verif.MapsProofs.
Require Import Verif.Dodeca Verif.DodecaSpec Verif.DodecaZ Verif.DodecaProofs Verif.DodecaProofs2 Verif.DodecaProofs3.
Open Scope R_scope.

Lemma shape_of order b D : any_order order -> Dodecahedron_init order b = Ok D ->
  dd_withFacesOnPoles D = b /\ exists m ts fs, shape D m ts fs.
Proof.
  intros Ho E. destruct (init_ok order b Ho) as (D' & m & ts & fs & E' & Hb & Sh).
  rewrite E in E'. injection E' as <-. split; [exact Hb|]. eauto.
Qed.

(** The vertices of a face are those nearest to its centre. *)
Lemma fv_le f t u : (f < 12)%nat -> In t canon -> In u canon -> In f t ->
  dot (phi_f f) (phi_v u) <= dot (phi_f f) (phi_v t)
  /\ (~ In f u -> dot (phi_f f) (phi_v u) < dot (phi_f f) (phi_v t)).
Proof.
  intros Hf Ht Hu Hft.
  pose proof (fv_max f t Hf Ht) as [_ Et]. apply mem_In in Hft. rewrite Hft in Et. apply Z.eqb_eq in Et.
  assert (It : In (zdot (F f) (Fsum t), rfv f t) fv_tab) by (apply in_lookup; now apply fv_known).
  assert (Iu : In (zdot (F f) (Fsum u), rfv f u) fv_tab) by (apply in_lookup; now apply fv_known).
  pose proof (fv_max f u Hf Hu) as [_ Eu]. rewrite !dot_fv. rewrite Et in It.
  pose proof sqrt_2133 as S. assert (Hi : 0 < / sqrt (val z2133)) by (apply Rinv_0_lt_compat; lra).
  unfold Rdiv. generalize dependent (/ sqrt (val z2133)). intros q Hq.
  generalize dependent (zdot (F f) (Fsum t)). intros zt It. generalize dependent (zdot (F f) (Fsum u)). intros zu Iu.
  pose proof golden_bounds as B.
  cbn in It. repeat destruct It as [It|It]; try (injection It as <-); try discriminate; try (destruct It; fail).
  cbn in Iu. repeat destruct Iu as [Iu|Iu]; try (destruct Iu; fail); injection Iu as <- Er; unfold val; cbn [fst snd];
    (split; [nra|intros Hn]).
  { exfalso. apply Hn, mem_In. rewrite <- Er in Eu. symmetry. exact Eu. }
  all: nra.
Qed.

Lemma leqb_refl l : leqb l l = true.
Proof. now apply leqb_eq. Qed.
(** Different vertices *)
Lemma vv_le t u : In t canon -> In u canon -> t <> u -> dot (phi_v t) (phi_v u) <= sqrt 5 / 3.
Proof.
  intros Ht Hu Hne.
  assert (E : forallb (fun t => forallb (fun u => leqb t u || negb (zeqb (zdot (Fsum t) (Fsum u)) z69)) canon) canon = true) by (vm_compute; reflexivity).
  rewrite forallb_forall in E. specialize (E t Ht). rewrite forallb_forall in E. specialize (E u Hu).
  apply orb_true_iff in E. destruct E as [E|E]; [apply leqb_eq in E; congruence|].
  rewrite dot_vv. assert (I : In (zdot (Fsum t) (Fsum u), rvv t u) vv_tab) by (apply in_lookup; now apply vv_known).
  generalize dependent (zdot (Fsum t) (Fsum u)). intros z E I. generalize dependent (rvv t u). intros r I.
  pose proof golden_bounds as B. assert (S : 2.236 < sqrt 5 < 2.2361) by (unfold golden in B; lra).
  assert (P : 0 < val z69) by apply val69_pos.
  assert (K : forall x, x <= sqrt 5 / 3 * val z69 -> x / val z69 <= sqrt 5 / 3).
  { intros x Hx. apply (Rmult_le_reg_r (val z69)); [exact P|]. unfold Rdiv at 1. rewrite Rmult_assoc, Rinv_l, Rmult_1_r by lra. exact Hx. }
  apply K. pose proof sqrt5_sq as S2.
  cbn in I. repeat destruct I as [I|I]; try (destruct I; fail); injection I as <- _; try discriminate;
    unfold val; cbn [fst snd]; unfold golden in *; cbn in *; try nra.
Qed.

Lemma vv_one t u : In t canon -> In u canon -> phi_v t = phi_v u -> t = u.
Proof.
  intros Ht Hu E. destruct (list_eq_dec Nat.eq_dec t u) as [|N]; [assumption|exfalso].
  pose proof (vv_le t u Ht Hu N) as L. rewrite <- E in L. pose proof (phi_v_unit t Ht) as U. unfold unit_vec in U. rewrite U in L.
  pose proof golden_bounds as B. unfold golden in B. lra.
Qed.

Lemma rigid_inj m a b : rigid m -> mat_vec m a = mat_vec m b -> dot a a = 1 -> dot b b = 1 -> a = b.
Proof.
  intros Hm E Ha Hb. assert (D : dot a b = 1) by (rewrite <- Ha, <- (Hm a b), <- (Hm a a); now rewrite E).
  destruct a as [[a1 a2] a3], b as [[b1 b2] b3]. unfold dot, vx, vy, vz in *. cbn [fst snd] in *.
  assert (Z : (a1 - b1) * (a1 - b1) + (a2 - b2) * (a2 - b2) + (a3 - b3) * (a3 - b3) = 0) by lra.
  pose proof (Rle_0_sqr (a1 - b1)). pose proof (Rle_0_sqr (a2 - b2)). pose proof (Rle_0_sqr (a3 - b3)).
  unfold Rsqr in *. apply vec_eq; apply Rminus_diag_uniq; apply Rsqr_0_uniq; unfold Rsqr; lra.
Qed.

Lemma unit_dot_m1 a b : dot a a = 1 -> dot b b = 1 -> dot a b = -1 -> b = vscale (-1) a.
Proof.
  intros Ha Hb D. destruct a as [[a1 a2] a3], b as [[b1 b2] b3]. unfold vscale, dot, vx, vy, vz in *. cbn [fst snd] in *.
  assert (Z : (a1 + b1) * (a1 + b1) + (a2 + b2) * (a2 + b2) + (a3 + b3) * (a3 + b3) = 0) by lra.
  pose proof (Rle_0_sqr (a1 + b1)). pose proof (Rle_0_sqr (a2 + b2)). pose proof (Rle_0_sqr (a3 + b3)).
  unfold Rsqr in *. assert (a1 + b1 = 0) by (apply Rsqr_0_uniq; unfold Rsqr; lra). assert (a2 + b2 = 0) by (apply Rsqr_0_uniq; unfold Rsqr; lra).
  assert (a3 + b3 = 0) by (apply Rsqr_0_uniq; unfold Rsqr; lra). apply vec_eq; lra.
Qed.

Lemma v_opposite t : In t canon -> exists u, In u canon /\ dot (phi_v t) (phi_v u) = -1.
Proof.
  intros Ht.
  assert (E : forallb (fun t => existsb (fun u => zeqb (zdot (Fsum t) (Fsum u)) (-6, -9)%Z) canon) canon = true) by (vm_compute; reflexivity).
  rewrite forallb_forall in E. specialize (E t Ht). apply existsb_exists in E. destruct E as (u & Hu & E). apply zeqb_eq in E.
  exists u. split; [exact Hu|]. rewrite dot_vv, E. pose proof val69_pos as P. unfold val in *. cbn [fst snd] in *. field. lra.
Qed.
Lemma f_opposite i : (i < 12)%nat -> exists j, (j < 12)%nat /\ dot (phi_f i) (phi_f j) = -1.
Proof.
  intros Hi.
  assert (E : forallb (fun t => existsb (fun u => zeqb (zdot (F t) (F u)) (-2, -1)%Z) (seq 0 12)) (seq 0 12) = true) by (vm_compute; reflexivity).
  rewrite forallb_forall in E. specialize (E i ltac:(apply in_seq; lia)). apply existsb_exists in E. destruct E as (u & Hu & E). apply zeqb_eq in E. apply in_seq in Hu.
  exists u. split; [lia|]. rewrite dot_ff, E. pose proof val21_pos as P. unfold val in *. cbn [fst snd] in *. field. lra.
Qed.

Lemma canon_nodup : NoDup canon.
Proof. unfold canon. repeat constructor; cbn; intuition discriminate. Qed.
Lemma NoDup_map_in {A B} (f : A -> B) l : (forall x y, In x l -> In y l -> f x = f y -> x = y) -> NoDup l -> NoDup (map f l).
Proof.
  intros Hf. induction 1 as [|x l Hx Hl IH]; [constructor|]. cbn. constructor.
  - intros H. apply in_map_iff in H. destruct H as (y & E & Hy). apply Hx.
    replace x with y; [exact Hy|]. apply Hf; [now right|now left|exact E].
  - apply IH. intros a b Ha Hb. apply Hf; now right.
Qed.

Lemma before_z a b : apart (vz a) (vz b) -> before a b -> vz b <= vz a.
Proof.
  intros A H. unfold before, key_lt, vecToSort in H. cbn [fst snd] in H.
  destruct A as [->|A]; [lra|]. destruct (Rle_lt_dec (vz b) (vz a)) as [|L]; [assumption|exfalso].
  pose proof (np_round_err (vz a) 1) as Ra. pose proof (np_round_err (vz b) 1) as Rb.
  rewrite Rabs_left in A by lra. replace (/ 2 / 10 ^ 1) with (/ 20) in * by (cbn; field).
  apply Rabs_le_inv in Ra, Rb.
  destruct (Req_bool_spec (- np_round (vz a) 1) (- np_round (vz b) 1)) as [E|E]; [lra|].
  injection H as H. destruct (Rlt_bool_spec (- np_round (vz a) 1) (- np_round (vz b) 1)) as [L2|L2]; [|discriminate]. lra.
Qed.

Lemma sorted_nth {A} (P : A -> A -> Prop) l : StronglySorted P l ->
  forall i j a b, (i < j)%nat -> nth_error l i = Some a -> nth_error l j = Some b -> P a b.
Proof.
  induction 1 as [|x l Hl IH Hx]; intros i j a b Hij Ha Hb; [destruct i; discriminate|].
  destruct j as [|j]; [lia|]. destruct i as [|i]; cbn in *.
  - injection Ha as <-. rewrite Forall_forall in Hx. apply Hx. eapply nth_error_In; eauto.
  - eapply IH; [|exact Ha|exact Hb]. lia.
Qed.

Section Map.
Variables (D : dodecahedron) (m : mat) (ts : list (list nat)) (fs : list nat).
Hypothesis Sh : shape D m ts fs.
Let pf i := mat_vec m (phi_f i).
Let pv t := mat_vec m (phi_v t).

Lemma mapM_coords ra l : (forall t, In t l -> In t canon) ->
  exists cs, mapM (fun v => coordFromVec v (Some ra)) (map pv l) = Ok cs /\ map vec_of cs = map pv l.
Proof.
  induction l as [|t l IH]; intros Hl; [exists []; split; reflexivity|]. cbn [map mapM].
  destruct (coordFromVec_exact (pv t) ra) as (c & -> & Ec).
  - apply (pv_unit _ _ _ _ Sh). apply Hl. now left.
  - apply (pv_pole _ _ _ _ Sh). apply Hl. now left.
  - cbn [bind]. destruct IH as (cs & -> & Ecs); [intros u Hu; apply Hl; now right|].
    cbn [bind]. eexists. split; [reflexivity|]. cbn [map]. now rewrite Ec, Ecs.
Qed.

Lemma dodeca_args_ok mk ov i : (0 <= i < 12)%Z -> exists f ctr vcs,
  nth_error fs (Z.to_nat i) = Some f /\ (f < 12)%nat
  /\ dodeca_args mk ov D i = Ok (PlainArgs ctr vcs (deg ov) (mk ctr) None)
  /\ vec_of ctr = pf f /\ map vec_of vcs = map pv (zverts (filter (mem f) ts)).
Proof.
  intros Hi. destruct (face_at _ _ _ _ Sh i Hi) as (f & Hn & Hf & E).
  unfold dodeca_args. rewrite E. cbn [bind].
  destruct (coordFromVec_exact (pf f) 0 (pf_unit _ _ _ _ Sh f Hf) (pf_pole _ _ _ _ Sh f Hf)) as (ctr & Ec & Hc).
  fold (pf f). rewrite Ec. cbn [bind].
  destruct (verts_at _ _ _ _ Sh i f E Hf) as (Ev & _). rewrite Ev. cbn [bind].
  destruct (mapM_coords (fst ctr) (zverts (filter (mem f) ts))) as (vcs & Em & Hv).
  { intros t Ht. apply (path_facts _ _ _ _ Sh f Hf) in Ht. apply Ht. }
  fold pv. rewrite Em. cbn [bind]. exists f, ctr, vcs. auto.
Qed.

Variables (offset : sphere -> R -> R -> sphere) (c : tb_config) (mk : sphere -> wcs sphere) (ov : R).
Let d := dodeca_def c mk ov D.

Lemma dodeca_holds s i t : sm_reachable offset d s -> holds offset d i s t ->
  (0 <= i < 12)%Z /\ t_id t = i /\ exists f, nth_error fs (Z.to_nat i) = Some f /\ (f < 12)%nat
    /\ vec_of (t_ctr t) = pf f /\ map vec_of (t_verts t) = map pv (zverts (filter (mem f) ts)).
Proof.
  intros Hr Hh. destruct (holds_args offset d s i t Hr Hh) as (Hi & a & b & b' & oid & Ea & _ & Hm).
  change (sd_num d) with 12%Z in Hi. split; [exact Hi|].
  destruct (make_tract_fields _ _ _ _ _ _ _ Hm) as (E1 & E2 & _ & E3). split; [exact E1|].
  destruct (dodeca_args_ok mk ov i Hi) as (f & ctr & vcs & Hn & Hf & E & Hc & Hv).
  change (sd_args d i) with (dodeca_args mk ov D i) in Ea. rewrite E in Ea. injection Ea as <-.
  exists f. split; [exact Hn|]. split; [exact Hf|]. rewrite E2. split; [exact Hc|].
  now rewrite (E3 _ _ _ _ _ eq_refl).
Qed.

Lemma dodeca_holds_all s i : sm_reachable offset d s -> (0 <= i < 12)%Z -> exists t, holds offset d i s t.
Proof using.
  clear Sh pf pv m ts fs.
  intros Hr Hi. destruct (eager_index_range_proof _ offset d s i eq_refl Hr ltac:(cbn; lia)) as (Hl & _ & G & _).
  rewrite Hl in G. destruct (G Hi) as (t & E & _). exists t. split; [lia|exact E].
Qed.

Lemma nth_faces i f : nth_error fs i = Some f -> nth_error (dd_faces D) i = Some (pf f).
Proof. intros H. rewrite (sh_faces _ _ _ _ Sh), nth_error_map, H. reflexivity. Qed.

(** What findTract returns. *)
Lemma dodeca_find coord s : sm_reachable offset d s ->
  exists i t, dodeca_findTract offset d D coord s = (s, Ok t) /\ holds offset d (Z.of_nat i) s t
    /\ forall j u, holds offset d j s u ->
         dot (vec_of coord) (vec_of (t_ctr u)) <= dot (vec_of coord) (vec_of (t_ctr t))
         /\ (dot (vec_of coord) (vec_of (t_ctr u)) = dot (vec_of coord) (vec_of (t_ctr t)) -> (Z.of_nat i <= j)%Z).
Proof.
  intros Hr. unfold dodeca_findTract, getFaceInd. set (g := fun f => dot f (vec_of coord)).
  destruct (np_argmax_spec (map g (dd_faces D))) as (i & y & E & Hy & Hm).
  { rewrite (sh_faces _ _ _ _ Sh), map_map. pose proof (fs_len _ _ _ _ Sh) as L. destruct fs; [discriminate L|discriminate]. }
  assert (Li : (0 <= Z.of_nat i < 12)%Z).
  { assert (i < length (map g (dd_faces D)))%nat by (apply nth_error_Some; congruence).
    rewrite map_length, (sh_faces _ _ _ _ Sh), map_length, (fs_len _ _ _ _ Sh) in H. lia. }
  destruct (dodeca_holds_all s (Z.of_nat i) Hr Li) as (t & Hh). exists i, t.
  rewrite E. unfold smbind, smlift. split; [apply Hh|]. split; [exact Hh|].
  assert (C : forall j u, holds offset d j s u -> nth_error (map g (dd_faces D)) (Z.to_nat j) = Some (dot (vec_of coord) (vec_of (t_ctr u)))).
  { intros j u Hu. destruct (dodeca_holds s j u Hr Hu) as (_ & _ & f & Hn & _ & -> & _).
    rewrite nth_error_map, (nth_faces _ _ Hn). cbn [option_map]. unfold g. now rewrite dot_comm. }
  intros j u Hu. pose proof (C _ _ Hh) as Ct. rewrite Nat2Z.id, Hy in Ct. injection Ct as ->.
  destruct (Hm _ _ (C _ _ Hu)) as [A B]. split; [exact A|]. intros Eq. specialize (B Eq).
  destruct Hu as [Hj _]. lia.
Qed.

(** The sides of the edges of a tract. *)
Lemma dodeca_edges s i t coord : sm_reachable offset d s -> holds offset d i s t ->
  exists f, nth_error fs (Z.to_nat i) = Some f /\ (f < 12)%nat /\ vec_of (t_ctr t) = pf f
  /\ (forall p q, In (p, q) (cyclic_pairs (t_verts t)) -> exists n k, In n (nth f adjs []) /\ 0 < k
       /\ dot (cross (vec_of p) (vec_of q)) (vec_of coord) * dot (cross (vec_of p) (vec_of q)) (vec_of (t_ctr t))
          = k * (dot (pf f) (vec_of coord) - dot (pf n) (vec_of coord)))
  /\ (forall n, In n (nth f adjs []) -> exists p q k, In (p, q) (cyclic_pairs (t_verts t)) /\ 0 < k
       /\ dot (cross (vec_of p) (vec_of q)) (vec_of coord) * dot (cross (vec_of p) (vec_of q)) (vec_of (t_ctr t))
          = k * (dot (pf f) (vec_of coord) - dot (pf n) (vec_of coord))).
Proof.
  intros Hr Hh. destruct (dodeca_holds s i t Hr Hh) as (_ & _ & f & Hn & Hf & Ec & Ev).
  exists f. split; [exact Hn|]. split; [exact Hf|]. split; [exact Ec|]. rewrite Ec.
  destruct (path_facts _ _ _ _ Sh f Hf) as (_ & _ & Hset & Hcyc & Hadj). set (l := zverts (filter (mem f) ts)) in *.
  assert (Adj : forall n, In n (nth f adjs []) -> (n < 12)%nat /\ dot (phi_f f) (phi_f n) < 1).
  { intros n Hin. assert (Hn12 : (n < 12)%nat).
    { assert (E : forallb (fun f => forallb (fun n => Nat.ltb n 12) (nth f adjs [])) (seq 0 12) = true) by (vm_compute; reflexivity).
      rewrite forallb_forall in E. specialize (E f ltac:(apply in_seq; lia)). rewrite forallb_forall in E. apply Nat.ltb_lt, E, Hin. }
    split; [exact Hn12|]. pose proof inv_sqrt5. destruct (ff_cases f n Hf Hn12) as [[-> _]|[(_ & _ & ->)|(N & _)]]; [exfalso|lra|tauto].
    assert (E : forallb (fun f => negb (mem f (nth f adjs []))) (seq 0 12) = true) by (vm_compute; reflexivity).
    rewrite forallb_forall in E. specialize (E n ltac:(apply in_seq; lia)). apply mem_In in Hin. rewrite Hin in E. discriminate. }
  (* one edge between the faces f and n *)
  assert (Edge : forall t u n, In t l -> In u l -> dot (phi_v t) (phi_v u) = sqrt 5 / 3 -> In n (nth f adjs []) -> In n t -> In n u ->
    exists k, 0 < k /\ dot (cross (pv t) (pv u)) (vec_of coord) * dot (cross (pv t) (pv u)) (pf f)
       = k * (dot (pf f) (vec_of coord) - dot (pf n) (vec_of coord))).
  { intros a b n Ha Hb Dab Hin Hna Hnb. destruct (Adj n Hin) as [Hn12 Hlt].
    apply Hset in Ha, Hb. destruct Ha as [Ca Fa], Hb as [Cb Fb].
    assert (Same : forall x, In x canon -> In f x -> In n x -> dot (pv x) (pf f) = dot (pv x) (pf n)).
    { intros x Cx Fx Nx. unfold pf, pv. rewrite !(sh_rigid _ _ _ _ Sh), !(dot_comm (phi_v x)).
      assert (K : forall i, (i < 12)%nat -> In i x -> dot (phi_f i) (phi_v x) = val (2, 3)%Z / sqrt (val z2133)).
      { intros i0 Hi0 Ix. rewrite dot_fv. destruct (fv_max i0 x Hi0 Cx) as [_ E]. apply mem_In in Ix. rewrite Ix in E. apply Z.eqb_eq in E.
        assert (It : In (zdot (F i0) (Fsum x), rfv i0 x) fv_tab) by (apply in_lookup; now apply fv_known).
        rewrite E in It. generalize dependent (zdot (F i0) (Fsum x)). intros z It. cbn in It. repeat destruct It as [It|It]; try (destruct It; fail); injection It as <-; try discriminate. reflexivity. }
      now rewrite !K. }
    assert (Ua : dot (pv a) (pv a) = 1) by (apply (pv_unit _ _ _ _ Sh), Ca).
    assert (Ub : dot (pv b) (pv b) = 1) by (apply (pv_unit _ _ _ _ Sh), Cb).
    assert (Dab' : dot (pv a) (pv b) = sqrt 5 / 3) by (unfold pv; now rewrite (sh_rigid _ _ _ _ Sh)).
    assert (S5 : 2.236 < sqrt 5 < 2.2361) by (pose proof golden_bounds as B; unfold golden in B; lra).
    destruct (edge_sides (pf f) (pf n) (pv a) (pv b) (vec_of coord)) as (k & Hk & E).
    - apply (pf_unit _ _ _ _ Sh), Hf.
    - apply (pf_unit _ _ _ _ Sh), Hn12.
    - unfold pf. rewrite (sh_rigid _ _ _ _ Sh). exact Hlt.
    - now apply Same.
    - now apply Same.
    - intros _. replace (dot (cross (pv a) (pv b)) (cross (pv a) (pv b))) with (dot (pv a) (pv a) * dot (pv b) (pv b) - dot (pv a) (pv b) * dot (pv a) (pv b)).
      + rewrite Ua, Ub, Dab'. nra.
      + generalize (pv a), (pv b). intros [[? ?] ?] [[? ?] ?]. unfold dot, cross, vx, vy, vz. cbn. ring.
    - intros E. rewrite E in Dab'. lra.
    - eauto. }
  (* pairs of coordinates and pairs of labels *)
  assert (Cyc : forall A B (g : A -> B) (x : list A), cyclic_pairs (map g x) = map (fun pq => (g (fst pq), g (snd pq))) (cyclic_pairs x)).
  { assert (CM : forall A B (g : A -> B) a b, combine (map g a) (map g b) = map (fun pq => (g (fst pq), g (snd pq))) (combine a b)).
    { intros A B g a. induction a as [|y a IH]; intros [|z b]; cbn; try reflexivity. now rewrite IH. }
    intros A B g [|x r]; [reflexivity|]. unfold cyclic_pairs. rewrite <- CM, map_app. reflexivity. }
  pose proof (f_equal cyclic_pairs Ev) as EC. rewrite !Cyc in EC. split.
  - intros p q Hpq. apply (in_map (fun pq => (vec_of (fst pq), vec_of (snd pq)))) in Hpq. rewrite EC in Hpq.
    apply in_map_iff in Hpq. destruct Hpq as ([a b] & E & Hab). cbn [fst snd] in E. pose proof (f_equal fst E) as E1. pose proof (f_equal snd E) as E2. cbn [fst snd] in E1, E2. clear E.
    destruct (Hcyc a b Hab) as (Ia & Ib & Dab & n & Hin & Na & Nb). destruct (Edge a b n Ia Ib Dab Hin Na Nb) as (k & Hk & E).
    exists n, k. rewrite <- E1, <- E2. auto.
  - intros n Hin. destruct (Hadj n Hin) as (a & b & Hab & Na & Nb).
    destruct (Hcyc a b Hab) as (Ia & Ib & Dab & _). destruct (Edge a b n Ia Ib Dab Hin Na Nb) as (k & Hk & E).
    apply (in_map (fun tu => (pv (fst tu), pv (snd tu)))) in Hab. rewrite <- EC in Hab. apply in_map_iff in Hab.
    destruct Hab as ([p q] & E' & Hpq). cbn [fst snd] in E'. pose proof (f_equal fst E') as E1. pose proof (f_equal snd E') as E2. cbn [fst snd] in E1, E2. clear E'. exists p, q, k. rewrite E1, E2. auto.
Qed.
End Map.
