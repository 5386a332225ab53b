(** The dodecahedron that is constructed. *)
From Coq Require Import Reals Lra Lia Permutation Sorted.
From Flocq Require Import Core.Raux Core.Generic_fmt Core.Round_NE.
Require Import Verif.Py Verif.Rings Verif.RingsSpec Verif.RingsProofs Verif.Sphere Verif.SphereProofs Verif.MapsProofs.
Require Import Verif.Dodeca Verif.DodecaSpec Verif.DodecaZ Verif.DodecaProofs Verif.DodecaProofs2.
Open Scope R_scope.

(** ** numpy.argmax *)
Lemma argmax_spec l : forall pos best bestVal pre,
  length pre = pos -> nth_error pre best = Some bestVal ->
  (forall j x, nth_error pre j = Some x -> x <= bestVal /\ (x = bestVal -> (best <= j)%nat)) ->
  let i := argmax_loop l pos best bestVal in
  exists y, nth_error (pre ++ l) i = Some y
    /\ forall j x, nth_error (pre ++ l) j = Some x -> x <= y /\ (x = y -> (i <= j)%nat).
Proof.
  induction l as [|x l IH]; intros pos best bestVal pre Hp Hb Hm; cbn [argmax_loop].
  - exists bestVal. rewrite app_nil_r. auto.
  - replace (pre ++ x :: l)%list with ((pre ++ [x]) ++ l)%list by (now rewrite <- app_assoc).
    assert (Hlen : length (pre ++ [x]) = S pos) by (rewrite app_length; cbn; lia).
    destruct (Rlt_bool_spec bestVal x) as [H|H].
    + apply IH; [exact Hlen| |].
      * rewrite nth_error_app2, Hp, Nat.sub_diag by lia. reflexivity.
      * intros j y Hj. destruct (Nat.lt_ge_cases j pos) as [L|L].
        -- rewrite nth_error_app1 in Hj by lia. destruct (Hm j y Hj). split; [lra|intros; lra].
        -- rewrite nth_error_app2 in Hj by lia. destruct (j - length pre)%nat as [|k]; cbn in Hj.
           ++ injection Hj as <-. split; [lra|intros _; exact L].
           ++ destruct k; discriminate.
    + apply IH; [exact Hlen| |].
      * rewrite nth_error_app1; [exact Hb|]. apply nth_error_Some. congruence.
      * intros j y Hj. destruct (Nat.lt_ge_cases j pos) as [L|L].
        -- rewrite nth_error_app1 in Hj by lia. now apply Hm.
        -- assert (Hbp : (best < pos)%nat) by (rewrite <- Hp; apply nth_error_Some; congruence).
           rewrite nth_error_app2 in Hj by lia. destruct (j - length pre)%nat as [|k]; cbn in Hj.
           ++ injection Hj as <-. split; [lra|intros _; lia].
           ++ destruct k; discriminate.
Qed.
Lemma np_argmax_spec l : l <> [] -> exists i y, np_argmax l = Ok i /\ nth_error l i = Some y
  /\ forall j x, nth_error l j = Some x -> x <= y /\ (x = y -> (i <= j)%nat).
Proof.
  destruct l as [|x l]; [congruence|]. intros _. cbn [np_argmax].
  destruct (argmax_spec l 1 0 x [x] eq_refl eq_refl) as (y & H1 & H2).
  - intros [|[|j]] z H; try discriminate. injection H as <-. split; [lra|lia].
  - eauto.
Qed.

Lemma close_pair l v r : l = v :: r -> r <> [] -> exists w, findClosePair l 0 = Ok (v, w)
  /\ In w r /\ forall u, In u r -> dot u v <= dot w v.
Proof.
  intros -> Hr. unfold findClosePair. rewrite (py_nth_in _ (Z.of_nat 0) v) by (cbn; lia || reflexivity). cbn [bind firstn app skipn].
  destruct (np_argmax_spec (map (fun w => dot w v) r)) as (i & y & E & Hy & Hm); [destruct r; [congruence|discriminate]|].
  rewrite E. cbn [bind]. rewrite nth_error_map in Hy. destruct (nth_error r i) as [w|] eqn:Ew; [|discriminate]. injection Hy as <-.
  rewrite (py_nth_in _ (Z.of_nat i) w) by (lia || now rewrite Nat2Z.id). cbn [bind]. exists w. split; [reflexivity|].
  split; [eapply nth_error_In; eauto|]. intros u Hu. apply In_nth_error in Hu. destruct Hu as (j & Hj).
  apply (Hm j). now rewrite nth_error_map, Hj.
Qed.

(** ** Possible values of the dot products *)
Lemma ff_val i j : (i < 12)%nat -> (j < 12)%nat -> exists a z, In (a, z) ff_tab /\ dot (phi_f i) (phi_f j) = val a / val z21.
Proof.
  intros Hi Hj. exists (zdot (F i) (F j)), (rff i j). split; [|apply dot_ff]. apply in_lookup. now apply ff_known.
Qed.
Lemma fv_val i t : (i < 12)%nat -> In t canon -> exists a z, In (a, z) fv_tab /\ dot (phi_f i) (phi_v t) = val a / sqrt (val z2133).
Proof.
  intros Hi Ht. exists (zdot (F i) (Fsum t)), (rfv i t). split; [|apply dot_fv]. apply in_lookup. now apply fv_known.
Qed.
Lemma vv_val t u : In t canon -> In u canon -> exists a z, In (a, z) vv_tab /\ dot (phi_v t) (phi_v u) = val a / val z69.
Proof.
  intros Ht Hu. exists (zdot (Fsum t) (Fsum u)), (rvv t u). split; [|apply dot_vv]. apply in_lookup. now apply vv_known.
Qed.

(** away from +-1, or exactly there *)
Definition gapped (x : R) : Prop := x = 1 \/ x = -1 \/ -0.9 <= x <= 0.9.
Ltac bnd := right; right; let H := fresh in
  match goal with |- _ <= ?a / ?b <= _ => pose proof (div_bounds a b (-0.9) 0.9) as H end; 
  unfold val in *; cbn [fst snd] in *; pose proof golden_bounds; lra.
Lemma ff_gapped i j : (i < 12)%nat -> (j < 12)%nat -> gapped (dot (phi_f i) (phi_f j)).
Proof.
  intros Hi Hj. destruct (ff_val i j Hi Hj) as (a & z & H & ->). unfold gapped. pose proof golden_bounds.
  cbn in H. repeat destruct H as [H|H]; try (injection H as <- <-); [left|bnd|bnd|right; left|destruct H]; unfold val; cbn [fst snd]; field; lra.
Qed.
Lemma fv_gapped i t : (i < 12)%nat -> In t canon -> gapped (dot (phi_f i) (phi_v t)).
Proof.
  intros Hi Hj. destruct (fv_val i t Hi Hj) as (a & z & H & ->). unfold gapped. pose proof sqrt_2133. generalize dependent (sqrt (val z2133)). intros q Hq.
  cbn in H. repeat destruct H as [H|H]; try (injection H as <- <-); [bnd|bnd|bnd|bnd|destruct H].
Qed.
Lemma vv_gapped t u : In t canon -> In u canon -> gapped (dot (phi_v t) (phi_v u)).
Proof.
  intros Hi Hj. destruct (vv_val t u Hi Hj) as (a & z & H & ->). unfold gapped. pose proof golden_bounds.
  cbn in H. repeat destruct H as [H|H]; try (injection H as <- <-); [left|bnd|bnd|bnd|bnd|right; left|destruct H]; unfold val; cbn [fst snd]; field; lra.
Qed.

(** two dot products of faces with the pole differ by more than 0.3 or not at all *)
Definition apart (x y : R) : Prop := x = y \/ 0.3 < Rabs (x - y).
Lemma apart_div b l : 0 < b -> (forall a a', In a l -> In a' l -> a = a' \/ 0.3 * b < val a - val a' \/ 0.3 * b < val a' - val a) ->
  forall a a', In a l -> In a' l -> apart (val a / b) (val a' / b).
Proof.
  intros Hb Hl a a' Ha Ha'. destruct (Hl a a' Ha Ha') as [-> |[H|H]]; [now left| |]; right.
  - rewrite Rabs_pos_eq; replace (val a / b - val a' / b) with ((val a - val a') / b) by (field; lra).
    + apply (Rmult_lt_reg_r b); [exact Hb|]. unfold Rdiv. rewrite Rmult_assoc, Rinv_l, Rmult_1_r by lra. exact H.
    + apply Rle_mult_inv_pos; nra.
  - rewrite Rabs_minus_sym, Rabs_pos_eq; replace (val a' / b - val a / b) with ((val a' - val a) / b) by (field; lra).
    + apply (Rmult_lt_reg_r b); [exact Hb|]. unfold Rdiv. rewrite Rmult_assoc, Rinv_l, Rmult_1_r by lra. exact H.
    + apply Rle_mult_inv_pos; nra.
Qed.
Ltac apt := unfold val; cbn [fst snd]; pose proof golden_bounds; (left; reflexivity) || (right; left; lra) || (right; right; lra).
Lemma ff_apart i j i' j' : (i < 12)%nat -> (j < 12)%nat -> (i' < 12)%nat -> (j' < 12)%nat ->
  apart (dot (phi_f i) (phi_f j)) (dot (phi_f i') (phi_f j')).
Proof.
  intros Hi Hj Hi' Hj'. destruct (ff_val i j Hi Hj) as (a & z & H & ->). destruct (ff_val i' j' Hi' Hj') as (a' & z' & H' & ->).
  apply (apart_div _ (map fst ff_tab)); [apply val21_pos| |apply (in_map fst) in H; exact H|apply (in_map fst) in H'; exact H'].
  intros b b' Hb Hb'. cbn in Hb, Hb'. repeat destruct Hb as [<-|Hb]; try (destruct Hb; fail); repeat destruct Hb' as [<-|Hb']; try (destruct Hb'; fail); apt.
Qed.
Lemma fv_apart i t i' t' : (i < 12)%nat -> In t canon -> (i' < 12)%nat -> In t' canon ->
  apart (dot (phi_f i) (phi_v t)) (dot (phi_f i') (phi_v t')).
Proof.
  intros Hi Hj Hi' Hj'. destruct (fv_val i t Hi Hj) as (a & z & H & ->). destruct (fv_val i' t' Hi' Hj') as (a' & z' & H' & ->).
  pose proof sqrt_2133. apply (apart_div _ (map fst fv_tab)); [lra| |apply (in_map fst) in H; exact H|apply (in_map fst) in H'; exact H'].
  generalize dependent (sqrt (val z2133)). intros q Hq.
  intros b b' Hb Hb'. cbn in Hb, Hb'. repeat destruct Hb as [<-|Hb]; try (destruct Hb; fail); repeat destruct Hb' as [<-|Hb']; try (destruct Hb'; fail); apt.
Qed.

(** ** The result of the constructor *)
Record shape (D : dodecahedron) (m : mat) (ts : list (list nat)) (fs : list nat) : Prop := {
  sh_rigid : rigid m;
  sh_proper : proper m;
  sh_ts : Permutation ts canon;
  sh_fs : Permutation fs (seq 0 12);
  sh_verts : dd_vertices D = map (fun t => mat_vec m (phi_v t)) ts;
  sh_faces : dd_faces D = map (fun i => mat_vec m (phi_f i)) fs;
  sh_sorted : StronglySorted before (dd_faces D);
  sh_pole : if dd_withFacesOnPoles D
            then mat_vec m (phi_f 0) = (0, 0, 1)
                 /\ exists j, In j (nth 0 adjs []) /\ 0 <= vx (mat_vec m (phi_f j)) /\ vy (mat_vec m (phi_f j)) = 0
            else exists t, In t canon /\ mat_vec m (phi_v t) = (0, 0, 1) }.

Lemma init_ok order b : any_order order ->
  exists D m ts fs, Dodecahedron_init order b = Ok D /\ dd_withFacesOnPoles D = b /\ shape D m ts fs.
Proof.
  intros Ho. unfold Dodecahedron_init. rewrite faces_eq.
  destruct (vertices_ok order Ho) as (ts & Hts & ->). cbn [bind].
  assert (Hm : exists m, (if b
      then p <- findClosePair unrot_faces 0 ;; Ok (computeCoordTransform (fst p) (snd p) false)
      else p <- findClosePair (map phi_v ts) 0 ;; Ok (computeCoordTransform (fst p) (snd p) true)) = Ok m
    /\ rigid m /\ proper m
    /\ if b then mat_vec m (phi_f 0) = (0, 0, 1)
              /\ exists j, In j (nth 0 adjs []) /\ 0 <= vx (mat_vec m (phi_f j)) /\ vy (mat_vec m (phi_f j)) = 0
       else exists t, In t canon /\ mat_vec m (phi_v t) = (0, 0, 1)).
  { destruct b.
    - destruct (close_pair unrot_faces (phi_f 0) (map phi_f (seq 1 11)) eq_refl ltac:(discriminate)) as (w & -> & Hw & Hmax).
      cbn [bind fst snd]. eexists. split; [reflexivity|].
      destruct (transform_rigid (phi_f 0) w false) as [R1 R2]. split; [exact R1|]. split; [exact R2|].
      split.
      + rewrite transform_first. apply vec_eq; try reflexivity. unfold norm. rewrite (phi_f_unit 0) by lia. apply sqrt_1.
      + apply in_map_iff in Hw. destruct Hw as (j & <- & Hj). apply in_seq in Hj. exists j. split; [|apply transform_second].
        assert (H1 : dot (phi_f 1) (phi_f 0) <= dot (phi_f j) (phi_f 0)) by (apply Hmax; cbn; now left).
        rewrite (dot_comm (phi_f 1)), (dot_comm (phi_f j)) in H1. pose proof inv_sqrt5.
        destruct (ff_cases 0 1) as [[? _]|[(_ & _ & E1)|(Hn & _)]]; [lia|lia|discriminate| |exfalso; apply Hn; cbn; tauto].
        rewrite E1 in H1. destruct (ff_cases 0 j) as [[? _]|[(Hin & _)|(_ & _ & [E|E])]]; try lia; try exact Hin; lra.
    - assert (L : length ts = 20%nat) by (rewrite (Permutation_length Hts); reflexivity).
      destruct ts as [|t [|t2 ts]]; try discriminate.
      destruct (close_pair (map phi_v (t :: t2 :: ts)) (phi_v t) (map phi_v (t2 :: ts)) eq_refl ltac:(discriminate)) as (w & -> & _ & _).
      cbn [bind fst snd]. eexists. split; [reflexivity|].
      destruct (transform_rigid (phi_v t) w true) as [R1 R2]. split; [exact R1|]. split; [exact R2|].
      assert (Ht : In t canon) by (apply (Permutation_in _ Hts); now left).
      exists t. split; [exact Ht|]. rewrite transform_first. apply vec_eq; try reflexivity. unfold norm. rewrite (phi_v_unit t Ht). apply sqrt_1. }
  destruct Hm as (m & -> & Hrig & Hprop & Hpole). cbn [bind].
  destruct (faces_sorted m Hrig) as (fs & -> & Hfs & Hso). cbn [bind].
  eexists. exists m, ts, fs. split; [reflexivity|]. split; [reflexivity|].
  constructor; try assumption; cbn; [now rewrite map_map|reflexivity].
Qed.

Section Shape.
Variables (D : dodecahedron) (m : mat) (ts : list (list nat)) (fs : list nat).
Hypothesis Sh : shape D m ts fs.
Let pf i := mat_vec m (phi_f i).
Let pv t := mat_vec m (phi_v t).

Lemma fs_lt i : In i fs -> (i < 12)%nat.
Proof. intros H. apply (Permutation_in _ (sh_fs _ _ _ _ Sh)), in_seq in H. lia. Qed.
Lemma fs_in i : (i < 12)%nat -> In i fs.
Proof. intros H. apply (Permutation_in _ (Permutation_sym (sh_fs _ _ _ _ Sh))), in_seq. lia. Qed.
Lemma fs_len : length fs = 12%nat.
Proof. rewrite (Permutation_length (sh_fs _ _ _ _ Sh)). apply seq_length. Qed.
Lemma ts_in t : In t ts <-> In t canon.
Proof. split; apply Permutation_in; [|apply Permutation_sym]; apply (sh_ts _ _ _ _ Sh). Qed.

Lemma dot_pf i j : dot (pf i) (pf j) = dot (phi_f i) (phi_f j).
Proof. apply (sh_rigid _ _ _ _ Sh). Qed.
Lemma dot_pfv i t : dot (pf i) (pv t) = dot (phi_f i) (phi_v t).
Proof. apply (sh_rigid _ _ _ _ Sh). Qed.
Lemma dot_pv t u : dot (pv t) (pv u) = dot (phi_v t) (phi_v u).
Proof. apply (sh_rigid _ _ _ _ Sh). Qed.
Lemma pf_unit i : (i < 12)%nat -> unit_vec (pf i).
Proof. intros H. unfold unit_vec. rewrite dot_pf. now apply phi_f_unit. Qed.
Lemma pv_unit t : In t canon -> unit_vec (pv t).
Proof. intros H. unfold unit_vec. rewrite dot_pv. now apply phi_v_unit. Qed.
Lemma pf_inj i j : (i < 12)%nat -> (j < 12)%nat -> pf i = pf j -> i = j.
Proof.
  intros Hi Hj E. pose proof (pf_unit i Hi) as U. unfold unit_vec in U. rewrite E in U at 2. rewrite dot_pf in U.
  pose proof inv_sqrt5. destruct (ff_cases i j Hi Hj) as [[? _]|[(_ & _ & X)|(_ & _ & [X|X])]]; auto; lra.
Qed.

Lemma face_at i : (0 <= i < 12)%Z -> exists f, nth_error fs (Z.to_nat i) = Some f /\ (f < 12)%nat /\ getFaceCtr D i = Ok (pf f).
Proof.
  intros Hi. destruct (nth_error fs (Z.to_nat i)) as [f|] eqn:E.
  - exists f. split; [reflexivity|]. split; [apply fs_lt; eapply nth_error_In; eauto|].
    unfold getFaceCtr. rewrite (sh_faces _ _ _ _ Sh). apply py_nth_in; [lia|]. now rewrite nth_error_map, E.
  - apply nth_error_None in E. rewrite fs_len in E. lia.
Qed.

Lemma verts_at i f : getFaceCtr D i = Ok (pf f) -> (f < 12)%nat ->
  getVertices D i = Ok (map pv (zverts (filter (mem f) ts))) /\ path_ok f (filter (mem f) ts) = true.
Proof.
  intros E Hf. pose proof (path_of f ts Hf (sh_ts _ _ _ _ Sh)) as P. split; [|exact P].
  unfold getVertices. rewrite E. cbn [bind]. rewrite (sh_verts _ _ _ _ Sh).
  rewrite (findClose_sim pv (rfv f)).
  - cbn [bind fst snd]. rewrite (zclose_face f ts Hf (sh_ts _ _ _ _ Sh)).
    destruct (filter (mem f) ts) as [|v0 rest] eqn:Ef.
    { exfalso. vm_compute in P. discriminate. }
    cbn [map]. rewrite (py_nth_in _ 0 (pv v0)) by (lia || reflexivity). cbn [bind skipn].
    assert (Hin : forall t, In t (v0 :: rest) -> In t canon).
    { intros t Ht. rewrite <- Ef in Ht. apply filter_In in Ht. now apply ts_in. }
    rewrite map_length, (sort_loop_sim pv); [reflexivity| | reflexivity | |].
    + intros t u. apply dot_pv.
    + intros t Ht. apply Hin. now right.
    + apply Hin. now left.
  - intros N. pose proof (Permutation_length (sh_ts _ _ _ _ Sh)) as L. rewrite N in L. discriminate.
  - intros t Ht. apply ts_in in Ht. rewrite dot_comm. fold (pv t). rewrite dot_pfv. now apply fv_round.
Qed.

Lemma mem_In x l : mem x l = true <-> In x l.
Proof.
  unfold mem. rewrite existsb_exists. split; [intros (y & Hy & E); apply Nat.eqb_eq in E; now subst|].
  intros H. exists x. split; [exact H|apply Nat.eqb_refl].
Qed.

(** The vertices of a face and its edges. *)
Lemma path_facts f : (f < 12)%nat -> let p := zverts (filter (mem f) ts) in
  length p = 5%nat /\ NoDup p
  /\ (forall t, In t p <-> In t canon /\ In f t)
  /\ (forall t u, In (t, u) (cyclic_pairs p) -> In t p /\ In u p /\ dot (phi_v t) (phi_v u) = sqrt 5 / 3
        /\ exists f', In f' (nth f adjs []) /\ In f' t /\ In f' u)
  /\ (forall f', In f' (nth f adjs []) -> exists t u, In (t, u) (cyclic_pairs p) /\ In f' t /\ In f' u).
Proof.
  intros Hf p. pose proof (path_of f ts Hf (sh_ts _ _ _ _ Sh)) as P. unfold path_ok in P. fold p in P.
  rewrite !andb_true_iff in P. destruct P as [[[[[P1 P2] P3] P4] P5] P6]. apply Nat.eqb_eq in P1.
  rewrite !forallb_forall in *.
  assert (Hset : forall t, In t p <-> In t canon /\ In f t).
  { intros t. split.
    - intros Ht. apply P3, andb_true_iff in Ht. destruct Ht as [A B]. apply mem_In in A. split; [|exact A].
      apply existsb_exists in B. destruct B as (u & Hu & E). apply leqb_eq in E. now subst.
    - intros [A B]. assert (Hin : In t (filter (mem f) canon)) by (apply filter_In; split; [exact A|now apply mem_In]).
      apply P2 in Hin. apply existsb_exists in Hin. destruct Hin as (u & Hu & E). apply leqb_eq in E. now subst. }
  split; [exact P1|]. split; [|split; [exact Hset|split]].
  - apply (@NoDup_incl_NoDup _ (filter (mem f) canon) p).
    + apply NoDup_filter. unfold canon. repeat constructor; cbn; intuition discriminate.
    + rewrite P1. do 12 (destruct f as [|f]; [vm_compute; lia|]). lia.
    + intros t Ht. apply Hset. apply filter_In in Ht. rewrite mem_In in Ht. exact Ht.
  - intros t u Htu. pose proof (P4 _ Htu) as E. pose proof (P5 _ Htu) as X. cbn [fst snd] in E, X.
    assert (Hp : In t p /\ In u p).
    { unfold cyclic_pairs in Htu. destruct p as [|x r]; [destruct Htu|]. split; [eapply in_combine_l; eauto|].
      apply in_combine_r in Htu. apply in_app_iff in Htu. destruct Htu as [H|[<-|[]]]; [now right|now left]. }
    split; [apply Hp|]. split; [apply Hp|]. split.
    + apply zeqb_eq in E. rewrite dot_vv, E. unfold val. cbn [fst snd]. pose proof golden_bounds. unfold golden.
      pose proof sqrt5_sq. pose proof (sqrt_pos 5). apply (Rmult_eq_reg_r (6 + 9 * ((1 + sqrt 5) / 2))); [|lra].
      unfold Rdiv at 1. rewrite Rmult_assoc, Rinv_l, Rmult_1_r by lra. nra.
    + apply existsb_exists in X. destruct X as (f' & Hf' & X). apply andb_true_iff in X. rewrite !mem_In in X. eauto.
  - intros f' Hf'. apply P6, existsb_exists in Hf'. destruct Hf' as ([t u] & Htu & X).
    apply andb_true_iff in X. rewrite !mem_In in X. exists t, u. auto.
Qed.

(** The pole *)
Definition pole_dot (v : vec) : Prop := gapped (vz v).
Lemma pf_pole i : (i < 12)%nat -> gapped (vz (pf i)).
Proof.
  intros Hi. pose proof (sh_pole _ _ _ _ Sh) as P. destruct (dd_withFacesOnPoles D).
  - destruct P as [P _]. replace (vz (pf i)) with (dot (pf i) (pf 0)); [rewrite dot_pf; apply ff_gapped; lia|].
    unfold pf at 2. rewrite P. unfold dot, vx, vy, vz. cbn. ring.
  - destruct P as (t & Ht & P). replace (vz (pf i)) with (dot (pf i) (pv t)); [rewrite dot_pfv; now apply fv_gapped|].
    unfold pv. rewrite P. unfold dot, vx, vy, vz. cbn. ring.
Qed.
Lemma pv_pole t : In t canon -> gapped (vz (pv t)).
Proof.
  intros Ht. pose proof (sh_pole _ _ _ _ Sh) as P. destruct (dd_withFacesOnPoles D).
  - destruct P as [P _]. replace (vz (pv t)) with (dot (pf 0) (pv t)); [rewrite dot_pfv; apply fv_gapped; [lia|exact Ht]|].
    unfold pf. rewrite P. unfold dot, vx, vy, vz. cbn. ring.
  - destruct P as (u & Hu & P). replace (vz (pv t)) with (dot (pv t) (pv u)); [rewrite dot_pv; now apply vv_gapped|].
    unfold pv at 2. rewrite P. unfold dot, vx, vy, vz. cbn. ring.
Qed.
Lemma pf_apart i j : (i < 12)%nat -> (j < 12)%nat -> apart (vz (pf i)) (vz (pf j)).
Proof.
  intros Hi Hj. pose proof (sh_pole _ _ _ _ Sh) as P. destruct (dd_withFacesOnPoles D).
  - destruct P as [P _]. assert (E : forall i, vz (pf i) = dot (phi_f i) (phi_f 0)).
    { intros k. rewrite <- dot_pf. unfold pf at 3. rewrite P. unfold dot, vx, vy, vz. cbn. ring. }
    rewrite !E. apply ff_apart; lia.
  - destruct P as (t & Ht & P). assert (E : forall i, vz (pf i) = dot (phi_f i) (phi_v t)).
    { intros k. rewrite <- dot_pfv. unfold pv. rewrite P. unfold dot, vx, vy, vz. cbn. ring. }
    rewrite !E. now apply fv_apart.
Qed.
End Shape.

(** ** coordFromVec is exact for these vectors *)
Lemma tiny_small : 0 < tinyFloat < 0.1.
Proof.
  unfold tinyFloat. change 1022%Z with (Z.of_nat 1022). rewrite <- pow_IZR.
  assert (P : 0 < 2 ^ 1022) by (apply pow_lt; lra). split; [now apply Rinv_0_lt_compat|].
  assert (Q : 16 <= 2 ^ 1022).
  { replace 16 with (2 ^ 4) by ring. apply Rle_pow; [lra|lia]. }
  apply Rle_lt_trans with (/ 16); [|lra]. apply Rinv_le_contravar; lra.
Qed.
Lemma coordFromVec_exact v ra : unit_vec v -> gapped (vz v) ->
  exists c, coordFromVec v (Some ra) = Ok c /\ vec_of c = v.
Proof.
  intros U G. unfold coordFromVec. pose proof tiny_small as T.
  pose proof U as U'. unfold unit_vec, dot in U'.
  assert (Hp : vz v * vz v = 1 -> v = (0, 0, vz v)).
  { intros Hz. assert (H0 : vx v * vx v + vy v * vy v = 0) by lra. apply sqr_sum_zero in H0. destruct H0 as [Ex Ey].
    destruct v as [[a b] c]. unfold vx, vy, vz in *. cbn [fst snd] in *. now subst. }
  destruct (Rlt_bool_spec (Rabs (vx v)) tinyFloat) as [Hx|Hx]; [destruct (Rlt_bool_spec (Rabs (vy v)) tinyFloat) as [Hy|Hy]|]; cbn [andb].
  - eexists. split; [reflexivity|]. rewrite vec_of_spherePoint. apply Rabs_lt_inv in Hx, Hy.
    destruct G as [G|[G|G]].
    + rewrite (Hp ltac:(nra)), G. change (vz (0, 0, 1)) with 1. rewrite Rlt_bool_true by lra.
      unfold vec_of. cbn [fst snd]. replace (deg 90) with (PI / 2) by (unfold deg; field).
      rewrite cos_PI2, sin_PI2. apply vec_eq; ring.
    + rewrite (Hp ltac:(nra)), G. change (vz (0, 0, -1)) with (-1). rewrite Rlt_bool_false by lra.
      unfold vec_of. cbn [fst snd]. replace (deg (-90)) with (- (PI / 2)) by (unfold deg; field).
      rewrite cos_neg, sin_neg, cos_PI2, sin_PI2. apply vec_eq; ring.
    + exfalso. nra.
  - unfold coord_of_vec, norm. rewrite U, sqrt_1, Rle_bool_false by lra. eexists. split; [reflexivity|].
    replace (vscale (/ 1) v) with v by (destruct v as [[a b] c]; unfold vscale, vx, vy, vz; cbn [fst snd]; apply vec_eq; field).
    now apply vec_of_coord.
  - unfold coord_of_vec, norm. rewrite U, sqrt_1, Rle_bool_false by lra. eexists. split; [reflexivity|].
    replace (vscale (/ 1) v) with v by (destruct v as [[a b] c]; unfold vscale, vx, vy, vz; cbn [fst snd]; apply vec_eq; field).
    now apply vec_of_coord.
Qed.

(** ** Edges *)
Lemma cross_parallel a b n : dot a n = 0 -> dot b n = 0 -> 0 < dot n n ->
  exists k, cross a b = vscale k n.
Proof.
  intros Ha Hb Hn. exists (dot (cross a b) n / dot n n).
  destruct a as [[a1 a2] a3], b as [[b1 b2] b3], n as [[n1 n2] n3]. unfold dot, cross, vscale, vx, vy, vz in *. cbn [fst snd] in *.
  set (d := n1 * n1 + n2 * n2 + n3 * n3) in *.
  assert (K : forall p q : R, p * d = q -> p = q / d) by (intros p q <-; field; lra).
  set (w1 := a2 * b3 - a3 * b2). set (w2 := a3 * b1 - a1 * b3). set (w3 := a1 * b2 - a2 * b1).
  assert (X1 : w2 * n3 - w3 * n2 = 0).
  { unfold w2, w3. transitivity (b1 * (a1 * n1 + a2 * n2 + a3 * n3) - a1 * (b1 * n1 + b2 * n2 + b3 * n3)); [ring|]. rewrite Ha, Hb. ring. }
  assert (X2 : w3 * n1 - w1 * n3 = 0).
  { unfold w3, w1. transitivity (b2 * (a1 * n1 + a2 * n2 + a3 * n3) - a2 * (b1 * n1 + b2 * n2 + b3 * n3)); [ring|]. rewrite Ha, Hb. ring. }
  assert (X3 : w1 * n2 - w2 * n1 = 0).
  { unfold w1, w2. transitivity (b3 * (a1 * n1 + a2 * n2 + a3 * n3) - a3 * (b1 * n1 + b2 * n2 + b3 * n3)); [ring|]. rewrite Ha, Hb. ring. }
  clearbody w1 w2 w3.
  assert (Y1 : w1 * d = (w1 * n1 + w2 * n2 + w3 * n3) * n1).
  { unfold d. apply Rminus_diag_uniq. transitivity ((w1 * n2 - w2 * n1) * n2 - (w3 * n1 - w1 * n3) * n3); [ring|]. rewrite X2, X3. ring. }
  assert (Y2 : w2 * d = (w1 * n1 + w2 * n2 + w3 * n3) * n2).
  { unfold d. apply Rminus_diag_uniq. transitivity ((w2 * n3 - w3 * n2) * n3 - (w1 * n2 - w2 * n1) * n1); [ring|]. rewrite X1, X3. ring. }
  assert (Y3 : w3 * d = (w1 * n1 + w2 * n2 + w3 * n3) * n3).
  { unfold d. apply Rminus_diag_uniq. transitivity ((w3 * n1 - w1 * n3) * n1 - (w2 * n3 - w3 * n2) * n2); [ring|]. rewrite X1, X2. ring. }
  apply K in Y1, Y2, Y3. clearbody d. apply vec_eq; (eapply eq_trans; [first [exact Y1|exact Y2|exact Y3]|field; lra]).
Qed.

(** vectors of a face seen from the common edge of two faces *)
Lemma edge_sides f f' a b c : unit_vec f -> unit_vec f' -> dot f f' < 1 ->
  dot a f = dot a f' -> dot b f = dot b f' -> (a <> b -> 0 < dot (cross a b) (cross a b)) -> a <> b ->
  exists k, 0 < k /\ dot (cross a b) c * dot (cross a b) f = k * (dot f c - dot f' c).
Proof.
  intros Uf Uf' Hff Ha Hb Hc Hne. set (n := vadd f (vscale (-1) f')).
  assert (Dn : forall v, dot v n = dot v f - dot v f').
  { intros v. unfold n. destruct v as [[? ?] ?], f as [[? ?] ?], f' as [[? ?] ?]. unfold dot, vadd, vscale, vx, vy, vz. cbn. ring. }
  unfold unit_vec in *.
  assert (Nn : dot n n = 2 - 2 * dot f f').
  { rewrite Dn, !(dot_comm n), !Dn, Uf, Uf', (dot_comm f' f). ring. }
  destruct (cross_parallel a b n) as (k & E); [rewrite Dn; lra|rewrite Dn; lra|lra|].
  specialize (Hc Hne). rewrite E in Hc. rewrite dot_vscale_l, dot_vscale_r in Hc.
  exists (k * k * (1 - dot f f')). split.
  - assert (k <> 0) by (intros ->; lra). assert (0 < k * k) by nra. nra.
  - rewrite E, !dot_vscale_l, !(dot_comm n), !Dn, Uf, (dot_comm c f), (dot_comm c f'). ring.
Qed.

(** ** Nearest of all faces = nearest of the neighbours *)
Definition zneg (a : zvec) : zvec :=
  let n := fun x : zg => (- fst x, - snd x)%Z in (n (fst (fst a)), n (snd (fst a)), n (snd a)).
Definition zscale (k : zg) (a : zvec) : zvec := (zmul k (fst (fst a)), zmul k (snd (fst a)), zmul k (snd a)).
Definition relation_ok (f : nat) : bool :=
  forallb (fun n => existsb (fun p => existsb (fun q =>
      zveqb (zvadd (zscale (0, 1)%Z (F n)) (zvadd (F p) (F q))) (zscale (0, 1)%Z (F f))) (nth f adjs [])) (nth f adjs [])) (nth f adjs [])
  && forallb (fun j => Nat.eqb j f || mem j (nth f adjs []) || zveqb (F j) (zneg (F f))
        || existsb (fun n => zveqb (F j) (zneg (F n))) (nth f adjs [])) (seq 0 12).
Lemma relations_ok : forallb relation_ok (seq 0 12) = true.
Proof. vm_compute. reflexivity. Qed.

Lemma vval_neg a : vval (zneg a) = vscale (-1) (vval a).
Proof. unfold vval, zneg, vscale, vx, vy, vz, val. cbn [fst snd]. rewrite !opp_IZR. apply vec_eq; ring. Qed.
Lemma vval_scale k a : vval (zscale k a) = vscale (val k) (vval a).
Proof. unfold vval, zscale, vscale, vx, vy, vz. cbn [fst snd]. now rewrite !val_mul. Qed.

(** [G] is the dot product with some vector, as a function of the face. *)
Lemma nearest_all (G : nat -> R) f : (f < 12)%nat ->
  (exists w, forall i, G i = dot (phi_f i) w) ->
  ((forall n, In n (nth f adjs []) -> G n <= G f) -> forall j, (j < 12)%nat -> G j <= G f)
  /\ ((forall n, In n (nth f adjs []) -> G n < G f) -> forall j, (j < 12)%nat -> j <> f -> G j < G f).
Proof.
  intros Hf (w & HG). pose proof (forall_lt _ 12 relations_ok f Hf) as R. unfold relation_ok in R.
  apply andb_true_iff in R. destruct R as [R1 R2]. rewrite forallb_forall in R1, R2.
  set (q := / sqrt (val z21)).
  assert (HG' : forall i, G i = q * dot (vval (F i)) w) by (intros i; rewrite HG; unfold phi_f; apply dot_vscale_l).
  assert (Rel : forall n, In n (nth f adjs []) -> exists p p', In p (nth f adjs []) /\ In p' (nth f adjs []) /\ golden * G n + (G p + G p') = golden * G f).
  { intros n Hn. apply R1, existsb_exists in Hn. destruct Hn as (p & Hp & Hn). apply existsb_exists in Hn. destruct Hn as (p' & Hp' & E).
    exists p, p'. split; [exact Hp|]. split; [exact Hp'|]. apply zveqb_eq in E. apply (f_equal vval) in E.
    rewrite !vval_add, !vval_scale in E. apply (f_equal (fun v => q * dot v w)) in E.
    rewrite !dot_vadd_l, !dot_vscale_l in E. rewrite !HG'. unfold val in E. cbn [fst snd] in E. lra. }
  assert (Cases : forall j, (j < 12)%nat -> j = f \/ In j (nth f adjs []) \/ G j = - G f \/ exists n, In n (nth f adjs []) /\ G j = - G n).
  { intros j Hj. assert (Hin : In j (seq 0 12)) by (apply in_seq; lia). apply R2 in Hin. rewrite !orb_true_iff in Hin.
    destruct Hin as [[[H|H]|H]|H].
    - left. now apply Nat.eqb_eq.
    - right; left. now apply (mem_In j).
    - right; right; left. apply zveqb_eq in H. rewrite !HG', H, vval_neg, dot_vscale_l. ring.
    - right; right; right. apply existsb_exists in H. destruct H as (n & Hn & E). exists n. split; [exact Hn|].
      apply zveqb_eq in E. rewrite !HG', E, vval_neg, dot_vscale_l. ring. }
  pose proof golden_bounds as B.
  assert (N0 : exists n, In n (nth f adjs [])) by (assert (E0 : nth f adjs [] <> []) by (clear -Hf; do 12 (destruct f as [|f]; [discriminate|]); lia); destruct (nth f adjs []) as [|n l]; [congruence|exists n; now left]).
  destruct N0 as (n0 & Hn0). split; intros H j Hj.
  - assert (Lo : forall n, In n (nth f adjs []) -> golden * G n >= golden * G f - 2 * G f).
    { intros n Hn. destruct (Rel n Hn) as (p & p' & Hp & Hp' & E). pose proof (H p Hp). pose proof (H p' Hp'). lra. }
    assert (P : 0 <= G f) by (pose proof (Lo n0 Hn0); pose proof (H n0 Hn0); nra).
    destruct (Cases j Hj) as [-> |[Hn|[-> |(n & Hn & ->)]]]; [lra|auto|lra|]. pose proof (Lo n Hn). nra.
  - intros Hne. assert (Lo : forall n, In n (nth f adjs []) -> golden * G n > golden * G f - 2 * G f).
    { intros n Hn. destruct (Rel n Hn) as (p & p' & Hp & Hp' & E). pose proof (H p Hp). pose proof (H p' Hp'). lra. }
    assert (P : 0 < G f) by (pose proof (Lo n0 Hn0); pose proof (H n0 Hn0); nra).
    destruct (Cases j Hj) as [-> |[Hn|[-> |(n & Hn & ->)]]]; [congruence|auto|lra|]. pose proof (Lo n Hn). nra.
Qed.
