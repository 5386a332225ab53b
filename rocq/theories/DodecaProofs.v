(** The vertices of the dodecahedron, for any iteration order of the sets. *)
From Coq Require Import Reals Lra Lia Permutation.
From Flocq Require Import Core.Raux.
Require Import Verif.Py Verif.Sphere Verif.SphereProofs Verif.MapsProofs Verif.Dodeca Verif.DodecaSpec Verif.DodecaZ.
Open Scope Z_scope.

Definition shared (i j : nat) : list nat := filter (fun k => mem k (nth j adjs [])) (nth i adjs []).
Definition all_tri : list (list nat) :=
  flat_map (fun i => flat_map (fun j => map (fun k => [i; j; k]) (shared i j)) (nth i adjs [])) (seq 0 12).

(** Sorted triples *)
Fixpoint insert_nat (x : nat) (l : list nat) : list nat :=
  match l with [] => [x] | y :: ys => if Nat.leb x y then x :: l else y :: insert_nat x ys end.
Definition sort3 (t : list nat) : list nat := fold_right insert_nat [] t.
Fixpoint leqb (a b : list nat) : bool :=
  match a, b with [], [] => true | x :: a, y :: b => Nat.eqb x y && leqb a b | _, _ => false end.
Lemma leqb_eq a b : leqb a b = true <-> a = b.
Proof.
  revert b. induction a as [|x a IH]; intros [|y b]; cbn; split; try congruence; try discriminate.
  - rewrite andb_true_iff, Nat.eqb_eq, IH. now intros [-> ->].
  - intros [= -> ->]. rewrite andb_true_iff, Nat.eqb_eq, IH. auto.
Qed.

Definition zveqb (a b : zvec) : bool :=
  zeqb (fst (fst a)) (fst (fst b)) && zeqb (snd (fst a)) (snd (fst b)) && zeqb (snd a) (snd b).
Lemma zveqb_eq a b : zveqb a b = true -> a = b.
Proof.
  destruct a as [[a1 a2] a3], b as [[b1 b2] b3]. unfold zveqb. cbn. rewrite !andb_true_iff.
  intros [[H1 H2] H3]. apply zeqb_eq in H1, H2, H3. now subst.
Qed.

Definition good_tri (t : list nat) : bool :=
  (Nat.eqb (length t) 3) && forallb (fun x => Nat.ltb x 12) t
  && existsb (leqb (sort3 t)) canon && zveqb (Fsum (sort3 t)) (Fsum t) && zeqb (zdot (Fsum t) (Fsum t)) z69.
Lemma all_tri_good : forallb good_tri all_tri = true.
Proof. vm_compute. reflexivity. Qed.
Lemma all_tri_eqb : forallb (fun t => forallb (fun u => Bool.eqb (set_eqb t u) (leqb (sort3 t) (sort3 u))) all_tri) all_tri = true.
Proof. vm_compute. reflexivity. Qed.
Lemma canon_all : forallb (fun t => existsb (leqb t) all_tri && leqb (sort3 t) t) canon = true.
Proof. vm_compute. reflexivity. Qed.
Lemma shared_two : forallb (fun i => forallb (fun j => Nat.eqb (length (shared i j)) 2) (nth i adjs [])) (seq 0 12) = true.
Proof. vm_compute. reflexivity. Qed.

Lemma tri_eqb t u : In t all_tri -> In u all_tri -> set_eqb t u = leqb (sort3 t) (sort3 u).
Proof.
  intros Ht Hu. apply eqb_prop.
  exact (proj1 (forallb_forall _ _) (proj1 (forallb_forall _ _) all_tri_eqb t Ht) u Hu).
Qed.
Lemma tri_good t : In t all_tri -> exists i j k, t = [i; j; k] /\ (i < 12)%nat /\ (j < 12)%nat /\ (k < 12)%nat
  /\ In (sort3 t) canon /\ Fsum (sort3 t) = Fsum t /\ zdot (Fsum t) (Fsum t) = z69.
Proof.
  intros Ht. pose proof (proj1 (forallb_forall _ _) all_tri_good t Ht) as H. unfold good_tri in H.
  rewrite !andb_true_iff in H. destruct H as [[[[H1 H2] H3] H4] H5].
  apply Nat.eqb_eq in H1. destruct t as [|i [|j [|k [|? ?]]]]; try discriminate.
  cbn [forallb] in H2. rewrite !andb_true_iff, !Nat.ltb_lt in H2.
  apply existsb_exists in H3. destruct H3 as (u & Hu & E). apply leqb_eq in E.
  apply zveqb_eq in H4. apply zeqb_eq in H5.
  exists i, j, k. rewrite E in *. intuition auto.
Qed.

Lemma norm_tri i j k : In [i; j; k] all_tri ->
  let v := vadd (vadd (phi_f i) (phi_f j)) (phi_f k) in vscale (/ sqrt (dot v v)) v = phi_v [i; j; k].
Proof.
  intros Ht v. destruct (tri_good _ Ht) as (_ & _ & _ & _ & _ & _ & _ & _ & _ & E).
  set (q := (/ sqrt (val z21))%R).
  assert (Hv : v = vscale q (vval (Fsum [i; j; k]))).
  { unfold v, phi_f. fold q. cbn [Fsum]. rewrite !vval_add. unfold vadd, vscale, vx, vy, vz. cbn [fst snd]. apply vec_eq; ring. }
  assert (Hq : (0 < q)%R) by (apply Rinv_0_lt_compat, sqrt_lt_R0, val21_pos).
  rewrite Hv, dot_vscale_l, dot_vscale_r, <- val_dot, E.
  replace (q * (q * val z69))%R with (q * q * val z69)%R by ring.
  pose proof val69_pos. rewrite sqrt_mult by (nra || lra). rewrite sqrt_square by lra.
  pose proof (sqrt_lt_R0 _ H). unfold phi_v, vscale, vx, vy, vz. cbn [fst snd]. apply vec_eq; field; lra.
Qed.

Definition key_vec (t : list nat) : list nat * vec := (t, phi_v t).

Lemma foldM_app {A B} (f : B -> A -> res B) l1 l2 acc :
  foldM f (l1 ++ l2) acc = (a <- foldM f l1 acc ;; foldM f l2 a).
Proof. revert acc. induction l1 as [|x l IH]; intros acc; cbn; [reflexivity|]. destruct (f acc x); cbn; auto. Qed.

(** one step of the innermost loop *)
Definition vstep (vd : vdict) (t : list nat) : vdict := if has_key vd t then vd else (vd ++ [key_vec t])%list.

Lemma foldM_pure {A B C} (f : B -> A -> res B) (g : B -> C -> B) (e : A -> list C) l acc :
  (forall acc x, In x l -> f acc x = Ok (fold_left g (e x) acc)) ->
  foldM f l acc = Ok (fold_left g (flat_map e l) acc).
Proof.
  revert acc. induction l as [|x l IH]; intros acc H; cbn [foldM flat_map]; [reflexivity|].
  rewrite H by now left. cbn [bind]. rewrite IH by (intros; apply H; now right). now rewrite fold_left_app.
Qed.

Definition visits (order : set_order) : list (list nat) :=
  flat_map (fun ic : nat * list nat => flat_map (fun j => map (fun k => [fst ic; j; k]) (order [fst ic; j] (shared (fst ic) j)))
    (order [fst ic] (snd ic))) (combine (seq 0 12) adjs).

Lemma in_combine_adjs i c : In (i, c) (combine (seq 0 12) adjs) -> (i < 12)%nat /\ c = nth i adjs [].
Proof.
  cbn. intros H. repeat destruct H as [H|H]; try (injection H as <- <-; split; [lia|reflexivity]). destruct H.
Qed.
Lemma adjs_lt i j : (i < 12)%nat -> In j (nth i adjs []) -> (j < 12)%nat.
Proof.
  intros Hi Hj. do 12 (destruct i as [|i]; [cbn in Hj; lia|]). lia.
Qed.

Lemma all_tri_intro i j k : (i < 12)%nat -> In j (nth i adjs []) -> In k (shared i j) -> In [i; j; k] all_tri.
Proof.
  intros Hi Hj Hk. unfold all_tri. apply in_flat_map. exists i. split; [apply in_seq; lia|].
  apply in_flat_map. exists j. split; [exact Hj|]. apply in_map_iff. eauto.
Qed.

Lemma visits_all order t : any_order order -> (In t (visits order) <-> In t all_tri).
Proof.
  intros Ho. unfold visits. rewrite in_flat_map. split.
  - intros ([i c] & Hi & Ht). cbn [fst snd] in Ht. apply in_combine_adjs in Hi. destruct Hi as [Hi ->].
    apply in_flat_map in Ht. destruct Ht as (j & Hj & Ht). apply in_map_iff in Ht. destruct Ht as (k & <- & Hk).
    apply (Permutation_in _ (Ho _ _)) in Hj. apply (Permutation_in _ (Ho _ _)) in Hk. now apply all_tri_intro.
  - unfold all_tri. intros Ht. apply in_flat_map in Ht. destruct Ht as (i & Hi & Ht). apply in_seq in Hi.
    apply in_flat_map in Ht. destruct Ht as (j & Hj & Ht). apply in_map_iff in Ht. destruct Ht as (k & <- & Hk).
    exists (i, nth i adjs []). split.
    + do 12 (destruct i as [|i]; [cbn; tauto|]). lia.
    + cbn [fst snd]. apply in_flat_map. exists j. split; [apply (Permutation_in _ (Permutation_sym (Ho _ _))); exact Hj|].
      apply in_map_iff. exists k. split; [reflexivity|]. apply (Permutation_in _ (Permutation_sym (Ho _ _))); exact Hk.
Qed.

Lemma close_sets : mapM (fun i => s <- findCloseIndexSet unrot_faces i ;;
      if Nat.eqb (length s) 5 then Ok s else Raise RuntimeError) (seq 0 (length unrot_faces)) = Ok adjs.
Proof.
  change (length unrot_faces) with 12%nat.
  rewrite (mapM_Ok _ (fun i => nth i adjs [])); [reflexivity|].
  intros i Hi. apply in_seq in Hi. rewrite close_set_faces by lia. cbn [bind].
  do 12 (destruct i as [|i]; [reflexivity|]). lia.
Qed.

Lemma nth_face i : (i < 12)%nat -> py_nth unrot_faces (Z.of_nat i) = Ok (phi_f i).
Proof. intros H. unfold unrot_faces. rewrite py_nth_map, (py_nth_seq 12) by exact H. reflexivity. Qed.
Lemma nth_adjs i : (i < 12)%nat -> py_nth adjs (Z.of_nat i) = Ok (nth i adjs []).
Proof. intros H. apply py_nth_in; [lia|]. rewrite Nat2Z.id. apply nth_error_nth'. exact H. Qed.

Lemma vertices_fold order : any_order order ->
  computeDodecahedronVertices order unrot_faces = Ok (map snd (fold_left vstep (visits order) [])).
Proof.
  intros Ho. unfold computeDodecahedronVertices. rewrite close_sets. cbn [bind].
  change (length adjs) with 12%nat.
  rewrite (foldM_pure _ vstep (fun ic : nat * list nat => flat_map (fun j => map (fun k => [fst ic; j; k]) (order [fst ic; j] (shared (fst ic) j)))
    (order [fst ic] (snd ic)))); [reflexivity|].
  intros vd [i c] Hi. apply in_combine_adjs in Hi. destruct Hi as [Hi ->]. cbn [fst snd].
  apply foldM_pure. intros vd1 j Hj. apply (Permutation_in _ (Ho _ _)) in Hj.
  pose proof (adjs_lt i j Hi Hj) as Hj12.
  rewrite nth_adjs by exact Hj12. cbn [bind]. fold (shared i j).
  pose proof (proj1 (forallb_forall _ _) (forall_lt _ 12 shared_two i Hi) j Hj) as H2. cbn beta in H2.
  rewrite H2.
  transitivity (Ok (fold_left vstep (flat_map (fun k => [[i; j; k]]) (order [i; j] (shared i j))) vd1)).
  2:{ assert (K : forall l, flat_map (fun k => [[i; j; k]]) l = map (fun k => [i; j; k]) l)
        by (induction l as [|k ks IHk]; cbn; [reflexivity|now rewrite IHk]). now rewrite K. }
  apply foldM_pure. intros vd2 k Hk. apply (Permutation_in _ (Ho _ _)) in Hk.
  pose proof (all_tri_intro i j k Hi Hj Hk) as Ht.
  destruct (tri_good _ Ht) as (i' & j' & k' & Et & _ & _ & Hk12 & _). injection Et as <- <- <-.
  cbn [fold_left]. unfold vstep at 1. destruct (has_key vd2 [i; j; k]); [reflexivity|].
  rewrite !nth_face by assumption. cbn [bind]. unfold key_vec. now rewrite (norm_tri i j k Ht).
Qed.

(** The result of inserting a list of triples. *)
Lemma vstep_spec ts : (forall t, In t ts -> In t all_tri) -> forall keys,
  (forall t, In t keys -> In t all_tri) -> NoDup (map sort3 keys) ->
  exists keys', fold_left vstep ts (map key_vec keys) = map key_vec keys'
    /\ NoDup (map sort3 keys') /\ (forall t, In t keys' -> In t all_tri)
    /\ (forall t, In t ts \/ In t keys -> In (sort3 t) (map sort3 keys')).
Proof.
  induction ts as [|t ts IH]; intros Hts keys Hk Hn.
  { exists keys. split; [reflexivity|]. split; [exact Hn|]. split; [exact Hk|]. intros t [[]|H]. now apply in_map. }
  cbn [fold_left]. assert (Ht : In t all_tri) by (apply Hts; now left).
  assert (K : has_key (map key_vec keys) t = true <-> In (sort3 t) (map sort3 keys)).
  { unfold has_key. rewrite existsb_exists. split.
    - intros (kv & Hin & E). apply in_map_iff in Hin. destruct Hin as (u & <- & Hu). cbn in E.
      rewrite (tri_eqb t u Ht (Hk u Hu)) in E. apply leqb_eq in E. rewrite E. now apply in_map.
    - intros Hin. apply in_map_iff in Hin. destruct Hin as (u & E & Hu). exists (key_vec u). split; [now apply in_map|].
      cbn. rewrite (tri_eqb t u Ht (Hk u Hu)). now apply leqb_eq. }
  unfold vstep at 2. destruct (has_key (map key_vec keys) t).
  - destruct (IH (fun u Hu => Hts u (or_intror Hu)) keys Hk Hn) as (keys' & E & H1 & H2 & H3).
    exists keys'. split; [exact E|]. split; [exact H1|]. split; [exact H2|]. intros u [[<-|Hu]|Hu]; auto.
    assert (Hin := proj1 K eq_refl). apply in_map_iff in Hin. destruct Hin as (u & Eu & Hu). rewrite <- Eu. auto.
  - replace (map key_vec keys ++ [key_vec t])%list with (map key_vec (keys ++ [t])) by (now rewrite map_app).
    destruct (IH (fun u Hu => Hts u (or_intror Hu)) (keys ++ [t])%list) as (keys' & E & H1 & H2 & H3).
    + intros u Hu. apply in_app_iff in Hu. destruct Hu as [Hu|[<-|[]]]; auto.
    + rewrite map_app. cbn [map]. apply NoDup_rev in Hn. rewrite <- (rev_involutive (map sort3 keys ++ [sort3 t])).
      apply NoDup_rev. rewrite rev_app_distr. cbn. constructor; [|exact Hn]. rewrite <- in_rev. intros Hin. apply K in Hin. discriminate.
    + exists keys'. split; [exact E|]. split; [exact H1|]. split; [exact H2|]. intros u [[<-|Hu]|Hu]; apply H3.
      * right. apply in_app_iff. right. now left.
      * now left.
      * right. apply in_app_iff. now left.
Qed.

Lemma vertices_ok order : any_order order ->
  exists ts, Permutation ts canon /\ computeDodecahedronVertices order unrot_faces = Ok (map phi_v ts).
Proof.
  intros Ho. rewrite (vertices_fold order Ho).
  destruct (vstep_spec (visits order) (fun t Ht => proj1 (visits_all order t Ho) Ht) [] (fun t H => match H with end) (NoDup_nil _))
    as (keys & E & H1 & H2 & H3).
  cbn [map] in E. rewrite E. exists (map sort3 keys). split.
  - apply NoDup_Permutation; [exact H1| |].
    + assert (K : NoDup canon <-> true = true); [|now apply K].
      split; [reflexivity|intros _]. unfold canon. repeat constructor; cbn; intuition discriminate.
    + intros t. split.
      * intros Ht. apply in_map_iff in Ht. destruct Ht as (u & <- & Hu). destruct (tri_good u (H2 u Hu)) as (_ & _ & _ & _ & _ & _ & _ & Hc & _).
        exact Hc.
      * intros Ht. pose proof (proj1 (forallb_forall _ _) canon_all t Ht) as H. cbn beta in H.
        apply andb_true_iff in H. destruct H as [H Hs]. apply leqb_eq in Hs. rewrite <- Hs.
        apply existsb_exists in H. destruct H as (u & Hu & Eu). apply leqb_eq in Eu. subst u.
        apply H3. left. now apply visits_all.
  - f_equal. rewrite !map_map. apply map_ext_in. intros t Ht. cbn [key_vec snd].
    destruct (tri_good t (H2 t Ht)) as (_ & _ & _ & _ & _ & _ & _ & _ & Es & _). unfold phi_v. now rewrite Es.
Qed.
