(** The dodecahedron with exact integer arithmetic: components a + b*g with g the
    golden ratio. *)
From Coq Require Import Reals Lra Lia Permutation.
From Flocq Require Import Core.Raux Core.Generic_fmt Core.Round_NE.
Require Import Verif.Py Verif.Sphere Verif.SphereProofs Verif.MapsProofs Verif.Dodeca.
Open Scope Z_scope.

Definition zg : Type := Z * Z.
Definition zadd (a b : zg) : zg := (fst a + fst b, snd a + snd b).
Definition zmul (a b : zg) : zg := (fst a * fst b + snd a * snd b, fst a * snd b + snd a * fst b + snd a * snd b).
Definition zeqb (a b : zg) : bool := (fst a =? fst b) && (snd a =? snd b).
Definition zvec : Type := zg * zg * zg.
Definition zvadd (a b : zvec) : zvec :=
  (zadd (fst (fst a)) (fst (fst b)), zadd (snd (fst a)) (snd (fst b)), zadd (snd a) (snd b)).
Definition zdot (a b : zvec) : zg :=
  zadd (zadd (zmul (fst (fst a)) (fst (fst b))) (zmul (snd (fst a)) (snd (fst b)))) (zmul (snd a) (snd b)).

Definition F (i : nat) : zvec :=
  nth i [((0,0), (1,0), (0,1)); ((0,0), (-1,0), (0,1)); ((0,0), (1,0), (0,-1)); ((0,0), (-1,0), (0,-1));
         ((1,0), (0,1), (0,0)); ((-1,0), (0,1), (0,0)); ((1,0), (0,-1), (0,0)); ((-1,0), (0,-1), (0,0));
         ((0,1), (0,0), (1,0)); ((0,-1), (0,0), (1,0)); ((0,1), (0,0), (-1,0)); ((0,-1), (0,0), (-1,0))]
        ((0,0),(0,0),(0,0)).
Definition Fsum (t : list nat) : zvec :=
  match t with
  | [i; j; k] => zvadd (zvadd (F i) (F j)) (F k)
  | _ => ((0,0),(0,0),(0,0))
  end.

Definition lookup (tab : list (zg * Z)) (a : zg) : Z :=
  match find (fun e => zeqb a (fst e)) tab with Some e => snd e | None => -1000 end.
(** hundredths of the rounded dot products of two faces, a face and a vertex, two vertices *)
Definition ff_tab : list (zg * Z) := [((2,1),100); ((0,1),45); ((0,-1),-45); ((-2,-1),-100)].
Definition fv_tab : list (zg * Z) := [((2,3),79); ((0,1),19); ((0,-1),-19); ((-2,-3),-79)].
Definition vv_tab : list (zg * Z) := [((6,9),100); ((4,7),75); ((2,3),33); ((-2,-3),-33); ((-4,-7),-75); ((-6,-9),-100)].
Definition rff (i j : nat) : Z := lookup ff_tab (zdot (F i) (F j)).
Definition rfv (i : nat) (t : list nat) : Z := lookup fv_tab (zdot (F i) (Fsum t)).
Definition rvv (t u : list nat) : Z := lookup vv_tab (zdot (Fsum t) (Fsum u)).

(** ** The same algorithms with integers *)
Fixpoint zmax (l : list Z) (x : Z) : Z := match l with [] => x | y :: l => zmax l (Z.max x y) end.
Definition zwhere (l : list Z) (m : Z) : list nat :=
  map fst (filter (fun ix => snd ix =? m) (combine (seq 0 (length l)) l)).
Definition zbest (l : list Z) : list nat := match l with [] => [] | x :: r => zwhere l (zmax r x) end.
Definition adj (i : nat) : list nat := zbest (map (fun j => if Nat.eqb j i then -9 * 10 ^ 101 else rff j i) (seq 0 12)).
Definition adjs : list (list nat) := Eval vm_compute in map adj (seq 0 12).

(** The twenty triples of mutually adjacent faces. *)
Definition tri3 : list (list nat) :=
  flat_map (fun i => flat_map (fun j => map (fun k => [i; j; k]) (filter (fun k => (Nat.ltb j k)) (filter (fun k => mem k (nth j adjs [])) (nth i adjs []))))
    (filter (fun j => Nat.ltb i j) (nth i adjs []))) (seq 0 12).
Definition canon : list (list nat) := Eval vm_compute in tri3.

(** ** Values *)
Definition val (a : zg) : R := (IZR (fst a) + IZR (snd a) * golden)%R.
Notation z21 := (2%Z, 1%Z).
Notation z69 := (6%Z, 9%Z).
Notation z2133 := (21%Z, 33%Z).
Definition vval (a : zvec) : vec := (val (fst (fst a)), val (snd (fst a)), val (snd a)).

Lemma sqrt5_sq : (sqrt 5 * sqrt 5 = 5)%R.
Proof. apply sqrt_sqrt. lra. Qed.
Lemma golden_sq : (golden * golden = golden + 1)%R.
Proof. unfold golden. pose proof sqrt5_sq. nra. Qed.
Lemma golden_bounds : (1.61803 < golden < 1.61804)%R.
Proof.
  unfold golden. pose proof sqrt5_sq as H. pose proof (sqrt_pos 5) as H0. split.
  - assert (2.23606 < sqrt 5)%R; [|lra]. apply Rnot_le_lt. intros L. nra.
  - assert (sqrt 5 < 2.23608)%R; [|lra]. apply Rnot_le_lt. intros L. nra.
Qed.

Lemma val_add a b : val (zadd a b) = (val a + val b)%R.
Proof. unfold val, zadd. cbn [fst snd]. rewrite !plus_IZR. ring. Qed.
Lemma val_mul a b : val (zmul a b) = (val a * val b)%R.
Proof.
  unfold val, zmul. cbn [fst snd]. rewrite !plus_IZR, !mult_IZR. pose proof golden_sq as H.
  replace ((IZR (fst a) + IZR (snd a) * golden) * (IZR (fst b) + IZR (snd b) * golden))%R
    with (IZR (fst a) * IZR (fst b) + (IZR (fst a) * IZR (snd b) + IZR (snd a) * IZR (fst b)) * golden
          + IZR (snd a) * IZR (snd b) * (golden * golden))%R by ring.
  rewrite H. ring.
Qed.
Lemma val_dot a b : val (zdot a b) = dot (vval a) (vval b).
Proof. unfold zdot, dot, vval, vx, vy, vz. cbn [fst snd]. now rewrite !val_add, !val_mul. Qed.
Lemma vval_add a b : vval (zvadd a b) = vadd (vval a) (vval b).
Proof. unfold zvadd, vadd, vval, vx, vy, vz. cbn [fst snd]. now rewrite !val_add. Qed.
Lemma zeqb_eq a b : zeqb a b = true -> a = b.
Proof. destruct a, b. unfold zeqb. cbn. rewrite andb_true_iff, !Z.eqb_eq. now intros [-> ->]. Qed.

Definition phi_f (i : nat) : vec := vscale (/ sqrt (val z21)) (vval (F i)).
Definition phi_v (t : list nat) : vec := vscale (/ sqrt (val z69)) (vval (Fsum t)).

Lemma dot_vscale_r k a b : dot a (vscale k b) = (k * dot a b)%R.
Proof. unfold dot, vscale, vx, vy, vz; cbn; ring. Qed.

Lemma val21_pos : (0 < val z21)%R.
Proof. unfold val. cbn. pose proof golden_bounds. lra. Qed.
Lemma val69_pos : (0 < val z69)%R.
Proof. unfold val. cbn. pose proof golden_bounds. lra. Qed.

Lemma dot_ff i j : dot (phi_f i) (phi_f j) = (val (zdot (F i) (F j)) / val z21)%R.
Proof.
  unfold phi_f. rewrite dot_vscale_l, dot_vscale_r, <- val_dot.
  pose proof val21_pos as H. pose proof (sqrt_lt_R0 _ H) as Hs. pose proof (sqrt_sqrt _ (Rlt_le _ _ H)) as E.
  rewrite <- E at 3. field. lra.
Qed.
Lemma dot_vv t u : dot (phi_v t) (phi_v u) = (val (zdot (Fsum t) (Fsum u)) / val z69)%R.
Proof.
  unfold phi_v. rewrite dot_vscale_l, dot_vscale_r, <- val_dot.
  pose proof val69_pos as H. pose proof (sqrt_lt_R0 _ H) as Hs. pose proof (sqrt_sqrt _ (Rlt_le _ _ H)) as E.
  rewrite <- E at 3. field. lra.
Qed.
Lemma dot_fv i t : dot (phi_f i) (phi_v t) = (val (zdot (F i) (Fsum t)) / sqrt (val z2133))%R.
Proof.
  unfold phi_f, phi_v. rewrite dot_vscale_l, dot_vscale_r, <- val_dot.
  replace (21, 33) with (zmul (2, 1) (6, 9)) by reflexivity. rewrite val_mul.
  pose proof val21_pos as H1. pose proof (sqrt_lt_R0 _ H1). pose proof val69_pos as H2. pose proof (sqrt_lt_R0 _ H2).
  rewrite sqrt_mult by lra. field. lra.
Qed.

Definition h (z : Z) : R := (IZR z / 100)%R.
Lemma round2 x z : (IZR z - 1 / 2 < 100 * x < IZR z + 1 / 2)%R -> np_round x 2 = h z.
Proof.
  intros H. unfold np_round, h. replace (10 ^ 2)%R with 100%R by ring.
  rewrite (Znearest_imp _ (x * 100) z); [reflexivity|]. apply Rabs_def1; lra.
Qed.

Lemma div_bounds a b lo hi : (0 < b -> lo * b < a -> a < hi * b -> lo < a / b < hi)%R.
Proof.
  intros Hb H1 H2. split; apply (Rmult_lt_reg_r b); try assumption;
  unfold Rdiv; rewrite Rmult_assoc, Rinv_l, Rmult_1_r by lra; assumption.
Qed.
Lemma round_div a b z : (0 < b -> (IZR z - 1 / 2) * b < 100 * a -> 100 * a < (IZR z + 1 / 2) * b -> np_round (a / b) 2 = h z)%R.
Proof.
  intros Hb H1 H2. apply round2. pose proof (div_bounds (100 * a) b (IZR z - 1 / 2) (IZR z + 1 / 2) Hb H1 H2).
  unfold Rdiv in *. lra.
Qed.

Lemma in_lookup tab a : (-1000 <? lookup tab a) = true -> In (a, lookup tab a) tab.
Proof.
  unfold lookup. destruct (find _ tab) as [[b z]|] eqn:E; [|discriminate]. cbn [snd]. intros _.
  apply find_some in E. destruct E as [Hin Hz]. cbn in Hz. apply zeqb_eq in Hz. now subst.
Qed.

Ltac rnd := unfold val; cbn [fst snd]; pose proof golden_bounds; apply round_div; lra.
Lemma round_ff a : (-1000 <? lookup ff_tab a) = true -> np_round (val a / val z21) 2 = h (lookup ff_tab a).
Proof.
  intros H. apply in_lookup in H. generalize dependent (lookup ff_tab a). intros z H.
  cbn in H. repeat destruct H as [H|H]; try (injection H as <- <-; rnd). destruct H.
Qed.
Lemma round_vv a : (-1000 <? lookup vv_tab a) = true -> np_round (val a / val z69) 2 = h (lookup vv_tab a).
Proof.
  intros H. apply in_lookup in H. generalize dependent (lookup vv_tab a). intros z H.
  cbn in H. repeat destruct H as [H|H]; try (injection H as <- <-; rnd). destruct H.
Qed.
Lemma sqrt_2133 : (8.6252 < sqrt (val z2133) < 8.6253)%R.
Proof.
  assert (B : (74.39499 < val z2133 < 74.39532)%R) by (unfold val; cbn; pose proof golden_bounds; lra).
  assert (0 <= val z2133)%R by lra. pose proof (sqrt_sqrt _ H) as E. pose proof (sqrt_pos (val z2133)).
  split; apply Rnot_le_lt; intros L; nra.
Qed.
Lemma round_fv a : (-1000 <? lookup fv_tab a) = true -> np_round (val a / sqrt (val z2133)) 2 = h (lookup fv_tab a).
Proof.
  intros H. apply in_lookup in H. pose proof sqrt_2133. generalize dependent (sqrt (val z2133)). intros q Hq.
  generalize dependent (lookup fv_tab a). intros z H.
  cbn in H. repeat destruct H as [H|H]; try (injection H as <- <-; rnd). destruct H.
Qed.

Lemma forall_lt (P : nat -> bool) n : forallb P (seq 0 n) = true -> forall i, (i < n)%nat -> P i = true.
Proof. rewrite forallb_forall. intros H i Hi. apply H, in_seq. lia. Qed.

Lemma ff_known i j : (i < 12)%nat -> (j < 12)%nat -> (-1000 <? rff i j) = true.
Proof.
  intros Hi Hj. apply (forall_lt (fun j => -1000 <? rff i j) 12); [|exact Hj].
  apply (forall_lt (fun i => forallb (fun j => -1000 <? rff i j) (seq 0 12)) 12); [vm_compute; reflexivity|exact Hi].
Qed.
Lemma fv_known i t : (i < 12)%nat -> In t canon -> (-1000 <? rfv i t) = true.
Proof.
  intros Hi Ht. apply (proj1 (forallb_forall (fun t => -1000 <? rfv i t) canon)); [|exact Ht].
  apply (forall_lt (fun i => forallb (fun t => -1000 <? rfv i t) canon) 12); [vm_compute; reflexivity|exact Hi].
Qed.
Lemma vv_known t u : In t canon -> In u canon -> (-1000 <? rvv t u) = true.
Proof.
  intros Ht Hu. apply (proj1 (forallb_forall (fun u => -1000 <? rvv t u) canon)); [|exact Hu].
  apply (proj1 (forallb_forall (fun t => forallb (fun u => -1000 <? rvv t u) canon) canon)); [vm_compute; reflexivity|exact Ht].
Qed.

Lemma ff_round i j : (i < 12)%nat -> (j < 12)%nat -> np_round (dot (phi_f i) (phi_f j)) 2 = h (rff i j).
Proof. intros Hi Hj. rewrite dot_ff. apply round_ff, ff_known; assumption. Qed.
Lemma fv_round i t : (i < 12)%nat -> In t canon -> np_round (dot (phi_f i) (phi_v t)) 2 = h (rfv i t).
Proof. intros Hi Ht. rewrite dot_fv. apply round_fv, fv_known; assumption. Qed.
Lemma vv_round t u : In t canon -> In u canon -> np_round (dot (phi_v t) (phi_v u)) 2 = h (rvv t u).
Proof. intros Ht Hu. rewrite dot_vv. apply round_vv, vv_known; assumption. Qed.

(** ** The real algorithms compute what the integer algorithms do *)
Lemma h_le a b : (h a <= h b)%R <-> a <= b.
Proof.
  unfold h. split; intros H.
  - apply le_IZR. lra.
  - apply IZR_le in H. lra.
Qed.
Lemma h_max a b : Rmax (h a) (h b) = h (Z.max a b).
Proof.
  destruct (Z_le_gt_dec a b) as [H|H].
  - rewrite Z.max_r, Rmax_right; [reflexivity| |lia]. now apply h_le.
  - rewrite Z.max_l, Rmax_left; [reflexivity| |lia]. apply h_le. lia.
Qed.
Lemma h_eqb a b : Req_bool (h a) (h b) = (a =? b).
Proof.
  destruct (Z.eqb_spec a b) as [->|H]; [now apply Req_bool_true|]. apply Req_bool_false. intros E.
  apply H. apply Z.le_antisymm; apply h_le; lra.
Qed.
Lemma zmax_sim l x : fold_left Rmax (map h l) (h x) = h (zmax l x).
Proof. revert x. induction l as [|y l IH]; intros x; cbn; [reflexivity|]. rewrite h_max. apply IH. Qed.
Lemma where_sim l m : where_eq (map h l) (h m) = zwhere l m.
Proof.
  unfold where_eq, zwhere. rewrite map_length. generalize 0%nat. induction l as [|x l IH]; intros k; cbn; [reflexivity|].
  rewrite h_eqb. destruct (x =? m); cbn; now rewrite IH.
Qed.
Lemma best_sim l : l <> [] -> exists m, np_max (map h l) = Ok m /\ where_eq (map h l) m = zbest l.
Proof.
  destruct l as [|x l]; [congruence|]. intros _. exists (h (zmax l x)). split.
  - cbn. now rewrite zmax_sim.
  - now rewrite where_sim.
Qed.

Definition unrot_faces : list vec := map phi_f (seq 0 12).

Lemma py_nth_map {A B} (f : A -> B) l i : py_nth (map f l) i = (x <- py_nth l i ;; Ok (f x)).
Proof.
  unfold py_nth. rewrite map_length. destruct (_ && _); [|reflexivity].
  rewrite nth_error_map. now destruct (nth_error l _).
Qed.
Lemma py_nth_seq n i : (i < n)%nat -> py_nth (seq 0 n) (Z.of_nat i) = Ok i.
Proof.
  intros H. apply py_nth_in; [lia|]. rewrite Nat2Z.id.
  rewrite (nth_error_nth' _ 0%nat) by (now rewrite seq_length). now rewrite seq_nth.
Qed.

Lemma list_set_map {A B} (f : A -> B) l i v : SkyMap.list_set (map f l) i (f v) = map f (SkyMap.list_set l i v).
Proof. revert i. induction l as [|x l IH]; intros [|i]; cbn; try reflexivity. now rewrite IH. Qed.

Lemma close_set_faces i : (i < 12)%nat -> findCloseIndexSet unrot_faces i = Ok (nth i adjs []).
Proof.
  intros Hi. unfold findCloseIndexSet, unrot_faces. rewrite py_nth_map, (py_nth_seq 12) by exact Hi. cbn [bind].
  rewrite map_map.
  rewrite (map_ext_in _ (fun j => h (rff j i))).
  2:{ intros j Hj. apply in_seq in Hj. apply ff_round; lia. }
  replace (- (9 * 10 ^ 99))%R with (h (-9 * 10 ^ 101)).
  2:{ unfold h. rewrite mult_IZR. change 101 with (Z.of_nat 101). rewrite <- pow_IZR.
      change (101)%nat with (2 + 99)%nat. rewrite pow_add. generalize (10 ^ 99)%R. intros q.
      replace (IZR (-9)) with (-9)%R by reflexivity. replace (10 ^ 2)%R with 100%R by ring. field. }
  rewrite <- (map_map (fun j => rff j i) h), list_set_map.
  set (l := SkyMap.list_set _ i _).
  destruct (best_sim l) as (m & -> & E).
  { unfold l. do 12 (destruct i as [|i]; [discriminate|]). lia. }
  cbn [bind]. rewrite E. f_equal. unfold l. clear l E.
  do 12 (destruct i as [|i]; [vm_compute; reflexivity|]). lia.
Qed.

Lemma faces_eq : computeFullVecList [(0, 1, golden); (1, golden, 0); (golden, 0, 1)]%R = unrot_faces.
Proof.
  pose proof golden_bounds as G. pose proof golden_sq as Q.
  assert (S0 : sign_choices 0 = [0%R]) by (unfold sign_choices; now rewrite Req_bool_true).
  assert (S1 : sign_choices 1 = [1; -1]%R) by (unfold sign_choices; rewrite Req_bool_false by lra; do 2 f_equal; lra).
  assert (SG : sign_choices golden = [golden; - golden]%R) by (unfold sign_choices; rewrite Req_bool_false by lra; reflexivity).
  unfold computeFullVecList, vx, vy, vz. cbn [flat_map fst snd]. rewrite S0, S1, SG. cbn [flat_map map app].
  assert (E : val z21 = (2 + golden)%R) by (unfold val; cbn; ring).
  replace (0 * 0 + 1 * 1 + golden * golden)%R with (2 + golden)%R by lra.
  replace (1 * 1 + golden * golden + 0 * 0)%R with (2 + golden)%R by lra.
  replace (golden * golden + 0 * 0 + 1 * 1)%R with (2 + golden)%R by lra.
  rewrite <- E. unfold unrot_faces, phi_f. set (q := sqrt (val z21)). cbn [seq map F nth].
  unfold vval, vscale, vx, vy, vz, val. cbn [fst snd]. unfold Rdiv.
  repeat (apply f_equal2; [apply vec_eq; ring|]). reflexivity.
Qed.
