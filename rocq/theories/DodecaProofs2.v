(** Rotation matrices, the order of the faces, and the vertices of a face. *)
From Coq Require Import Reals Lra Lia Permutation Sorted.
From Flocq Require Import Core.Raux Core.Generic_fmt Core.Round_NE.
Require Import Verif.Py Verif.Sphere Verif.SphereProofs Verif.MapsProofs Verif.Dodeca Verif.DodecaSpec Verif.DodecaZ Verif.DodecaProofs.
Open Scope R_scope.

(** ** Rotations *)
Definition rigid (m : mat) : Prop := forall a b, dot (mat_vec m a) (mat_vec m b) = dot a b.
Definition proper (m : mat) : Prop := forall a b, cross (mat_vec m a) (mat_vec m b) = mat_vec m (cross a b).

Lemma mat_mul_vec a b v : mat_vec (mat_mul a b) v = mat_vec a (mat_vec b v).
Proof.
  destruct a as [[[[a1 a2] a3] [[a4 a5] a6]] [[a7 a8] a9]], b as [[[[b1 b2] b3] [[b4 b5] b6]] [[b7 b8] b9]], v as [[v1 v2] v3].
  unfold mat_vec, mat_mul, col, row0, row1, row2, dot, vx, vy, vz. cbn [fst snd]. apply vec_eq; ring.
Qed.
Lemma rigid_mul a b : rigid a -> rigid b -> rigid (mat_mul a b).
Proof. intros Ha Hb u v. now rewrite !mat_mul_vec, Ha, Hb. Qed.
Lemma proper_mul a b : proper a -> proper b -> proper (mat_mul a b).
Proof. intros Ha Hb u v. now rewrite !mat_mul_vec, Ha, Hb. Qed.

Lemma rotx_vec t v : mat_vec (computeRotationMatrix t 0) v = (vx v, cos t * vy v - sin t * vz v, sin t * vy v + cos t * vz v).
Proof. destruct v as [[v1 v2] v3]. unfold mat_vec, dot, vx, vy, vz. cbn. apply vec_eq; ring. Qed.
Lemma roty_vec t v : mat_vec (computeRotationMatrix t 1) v = (cos t * vx v + sin t * vz v, vy v, - sin t * vx v + cos t * vz v).
Proof. destruct v as [[v1 v2] v3]. unfold mat_vec, dot, vx, vy, vz. cbn. apply vec_eq; ring. Qed.
Lemma rotz_vec t v : mat_vec (computeRotationMatrix t 2) v = (cos t * vx v - sin t * vy v, sin t * vx v + cos t * vy v, vz v).
Proof. destruct v as [[v1 v2] v3]. unfold mat_vec, dot, vx, vy, vz. cbn. apply vec_eq; ring. Qed.

Lemma rot_rigid t axis : (axis < 3)%nat -> rigid (computeRotationMatrix t axis) /\ proper (computeRotationMatrix t axis).
Proof.
  intros Ha. pose proof (cs t) as E.
  assert (S : sin t * sin t = 1 - cos t * cos t) by lra.
  split; intros [[a1 a2] a3] [[b1 b2] b3];
  (destruct axis as [|[|[|]]]; [rewrite ?rotx_vec|rewrite ?roty_vec|rewrite ?rotz_vec|lia]);
  unfold dot, cross, vx, vy, vz; cbn [fst snd]; try (apply vec_eq); ring_simplify; try ring;
  replace (sin t ^ 2) with (1 - cos t * cos t) by (rewrite <- S; ring); ring.
Qed.

Lemma transform_rigid v0 v1 neg : rigid (computeCoordTransform v0 v1 neg) /\ proper (computeCoordTransform v0 v1 neg).
Proof.
  unfold computeCoordTransform. split.
  - repeat apply rigid_mul; apply rot_rigid; lia.
  - repeat apply proper_mul; apply rot_rigid; lia.
Qed.

(** Turning (x, y) by minus its angle. *)
Lemma turn_back x y : let a := atan2 y x in
  cos a * x + sin a * y = sqrt (x * x + y * y) /\ cos a * y - sin a * x = 0.
Proof.
  cbn zeta. pose proof (Rle_0_sqr x) as Hx. pose proof (Rle_0_sqr y) as Hy. unfold Rsqr in *.
  destruct (Rle_lt_or_eq_dec 0 (x * x + y * y)) as [H|H]; [lra| |].
  - set (r := sqrt (x * x + y * y)). assert (Hr : 0 < r) by now apply sqrt_lt_R0.
    assert (E : x * x + y * y = r * r) by (unfold r; rewrite sqrt_sqrt; lra).
    destruct (atan2_polar y x r E Hr) as [E1 E2]. split.
    + apply (Rmult_eq_reg_l r); [|lra].
      replace (r * (cos (atan2 y x) * x + sin (atan2 y x) * y)) with ((r * cos (atan2 y x)) * x + (r * sin (atan2 y x)) * y) by ring.
      rewrite E1, E2. lra.
    + apply (Rmult_eq_reg_l r); [|lra].
      replace (r * (cos (atan2 y x) * y - sin (atan2 y x) * x)) with ((r * cos (atan2 y x)) * y - (r * sin (atan2 y x)) * x) by ring.
      rewrite E1, E2. ring.
  - symmetry in H. rewrite H. apply sqr_sum_zero in H. destruct H as [-> ->]. rewrite sqrt_0. lra.
Qed.

Lemma transform_first v0 v1 neg : mat_vec (computeCoordTransform v0 v1 neg) v0 = (0, 0, norm v0).
Proof.
  unfold computeCoordTransform. rewrite !mat_mul_vec.
  assert (E1 : mat_vec (computeRotationMatrix (atan2 (vy v0) (vz v0)) 0) v0 = (vx v0, 0, sqrt (vz v0 * vz v0 + vy v0 * vy v0))).
  { rewrite rotx_vec. destruct (turn_back (vz v0) (vy v0)) as [T1 T2]. apply vec_eq; lra. }
  rewrite E1. set (r := sqrt (vz v0 * vz v0 + vy v0 * vy v0)).
  change (vx (vx v0, 0, r)) with (vx v0). change (vz (vx v0, 0, r)) with r.
  assert (E2 : mat_vec (computeRotationMatrix (- atan2 (vx v0) r) 1) (vx v0, 0, r) = (0, 0, norm v0)).
  { rewrite roty_vec. change (vx (vx v0, 0, r)) with (vx v0). change (vz (vx v0, 0, r)) with r. change (vy (vx v0, 0, r)) with 0.
    rewrite cos_neg, sin_neg. destruct (turn_back r (vx v0)) as [U1 U2].
    assert (Er : r * r = vz v0 * vz v0 + vy v0 * vy v0) by (unfold r; apply sqrt_sqrt; nra).
    replace (norm v0) with (sqrt (r * r + vx v0 * vx v0)) by (unfold norm, dot; f_equal; lra).
    apply vec_eq; lra. }
  rewrite E2, rotz_vec. unfold vx, vy, vz. cbn [fst snd]. apply vec_eq; ring.
Qed.

Lemma vxE a b c : vx (a, b, c) = a. Proof. reflexivity. Qed.
Lemma vyE a b c : vy (a, b, c) = b. Proof. reflexivity. Qed.
Lemma vzE a b c : vz (a, b, c) = c. Proof. reflexivity. Qed.

Lemma transform_second v0 v1 :
  let w := mat_vec (computeCoordTransform v0 v1 false) v1 in 0 <= vx w /\ vy w = 0.
Proof.
  cbn zeta. unfold computeCoordTransform. rewrite mat_mul_vec, rotz_vec. set (u := mat_vec (mat_mul _ _) v1).
  rewrite vxE, vyE, cos_neg, sin_neg.
  destruct (turn_back (vx u) (vy u)) as [T1 T2]. pose proof (sqrt_pos (vx u * vx u + vy u * vy u)).
  split; lra.
Qed.

Lemma transform_second_neg v0 v1 :
  let u := mat_vec (mat_mul (computeRotationMatrix (- atan2 (vx (mat_vec (computeRotationMatrix (atan2 (vy v0) (vz v0)) 0) v0))
                                                      (vz (mat_vec (computeRotationMatrix (atan2 (vy v0) (vz v0)) 0) v0))) 1)
                             (computeRotationMatrix (atan2 (vy v0) (vz v0)) 0)) v1 in
  let w := mat_vec (computeCoordTransform v0 v1 true) v1 in
  let r := sqrt (vx u * vx u + vy u * vy u) in
  r * vx w = vy u * vy u - vx u * vx u /\ r * vy w = - 2 * vx u * vy u /\ vz w = vz u.
Proof.
  intros u w r.
  assert (Hw : w = mat_vec (computeRotationMatrix (- atan2 (vy u) (- vx u)) 2) u).
  { unfold w, computeCoordTransform. cbv zeta. rewrite mat_mul_vec. reflexivity. }
  rewrite Hw, rotz_vec, vxE, vyE, vzE, cos_neg, sin_neg. clear Hw. clearbody u. clear w.
  assert (K : r * cos (atan2 (vy u) (- vx u)) = - vx u /\ r * sin (atan2 (vy u) (- vx u)) = vy u).
  { destruct (Rle_lt_or_eq_dec 0 (vx u * vx u + vy u * vy u)) as [H|H]; [nra| |].
    - apply atan2_polar; [|now apply sqrt_lt_R0]. unfold r. rewrite sqrt_sqrt; nra.
    - unfold r. rewrite <- H, sqrt_0. symmetry in H. apply sqr_sum_zero in H. destruct H as [-> ->]. lra. }
  destruct K as [K1 K2]. set (a := atan2 (vy u) (- vx u)) in *. split; [|split].
  - replace (r * (cos a * vx u - - sin a * vy u)) with (r * cos a * vx u + r * sin a * vy u) by ring. rewrite K1, K2. ring.
  - replace (r * (- sin a * vx u + cos a * vy u)) with (r * cos a * vy u - r * sin a * vx u) by ring. rewrite K1, K2. ring.
  - reflexivity.
Qed.

(** ** The sort of the faces *)
Lemma np_round_err x n : Rabs (x - np_round x n) <= / 2 / 10 ^ n.
Proof.
  unfold np_round. assert (P : 0 < 10 ^ n) by (apply pow_lt; lra).
  pose proof (Znearest_half (fun x => negb (Z.even x)) (x * 10 ^ n)) as H.
  replace (x - IZR (ZnearestE (x * 10 ^ n)) / 10 ^ n) with ((x * 10 ^ n - IZR (ZnearestE (x * 10 ^ n))) / 10 ^ n) by (field; lra).
  unfold Rdiv at 1. rewrite Rabs_mult, (Rabs_pos_eq (/ 10 ^ n)) by (left; now apply Rinv_0_lt_compat).
  apply Rmult_le_compat_r; [left; now apply Rinv_0_lt_compat|exact H].
Qed.

Lemma cos_small d : Rabs d <= 1 / 50 -> 0.999 <= cos d.
Proof.
  intros H. rewrite <- cos_Rabs. set (e := Rabs d) in *. assert (0 <= e) by apply Rabs_pos.
  replace e with (2 * (e / 2)) by field. rewrite cos_2a_sin.
  assert (0 <= sin (e / 2) <= e / 2).
  { pose proof PI_RGT_0. pose proof PI2_3_2. split; [apply sin_ge_0; lra|].
    destruct (Req_dec e 0) as [->|]; [replace (0 / 2) with 0 by field; rewrite sin_0; lra|]. left. apply sin_lt_x. lra. }
  nra.
Qed.

Lemma polar_xy x y : let r := sqrt (x * x + y * y) in x = r * cos (atan2 y x) /\ y = r * sin (atan2 y x).
Proof.
  cbn zeta. destruct (Rle_lt_or_eq_dec 0 (x * x + y * y)) as [H|H]; [nra| |].
  - destruct (atan2_polar y x (sqrt (x * x + y * y))); [rewrite sqrt_sqrt; lra|now apply sqrt_lt_R0|]. lra.
  - rewrite <- H, sqrt_0. symmetry in H. apply sqr_sum_zero in H. lra.
Qed.

Lemma keys_differ a b : unit_vec a -> unit_vec b -> dot a b <= 1 / 2 -> vecToSort a <> vecToSort b.
Proof.
  intros Ha Hb Hd E. unfold vecToSort in E. injection E as E1 E2.
  assert (Z : Rabs (vz a - vz b) <= / 10).
  { pose proof (np_round_err (vz a) 1) as H1. pose proof (np_round_err (vz b) 1) as H2.
    assert (E : np_round (vz a) 1 = np_round (vz b) 1) by lra. rewrite E in H1.
    apply Rabs_le_inv in H1, H2. replace (10 ^ 1) with 10 in * by ring. apply Rabs_le. lra. }
  set (p := atan2 (vy a) (vx a)) in *. set (q := atan2 (vy b) (vx b)) in *.
  assert (C : 0.999 <= cos (p - q)).
  { pose proof (np_round_err p 2) as H1. pose proof (np_round_err q 2) as H2.
    apply Rabs_le_inv in H1, H2. replace (10 ^ 2) with 100 in * by ring.
    destruct (Rlt_bool (np_round p 2) 0), (Rlt_bool (np_round q 2) 0).
    - apply cos_small, Rabs_le. lra.
    - rewrite <- (cos_period (p - q) 1). cbn [INR]. apply cos_small, Rabs_le. lra.
    - replace (p - q) with (- (q - p)) by ring. rewrite cos_neg. rewrite <- (cos_period (q - p) 1). cbn [INR]. apply cos_small, Rabs_le. lra.
    - apply cos_small, Rabs_le. lra. }
  destruct (polar_xy (vx a) (vy a)) as [A1 A2]. destruct (polar_xy (vx b) (vy b)) as [B1 B2]. fold p in A1, A2. fold q in B1, B2.
  set (r := sqrt (vx a * vx a + vy a * vy a)) in *. set (s := sqrt (vx b * vx b + vy b * vy b)) in *.
  assert (Hr : r * r = vx a * vx a + vy a * vy a) by (unfold r; apply sqrt_sqrt; nra).
  assert (Hs : s * s = vx b * vx b + vy b * vy b) by (unfold s; apply sqrt_sqrt; nra).
  assert (r0 : 0 <= r) by apply sqrt_pos. assert (s0 : 0 <= s) by apply sqrt_pos.
  assert (D : dot a b = r * s * cos (p - q) + vz a * vz b).
  { unfold dot. rewrite A1, A2, B1, B2, cos_minus. ring. }
  unfold unit_vec, dot in Ha, Hb. rewrite D in Hd. apply Rabs_le_inv in Z.
  assert (Za : -1 <= vz a <= 1) by nra. assert (Zb : -1 <= vz b <= 1) by nra.
  assert (R1 : r <= 1) by nra. assert (S1 : s <= 1) by nra.
  assert (rs0 : 0 <= r * s) by nra. assert (rs1 : r * s <= 1) by nra.
  assert (X : r * s - 0.001 <= r * s * cos (p - q)).
  { pose proof (Rmult_le_compat_l (r * s) _ _ rs0 C). lra. }
  assert (Y : (r - s) * (r - s) <= 0.2).
  { assert (Y1 : (r - s) * (r + s) = (vz b - vz a) * (vz a + vz b)) by nra.
    assert (Y2 : -0.2 <= (vz b - vz a) * (vz a + vz b) <= 0.2) by (split; nra).
    destruct (Rle_dec s r); nra. }
  assert ((vz a - vz b) * (vz a - vz b) <= 0.01) by nra.
  nra.
Qed.

Lemma key_lt_ok a b : a <> b -> exists lt, key_lt a b = Ok lt.
Proof.
  intros H. unfold key_lt. destruct a as [a1 a2], b as [b1 b2]. cbn [fst snd].
  destruct (Req_bool_spec a1 b1) as [->|]; [|eauto]. destruct (Req_bool_spec a2 b2) as [->|]; [congruence|eauto].
Qed.
Definition before (a b : vec) : Prop := key_lt (vecToSort a) (vecToSort b) = Ok true.
Lemma before_trans a b c : before a b -> before b c -> before a c.
Proof.
  unfold before, key_lt. destruct (vecToSort a) as [a1 a2], (vecToSort b) as [b1 b2], (vecToSort c) as [c1 c2]. cbn [fst snd].
  destruct (Req_bool_spec a1 b1) as [->|Hab].
  - destruct (Req_bool_spec a2 b2) as [|_]; [discriminate|]. intros H1. injection H1 as H1.
    destruct (Req_bool_spec b1 c1) as [->|_]; [|auto].
    destruct (Req_bool_spec b2 c2) as [|_]; [discriminate|]. intros H2. injection H2 as H2.
    destruct (Rlt_bool_spec a2 b2); [|discriminate]. destruct (Rlt_bool_spec b2 c2); [|discriminate].
    rewrite Req_bool_false by lra. now rewrite Rlt_bool_true by lra.
  - intros H1. injection H1 as H1. destruct (Rlt_bool_spec a1 b1); [|discriminate].
    destruct (Req_bool_spec b1 c1) as [->|_].
    + intros _. rewrite Req_bool_false by lra. now rewrite Rlt_bool_true by lra.
    + intros H2. injection H2 as H2. destruct (Rlt_bool_spec b1 c1); [|discriminate].
      rewrite Req_bool_false by lra. now rewrite Rlt_bool_true by lra.
Qed.
Lemma key_lt_false a b : key_lt (vecToSort a) (vecToSort b) = Ok false -> before b a.
Proof.
  unfold before, key_lt. destruct (vecToSort a) as [a1 a2], (vecToSort b) as [b1 b2]. cbn [fst snd].
  destruct (Req_bool_spec a1 b1) as [->|Hab].
  - destruct (Req_bool_spec a2 b2) as [|Hn]; [discriminate|]. intros H1. injection H1 as H1.
    rewrite (Req_bool_true b1 b1) by reflexivity. destruct (Rlt_bool_spec a2 b2); [discriminate|].
    rewrite Req_bool_false by lra. now rewrite Rlt_bool_true by lra.
  - intros H1. injection H1 as H1. destruct (Rlt_bool_spec a1 b1); [discriminate|].
    rewrite Req_bool_false by lra. now rewrite Rlt_bool_true by lra.
Qed.

Section Sort.
Context {A : Type} (psi : A -> vec).
Lemma insert_ok x l : (forall y, In y l -> vecToSort (psi x) <> vecToSort (psi y)) ->
  StronglySorted before (map psi l) ->
  exists l', insert_vec (psi x) (map psi l) = Ok (map psi l') /\ Permutation l' (x :: l) /\ StronglySorted before (map psi l').
Proof.
  induction l as [|y l IH]; intros Hd Hs.
  - exists [x]. cbn. split; [reflexivity|]. split; [reflexivity|]. repeat constructor.
  - cbn [map insert_vec]. destruct (key_lt_ok _ _ (Hd y (or_introl eq_refl))) as (lt & E). rewrite E. cbn [bind].
    cbn [map] in Hs. inversion Hs as [|? ? Hs' Hf]; subst. destruct lt.
    + exists (x :: y :: l). split; [reflexivity|]. split; [reflexivity|]. cbn [map]. constructor; [exact Hs|].
      constructor; [exact E|]. rewrite Forall_forall in *. intros z Hz. eapply before_trans; [exact E|]. now apply Hf.
    + destruct (IH (fun z Hz => Hd z (or_intror Hz)) Hs') as (l' & El & Hp & Hss). rewrite El. cbn [bind].
      exists (y :: l'). split; [reflexivity|]. split; [rewrite Hp; apply perm_swap|]. cbn [map]. constructor; [exact Hss|].
      rewrite Forall_forall in *. intros z Hz. apply in_map_iff in Hz. destruct Hz as (w & <- & Hw).
      apply (Permutation_in _ Hp) in Hw. destruct Hw as [<-|Hw]; [now apply key_lt_false|]. apply Hf. now apply in_map.
Qed.
Lemma sort_ok l : NoDup l -> (forall x y, In x l -> In y l -> x <> y -> vecToSort (psi x) <> vecToSort (psi y)) ->
  exists l', sortedVectorList (map psi l) = Ok (map psi l') /\ Permutation l' l /\ StronglySorted before (map psi l').
Proof.
  induction l as [|x l IH]; intros Hn Hd.
  - exists []. cbn. split; [reflexivity|]. split; [reflexivity|constructor].
  - inversion Hn; subst. destruct (IH H2) as (l' & E & Hp & Hs); [intros; apply Hd; auto; now right|].
    cbn [map sortedVectorList]. rewrite E. cbn [bind].
    destruct (insert_ok x l') as (l2 & E2 & Hp2 & Hs2); [|exact Hs|].
    + intros y Hy. apply (Permutation_in _ Hp) in Hy. apply Hd; [now left|now right|congruence].
    + exists l2. split; [exact E2|]. split; [now rewrite Hp2, Hp|exact Hs2].
Qed.
End Sort.

Lemma phi_f_unit i : (i < 12)%nat -> unit_vec (phi_f i).
Proof.
  intros Hi. unfold unit_vec. rewrite dot_ff.
  assert (E : zeqb (zdot (F i) (F i)) z21 = true).
  { apply (forall_lt (fun i => zeqb (zdot (F i) (F i)) z21) 12); [vm_compute; reflexivity|exact Hi]. }
  apply zeqb_eq in E. rewrite E. pose proof val21_pos. field. lra.
Qed.
Lemma phi_v_unit t : In t canon -> unit_vec (phi_v t).
Proof.
  intros Ht. unfold unit_vec. rewrite dot_vv.
  assert (E : zeqb (zdot (Fsum t) (Fsum t)) z69 = true).
  { apply (proj1 (forallb_forall (fun t => zeqb (zdot (Fsum t) (Fsum t)) z69) canon)); [vm_compute; reflexivity|exact Ht]. }
  apply zeqb_eq in E. rewrite E. pose proof val69_pos. field. lra.
Qed.

(** The possible dot products *)
Lemma ff_cases i j : (i < 12)%nat -> (j < 12)%nat ->
  i = j /\ dot (phi_f i) (phi_f j) = 1
  \/ In j (nth i adjs []) /\ i <> j /\ dot (phi_f i) (phi_f j) = / sqrt 5
  \/ ~ In j (nth i adjs []) /\ i <> j /\ (dot (phi_f i) (phi_f j) = - / sqrt 5 \/ dot (phi_f i) (phi_f j) = -1).
Proof.
  intros Hi Hj. rewrite dot_ff.
  set (c := fun i j => let z := zdot (F i) (F j) in
    (Nat.eqb i j && zeqb z z21) || (mem j (nth i adjs []) && negb (Nat.eqb i j) && zeqb z (0, 1)%Z)
    || (negb (mem j (nth i adjs [])) && negb (Nat.eqb i j) && (zeqb z (0, -1)%Z || zeqb z (-2, -1)%Z))).
  assert (E : c i j = true).
  { apply (forall_lt (c i) 12); [|exact Hj].
    apply (forall_lt (fun i => forallb (c i) (seq 0 12)) 12); [vm_compute; reflexivity|exact Hi]. }
  assert (M : mem j (nth i adjs []) = true <-> In j (nth i adjs [])).
  { unfold mem. rewrite existsb_exists. split; [intros (x & Hx & Ex); apply Nat.eqb_eq in Ex; now subst|].
    intros H. exists j. split; [exact H|apply Nat.eqb_refl]. }
  pose proof golden_bounds as G. pose proof sqrt5_sq as S5. pose proof (sqrt_lt_R0 5 ltac:(lra)) as P5.
  assert (R5 : golden / (2 + golden) = / sqrt 5).
  { apply (Rmult_eq_reg_l (sqrt 5 * (2 + golden))); [|nra]. unfold golden. field_simplify; [|lra|lra]. nra. }
  unfold c in E. cbn zeta in E. rewrite !orb_true_iff, !andb_true_iff, !orb_true_iff, !negb_true_iff, Nat.eqb_eq, Nat.eqb_neq in E.
  assert (V1 : val z21 = 2 + golden) by (unfold val; cbn; ring).
  destruct E as [[[E1 E2]|[[E1 E2] E3]]|[[E1 E2] [E3|E3]]].
  - left. apply zeqb_eq in E2. rewrite E2. split; [exact E1|]. pose proof val21_pos. field. lra.
  - right; left. apply zeqb_eq in E3. rewrite E3. split; [now apply M|]. split; [exact E2|]. rewrite V1, <- R5. unfold val. cbn. field. lra.
  - right; right. apply zeqb_eq in E3. rewrite E3. split; [intros H; apply M in H; congruence|]. split; [exact E2|]. left.
    rewrite V1, <- R5. unfold val. cbn. field. lra.
  - right; right. apply zeqb_eq in E3. rewrite E3. split; [intros H; apply M in H; congruence|]. split; [exact E2|]. right.
    rewrite V1. unfold val. cbn. field. lra.
Qed.

Lemma inv_sqrt5 : 0.4472 < / sqrt 5 < 0.4473.
Proof.
  pose proof sqrt5_sq as S5. pose proof (sqrt_lt_R0 5 ltac:(lra)) as P5.
  assert (E : / sqrt 5 = sqrt 5 / 5) by (field_simplify_eq; lra). rewrite E.
  assert (2.236 < sqrt 5) by (apply Rnot_le_lt; intros L; nra).
  assert (sqrt 5 < 2.2361) by (apply Rnot_le_lt; intros L; nra). lra.
Qed.

Lemma faces_sorted m : rigid m -> exists fs,
  sortedVectorList (map (mat_vec m) unrot_faces) = Ok (map (fun i => mat_vec m (phi_f i)) fs)
  /\ Permutation fs (seq 0 12) /\ StronglySorted before (map (fun i => mat_vec m (phi_f i)) fs).
Proof.
  intros Hm. unfold unrot_faces. rewrite map_map. apply (sort_ok (fun i => mat_vec m (phi_f i))); [apply seq_NoDup|].
  intros x y Hx Hy Hne. apply in_seq in Hx, Hy. apply keys_differ.
  - unfold unit_vec. rewrite Hm. apply phi_f_unit. lia.
  - unfold unit_vec. rewrite Hm. apply phi_f_unit. lia.
  - rewrite Hm. pose proof inv_sqrt5. destruct (ff_cases x y) as [[? _]|[(_ & _ & ->)|(_ & _ & [-> | ->])]]; try lia; try congruence; lra.
Qed.

(** ** The vertices of a face *)
Definition zclose (rd : list nat -> Z) (l : list (list nat)) : list (list nat) :=
  map (fun i => nth i l []) (zbest (map rd l)).
Fixpoint zloop (n : nat) (l : list (list nat)) (last : list nat) : list (list nat) :=
  match n with
  | O => []
  | S n => match zbest (map (fun t => rvv t last) l) with
           | [] => []
           | i :: _ => let x := nth i l [] in x :: zloop n (list_pop l i) x
           end
  end.
Definition zverts (l : list (list nat)) : list (list nat) :=
  match l with [] => [] | v0 :: rest => v0 :: zloop (length rest) rest v0 end.

Lemma zwhere_lt l m i : In i (zwhere l m) -> (i < length l)%nat.
Proof.
  unfold zwhere. rewrite in_map_iff. intros ([j x] & <- & H). apply filter_In in H. destruct H as [H _].
  apply in_combine_l in H. apply in_seq in H. cbn. lia.
Qed.
Lemma zbest_lt l i : In i (zbest l) -> (i < length l)%nat.
Proof. destruct l as [|x l]; [intros []|]. apply zwhere_lt. Qed.
Lemma zmax_in l x : zmax l x = x \/ In (zmax l x) l.
Proof.
  revert x. induction l as [|y l IH]; intros x; cbn; [now left|].
  destruct (IH (Z.max x y)) as [H|H]; [|auto].
  destruct (Z.max_spec x y) as [[_ E]|[_ E]]; rewrite E in H; [right; left|left]; congruence.
Qed.
Lemma zmax_ge l x : (x <= zmax l x)%Z /\ forall y, In y l -> (y <= zmax l x)%Z.
Proof.
  revert x. induction l as [|z l IH]; intros x; cbn; [split; [lia|intros y []]|].
  destruct (IH (Z.max x z)) as [H1 H2]. split; [lia|]. intros y [<-|Hy]; [lia|auto].
Qed.
Lemma zwhere_filter {A} (rd : A -> Z) l m d :
  map (fun i => nth i l d) (zwhere (map rd l) m) = filter (fun a => (rd a =? m)%Z) l.
Proof.
  unfold zwhere. rewrite map_length.
  assert (K : forall pre l, map (fun i => nth i (pre ++ l) d) (map fst (filter (fun ix => (snd ix =? m)%Z)
     (combine (seq (length pre) (length l)) (map rd l)))) = filter (fun a => (rd a =? m)%Z) l).
  { intros pre l0. revert pre. induction l0 as [|x l0 IH]; intros pre; cbn [length seq combine map filter]; [reflexivity|].
    specialize (IH (pre ++ [x])%list). rewrite app_length in IH. cbn [length] in IH. rewrite Nat.add_1_r in IH.
    rewrite <- app_assoc in IH. cbn [app] in IH. cbn [snd]. destruct (rd x =? m)%Z; cbn [map fst].
    - rewrite IH. f_equal. now rewrite app_nth2, Nat.sub_diag by lia.
    - exact IH. }
  exact (K [] l).
Qed.
Lemma zclose_filter rd l m : (forall a, In a l -> (rd a <= m)%Z) -> (exists a, In a l /\ rd a = m) ->
  zclose rd l = filter (fun a => (rd a =? m)%Z) l.
Proof.
  intros H1 (a & Ha & E). unfold zclose, zbest. destruct l as [|x r]; [destruct Ha|].
  cbn [map]. replace (zmax (map rd r) (rd x)) with m.
  - exact (zwhere_filter rd (x :: r) m []).
  - destruct (zmax_ge (map rd r) (rd x)) as [G1 G2]. apply Z.le_antisymm.
    + destruct Ha as [<-|Ha]; [lia|]. rewrite <- E. apply G2, in_map, Ha.
    + destruct (zmax_in (map rd r) (rd x)) as [-> | H]; [apply H1; now left|].
      apply in_map_iff in H. destruct H as (b & <- & Hb). apply H1. now right.
Qed.
Lemma zbest_nonempty l : l <> [] -> zbest l <> [].
Proof.
  destruct l as [|x r]; [congruence|]. intros _ E. unfold zbest in E.
  pose proof (zwhere_filter (fun z : Z => z) (x :: r) (zmax r x) 0%Z) as H. rewrite map_id, E in H. cbn [map] in H.
  assert (In (zmax r x) (x :: r)) as Hin by (destruct (zmax_in r x) as [-> | Hi]; [now left|now right]).
  assert (Hf : In (zmax r x) (filter (fun a => (a =? zmax r x)%Z) (x :: r))) by (apply filter_In; split; [exact Hin|apply Z.eqb_refl]).
  rewrite <- H in Hf. destruct Hf.
Qed.

Lemma findClose_sim (phi : list nat -> vec) (rd : list nat -> Z) l v : l <> [] ->
  (forall a, In a l -> np_round (dot (phi a) v) 2 = h (rd a)) ->
  findCloseList (map phi l) v = Ok (map phi (zclose rd l), zbest (map rd l)).
Proof.
  intros Hl H. unfold findCloseList. rewrite map_map.
  rewrite (map_ext_in _ (fun a => h (rd a))) by exact H. rewrite <- (map_map rd h).
  destruct (best_sim (map rd l)) as (m & -> & Em); [destruct l; [congruence|discriminate]|]. cbn [bind]. rewrite Em.
  rewrite (mapM_Ok _ (fun i => phi (nth i l []))).
  - cbn [bind]. unfold zclose. now rewrite map_map.
  - intros i Hi. apply zbest_lt in Hi. rewrite map_length in Hi. rewrite py_nth_map.
    assert (E : py_nth l (Z.of_nat i) = Ok (nth i l [])).
    { apply py_nth_in; [lia|]. rewrite Nat2Z.id. now apply nth_error_nth'. }
    now rewrite E.
Qed.

Lemma list_pop_map {A B} (f : A -> B) l i : list_pop (map f l) i = map f (list_pop l i).
Proof. unfold list_pop. now rewrite map_app, firstn_map, skipn_map. Qed.
Lemma list_pop_in {A} (l : list A) i x : In x (list_pop l i) -> In x l.
Proof.
  unfold list_pop. rewrite in_app_iff. intros [H|H].
  - rewrite <- (firstn_skipn i l). apply in_app_iff. now left.
  - rewrite <- (firstn_skipn (S i) l). apply in_app_iff. now right.
Qed.
Lemma list_pop_length {A} (l : list A) i : (i < length l)%nat -> length (list_pop l i) = (length l - 1)%nat.
Proof. intros H. unfold list_pop. rewrite app_length, firstn_length, skipn_length. lia. Qed.

Lemma sort_loop_sim (phi : list nat -> vec) : (forall t u, dot (phi t) (phi u) = dot (phi_v t) (phi_v u)) ->
  forall n l last, length l = n -> (forall t, In t l -> In t canon) -> In last canon ->
  sort_loop n (map phi l) (phi last) = Ok (map phi (zloop n l last)).
Proof.
  intros Hphi. induction n as [|n IH]; intros l last Hn Hl Hlast; [reflexivity|]. cbn [sort_loop zloop].
  assert (Hne : l <> []) by (destruct l; [discriminate|congruence]).
  rewrite (findClose_sim phi (fun t => rvv t last)); [|exact Hne|].
  2:{ intros a Ha. rewrite Hphi. apply vv_round; auto. }
  cbn [bind fst snd]. unfold zclose.
  destruct (zbest (map (fun t => rvv t last) l)) as [|i rest] eqn:E.
  { exfalso. eapply zbest_nonempty; [|exact E]. destruct l; [congruence|discriminate]. }
  assert (Hi : (i < length l)%nat).
  { rewrite <- (map_length (fun t => rvv t last)). apply zbest_lt. rewrite E. now left. }
  cbn [map]. rewrite (py_nth_in _ 0 (phi (nth i l []))) by (lia || reflexivity).
  rewrite (py_nth_in _ 0 i) by (lia || reflexivity). cbn [bind].
  rewrite list_pop_map, IH.
  - reflexivity.
  - rewrite list_pop_length by exact Hi. lia.
  - intros t Ht. apply Hl. eapply list_pop_in; eauto.
  - apply Hl, nth_In, Hi.
Qed.

Lemma fv_max f t : (f < 12)%nat -> In t canon -> (rfv f t <= 79)%Z /\ (rfv f t =? 79)%Z = mem f t.
Proof.
  intros Hf Ht.
  set (c := fun f t => ((rfv f t <=? 79)%Z && Bool.eqb (rfv f t =? 79)%Z (mem f t))%bool).
  assert (E : c f t = true).
  { apply (proj1 (forallb_forall (c f) canon)); [|exact Ht].
    apply (forall_lt (fun f => forallb (c f) canon) 12); [vm_compute; reflexivity|exact Hf]. }
  unfold c in E. apply andb_true_iff in E. destruct E as [E1 E2]. split; [now apply Z.leb_le|now apply eqb_prop].
Qed.

Lemma zclose_face f ts : (f < 12)%nat -> Permutation ts canon ->
  zclose (rfv f) ts = filter (mem f) ts.
Proof.
  intros Hf Hp. assert (Hc : forall t, In t ts -> In t canon) by (intros t; apply Permutation_in, Hp).
  rewrite (zclose_filter (rfv f) ts 79).
  - apply filter_ext_in. intros t Ht. apply fv_max; auto.
  - intros t Ht. apply fv_max; auto.
  - assert (E : existsb (fun t => (rfv f t =? 79)%Z) canon = true).
    { apply (forall_lt (fun f => existsb (fun t => (rfv f t =? 79)%Z) canon) 12); [vm_compute; reflexivity|exact Hf]. }
    apply existsb_exists in E. destruct E as (t & Ht & E). exists t. split; [|now apply Z.eqb_eq].
    apply (Permutation_in _ (Permutation_sym Hp)), Ht.
Qed.

(** All orders of a list *)
Fixpoint insert_all {A} (x : A) (l : list A) : list (list A) :=
  match l with [] => [[x]] | y :: ys => (x :: l) :: map (cons y) (insert_all x ys) end.
Fixpoint perms {A} (l : list A) : list (list A) :=
  match l with [] => [[]] | x :: l => flat_map (insert_all x) (perms l) end.
Lemma insert_all_in {A} (x : A) l1 l2 : In (l1 ++ x :: l2)%list (insert_all x (l1 ++ l2)%list).
Proof.
  induction l1 as [|y l1 IH]; cbn.
  - destruct l2; now left.
  - right. now apply in_map.
Qed.
Lemma perms_complete {A} (l l' : list A) : Permutation l' l -> In l' (perms l).
Proof.
  revert l'. induction l as [|x l IH]; intros l' Hp.
  - apply Permutation_sym, Permutation_nil in Hp. subst. now left.
  - cbn. apply Permutation_sym in Hp. destruct (Permutation_vs_cons_inv (Permutation_sym Hp)) as (l1 & l2 & ->).
    apply in_flat_map. exists (l1 ++ l2)%list. split; [|apply insert_all_in].
    apply IH. apply Permutation_sym in Hp. apply Permutation_cons_app_inv in Hp || (apply Permutation_sym, Permutation_cons_app_inv in Hp). now apply Permutation_sym.
Qed.

(** The closed path along the vertices of a face. *)
Definition path_ok (f : nat) (l : list (list nat)) : bool :=
  let p := zverts l in
  Nat.eqb (length p) 5
  && forallb (fun t => existsb (leqb t) p) (filter (mem f) canon)
  && forallb (fun t => mem f t && existsb (leqb t) canon) p
  && forallb (fun tu => zeqb (zdot (Fsum (fst tu)) (Fsum (snd tu))) (4, 7)%Z) (cyclic_pairs p)
  && forallb (fun tu => existsb (fun f' => mem f' (fst tu) && mem f' (snd tu)) (nth f adjs [])) (cyclic_pairs p)
  && forallb (fun f' => existsb (fun tu => mem f' (fst tu) && mem f' (snd tu)) (cyclic_pairs p)) (nth f adjs []).
Lemma paths_ok : forallb (fun f => forallb (path_ok f) (perms (filter (mem f) canon))) (seq 0 12) = true.
Proof. vm_compute. reflexivity. Qed.

Lemma filter_Permutation {A} (p : A -> bool) l l' : Permutation l l' -> Permutation (filter p l) (filter p l').
Proof.
  induction 1; cbn.
  - reflexivity.
  - destruct (p x); auto.
  - destruct (p x), (p y); auto. apply perm_swap.
  - etransitivity; eauto.
Qed.

Lemma path_of f ts : (f < 12)%nat -> Permutation ts canon -> path_ok f (filter (mem f) ts) = true.
Proof.
  intros Hf Hp. pose proof (forall_lt _ 12 paths_ok f Hf) as H. cbn beta in H.
  apply (proj1 (forallb_forall _ _) H). apply perms_complete. now apply filter_Permutation.
Qed.
