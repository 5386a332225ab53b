(** Cones of vectors: the convex hull of a spherical polygon and its edges. *)
From Coq Require Import Reals Lra Lia.
From Flocq Require Import Core.Raux.
Require Import Verif.Py Verif.TractInfo Verif.Rings Verif.Sphere Verif.SphereProofs Verif.Region Verif.MapsProofs Verif.DodecaSpec.
Open Scope R_scope.

Definition det (a b c : vec) : R := dot (cross a b) c.

Lemma dot_combination n ws vs : dot n (combination ws vs)
  = fold_right Rplus 0 (map (fun wv => fst wv * dot n (snd wv)) (combine ws vs)).
Proof.
  revert vs. induction ws as [|w ws IH]; intros [|v vs]; cbn [combination combine map fold_right fst snd];
    try (unfold dot, vx, vy, vz; cbn [fst snd]; ring).
  rewrite <- IH. destruct n as [[? ?] ?], v as [[? ?] ?], (combination ws vs) as [[? ?] ?].
  unfold dot, vadd, vscale, vx, vy, vz. cbn [fst snd]. ring.
Qed.

(** A linear function that is nonnegative on the vectors is nonnegative on the cone. *)
Lemma combination_nonneg n ws vs : Forall (fun w => 0 <= w) ws -> (forall v, In v vs -> 0 <= dot n v) ->
  0 <= dot n (combination ws vs).
Proof.
  intros Hw Hv. rewrite dot_combination. revert vs Hv. induction ws as [|w ws IH]; intros [|v vs] Hv; cbn [combine map fold_right fst snd]; try lra.
  inversion Hw as [|? ? W1 W2]; subst. specialize (IH W2 vs (fun x Hx => Hv x (or_intror Hx))). pose proof (Hv v (or_introl eq_refl)). nra.
Qed.

Lemma det_gram a b c : det a b c * det a b c
  = dot a a * dot b b * dot c c + 2 * dot a b * dot b c * dot a c
    - dot a a * dot b c * dot b c - dot b b * dot a c * dot a c - dot c c * dot a b * dot a b.
Proof. destruct a as [[? ?] ?], b as [[? ?] ?], c as [[? ?] ?]. unfold det, cross, dot, vx, vy, vz. cbn [fst snd]. ring. Qed.

Lemma det_rot a b c : det b c a = det a b c.
Proof. destruct a as [[? ?] ?], b as [[? ?] ?], c as [[? ?] ?]. unfold det, cross, dot, vx, vy, vz. cbn [fst snd]. ring. Qed.
Lemma det_swap a b c : det a c b = - det a b c.
Proof. destruct a as [[? ?] ?], b as [[? ?] ?], c as [[? ?] ?]. unfold det, cross, dot, vx, vy, vz. cbn [fst snd]. ring. Qed.

(** Cramer's rule *)
Lemma cramer a b c v : det a b c <> 0 ->
  v = vadd (vscale (det v b c / det a b c) a) (vadd (vscale (det a v c / det a b c) b) (vscale (det a b v / det a b c) c)).
Proof.
  intros H. assert (K : forall x y : R, det a b c * x = y -> x = / det a b c * y) by (intros x y <-; field; exact H).
  destruct a as [[a1 a2] a3], b as [[b1 b2] b3], c as [[c1 c2] c3], v as [[v1 v2] v3].
  unfold vadd, vscale, vx, vy, vz. cbn [fst snd].
  apply vec_eq;
  (match goal with |- _ = ?x1 / ?d * ?p + (?x2 / ?d * ?q + ?x3 / ?d * ?r) =>
    transitivity (/ d * (x1 * p + x2 * q + x3 * r)); [|field; exact H] end;
   apply K; unfold det, cross, dot, vx, vy, vz; cbn [fst snd]; ring).
Qed.

Lemma same_sign_trans x y z : y <> 0 -> 0 <= x * y -> 0 <= y * z -> 0 <= x * z.
Proof.
  intros Hy A B. destruct (Rdichotomy _ _ Hy).
  - assert (x <= 0) by nra. assert (z <= 0) by nra. nra.
  - assert (0 <= x) by nra. assert (0 <= z) by nra. nra.
Qed.

(** One triangle: the signs of the three determinants of [v] agree with that of the triangle. *)
Lemma triangle_cone a b c v : det a b c <> 0 -> 0 <= det v b c * det a b c -> 0 <= det a v c * det a b c ->
  0 <= det a b v * det a b c ->
  exists x y z, 0 <= x /\ 0 <= y /\ 0 <= z /\ v = vadd (vscale x a) (vadd (vscale y b) (vscale z c)).
Proof.
  intros H A B C. assert (P : 0 < det a b c * det a b c) by (destruct (Rdichotomy _ _ H); nra).
  assert (K : forall x, 0 <= x * det a b c -> 0 <= x / det a b c).
  { intros x Hx. replace (x / det a b c) with (x * det a b c * / (det a b c * det a b c)) by (field; exact H).
    apply Rmult_le_pos; [exact Hx|]. left. now apply Rinv_0_lt_compat. }
  exists (det v b c / det a b c), (det a v c / det a b c), (det a b v / det a b c).
  repeat split; try (apply K; assumption). now apply cramer.
Qed.

(** A vector on the inner side of the five edges of a pentagon is a combination of its vertices.  The inner
    side is that of [c], on which the other vertices lie. *)
Lemma pentagon_cone p0 p1 p2 p3 p4 c v :
  let ps := [p0; p1; p2; p3; p4] in
  (forall p q, In (p, q) (cyclic_pairs ps) -> det p q c <> 0) ->
  (forall p q r, In (p, q) (cyclic_pairs ps) -> In r ps -> 0 <= det p q r * det p q c) ->
  (forall p q, In (p, q) (cyclic_pairs ps) -> 0 <= det p q v * det p q c) ->
  det p0 p1 p2 <> 0 -> det p1 p2 p3 <> 0 -> det p2 p3 p4 <> 0 -> det p0 p2 p3 <> 0 -> det p0 p3 p4 <> 0 ->
  exists ws, length ws = 5%nat /\ Forall (fun w => 0 <= w) ws /\ v = combination ws ps.
Proof.
  intros ps Hc Hr Hv D012 D123 D234 D023 D034.
  assert (I01 : In (p0, p1) (cyclic_pairs ps)) by (cbn; tauto). assert (I12 : In (p1, p2) (cyclic_pairs ps)) by (cbn; tauto).
  assert (I23 : In (p2, p3) (cyclic_pairs ps)) by (cbn; tauto). assert (I34 : In (p3, p4) (cyclic_pairs ps)) by (cbn; tauto).
  assert (I40 : In (p4, p0) (cyclic_pairs ps)) by (cbn; tauto).
  assert (In0 : In p0 ps) by (cbn; tauto). assert (In1 : In p1 ps) by (cbn; tauto). assert (In2 : In p2 ps) by (cbn; tauto).
  assert (In3 : In p3 ps) by (cbn; tauto). assert (In4 : In p4 ps) by (cbn; tauto).
  (* all orientations agree: with s = det p0 p1 p2 *)
  assert (S01 : forall x, 0 <= x * det p0 p1 c -> 0 <= x * det p0 p1 p2).
  { intros x Hx. apply (same_sign_trans x (det p0 p1 c)); [now apply Hc|exact Hx|]. rewrite Rmult_comm. now apply Hr. }
  assert (S12 : forall x, 0 <= x * det p1 p2 c -> 0 <= x * det p0 p1 p2).
  { intros x Hx. apply (same_sign_trans x (det p1 p2 c)); [now apply Hc|exact Hx|]. rewrite Rmult_comm, <- (det_rot p0 p1 p2). now apply Hr. }
  assert (S123 : 0 <= det p1 p2 p3 * det p0 p1 p2) by (apply S12; now apply Hr).
  assert (S23 : forall x, 0 <= x * det p2 p3 c -> 0 <= x * det p0 p1 p2).
  { intros x Hx. apply (same_sign_trans x (det p1 p2 p3)); [exact D123| |exact S123].
    apply (same_sign_trans x (det p2 p3 c)); [now apply Hc|exact Hx|]. rewrite Rmult_comm, <- (det_rot p1 p2 p3). now apply Hr. }
  assert (S234 : 0 <= det p2 p3 p4 * det p0 p1 p2) by (apply S23; now apply Hr).
  assert (S34 : forall x, 0 <= x * det p3 p4 c -> 0 <= x * det p0 p1 p2).
  { intros x Hx. apply (same_sign_trans x (det p2 p3 p4)); [exact D234| |exact S234].
    apply (same_sign_trans x (det p3 p4 c)); [now apply Hc|exact Hx|]. rewrite Rmult_comm, <- (det_rot p2 p3 p4). now apply Hr. }
  assert (S340 : 0 <= det p0 p3 p4 * det p0 p1 p2) by (rewrite <- det_rot; apply S34; now apply Hr).
  assert (S40 : forall x, 0 <= x * det p4 p0 c -> 0 <= x * det p0 p1 p2).
  { intros x Hx. apply (same_sign_trans x (det p0 p3 p4)); [exact D034| |exact S340].
    apply (same_sign_trans x (det p4 p0 c)); [now apply Hc|exact Hx|]. rewrite Rmult_comm.
    rewrite <- (det_rot p0 p3 p4), <- (det_rot p3 p4 p0). now apply Hr. }
  assert (S023 : 0 <= det p0 p2 p3 * det p0 p1 p2) by (rewrite <- det_rot; apply S23; now apply Hr).
  assert (W : forall d x, d <> 0 -> 0 <= d * det p0 p1 p2 -> 0 <= x * det p0 p1 p2 -> 0 <= x * d).
  { intros d x Hd H1 H2. apply (same_sign_trans x (det p0 p1 p2)); [exact D012|exact H2|]. now rewrite Rmult_comm. }
  assert (V01 := S01 _ (Hv _ _ I01)). assert (V12 := S12 _ (Hv _ _ I12)). assert (V23 := S23 _ (Hv _ _ I23)).
  assert (V34 := S34 _ (Hv _ _ I34)). assert (V40 := S40 _ (Hv _ _ I40)).
  assert (R2 : forall a b, det v a b = det a b v) by (intros; symmetry; apply det_rot).
  assert (R1 : forall a b, det a v b = det b a v) by (intros; rewrite <- (det_rot b a v); reflexivity).
  assert (Neg : forall a b, det a b v = - det b a v).
  { intros a b. destruct a as [[? ?] ?], b as [[? ?] ?], v as [[? ?] ?]. unfold det, cross, dot, vx, vy, vz. cbn [fst snd]. ring. }
  destruct (Rle_lt_dec (det p0 p2 v * det p0 p1 p2) 0) as [A|A].
  - destruct (triangle_cone p0 p1 p2 v D012) as (x & y & z & Hx & Hy & Hz & E).
    { rewrite R2. exact V12. } { rewrite R1, Neg. lra. } { exact V01. }
    exists [x; y; z; 0; 0]. split; [reflexivity|]. split; [repeat (apply Forall_cons; [lra|]); now apply Forall_nil|]. rewrite E.
    unfold ps. cbn [combination]. clear. destruct p0 as [[? ?] ?], p1 as [[? ?] ?], p2 as [[? ?] ?], p3 as [[? ?] ?], p4 as [[? ?] ?].
    unfold vadd, vscale, vx, vy, vz. cbn [fst snd]. apply vec_eq; ring.
  - destruct (Rle_lt_dec (det p0 p3 v * det p0 p1 p2) 0) as [B|B].
    + destruct (triangle_cone p0 p2 p3 v D023) as (x & y & z & Hx & Hy & Hz & E).
      { apply W; [exact D023|exact S023|]. rewrite R2. exact V23. }
      { apply W; [exact D023|exact S023|]. rewrite R1, Neg. lra. }
      { apply W; [exact D023|exact S023|]. lra. }
      exists [x; 0; y; z; 0]. split; [reflexivity|]. split; [repeat (apply Forall_cons; [lra|]); now apply Forall_nil|]. rewrite E.
      unfold ps. cbn [combination]. clear. destruct p0 as [[? ?] ?], p1 as [[? ?] ?], p2 as [[? ?] ?], p3 as [[? ?] ?], p4 as [[? ?] ?].
      unfold vadd, vscale, vx, vy, vz. cbn [fst snd]. apply vec_eq; ring.
    + destruct (triangle_cone p0 p3 p4 v D034) as (x & y & z & Hx & Hy & Hz & E).
      { apply W; [exact D034|exact S340|]. rewrite R2. exact V34. }
      { apply W; [exact D034|exact S340|]. rewrite R1. exact V40. }
      { apply W; [exact D034|exact S340|]. lra. }
      exists [x; 0; 0; y; z]. split; [reflexivity|]. split; [repeat (apply Forall_cons; [lra|]); now apply Forall_nil|]. rewrite E.
      unfold ps. cbn [combination]. clear. destruct p0 as [[? ?] ?], p1 as [[? ?] ?], p2 as [[? ?] ?], p3 as [[? ?] ?], p4 as [[? ?] ?].
      unfold vadd, vscale, vx, vy, vz. cbn [fst snd]. apply vec_eq; ring.
Qed.
