(** Dodeca maps with the default (stereographic) projection: findTract's tract contains the coordinate (C72). *)
From Coq Require Import Reals Lra Lia Permutation.
From Flocq Require Import Core.Raux.
Require Import Verif.Py Verif.Geom Verif.PatchInfo Verif.TractBuilder Verif.TractInfo Verif.Spec.
Require Import Verif.SkyMap Verif.SkySpec Verif.PatchProofs Verif.TractProofs.
Require Import Verif.Rings Verif.RingsSpec Verif.RingsProofs Verif.RingsNum Verif.Sphere Verif.SphereProofs Verif.TractBox Verif.MapsProofs.
Require Import Verif.SkyProofs Verif.SkyProofs2 Verif.MainSky Verif.Uniform Verif.Dodeca Verif.DodecaSpec Verif.DodecaZ Verif.DodecaProofs Verif.DodecaProofs2 Verif.DodecaProofs3 Verif.DodecaProofs4.
Require Import Verif.Region Verif.RegionProofs Verif.ProjSpec Verif.HullProofs Verif.TractHull Verif.MainDodeca Verif.MainDodeca2 Verif.MainHull Verif.MainRings4.
Open Scope R_scope.

(** ** The vertices of a face add up to a multiple of its centre. *)
Fixpoint vsum (l : list vec) : vec := match l with [] => (0, 0, 0) | v :: l => vadd v (vsum l) end.
Fixpoint zvsum (l : list zvec) : zvec := match l with [] => ((0,0),(0,0),(0,0))%Z | v :: l => zvadd v (zvsum l) end.
Definition zvscale (k : zg) (v : zvec) : zvec := (zmul k (fst (fst v)), zmul k (snd (fst v)), zmul k (snd v)).
Definition zveqb (a b : zvec) : bool := zeqb (fst (fst a)) (fst (fst b)) && zeqb (snd (fst a)) (snd (fst b)) && zeqb (snd a) (snd b).

Lemma vsum_perm l l' : Permutation l l' -> vsum l = vsum l'.
Proof.
  induction 1; cbn [vsum]; try congruence. destruct x as [[? ?] ?], y as [[? ?] ?], (vsum l) as [[? ?] ?].
  unfold vadd, vx, vy, vz. cbn [fst snd]. apply vec_eq; ring.
Qed.
Lemma dot_vsum n l : dot n (vsum l) = fold_right Rplus 0 (map (dot n) l).
Proof.
  induction l as [|v l IH]; cbn [vsum map fold_right]; [unfold dot, vx, vy, vz; cbn; ring|].
  rewrite <- IH, dot_comm, dot_vadd_l, (dot_comm v), (dot_comm (vsum l)). reflexivity.
Qed.
Lemma vsum_mat m l : vsum (map (mat_vec m) l) = mat_vec m (vsum l).
Proof.
  induction l as [|v l IH]; cbn [map vsum].
  - destruct m as [[[[? ?] ?] [[? ?] ?]] [[? ?] ?]]. unfold mat_vec, dot, row0, row1, row2, vx, vy, vz. cbn [fst snd]. apply vec_eq; ring.
  - rewrite IH. destruct m as [[[[? ?] ?] [[? ?] ?]] [[? ?] ?]], v as [[? ?] ?], (vsum l) as [[? ?] ?].
    unfold mat_vec, vadd, dot, row0, row1, row2, vx, vy, vz. cbn [fst snd]. apply vec_eq; ring.
Qed.

Lemma vsum_phi l : vsum (map phi_v l) = vscale (/ sqrt (val z69)) (vval (zvsum (map Fsum l))).
Proof.
  induction l as [|t l IH]; cbn [map vsum zvsum].
  - unfold vscale, vval, val, vx, vy, vz. cbn [fst snd]. apply vec_eq; ring.
  - rewrite IH, vval_add. unfold phi_v. destruct (vval (Fsum t)) as [[? ?] ?], (vval (zvsum _)) as [[? ?] ?].
    unfold vadd, vscale, vx, vy, vz. cbn [fst snd]. apply vec_eq; ring.
Qed.

Lemma face_sum_check : forallb (fun f => zveqb (zvsum (map Fsum (filter (mem f) canon))) (zvscale (3, 4)%Z (F f))) (seq 0 12) = true.
Proof. vm_compute. reflexivity. Qed.

Lemma zveqb_eq a b : zveqb a b = true -> a = b.
Proof.
  destruct a as [[? ?] ?], b as [[? ?] ?]. unfold zveqb. cbn [fst snd]. rewrite !andb_true_iff. intros [[A B] C].
  apply zeqb_eq in A, B, C. now subst.
Qed.
Lemma face_zsum f : (f < 12)%nat -> zvsum (map Fsum (filter (mem f) canon)) = zvscale (3, 4)%Z (F f).
Proof. intros Hf. apply zveqb_eq. apply (forall_lt _ 12 face_sum_check f Hf). Qed.
Lemma vval_scale k v : vval (zvscale k v) = vscale (val k) (vval v).
Proof. unfold zvscale, vscale, vval, vx, vy, vz. cbn [fst snd]. now rewrite !val_mul. Qed.

Lemma face_sum f : (f < 12)%nat -> exists k, 0 < k /\ vsum (map phi_v (filter (mem f) canon)) = vscale k (phi_f f).
Proof.
  intros Hf. pose proof (face_zsum f Hf) as E. rewrite vsum_phi, E, vval_scale. clear E.
  pose proof val21_pos as P1. pose proof val69_pos as P2. pose proof (sqrt_lt_R0 _ P1) as Q1. pose proof (sqrt_lt_R0 _ P2) as Q2.
  exists (/ sqrt (val z69) * val (3, 4)%Z * sqrt (val z21)). split.
  { apply Rmult_lt_0_compat; [|exact Q1]. apply Rmult_lt_0_compat; [now apply Rinv_0_lt_compat|]. unfold val. cbn [fst snd]. pose proof golden_bounds. lra. }
  unfold phi_f. destruct (vval (F f)) as [[a b] c]. unfold vscale, vx, vy, vz. cbn [fst snd]. apply vec_eq; field; lra.
Qed.

(** ** Five numbers around a circle that add up to zero change sign somewhere. *)
Lemma cyclic_sign a b c d e : a + b + c + d + e = 0 ->
  (a >= 0 /\ b <= 0) \/ (b >= 0 /\ c <= 0) \/ (c >= 0 /\ d <= 0) \/ (d >= 0 /\ e <= 0) \/ (e >= 0 /\ a <= 0).
Proof.
  intros H.
  destruct (Rle_lt_dec 0 a) as [A|A]; [destruct (Rle_lt_dec b 0); [left; lra|]|];
  (destruct (Rle_lt_dec 0 b) as [B|B]; [destruct (Rle_lt_dec c 0); [right; left; lra|]|]);
  (destruct (Rle_lt_dec 0 c) as [C|C]; [destruct (Rle_lt_dec d 0); [right; right; left; lra|]|]);
  (destruct (Rle_lt_dec 0 d) as [D|D]; [destruct (Rle_lt_dec e 0); [right; right; right; left; lra|]|]);
  (destruct (Rle_lt_dec 0 e) as [E|E]; [destruct (Rle_lt_dec a 0); [right; right; right; right; lra|]|]); lra.
Qed.

(** Five rays around [f]: a vector in the pentagon is in one of the five triangles. *)
Lemma pentagon_fan p0 p1 p2 p3 p4 f v k :
  let ps := [p0; p1; p2; p3; p4] in
  (forall p q, In (p, q) (cyclic_pairs ps) -> det p q f <> 0) ->
  (forall p q r, In (p, q) (cyclic_pairs ps) -> In r ps -> 0 <= det p q r * det p q f) ->
  (forall p q, In (p, q) (cyclic_pairs ps) -> 0 <= det p q v * det p q f) ->
  det p0 p1 p2 <> 0 -> det p1 p2 p3 <> 0 -> det p2 p3 p4 <> 0 -> det p3 p4 p0 <> 0 ->
  vsum ps = vscale k f ->
  exists p q t x y, In (p, q) (cyclic_pairs ps) /\ 0 <= t /\ 0 <= x /\ 0 <= y /\ v = vadd (vscale t f) (vadd (vscale x p) (vscale y q)).
Proof.
  intros ps Hf Hr Hv D012 D123 D234 D340 Hsum.
  assert (E : cyclic_pairs ps = [(p0, p1); (p1, p2); (p2, p3); (p3, p4); (p4, p0)]) by reflexivity.
  rewrite E in *.
  (* common orientation *)
  assert (Or : forall p q r, In (p, q) (cyclic_pairs ps) -> In (q, r) (cyclic_pairs ps) -> In p ps -> In r ps -> det p q r <> 0 -> 0 < det p q f * det q r f).
  { intros p q r H1 H2 I1 I2 D. rewrite E in H1, H2. pose proof (Hr p q r H1 I2) as A. pose proof (Hr q r p H2 I1) as B. rewrite det_rot in B.
    pose proof (Hf p q H1) as F1. pose proof (Hf q r H2) as F2. pose proof (same_sign_trans (det p q f) (det p q r) (det q r f) D ltac:(lra) B) as C.
    destruct C as [C|C]; [exact C|]. symmetry in C. apply Rmult_integral in C. tauto. }
  pose proof (Or p0 p1 p2 ltac:(rewrite E; cbn; tauto) ltac:(rewrite E; cbn; tauto) ltac:(cbn; tauto) ltac:(cbn; tauto) D012) as O1.
  pose proof (Or p1 p2 p3 ltac:(rewrite E; cbn; tauto) ltac:(rewrite E; cbn; tauto) ltac:(cbn; tauto) ltac:(cbn; tauto) D123) as O2.
  pose proof (Or p2 p3 p4 ltac:(rewrite E; cbn; tauto) ltac:(rewrite E; cbn; tauto) ltac:(cbn; tauto) ltac:(cbn; tauto) D234) as O3.
  pose proof (Or p3 p4 p0 ltac:(rewrite E; cbn; tauto) ltac:(rewrite E; cbn; tauto) ltac:(cbn; tauto) ltac:(cbn; tauto) D340) as O4.
  clear Or.
  assert (Ssum : det f p0 v + det f p1 v + det f p2 v + det f p3 v + det f p4 v = 0).
  { transitivity (det f (vsum ps) v); [|rewrite Hsum; destruct f as [[? ?] ?], v as [[? ?] ?]; unfold det, cross, dot, vscale, vx, vy, vz; cbn [fst snd]; ring].
    unfold ps. cbn [vsum]. destruct p0 as [[? ?] ?], p1 as [[? ?] ?], p2 as [[? ?] ?], p3 as [[? ?] ?], p4 as [[? ?] ?], f as [[? ?] ?], v as [[? ?] ?].
    unfold det, cross, dot, vadd, vx, vy, vz. cbn [fst snd]. ring. }
  (* triangles *)
  assert (Tri : forall p q, In (p, q) (cyclic_pairs ps) -> 0 <= det f p v * det p q f -> 0 <= - det f q v * det p q f ->
     exists p q t x y, In (p, q) (cyclic_pairs ps) /\ 0 <= t /\ 0 <= x /\ 0 <= y /\ v = vadd (vscale t f) (vadd (vscale x p) (vscale y q))).
  { intros p q Hpq A B. assert (Hpq' := Hpq). rewrite E in Hpq'. pose proof (Hf p q Hpq') as F1. rewrite <- det_rot, <- det_rot in F1.
    destruct (triangle_cone f p q v F1) as (t & x & y & T1 & T2 & T3 & T4).
    - replace (det v p q) with (det p q v) by apply det_rot. replace (det f p q) with (det p q f) by apply det_rot. exact (Hv p q Hpq').
    - rewrite det_swap. replace (det f p q) with (det p q f) by apply det_rot. exact B.
    - replace (det f p q) with (det p q f) by apply det_rot. exact A.
    - exists p, q, t, x, y. auto. }
  rewrite E in Tri. set (e := det p0 p1 f) in *.
  destruct (Rle_lt_dec 0 e) as [He|He].
  - assert (He' : 0 < e) by (destruct He as [|Z]; [assumption|]; exfalso; apply (Hf p0 p1); [cbn; tauto|symmetry; exact Z]).
    assert (0 < det p1 p2 f) by nra. assert (0 < det p2 p3 f) by nra. assert (0 < det p3 p4 f) by nra. assert (0 < det p4 p0 f) by nra.
    destruct (cyclic_sign _ _ _ _ _ Ssum) as [[A B]|[[A B]|[[A B]|[[A B]|[A B]]]]].
    + apply (Tri p0 p1); [cbn; tauto|fold e; nra|fold e; nra].
    + apply (Tri p1 p2); [cbn; tauto|nra|nra].
    + apply (Tri p2 p3); [cbn; tauto|nra|nra].
    + apply (Tri p3 p4); [cbn; tauto|nra|nra].
    + apply (Tri p4 p0); [cbn; tauto|nra|nra].
  - assert (det p1 p2 f < 0) by nra. assert (det p2 p3 f < 0) by nra. assert (det p3 p4 f < 0) by nra. assert (det p4 p0 f < 0) by nra.
    assert (Ssum' : - det f p0 v + - det f p1 v + - det f p2 v + - det f p3 v + - det f p4 v = 0) by lra.
    destruct (cyclic_sign _ _ _ _ _ Ssum') as [[A B]|[[A B]|[[A B]|[[A B]|[A B]]]]].
    + apply (Tri p0 p1); [cbn; tauto|fold e; nra|fold e; nra].
    + apply (Tri p1 p2); [cbn; tauto|nra|nra].
    + apply (Tri p2 p3); [cbn; tauto|nra|nra].
    + apply (Tri p3 p4); [cbn; tauto|nra|nra].
    + apply (Tri p4 p0); [cbn; tauto|nra|nra].
Qed.

(** ** The real inequalities *)
Lemma beta_bound S X beta r : 0 < S -> 0 <= X <= 0.68 * S -> beta <= 1.22 * S -> 0 <= cos r -> 1 / 40 <= sin r ->
  cos r * beta + sin r * (cos (PI / 24) * sqrt (4 * (S * S) + X * X - beta * beta)) <= X -> beta <= 0.934 * X.
Proof.
  intros HS HX Hb Hc Hs H. apply Rnot_lt_le. intros L.
  assert (Hk : 0.99 <= cos (PI / 24)).
  { pose proof (one_minus_cos (PI / 24)) as O. pose proof PI_upper. pose proof PI_RGT_0. nra. }
  assert (Q0 : 1.58 * S <= sqrt (4 * (S * S) + X * X - beta * beta)).
  { rewrite <- (sqrt_square (1.58 * S)) by nra. apply sqrt_le_1_alt. nra. }
  pose proof (cs r) as C. set (s := sin r) in *. set (cr := cos r) in *. set (k := cos (PI / 24)) in *. clearbody s cr k.
  set (Q := sqrt (4 * (S * S) + X * X - beta * beta)) in *.
  assert (KQ : forall z, 0 <= z -> z <= Q -> 0.99 * z * s <= s * (k * Q)).
  { intros z Hz HzQ. assert (0.99 * z <= k * Q) by (apply Rmult_le_compat; lra). nra. }
  destruct (Rle_lt_dec 0.5 s) as [S5|S5].
  - pose proof (KQ (1.58 * S) ltac:(nra) Q0). assert (0 <= cr * beta) by nra. nra.
  - assert (C1 : 1 - 0.536 * (s * s) <= cr).
    { assert (0.866 <= cr). { apply Rnot_lt_le. intros Y. nra. } nra. }
    destruct (Rle_lt_dec beta X) as [BX|BX].
    + assert (Q2 : 2 * S <= Q).
      { unfold Q. rewrite <- (sqrt_square (2 * S)) by nra. apply sqrt_le_1_alt. nra. }
      pose proof (KQ (2 * S) ltac:(nra) Q2) as K.
      assert (C2 : beta - 0.536 * (s * s) * beta <= cr * beta) by nra.
      assert (C3 : s * s * beta <= 0.5 * s * (0.68 * S)) by (apply Rmult_le_compat; nra).
      assert (C4 : 1 / 40 * S <= s * S) by nra. nra.
    + pose proof (KQ (1.58 * S) ltac:(nra) Q0) as K.
      assert (C2 : beta - 0.536 * (s * s) * beta <= cr * beta) by nra.
      assert (C3 : s * s * beta <= 0.5 * s * (1.22 * S)) by (apply Rmult_le_compat; nra).
      assert (C4 : 1 / 40 * S <= s * S) by nra. nra.
Qed.

Lemma sq_le x y : 0 <= y -> x * x <= y * y -> x <= y.
Proof. intros A B. apply Rnot_lt_le. intros C. nra. Qed.

(** Bessel's inequality for two perpendicular directions. *)
Lemma bessel a f v : dot f f = 1 -> dot v v = 1 -> dot a f = 0 -> dot v a * dot v a <= dot a a * (1 - dot v f * dot v f).
Proof.
  intros F V A. pose proof (det_gram a f v) as G. rewrite F, V, A in G. rewrite (dot_comm f v), (dot_comm a v) in G.
  pose proof (Rle_0_sqr (det a f v)) as Z. unfold Rsqr in Z. nra.
Qed.

(** The half plane x <= X. *)
Lemma stg_core f p q v a S X r t x y :
  unit_vec f -> unit_vec p -> unit_vec q -> unit_vec v -> dot a f = 0 -> 0 < S -> dot a a = S * S -> 0 <= X ->
  0 <= cos r -> 1 / 40 <= sin r ->
  0.794 < dot f p < 0.795 -> 0.794 < dot f q < 0.795 -> dot p q = sqrt 5 / 3 ->
  0 <= t -> 0 <= x -> 0 <= y -> v = vadd (vscale t f) (vadd (vscale x p) (vscale y q)) ->
  let B := vadd (vscale 2 a) (vscale (- X) f) in
  (forall u, u = p \/ u = q -> cos r * dot B u + sin r * (cos (PI / 24) * sqrt (dot B B - dot B u * dot B u)) <= X) ->
  dot B v <= X.
Proof.
  intros Uf Up Uq Uv Haf HS Haa HX Hc Hs Hp Hq Hpq Ht Hx Hy Ev B HB. unfold unit_vec in *.
  assert (DB : forall u, dot B u = 2 * dot u a - X * dot u f).
  { intros u. unfold B. rewrite dot_vadd_l, !dot_vscale_l, (dot_comm a), (dot_comm f). ring. }
  assert (BB : dot B B = 4 * (S * S) + X * X).
  { rewrite DB. rewrite (dot_comm B a), (dot_comm B f). unfold B. rewrite (dot_comm a), (dot_comm f), !dot_vadd_l, !dot_vscale_l, (dot_comm f a), Haf, Uf, Haa. ring. }
  assert (Dlin : forall w, dot w v = t * dot w f + (x * dot w p + y * dot w q)).
  { intros w. rewrite Ev, dot_comm, !dot_vadd_l, !dot_vscale_l, (dot_comm f), (dot_comm p), (dot_comm q). ring. }
  assert (N : t * t + x * x + y * y + 2 * (t * x * dot f p) + 2 * (t * y * dot f q) + 2 * (x * y * dot p q) = 1).
  { rewrite <- Uv. rewrite Dlin. rewrite (dot_comm v f), (dot_comm v p), (dot_comm v q), !Dlin, Uf, Up, Uq, (dot_comm p f), (dot_comm q f), (dot_comm q p). ring. }
  assert (S5 : 2.236 < sqrt 5 < 2.2361) by (pose proof golden_bounds; unfold golden in *; lra).
  assert (TX : 0 <= t * x) by nra. assert (TY : 0 <= t * y) by nra. assert (XY : 0 <= x * y) by nra.
  destruct (Rle_lt_dec (0.68 * S) X) as [BX|BX].
  - (* nothing in the pentagon is so far from the centre *)
    assert (Sum : 1 <= t + x + y).
    { assert (1 <= (t + x + y) * (t + x + y)); [|nra]. rewrite <- N. rewrite Hpq. nra. }
    assert (Vf : 0.794 <= dot v f).
    { rewrite dot_comm, Dlin, Uf. nra. }
    pose proof (bessel a f v Uf Uv Haf) as Be. rewrite Haa in Be. pose proof (dot_bound v f Uv Uf) as Bd. rewrite DB.
    set (d := dot v f) in *. set (z := dot v a) in *. clearbody d z.
    assert (2 * z <= 0.68 * S * (1 + d)); [|nra].
    apply Rnot_lt_le. intros L. assert (0 <= 0.68 * S * (1 + d)) by nra.
    assert (L2 : (0.68 * S * (1 + d)) * (0.68 * S * (1 + d)) < 2 * z * (2 * z)) by nra.
    assert (0.4624 * (1 + d) < 4 * (1 - d)); [|lra].
    apply (Rmult_lt_reg_l (S * S * (1 + d))); [nra|]. nra.
  - assert (Beta : forall u, u = p \/ u = q -> dot B u <= 0.934 * X).
    { intros u Hu. apply (beta_bound S X (dot B u) r HS); [lra| |exact Hc|exact Hs|rewrite <- BB; now apply HB].
      assert (Uu : dot u u = 1 /\ 0.794 < dot f u) by (destruct Hu as [-> | ->]; lra). destruct Uu as [Uu Fu].
      pose proof (bessel a f u Uf Uu Haf) as Be. rewrite (dot_comm u f), Haa in Be.
      assert (D2 : 1 - dot f u * dot f u <= 0.3721) by nra. assert (SS : 0 <= S * S) by nra.
      assert (dot u a * dot u a <= 0.61 * S * (0.61 * S)) by (apply (Rmult_le_compat_l _ _ _ SS) in D2; lra). assert (dot u a <= 0.61 * S) by (apply sq_le; [lra|assumption]). rewrite DB. rewrite (dot_comm u f). assert (0 <= X * dot f u) by nra. lra. }
    pose proof (Beta p (or_introl eq_refl)) as B1. pose proof (Beta q (or_intror eq_refl)) as B2.
    rewrite Dlin. assert (Bf : dot B f = - X) by (rewrite DB, (dot_comm f a), Haf, Uf; ring). rewrite Bf.
    assert (Sxy : 0.934 * (x + y) <= 1).
    { apply Rnot_lt_le. intros L. assert (1 < 0.872356 * ((x + y) * (x + y))) by nra.
      assert (x * x + y * y + 2 * (x * y * (sqrt 5 / 3)) <= 1).
      { rewrite <- N, Hpq. assert (0 <= t * x * dot f p) by nra. assert (0 <= t * y * dot f q) by nra. nra. }
      pose proof (Rle_0_sqr (x - y)) as Z. unfold Rsqr in Z. nra. }
    assert (0 <= t * X) by nra. assert (x * dot B p <= x * (0.934 * X)) by nra. assert (y * dot B q <= y * (0.934 * X)) by nra. nra.
Qed.

(** The fan and the sum of the vertices of a tract. *)
Lemma dodeca_fan D m ts fs (Sh : shape D m ts fs) offset c mk ov s i t coord :
  sm_reachable offset (dodeca_def c mk ov D) s -> holds offset (dodeca_def c mk ov D) i s t -> in_pentagon t coord ->
  exists p q z x y, In p (t_verts t) /\ In q (t_verts t) /\ dot (vec_of p) (vec_of q) = sqrt 5 / 3 /\ 0 <= z /\ 0 <= x /\ 0 <= y
    /\ vec_of coord = vadd (vscale z (vec_of (t_ctr t))) (vadd (vscale x (vec_of p)) (vscale y (vec_of q))).
Proof.
  intros Hr Hh Hin. destruct (dodeca_face D m ts fs Sh offset c mk ov s i t Hr Hh) as (f & v0 & v1 & v2 & v3 & v4 & Hf & Ec & Et & Hp & Hpq & Hno & Edge & Ind).
  destruct (face_sum f Hf) as (k & _ & Es).
  assert (Sm : vsum (map vec_of (t_verts t)) = vscale k (vec_of (t_ctr t))).
  { rewrite (vsum_perm _ _ Hp), <- (map_map phi_v), vsum_mat, Es, Ec. destruct m as [[[[? ?] ?] [[? ?] ?]] [[? ?] ?]], (phi_f f) as [[? ?] ?].
    unfold mat_vec, vscale, dot, row0, row1, row2, vx, vy, vz. cbn [fst snd]. apply vec_eq; ring. }
  rewrite Et in *. cbn [map] in Sm.
  assert (Cyc : forall P : vec -> vec -> Prop, (forall p q, In (p, q) (cyclic_pairs [v0; v1; v2; v3; v4]) -> P (vec_of p) (vec_of q)) ->
     forall p q, In (p, q) (cyclic_pairs [vec_of v0; vec_of v1; vec_of v2; vec_of v3; vec_of v4]) -> P p q).
  { intros P H p q X. change [vec_of v0; vec_of v1; vec_of v2; vec_of v3; vec_of v4] with (map vec_of [v0; v1; v2; v3; v4]) in X.
    rewrite cyclic_pairs_map in X. apply in_map_iff in X. destruct X as ([a b] & E & Hab). injection E as <- <-. now apply H. }
  destruct (pentagon_fan (vec_of v0) (vec_of v1) (vec_of v2) (vec_of v3) (vec_of v4) (vec_of (t_ctr t)) (vec_of coord) k) as (p & q & z & x & y & H1 & H2 & H3 & H4 & H5).
  - exact (Cyc (fun p q => det p q (vec_of (t_ctr t)) <> 0) Hno).
  - intros p q r X. revert p q X r. refine (Cyc (fun p q => forall r, In r [vec_of v0; vec_of v1; vec_of v2; vec_of v3; vec_of v4] -> 0 <= det p q r * det p q (vec_of (t_ctr t))) _). intros p q X r Hr'.
    change [vec_of v0; vec_of v1; vec_of v2; vec_of v3; vec_of v4] with (map vec_of [v0; v1; v2; v3; v4]) in Hr'.
    apply in_map_iff in Hr'. destruct Hr' as (w & <- & Hw). now apply Edge.
  - apply (Cyc (fun p q => 0 <= det p q (vec_of coord) * det p q (vec_of (t_ctr t)))). intros p q X. unfold in_pentagon in Hin. rewrite Et in Hin. exact (Hin p q X).
  - exact (Ind 0 1 2 ltac:(lia) ltac:(lia) ltac:(lia))%nat.
  - exact (Ind 1 2 3 ltac:(lia) ltac:(lia) ltac:(lia))%nat.
  - exact (Ind 2 3 4 ltac:(lia) ltac:(lia) ltac:(lia))%nat.
  - intros X. apply (Ind 0 3 4 ltac:(lia) ltac:(lia) ltac:(lia))%nat. cbn [map nth]. now rewrite det_rot in X.
  - exact Sm.
  - revert z x y H2 H3 H4 H5. revert p q H1.
    refine (Cyc (fun p q => forall z x y, 0 <= z -> 0 <= x -> 0 <= y -> vec_of coord = vadd (vscale z (vec_of (t_ctr t))) (vadd (vscale x p) (vscale y q)) -> exists p q z x y, In p [v0; v1; v2; v3; v4] /\ In q [v0; v1; v2; v3; v4] /\ dot (vec_of p) (vec_of q) = sqrt 5 / 3 /\ 0 <= z /\ 0 <= x /\ 0 <= y
    /\ vec_of coord = vadd (vscale z (vec_of (t_ctr t))) (vadd (vscale x (vec_of p)) (vscale y (vec_of q)))) _).
    intros p q X z x y H2 H3 H4 H5. exists p, q, z, x, y. pose proof (Hpq p q X).
    assert (In p [v0; v1; v2; v3; v4] /\ In q [v0; v1; v2; v3; v4]).
    { destruct X as [X|[X|[X|[X|[X|[]]]]]]; injection X as <- <-; cbn; tauto. }
    tauto.
Qed.

Lemma dodeca_balanced D m ts fs (Sh : shape D m ts fs) offset c mk ov s i t a :
  sm_reachable offset (dodeca_def c mk ov D) s -> holds offset (dodeca_def c mk ov D) i s t -> dot a (vec_of (t_ctr t)) = 0 ->
  exists p, In p (t_verts t) /\ 0 <= dot a (vec_of p).
Proof.
  intros Hr Hh Ha. destruct (dodeca_face D m ts fs Sh offset c mk ov s i t Hr Hh) as (f & v0 & v1 & v2 & v3 & v4 & Hf & Ec & Et & Hp & _).
  destruct (face_sum f Hf) as (k & _ & Es).
  assert (Sm : vsum (map vec_of (t_verts t)) = vscale k (vec_of (t_ctr t))).
  { rewrite (vsum_perm _ _ Hp), <- (map_map phi_v), vsum_mat, Es, Ec. destruct m as [[[[? ?] ?] [[? ?] ?]] [[? ?] ?]], (phi_f f) as [[? ?] ?].
    unfold mat_vec, vscale, dot, row0, row1, row2, vx, vy, vz. cbn [fst snd]. apply vec_eq; ring. }
  assert (Z : dot a (vsum (map vec_of (t_verts t))) = 0) by (rewrite Sm, dot_comm, dot_vscale_l, dot_comm, Ha; ring).
  rewrite dot_vsum, Et in Z. cbn [map fold_right] in Z. rewrite Et.
  destruct (Rle_lt_dec 0 (dot a (vec_of v0))); [exists v0; cbn; tauto|]. destruct (Rle_lt_dec 0 (dot a (vec_of v1))); [exists v1; cbn; tauto|].
  destruct (Rle_lt_dec 0 (dot a (vec_of v2))); [exists v2; cbn; tauto|]. destruct (Rle_lt_dec 0 (dot a (vec_of v3))); [exists v3; cbn; tauto|].
  exists v4. split; [cbn; tauto|lra].
Qed.

Lemma dodeca_vertex D m ts fs (Sh : shape D m ts fs) offset c mk ov s i t v :
  sm_reachable offset (dodeca_def c mk ov D) s -> holds offset (dodeca_def c mk ov D) i s t -> In v (t_verts t) ->
  0.794 < dot (vec_of (t_ctr t)) (vec_of v) < 0.795.
Proof.
  intros Hr Hh Hv. destruct (dodeca_holds D m ts fs Sh offset c mk ov s i t Hr Hh) as (_ & _ & f & Hn & Hf & Ec & Ev).
  destruct (path_facts _ _ _ _ Sh f Hf) as (_ & _ & P3 & _). apply (in_map vec_of) in Hv. rewrite Ev in Hv. apply in_map_iff in Hv. destruct Hv as (u & Eu & Hu).
  apply P3 in Hu. destruct Hu as [U1 U2]. rewrite <- Eu, Ec, (sh_rigid _ _ _ _ Sh). now apply face_vertex.
Qed.

(*@ C72: with stereographic projections (the default; any scale, rotation and handedness) and a tract overlap
    between 2.9 and 177 degrees (the default is 3.5), the tract that findTract of a Dodeca map returns contains
    the coordinate. *)
Lemma dodeca_stereographic_cover_proof : forall order c mk ov b D s0 s coord, any_order order -> cfg_ok c ->
  (forall ctr, projects stg_factor ctr (mk ctr)) -> 2.9 <= ov <= 177 ->
  dodeca_new order sphere_offset c mk ov b = Ok (D, s0) -> accesses sphere_offset (dodeca_def c mk ov D) s0 s ->
  exists t, dodeca_findTract sphere_offset (dodeca_def c mk ov D) D coord s = (s, Ok t)
    /\ tract_contains t coord = Ok true.
Proof.
  intros order c mk ov b D s0 s v Ho Hc Hw Hov En Ha. pose proof PI_RGT_0 as Hpi. pose proof PI_upper as Hpu.
  assert (Hpl : 3 <= PI) by (pose proof PI_lower; lra).
  destruct (dodeca_findTract_default_proof order sphere_offset c mk ov b D s0 s v Ho En Ha) as (t & Ef & _ & Hh & _).
  exists t. split; [exact Ef|].
  pose proof (proj1 (dodeca_pentagons_proof order sphere_offset c mk ov b D s0 s v t Ho En Ha) Ef) as Hin.
  assert (En' := En). unfold dodeca_new in En'.
  destruct (Dodecahedron_init order b) as [D'|] eqn:E; [|discriminate]. cbn [bind] in En'.
  destruct (sm_new sphere_offset (dodeca_def c mk ov D')) as [s'|] eqn:Es; [|discriminate]. cbn [bind] in En'. injection En' as -> ->.
  destruct (shape_of order b D Ho E) as (_ & m & ts & fs & Sh). set (d := dodeca_def c mk ov D) in *.
  assert (Hr : sm_reachable sphere_offset d s) by (exists s0; split; assumption).
  destruct (holds_args sphere_offset d s _ t Hr Hh) as (Hi & a & b1 & b' & oid & Ea & Hb & Hm).
  destruct (dodeca_args_ok D m ts fs Sh mk ov _ Hi) as (f' & ctr & vcs & _ & _ & Ea' & _).
  change (sd_args d (t_id t)) with (dodeca_args mk ov D (t_id t)) in Ea. rewrite Ea' in Ea. injection Ea as <-. cbn [make_tract] in Hm.
  assert (Kc : t_ctr t = ctr /\ t_verts t = vcs) by (unfold TractInfo_init in Hm; apply tract_build_keeps in Hm; tauto). destruct Kc as [Kc Kv].
  rewrite <- Kc, <- Kv in Hm. destruct (Hw (t_ctr t)) as (u1 & u2 & A1 & A2 & A3 & A4 & A5 & Hpix).
  set (r := deg ov / 2).
  assert (Hr1 : 0 <= r <= PI / 2) by (unfold r, deg; split; nra).
  assert (Hcr : 0 <= cos r) by (apply cos_ge_0; lra).
  assert (Hsr : 1 / 40 <= sin r).
  { destruct (Rle_lt_dec r 1) as [R1|R1].
    - pose proof (sin_lower r ltac:(lra) ltac:(lra)) as K. assert (0.02529 <= r) by (unfold r, deg; pose proof PI_lower; nra).
      destruct (Rle_lt_dec r 0.1); [assert (r * r <= 0.01) by nra|assert (r * r <= 1) by nra]; nra.
    - pose proof (sin_lower 1 ltac:(lra) ltac:(lra)) as K. assert (sin 1 <= sin r) by (apply sin_incr_1; lra). lra. }
  pose proof (fun v => dodeca_vertex D m ts fs Sh sphere_offset c mk ov s (t_id t) t v) as Hvx. fold d in Hvx.
  (* the samples *)
  assert (Sam : forall w, sample_of (deg ov) (t_verts t) w <-> exists p i, In p (t_verts t) /\ (0 <= i < 24)%Z /\ w = sphere_offset p (2 * PI / 24 * IZR i) r).
  { intros w. unfold sample_of, min_bbox_samples. rewrite in_flat_map. unfold overlap_samples. rewrite Req_bool_false by (unfold deg; nra). split.
    - intros (p & Hp & Hw'). apply in_map_iff in Hw'. destruct Hw' as (i & <- & Hi'). exists p, i. apply in_zrange in Hi'. auto.
    - intros (p & i & Hp & Hi' & ->). exists p. split; [exact Hp|]. apply (in_map (fun i => sphere_offset p (2 * PI / 24 * IZR i) (deg ov / 2))). now apply in_zrange. }
  assert (Sab : forall w, sample_of (deg ov) (t_verts t) w -> -1 < dot (vec_of w) (vec_of (t_ctr t))).
  { intros w Hw'. apply Sam in Hw'. destruct Hw' as (p & i & Hp & Hi' & ->). rewrite dot_comm, offset_dot.
    pose proof (Hvx p Hr Hh Hp) as H. pose proof (frame_sum p (vec_of (t_ctr t))) as Fs. rewrite (vec_of_unit (t_ctr t)) in Fs.
    pose proof (cs (2 * PI / 24 * IZR i)) as C. pose proof (cs r) as C'.
    set (cb := cos (2 * PI / 24 * IZR i)) in *. set (sb := sin (2 * PI / 24 * IZR i)) in *.
    set (e := dot (vec_of (t_ctr t)) (east p)) in *. set (n := dot (vec_of (t_ctr t)) (north p)) in *. set (h := dot (vec_of (t_ctr t)) (vec_of p)) in *. clearbody cb sb e n h.
    assert (Q : (cb * e + sb * n) * (cb * e + sb * n) <= 0.7 * 0.7).
    { pose proof (Rle_0_sqr (cb * n - sb * e)) as X. unfold Rsqr in X.
      assert ((cb * e + sb * n) * (cb * e + sb * n) + (cb * n - sb * e) * (cb * n - sb * e) = (cb * cb + sb * sb) * (e * e + n * n)) by ring. rewrite C in H0. nra. }
    assert (- 0.7 <= cb * e + sb * n). { apply Rnot_lt_le. intros Y. nra. }
    assert (0 <= cos r * h) by nra. assert (sin r <= 1) by nra. nra. }
  assert (Vab : -1 < dot (vec_of v) (vec_of (t_ctr t))).
  { destruct (dodeca_fan D m ts fs Sh sphere_offset c mk ov s _ t v Hr Hh Hin) as (p & q & z & x & y & Ip & Iq & _ & Hz & Hx & Hy & Ev).
    pose proof (Hvx p Hr Hh Ip). pose proof (Hvx q Hr Hh Iq). rewrite Ev, !dot_vadd_l, !dot_vscale_l, (vec_of_unit (t_ctr t)), !(dot_comm _ (vec_of (t_ctr t))). 
    assert (0 <= x * dot (vec_of (t_ctr t)) (vec_of p)) by nra. assert (0 <= y * dot (vec_of (t_ctr t)) (vec_of q)) by nra. lra. }
  assert (Epix : forall w, -1 < dot (vec_of w) (vec_of (t_ctr t)) ->
     skyToPixel (mk (t_ctr t)) w = Pix (2 / (1 + dot (vec_of w) (vec_of (t_ctr t))) * dot (vec_of w) u1) (2 / (1 + dot (vec_of w) (vec_of (t_ctr t))) * dot (vec_of w) u2)).
  { intros w Hs. rewrite Hpix. unfold stg_factor. now rewrite Rlt_bool_true by exact Hs. }
  assert (Half : forall u M, dot u (vec_of (t_ctr t)) = 0 -> 0 < dot u u ->
     (forall w, sample_of (deg ov) (t_verts t) w -> 2 / (1 + dot (vec_of w) (vec_of (t_ctr t))) * dot (vec_of w) u <= M) ->
     2 / (1 + dot (vec_of v) (vec_of (t_ctr t))) * dot (vec_of v) u <= M).
  { intros u M U0 U1 H. set (B := vadd (vscale 2 u) (vscale (- M) (vec_of (t_ctr t)))).
    assert (DB : forall x, dot B x = 2 * dot x u - M * dot x (vec_of (t_ctr t))).
    { intros x. unfold B. rewrite dot_vadd_l, !dot_vscale_l, (dot_comm u), (dot_comm (vec_of (t_ctr t))). ring. }
    assert (Side : forall w, -1 < dot (vec_of w) (vec_of (t_ctr t)) -> (2 / (1 + dot (vec_of w) (vec_of (t_ctr t))) * dot (vec_of w) u <= M <-> dot B (vec_of w) <= M)).
    { intros w Hs. rewrite DB. set (k := dot (vec_of w) (vec_of (t_ctr t))) in *.
      replace (2 / (1 + k) * dot (vec_of w) u) with (2 * dot (vec_of w) u / (1 + k)) by (field; lra). split; intros K.
      - apply (Rmult_le_compat_r (1 + k)) in K; [|lra]. unfold Rdiv in K. rewrite Rmult_assoc, Rinv_l, Rmult_1_r in K by lra. lra.
      - apply (Rmult_le_reg_r (1 + k)); [lra|]. unfold Rdiv. rewrite Rmult_assoc, Rinv_l, Rmult_1_r by lra. lra. }
    apply Side; [exact Vab|].
    assert (Mar : forall p, In p (t_verts t) -> cos r * dot B (vec_of p) + sin r * (cos (PI / 24) * sqrt (dot B B - dot B (vec_of p) * dot B (vec_of p))) <= M).
    { intros p Hp. apply margin24; [lra|]. intros i Hi'.
      assert (Sp : sample_of (deg ov) (t_verts t) (sphere_offset p (2 * PI / 24 * IZR i) r)) by (apply Sam; eauto). apply Side; [now apply Sab|now apply H]. }
    assert (HM : 0 <= M).
    { destruct (dodeca_balanced D m ts fs Sh sphere_offset c mk ov s _ t u Hr Hh U0) as (p & Hp & Hup). apply Rnot_lt_le. intros L.
      pose proof (Mar p Hp) as K. pose proof (Hvx p Hr Hh Hp) as Hh'. rewrite DB in K at 1. rewrite (dot_comm (vec_of p) u), (dot_comm (vec_of p)) in K.
      assert (0 <= sin r * (cos (PI / 24) * sqrt (dot B B - dot B (vec_of p) * dot B (vec_of p)))).
      { apply Rmult_le_pos; [lra|]. apply Rmult_le_pos; [apply cos_ge_0; lra|apply sqrt_pos]. }
      assert (0 <= 2 * dot u (vec_of p) - M * dot (vec_of (t_ctr t)) (vec_of p)) by nra. nra. }
    destruct (dodeca_fan D m ts fs Sh sphere_offset c mk ov s _ t v Hr Hh Hin) as (p & q & z & x & y & Ip & Iq & Epq & Hz & Hx & Hy & Ev).
    apply (stg_core (vec_of (t_ctr t)) (vec_of p) (vec_of q) (vec_of v) u (sqrt (dot u u)) M r z x y); try assumption; try apply vec_of_unit.
    - now apply sqrt_lt_R0.
    - symmetry. apply sqrt_sqrt. lra.
    - exact (Hvx p Hr Hh Ip).
    - exact (Hvx q Hr Hh Iq).
    - fold B. intros w [-> | ->]; now apply Mar. }
  assert (Neg : forall u w, 2 / (1 + dot (vec_of w) (vec_of (t_ctr t))) * dot (vec_of w) (vscale (-1) u) = - (2 / (1 + dot (vec_of w) (vec_of (t_ctr t))) * dot (vec_of w) u)).
  { intros u w. rewrite (dot_comm _ (vscale _ _)), dot_vscale_l, (dot_comm u). ring. }
  assert (Neg0 : forall u, dot u (vec_of (t_ctr t)) = 0 -> dot (vscale (-1) u) (vec_of (t_ctr t)) = 0) by (intros u U; rewrite dot_vscale_l, U; ring).
  assert (Neg1 : forall u, 0 < dot u u -> 0 < dot (vscale (-1) u) (vscale (-1) u)) by (intros u U; rewrite dot_vscale_l, (dot_comm u), dot_vscale_l; lra).
  assert (A6 : 0 < dot u2 u2) by lra.
  apply (plain_inside c b1 oid (t_id t) (t_ctr t) (t_verts t) (deg ov) (mk (t_ctr t)) None b' t v _ _ Hc Hb Hm (Epix v Vab)).
  - destruct (dodeca_balanced D m ts fs Sh sphere_offset c mk ov s _ t u1 Hr Hh A1) as (p & Hp & _). intros N. rewrite N in Hp. destruct Hp.
  - intros w Hs. rewrite (Epix w (Sab w Hs)). eauto.
  - intros M H. apply Half; [exact A1|exact A5|]. intros w Hs. exact (H w _ _ Hs (Epix w (Sab w Hs))).
  - intros M H. specialize (Half (vscale (-1) u1) (- M) (Neg0 _ A1) (Neg1 _ A5)). rewrite Neg in Half. apply Ropp_le_cancel, Half. intros w Hs. rewrite Neg. apply Ropp_le_contravar. exact (H w _ _ Hs (Epix w (Sab w Hs))).
  - intros M H. apply Half; [exact A2|exact A6|]. intros w Hs. exact (H w _ _ Hs (Epix w (Sab w Hs))).
  - intros M H. specialize (Half (vscale (-1) u2) (- M) (Neg0 _ A2) (Neg1 _ A6)). rewrite Neg in Half. apply Ropp_le_cancel, Half. intros w Hs. rewrite Neg. apply Ropp_le_contravar. exact (H w _ _ Hs (Epix w (Sab w Hs))).
Qed.
