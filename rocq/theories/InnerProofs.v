(** The inner regions of explicit tracts: helper lemmas (C87). *)
From Coq Require Import Reals Lra Lia String.
From Flocq Require Import Core.Raux.
Require Import Verif.Py Verif.Geom Verif.PatchInfo Verif.TractBuilder Verif.TractInfo Verif.Spec.
Require Import Verif.PatchProofs Verif.TractProofs Verif.Rings Verif.Sphere Verif.SphereProofs Verif.TractBox.
Require Import Verif.Region Verif.RegionProofs Verif.ProjSpec Verif.MainPolygons Verif.WcsSpec Verif.RotatedProofs.
Open Scope list_scope.
Open Scope R_scope.

(** Directions are determined by their components in an orthonormal frame. *)
Definition parseval (k a b : vec) : Prop :=
  forall v u, dot v u = dot v k * dot u k + dot v a * dot u a + dot v b * dot u b.
Lemma parseval_eq k a b v u : parseval k a b -> dot v k = dot u k -> dot v a = dot u a -> dot v b = dot u b -> v = u.
Proof.
  intros P H1 H2 H3.
  assert (K : forall e, dot v e = dot u e) by (intros e; rewrite (P v e), (P u e), H1, H2, H3; reflexivity).
  destruct v as [[v1 v2] v3], u as [[u1 u2] u3].
  pose proof (K (1, 0, 0)) as K1. pose proof (K (0, 1, 0)) as K2. pose proof (K (0, 0, 1)) as K3.
  unfold dot, vx, vy, vz in K1, K2, K3. cbn [fst snd] in *. f_equal; [f_equal|]; lra.
Qed.
Lemma parseval_frame c : parseval (vec_of c) (east c) (north c).
Proof.
  intros v u. pose proof (cs (fst c)) as A. pose proof (cs (snd c)) as B.
  assert (N : north c = (- sin (snd c) * cos (fst c), - sin (snd c) * sin (fst c), cos (snd c))).
  { unfold north, cross, east, vec_of, vx, vy, vz; cbn [fst snd]. f_equal; [f_equal; ring|].
    transitivity (cos (snd c) * (cos (fst c) * cos (fst c) + sin (fst c) * sin (fst c))); [ring|rewrite A; ring]. }
  rewrite N. destruct v as [[x y] z], u as [[p q] r]. unfold east, vec_of, dot, vx, vy, vz; cbn [fst snd].
  set (c1 := cos (fst c)) in *. set (s1 := sin (fst c)) in *. set (c2 := cos (snd c)) in *. set (s2 := sin (snd c)) in *.
  clearbody c1 s1 c2 s2. clear N.
  transitivity (x * p * (c1 * c1 * (c2 * c2 + s2 * s2) + s1 * s1) + y * q * (s1 * s1 * (c2 * c2 + s2 * s2) + c1 * c1) + z * r * (c2 * c2 + s2 * s2)
    + (x * q + y * p) * (c1 * s1 * (c2 * c2 + s2 * s2) - c1 * s1)).
  - rewrite B. rewrite !Rmult_1_r. replace (s1 * s1 + c1 * c1) with 1 by lra. rewrite A. ring.
  - ring.
Qed.

Section Zen.
Variables (kap : R) (dist : R -> R) (limit scale rotation : R) (flipX : bool) (ctr : sphere) (cx cy : R) (w : wcs sphere).
Hypothesis Hkind : dist = atan /\ limit = PI / 2 /\ kap = 0 \/ dist = (fun t => 2 * atan (t / 2)) /\ limit = PI /\ kap = / 4.
Hypothesis Hscale : 0 < scale.
Hypothesis HW : zenithal_at dist limit scale rotation flipX ctr cx cy w.
Notation X x := ((x - cx) * scale).
Notation Y y := ((y - cy) * scale).

Lemma kap_cases : kap = 0 \/ kap = / 4.
Proof. destruct Hkind as [(_ & _ & ->)|(_ & _ & ->)]; auto. Qed.

(** cos and sin of the distance, up to a positive factor. *)
Lemma dist_cs q : 0 <= q -> exists g, 0 < g /\ g * cos (dist q) = 1 - kap * (q * q) /\ g * sin (dist q) = q.
Proof.
  intros Hq.
  assert (T : forall x, 0 < cos (atan x) /\ sin (atan x) = x * cos (atan x) /\ cos (atan x) * cos (atan x) * (1 + x * x) = 1).
  { intros x. pose proof (atan_bound x). assert (0 < cos (atan x)) by (apply cos_gt_0; lra).
    assert (E : sin (atan x) = x * cos (atan x)).
    { pose proof (tan_atan x) as E. unfold tan in E. rewrite <- E at 2. field. lra. }
    split; [assumption|]. split; [exact E|]. pose proof (cs (atan x)) as C. rewrite E in C. lra. }
  destruct Hkind as [(-> & _ & ->)|(-> & _ & ->)].
  - destruct (T q) as (T1 & T2 & T3). exists (/ cos (atan q)). split; [now apply Rinv_0_lt_compat|]. rewrite T2. split; field; lra.
  - destruct (T (q / 2)) as (T1 & T2 & T3). exists (1 + q * q / 4). split; [nra|].
    rewrite cos_2a, sin_2a, T2. set (k := cos (atan (q / 2))) in *. clearbody k.
    assert (T4 : k * k * (1 + q * q / 4) = 1) by (transitivity (k * k * (1 + q / 2 * (q / 2))); [field|exact T3]).
    split.
    + transitivity (k * k * (1 + q * q / 4) * (1 - q * q / 4)); [field|rewrite T4; field].
    + transitivity (k * k * (1 + q * q / 4) * q); [field|rewrite T4; field].
Qed.

(** The frame of the WCS, and the direction of a pixel in it. *)
Lemma zen_frame : exists a b, parseval (vec_of ctr) a b /\ dot (vec_of ctr) a = 0 /\ dot (vec_of ctr) b = 0
  /\ forall x y, exists g, 0 < g /\ let v := vec_of (pixelToSky w (x, y)) in
       g * dot v (vec_of ctr) = 1 - kap * (X x * X x + Y y * Y y) /\ g * dot v a = X x /\ g * dot v b = Y y.
Proof.
  set (m := if flipX then 1 else -1). set (ca := cos rotation). set (sa := sin rotation).
  assert (Hm : m * m = 1) by (unfold m; destruct flipX; ring). pose proof (cs rotation) as C. fold ca sa in C.
  exists (vadd (vscale (m * ca) (east ctr)) (vscale (- m * sa) (north ctr))), (vadd (vscale sa (east ctr)) (vscale ca (north ctr))).
  assert (D : forall v p q, dot v (vadd (vscale p (east ctr)) (vscale q (north ctr))) = p * dot v (east ctr) + q * dot v (north ctr)).
  { intros v p q. rewrite dot_comm, dot_vadd_l, !dot_vscale_l, (dot_comm v (east ctr)), (dot_comm v (north ctr)). reflexivity. }
  destruct (frame ctr) as (_ & _ & F1 & F2 & _).
  split; [|split; [|split]].
  - intros v u. rewrite !D, (parseval_frame ctr v u).
    set (v1 := dot v (east ctr)). set (v2 := dot v (north ctr)). set (u1 := dot u (east ctr)). set (u2 := dot u (north ctr)).
    transitivity (dot v (vec_of ctr) * dot u (vec_of ctr) + v1 * u1 * (m * m * (ca * ca) + sa * sa) + v2 * u2 * (ca * ca + m * m * (sa * sa))
      + (v1 * u2 + v2 * u1) * (sa * ca - m * m * (sa * ca))); [|ring].
    rewrite Hm. rewrite !Rmult_1_l. rewrite C. ring.
  - rewrite D, F1, F2. ring.
  - rewrite D, F1, F2. ring.
  - intros x y. destruct (polar (x - cx) (y - cy)) as (q & phi & Hq & Ex & Ey).
    destruct HW as (H1 & _). pose proof (H1 q phi) as E. rewrite <- Ex, <- Ey in E.
    replace (cx + (x - cx)) with x in E by ring. replace (cy + (y - cy)) with y in E by ring.
    destruct (dist_cs (q * scale) ltac:(apply Rmult_le_pos; lra)) as (g & Hg & G1 & G2).
    exists g. split; [exact Hg|]. cbv zeta. rewrite E. unfold sphere_offset.
    set (bt := if flipX then phi - rotation else PI - phi - rotation).
    destruct (offset_dots ctr bt (dist (q * scale))) as (O1 & O2 & O3 & O4). rewrite vec_of_coord by exact O4.
    rewrite !D, O1, O2, O3, Ex, Ey.
    assert (B : cos bt = m * cos phi * ca + sin phi * sa /\ sin bt = sin phi * ca - m * (cos phi * sa)).
    { unfold bt, m, ca, sa. destruct flipX.
      - rewrite cos_minus, sin_minus. split; ring.
      - replace (PI - phi - rotation) with (PI - (phi + rotation)) by ring.
        rewrite Rtrigo_facts.cos_pi_minus, Rtrigo_facts.sin_pi_minus, cos_plus, sin_plus. split; ring. }
    destruct B as [-> ->]. pose proof (cs phi) as Cp. set (cp := cos phi) in *. set (sp := sin phi) in *. clearbody cp sp ca sa m.
    split; [|split].
    + rewrite G1. do 2 f_equal. transitivity (q * scale * (q * scale) * (cp * cp + sp * sp)); [rewrite Cp; ring|ring].
    + transitivity (g * sin (dist (q * scale)) * (m * m * cp * (ca * ca + sa * sa))); [ring|rewrite Hm, C, G2; ring].
    + transitivity (g * sin (dist (q * scale)) * (sp * (ca * ca + sa * sa) + cp * (m * (ca * sa) - m * (ca * sa)))); [ring|rewrite C, G2; ring].
Qed.

(** The sky polygon of a rectangle in the pixel plane that holds the reference pixel and whose corners are less than 90 degrees from the
    centre contains the coordinates whose position is in the rectangle. *)
Lemma zen_rect x0 x1 y0 y1 c x y : x0 <= cx <= x1 -> y0 <= cy <= y1 -> x0 < x1 -> y0 < y1 ->
  (forall p, In p [(x0, y0); (x1, y0); (x1, y1); (x0, y1)] -> separation (pixelToSky w p) ctr < PI / 2) ->
  skyToPixel w c = Pix x y -> x0 <= x <= x1 -> y0 <= y <= y1 ->
  region_contains (sky_polygon (map (pixelToSky w) [(x0, y0); (x1, y0); (x1, y1); (x0, y1)])) c.
Proof.
  intros Hcx Hcy Hx Hy Hsep E Hx' Hy'. destruct zen_frame as (a & b & P & _ & _ & F).
  assert (Hd : forall p, separation p ctr < PI / 2 -> 0 < dot (vec_of p) (vec_of ctr)).
  { intros p Hp. pose proof PI_RGT_0. destruct (Rlt_le_dec 0 (dot (vec_of p) (vec_of ctr))) as [L|L]; [exact L|exfalso].
    pose proof (separation_cos p ctr (separation p ctr)) as K. unfold separation in K, Hp. pose proof (acos_bound (dot (vec_of p) (vec_of ctr))) as Bd.
    destruct (K Bd) as [K1 _]. specialize (K1 (Rle_refl _)). rewrite <- cos_PI2 in L. 
    assert (cos (PI / 2) < cos (acos (dot (vec_of p) (vec_of ctr)))) by (apply cos_decreasing_1; lra). lra. }
  destruct HW as (_ & _ & H3 & _). pose proof (H3 _ _ _ E) as Ev.
  assert (D : forall i, In i [(x0, y0); (x1, y0); (x1, y1); (x0, y1)] -> exists g, 0 < g /\ let v := vec_of (pixelToSky w i) in
       0 < 1 - kap * (X (fst i) * X (fst i) + Y (snd i) * Y (snd i)) /\
       g * dot v (vec_of ctr) = 1 - kap * (X (fst i) * X (fst i) + Y (snd i) * Y (snd i)) /\ g * dot v a = X (fst i) /\ g * dot v b = Y (snd i)).
  { intros [p q] Hi. destruct (F p q) as (g & Hg & G1 & G2 & G3). exists g. cbn [fst snd]. split; [exact Hg|]. cbv zeta. split; [|auto].
    rewrite <- G1. apply Rmult_lt_0_compat; [exact Hg|]. apply Hd, Hsep, Hi. }
  unfold sky_polygon. cbn [map region_contains].
  destruct (D (x0, y0) ltac:(cbn; tauto)) as (g0 & Hg0 & Q0 & K0 & A0 & B0). destruct (D (x1, y0) ltac:(cbn; tauto)) as (g1 & Hg1 & Q1 & K1 & A1 & B1).
  destruct (D (x1, y1) ltac:(cbn; tauto)) as (g2 & Hg2 & Q2 & K2 & A2 & B2). destruct (D (x0, y1) ltac:(cbn; tauto)) as (g3 & Hg3 & Q3 & K3 & A3 & B3).
  cbn [fst snd] in *. destruct (F x y) as (g & Hg & G1 & G2 & G3). rewrite Ev in G1, G2, G3.
  set (v0 := vec_of (pixelToSky w (x0, y0))) in *. set (v1 := vec_of (pixelToSky w (x1, y0))) in *.
  set (v2 := vec_of (pixelToSky w (x1, y1))) in *. set (v3 := vec_of (pixelToSky w (x0, y1))) in *. set (v := vec_of c) in *. set (k := vec_of ctr) in *.
  clearbody v0 v1 v2 v3 v k. clear D Hsep Hd F E H3 Ev.
  assert (frac : forall lo hi z, lo < hi -> lo <= z <= hi -> exists l, 0 <= l <= 1 /\ z = (1 - l) * lo + l * hi).
  { intros lo hi z H1 H2. exists ((z - lo) / (hi - lo)). split; [|field; lra]. split.
    - apply Rmult_le_pos; [lra|apply Rlt_le, Rinv_0_lt_compat; lra].
    - apply (Rmult_le_reg_r (hi - lo)); [lra|]. unfold Rdiv. rewrite Rmult_assoc, Rinv_l by lra. lra. }
  destruct (frac x0 x1 x Hx Hx') as (l & Hl & El). destruct (frac y0 y1 y Hy Hy') as (m & Hm & Em).
  destruct (frac x0 x1 cx Hx Hcx) as (l0 & Hl0 & El0). destruct (frac y0 y1 cy Hy Hcy) as (m0 & Hm0 & Em0). clear frac.
  set (s0 := 1 - kap * (X x0 * X x0 + Y y0 * Y y0)) in *. set (s1 := 1 - kap * (X x1 * X x1 + Y y0 * Y y0)) in *.
  set (s2 := 1 - kap * (X x1 * X x1 + Y y1 * Y y1)) in *. set (s3 := 1 - kap * (X x0 * X x0 + Y y1 * Y y1)) in *.
  (* the corners with the weights of the reference pixel give a positive multiple of the centre *)
  set (T := (1 - l0) * (1 - m0) * s0 + l0 * (1 - m0) * s1 + l0 * m0 * s2 + (1 - l0) * m0 * s3).
  assert (HT : 0 < T).
  { unfold T. clearbody s0 s1 s2 s3.
    assert (0 <= (1 - l0) * (1 - m0)) by (apply Rmult_le_pos; lra). assert (0 <= l0 * (1 - m0)) by (apply Rmult_le_pos; lra).
    assert (0 <= l0 * m0) by (apply Rmult_le_pos; lra). assert (0 <= (1 - l0) * m0) by (apply Rmult_le_pos; lra).
    set (t0 := (1 - l0) * (1 - m0)) in *. set (t1 := l0 * (1 - m0)) in *. set (t2 := l0 * m0) in *. set (t3 := (1 - l0) * m0) in *.
    assert (Hsum : t0 + t1 + t2 + t3 = 1) by (unfold t0, t1, t2, t3; ring). clearbody t0 t1 t2 t3.
    set (mn := Rmin (Rmin s0 s1) (Rmin s2 s3)).
    assert (Hmn : 0 < mn /\ mn <= s0 /\ mn <= s1 /\ mn <= s2 /\ mn <= s3).
    { unfold mn. split; [repeat apply Rmin_glb_lt; assumption|].
      pose proof (Rmin_l (Rmin s0 s1) (Rmin s2 s3)). pose proof (Rmin_r (Rmin s0 s1) (Rmin s2 s3)).
      pose proof (Rmin_l s0 s1). pose proof (Rmin_r s0 s1). pose proof (Rmin_l s2 s3). pose proof (Rmin_r s2 s3). lra. }
    clearbody mn. destruct Hmn as (M0 & M1 & M2 & M3 & M4).
    assert (mn * (t0 + t1 + t2 + t3) <= t0 * s0 + t1 * s1 + t2 * s2 + t3 * s3); [|rewrite Hsum in *; lra].
    assert (t0 * mn <= t0 * s0) by (apply Rmult_le_compat_l; lra). assert (t1 * mn <= t1 * s1) by (apply Rmult_le_compat_l; lra).
    assert (t2 * mn <= t2 * s2) by (apply Rmult_le_compat_l; lra). assert (t3 * mn <= t3 * s3) by (apply Rmult_le_compat_l; lra). lra. }
  (* what the bilinear weights of the position lack in the direction of the centre *)
  set (e := 1 - kap * (X x * X x + Y y * Y y) - ((1 - l) * (1 - m) * s0 + l * (1 - m) * s1 + l * m * s2 + (1 - l) * m * s3)).
  assert (He : 0 <= e).
  { assert (E1 : e = kap * (scale * scale) * (l * (1 - l) * ((x1 - x0) * (x1 - x0)) + m * (1 - m) * ((y1 - y0) * (y1 - y0)))).
    { unfold e, s0, s1, s2, s3. rewrite El, Em. ring. }
    rewrite E1. assert (0 <= kap) by (destruct kap_cases as [-> | ->]; lra).
    apply Rmult_le_pos; [apply Rmult_le_pos; [assumption|nra]|].
    apply Rplus_le_le_0_compat; apply Rmult_le_pos; nra. }
  set (r := e / T). assert (Hr : 0 <= r) by (unfold r; apply Rmult_le_pos; [exact He|apply Rlt_le, Rinv_0_lt_compat; exact HT]).
  assert (ErT : r * T = e) by (unfold r; field; lra).
  exists [((1 - l) * (1 - m) + r * ((1 - l0) * (1 - m0))) * g0 / g; (l * (1 - m) + r * (l0 * (1 - m0))) * g1 / g;
          (l * m + r * (l0 * m0)) * g2 / g; ((1 - l) * m + r * ((1 - l0) * m0)) * g3 / g].
  split; [reflexivity|]. split.
  { assert (Z : forall p q h, 0 <= p -> 0 <= q -> 0 < h -> 0 <= (p + r * q) * h / g).
    { intros p q h Hp Hq Hh. apply Rmult_le_pos; [|apply Rlt_le, Rinv_0_lt_compat; exact Hg]. apply Rmult_le_pos; [|lra]. pose proof (Rmult_le_pos r q Hr Hq). lra. }
    repeat (apply Forall_cons; [apply Z; [nra|nra|assumption]|]). apply Forall_nil. }
  cbn [combination].
  assert (L : forall n, dot (vadd (vscale (((1 - l) * (1 - m) + r * ((1 - l0) * (1 - m0))) * g0 / g) v0) (vadd (vscale ((l * (1 - m) + r * (l0 * (1 - m0))) * g1 / g) v1)
       (vadd (vscale ((l * m + r * (l0 * m0)) * g2 / g) v2) (vadd (vscale (((1 - l) * m + r * ((1 - l0) * m0)) * g3 / g) v3) (0, 0, 0))))) n
     = (((1 - l) * (1 - m) + r * ((1 - l0) * (1 - m0))) * (g0 * dot v0 n) + (l * (1 - m) + r * (l0 * (1 - m0))) * (g1 * dot v1 n)
       + (l * m + r * (l0 * m0)) * (g2 * dot v2 n) + ((1 - l) * m + r * ((1 - l0) * m0)) * (g3 * dot v3 n)) / g).
  { intros n. rewrite !dot_vadd_l, !dot_vscale_l. replace (dot (0, 0, 0) n) with 0 by (unfold dot, vx, vy, vz; cbn; ring). field. lra. }
  assert (Dv : forall q z, g * q = z -> q = z / g) by (intros q z <-; field; lra).
  apply (parseval_eq k a b _ _ P); rewrite L.
  - apply Dv. rewrite G1, K0, K1, K2, K3.
    transitivity (r * T + ((1 - l) * (1 - m) * s0 + l * (1 - m) * s1 + l * m * s2 + (1 - l) * m * s3)).
    + rewrite ErT. unfold e. ring.
    + unfold T. ring.
  - apply Dv. rewrite G2, A0, A1, A2, A3.
    transitivity (scale * ((1 - l) * x0 + l * x1 - cx) + r * scale * ((1 - l0) * x0 + l0 * x1 - cx)); [rewrite <- El, <- El0; ring|ring].
  - apply Dv. rewrite G3, B0, B1, B2, B3.
    transitivity (scale * ((1 - m) * y0 + m * y1 - cy) + r * scale * ((1 - m0) * y0 + m0 * y1 - cy)); [rewrite <- Em, <- Em0; ring|ring].
Qed.

Lemma sep_dot p : separation p ctr < PI / 2 -> 0 < dot (vec_of p) (vec_of ctr).
Proof.
  intros Hp. pose proof PI_RGT_0. destruct (Rlt_le_dec 0 (dot (vec_of p) (vec_of ctr))) as [L|L]; [exact L|exfalso].
  pose proof (separation_cos p ctr (separation p ctr)) as K. unfold separation in K, Hp. pose proof (acos_bound (dot (vec_of p) (vec_of ctr))) as Bd.
  destruct (K Bd) as [K1 _]. specialize (K1 (Rle_refl _)). rewrite <- cos_PI2 in L.
  assert (cos (PI / 2) < cos (acos (dot (vec_of p) (vec_of ctr)))) by (apply cos_decreasing_1; lra). lra.
Qed.

(** The middle of the great circle between two corners of a rectangle lies outside the rectangle (stereographic projection). *)
Lemma stg_middle x0 x1 ye sg dY : kap = / 4 -> x0 < x1 -> sg = 1 \/ sg = -1 -> sg * (ye - cy) = dY -> 2 / 1000 <= dY ->
  separation (pixelToSky w (x0, ye)) ctr < PI / 2 -> separation (pixelToSky w (x1, ye)) ctr < PI / 2 ->
  64 / 1000 < (x1 - x0) * (x1 - x0) * dY * (scale * scale) ->
  exists c n0 n1 x y, 0 <= n0 /\ 0 <= n1
    /\ vec_of c = vadd (vscale n0 (vec_of (pixelToSky w (x0, ye)))) (vscale n1 (vec_of (pixelToSky w (x1, ye))))
    /\ skyToPixel w c = Pix x y /\ dY + 1 / 1000 < sg * (y - cy).
Proof.
  intros Hkap Hx Hsg EdY HdY Hp Hq Hbig. destruct zen_frame as (a & b & P & _ & _ & F).
  apply sep_dot in Hp, Hq. destruct (F x0 ye) as (g0 & Hg0 & K0 & A0 & B0). destruct (F x1 ye) as (g1 & Hg1 & K1 & A1 & B1).
  pose proof (vec_of_unit (pixelToSky w (x0, ye))) as U0. 
  set (v0 := vec_of (pixelToSky w (x0, ye))) in *. set (v1 := vec_of (pixelToSky w (x1, ye))) in *. set (k := vec_of ctr) in *.
  set (u := vadd (vscale g0 v0) (vscale g1 v1)).
  assert (Du : forall n, dot u n = g0 * dot v0 n + g1 * dot v1 n) by (intros n; unfold u; rewrite dot_vadd_l, !dot_vscale_l; reflexivity).
  assert (S0 : 0 < g0 * dot v0 k) by (apply Rmult_lt_0_compat; assumption). assert (S1 : 0 < g1 * dot v1 k) by (apply Rmult_lt_0_compat; assumption).
  assert (Uk : 0 < dot u k) by (rewrite Du; lra).
  assert (Huu : 0 < dot u u) by (rewrite (P u u); pose proof (Rle_0_sqr (dot u a)) as Q1; pose proof (Rle_0_sqr (dot u b)) as Q2; unfold Rsqr in *; nra).
  set (N := sqrt (dot u u)). assert (HN : 0 < N) by (apply sqrt_lt_R0; exact Huu).
  assert (NN : N * N = dot u u) by (apply sqrt_sqrt; lra).
  set (n := vscale (/ N) u). assert (Dn : forall z, dot n z = / N * dot u z) by (intros z; unfold n; apply dot_vscale_l).
  assert (Un : unit_vec n) by (unfold unit_vec; rewrite Dn, dot_comm, Dn, <- NN; field; lra).
  exists (coord_of_unit n), (g0 / N), (g1 / N). pose proof (vec_of_coord n Un) as Ev.
  assert (Kn : 0 < dot n k) by (rewrite Dn; apply Rmult_lt_0_compat; [now apply Rinv_0_lt_compat|exact Uk]).
  destruct HW as (_ & _ & H3 & _ & H5).
  destruct (proj2 (H5 (coord_of_unit n))) as (x & y & E).
  { pose proof PI_RGT_0. assert (limit = PI) as ->. { destruct Hkind as [(_ & _ & Z)|(_ & Z & _)]; [exfalso; rewrite Hkap in Z; lra|exact Z]. }
    unfold separation. rewrite Ev. fold k. destruct (Rlt_le_dec (acos (dot n k)) PI) as [L|L]; [exact L|exfalso].
    pose proof (acos_bound (dot n k)). assert (Q : acos (dot n k) = PI) by lra.
    pose proof (dot_bound n k Un (vec_of_unit ctr)) as Bd. pose proof (cos_acos (dot n k) Bd) as C. rewrite Q, cos_PI in C. lra. }
  exists x, y. split; [apply Rmult_le_pos; [lra|apply Rlt_le, Rinv_0_lt_compat; lra]|]. split; [apply Rmult_le_pos; [lra|apply Rlt_le, Rinv_0_lt_compat; lra]|].
  split. { rewrite Ev. unfold n, u, vscale, vadd, vx, vy, vz. cbn [fst snd]. repeat apply f_equal2; field; lra. }
  split; [exact E|]. destruct (F x y) as (g & Hg & G1 & G2 & G3). rewrite (H3 _ _ _ E), Ev in G1, G2, G3.
  rewrite Dn, Du in G1, G2, G3. set (la := g * / N). assert (Hla : 0 < la) by (apply Rmult_lt_0_compat; [exact Hg|now apply Rinv_0_lt_compat]).
  assert (G1' : la * (g0 * dot v0 k + g1 * dot v1 k) = 1 - kap * (X x * X x + Y y * Y y)) by (rewrite <- G1; unfold la; ring).
  assert (G2' : la * (g0 * dot v0 a + g1 * dot v1 a) = X x) by (rewrite <- G2; unfold la; ring).
  assert (G3' : la * (g0 * dot v0 b + g1 * dot v1 b) = Y y) by (rewrite <- G3; unfold la; ring).
  rewrite K0, K1 in G1'. rewrite A0, A1 in G2'. rewrite B0, B1 in G3'. rewrite K0 in S0. rewrite K1 in S1. rewrite Hkap in *.
  rewrite <- G2', <- G3' in G1'.
  assert (Sg : sg * sg = 1) by (destruct Hsg as [-> | ->]; lra).
  set (Ed := dY * scale). assert (HE : 0 < Ed) by (apply Rmult_lt_0_compat; lra).
  assert (EY : Y ye = sg * Ed) by (unfold Ed; rewrite <- EdY; transitivity (sg * sg * ((ye - cy) * scale)); [rewrite Sg; ring|ring]).
  assert (EYy : sg * Y y = 2 * la * Ed) by (rewrite <- G3', EY; transitivity (sg * sg * (2 * la * Ed)); [ring|rewrite Sg; ring]).
  rewrite EY in G1', S0, S1. replace (sg * Ed * (sg * Ed)) with (sg * sg * (Ed * Ed)) in * by ring.
  replace (la * (sg * Ed + sg * Ed) * (la * (sg * Ed + sg * Ed))) with (sg * sg * (4 * (la * la) * (Ed * Ed))) in G1' by ring. rewrite Sg in *.
  destruct (Rlt_le_dec (dY + 1 / 1000) (sg * (y - cy))) as [Q|Q]; [exact Q|exfalso].
  set (h := 2 * la). set (eta := 1 / 1000 / dY).
  assert (Heta : 0 < eta <= 1 / 2).
  { unfold eta. split; [apply Rdiv_lt_0_compat; lra|]. apply (Rmult_le_reg_r dY); [lra|]. unfold Rdiv at 1. rewrite Rmult_assoc, Rinv_l by lra. lra. }
  assert (Eeta : eta * dY = 1 / 1000) by (unfold eta; field; lra).
  assert (Hh : h <= 1 + eta).
  { apply (Rmult_le_reg_r dY); [lra|]. apply (Rmult_le_reg_r scale); [exact Hscale|].
    assert (h * dY * scale = sg * Y y) by (rewrite EYy; unfold h, Ed; ring). assert (sg * Y y <= (dY + 1 / 1000) * scale) by (rewrite <- Rmult_assoc; apply Rmult_le_compat_r; lra).
    rewrite Rmult_plus_distr_r, Rmult_1_l, Eeta. lra. }
  assert (Hh0 : 0 < h) by (unfold h; lra).
  set (X0 := X x0) in *. set (X1 := X x1) in *.
  assert (HW2 : 64 * eta < (X1 - X0) * (X1 - X0)).
  { apply (Rmult_lt_reg_r dY); [lra|]. rewrite Rmult_assoc, Eeta. unfold X0, X1.
    replace (((x1 - cx) * scale - (x0 - cx) * scale) * ((x1 - cx) * scale - (x0 - cx) * scale) * dY) with ((x1 - x0) * (x1 - x0) * dY * (scale * scale)) by ring. lra. }
  assert (G : h / 2 * (1 - / 4 * (X0 * X0 + 1 * (Ed * Ed)) + (1 - / 4 * (X1 * X1 + 1 * (Ed * Ed)))) + h * h / 16 * ((X0 + X1) * (X0 + X1) + 4 * (Ed * Ed)) = 1).
  { transitivity (la * (1 - / 4 * (X0 * X0 + 1 * (Ed * Ed)) + (1 - / 4 * (X1 * X1 + 1 * (Ed * Ed)))) + / 4 * (la * (X0 + X1) * (la * (X0 + X1)) + 1 * (4 * (la * la) * (Ed * Ed))));
      [unfold h; field|]. rewrite G1'. ring. }
  clearbody h eta X0 X1 Ed. clear - Heta Hh Hh0 HW2 G S0 S1.
  set (p := X0 * X0) in *. set (q := X1 * X1) in *. set (e := Ed * Ed) in *. set (z := (X0 + X1) * (X0 + X1)) in *.
  assert (Ez : z = 2 * p + 2 * q - (X1 - X0) * (X1 - X0)) by (unfold z, p, q; ring).
  assert (0 <= z) by (apply Rle_0_sqr). assert (0 <= e) by (apply Rle_0_sqr). assert (0 <= p) by (apply Rle_0_sqr). assert (0 <= q) by (apply Rle_0_sqr).
  set (W := (X1 - X0) * (X1 - X0)) in *. clearbody p q e z W.
  assert (M1 : h / 2 * (1 - / 4 * (p + 1 * e) + (1 - / 4 * (q + 1 * e))) <= (1 + eta) / 2 * (1 - / 4 * (p + 1 * e) + (1 - / 4 * (q + 1 * e)))) by (apply Rmult_le_compat_r; lra).
  assert (M2 : h * h / 16 * (z + 4 * e) <= (1 + eta) * (1 + eta) / 16 * (z + 4 * e)).
  { apply Rmult_le_compat_r; [lra|]. assert (h * h <= (1 + eta) * (1 + eta)) by (apply Rmult_le_compat; lra). lra. }
  assert (M3 : (1 + eta) * (1 + eta) / 16 * (z + 4 * e) <= (1 + 5 / 2 * eta) / 16 * (z + 4 * e)) by (apply Rmult_le_compat_r; nra).
  assert (eta * (z + 4 * e) <= eta * 16) by (apply Rmult_le_compat_l; lra).
  assert (eta * (p + q + 2 * e) >= 0) by (apply Rle_ge, Rmult_le_pos; lra).
  lra.
Qed.
(** Pixels on a row are no farther apart on the sky than in the plane. *)
Lemma zen_near x x' y d : (x' - x) * scale = d -> -1 <= d <= 1 ->
  1 - d * d <= dot (vec_of (pixelToSky w (x, y))) (vec_of (pixelToSky w (x', y))).
Proof.
  intros Ed Hd. destruct zen_frame as (a & b & P & _ & _ & F).
  destruct (F x y) as (g & Hg & K & A & B). destruct (F x' y) as (g' & Hg' & K' & A' & B').
  pose proof (vec_of_unit (pixelToSky w (x, y))) as U. pose proof (vec_of_unit (pixelToSky w (x', y))) as U'. unfold unit_vec in U, U'.
  set (v := vec_of (pixelToSky w (x, y))) in *. set (u := vec_of (pixelToSky w (x', y))) in *. set (k := vec_of ctr) in *.
  pose proof (P v u) as D. rewrite (P v v) in U. rewrite (P u u) in U'.
  assert (Bd : -1 <= dot v u <= 1) by (apply dot_bound; apply vec_of_unit).
  set (vk := dot v k) in *. set (va := dot v a) in *. set (vb := dot v b) in *. set (uk := dot u k) in *. set (ua := dot u a) in *. set (ub := dot u b) in *.
  set (dd := dot v u) in *. clearbody vk va vb uk ua ub dd v u k.
  set (x1 := X x) in *. set (y1 := Y y) in *. assert (Ex : X x' = x1 + d) by (unfold x1; rewrite <- Ed; ring). rewrite Ex in *. clearbody x1 y1.
  assert (G : g * g = (1 - kap * (x1 * x1 + y1 * y1)) * (1 - kap * (x1 * x1 + y1 * y1)) + x1 * x1 + y1 * y1).
  { rewrite <- K, <- A, <- B. transitivity (g * g * (vk * vk + va * va + vb * vb)); [rewrite U; ring|ring]. }
  assert (G' : g' * g' = (1 - kap * ((x1 + d) * (x1 + d) + y1 * y1)) * (1 - kap * ((x1 + d) * (x1 + d) + y1 * y1)) + (x1 + d) * (x1 + d) + y1 * y1).
  { rewrite <- K', <- A', <- B'. transitivity (g' * g' * (uk * uk + ua * ua + ub * ub)); [rewrite U'; ring|ring]. }
  assert (N : g * g' * dd = (1 - kap * (x1 * x1 + y1 * y1)) * (1 - kap * ((x1 + d) * (x1 + d) + y1 * y1)) + x1 * (x1 + d) + y1 * y1).
  { rewrite <- K, <- K', <- A', <- A. rewrite <- B at 1. rewrite <- B'. rewrite D. ring. }
  clear - Hd Hg Hg' Bd G G' N Hkind.
  assert (Hk : kap = 0 \/ kap = / 4) by (destruct Hkind as [(_ & _ & ->)|(_ & _ & ->)]; auto). clear Hkind.
  pose proof (Rle_0_sqr x1) as S1. pose proof (Rle_0_sqr y1) as S2. pose proof (Rle_0_sqr (x1 + d)) as S3. pose proof (Rle_0_sqr d) as S4. unfold Rsqr in *.
  destruct Hk as [-> | ->].
  - assert (Nn : 0 <= g * g' * dd). { rewrite N. assert (0 <= (2 * x1 + d) * (2 * x1 + d)) by (apply Rle_0_sqr). assert (d * d <= 1) by nra. lra. }
    assert (Hdd : 0 <= dd). { destruct (Rle_lt_dec 0 dd) as [L|L]; [exact L|exfalso]. assert (0 < g * g') by (apply Rmult_lt_0_compat; assumption). nra. }
    assert (E : g * g * (g' * g') * (1 - dd * dd) = d * d * (1 + y1 * y1)).
    { transitivity (g * g * (g' * g') - (g * g' * dd) * (g * g' * dd)); [ring|]. rewrite N, G, G'. ring. }
    assert (L : d * d * (1 + y1 * y1) <= g * g * (g' * g') * (d * d)).
    { rewrite G, G'. set (p := 1 + y1 * y1). assert (Hp : 1 <= p) by (unfold p; lra).
      replace ((1 - 0 * (x1 * x1 + y1 * y1)) * (1 - 0 * (x1 * x1 + y1 * y1)) + x1 * x1 + y1 * y1) with (p + x1 * x1) by (unfold p; ring).
      replace ((1 - 0 * ((x1 + d) * (x1 + d) + y1 * y1)) * (1 - 0 * ((x1 + d) * (x1 + d) + y1 * y1)) + (x1 + d) * (x1 + d) + y1 * y1) with (p + (x1 + d) * (x1 + d)) by (unfold p; ring).
      rewrite (Rmult_comm (d * d)). apply Rmult_le_compat_r; [exact S4|]. clearbody p.
      apply Rle_trans with (p * 1); [lra|]. apply Rmult_le_compat; lra. }
    assert (Gp : 0 < g * g * (g' * g')) by (repeat apply Rmult_lt_0_compat; assumption).
    assert (1 - dd * dd <= d * d). { apply (Rmult_le_reg_l (g * g * (g' * g'))); [exact Gp|]. lra. }
    nra.
  - set (rho := x1 * x1 + y1 * y1) in *. set (rho' := (x1 + d) * (x1 + d) + y1 * y1) in *.
    assert (Gr : g = 1 + rho / 4). { apply Rsqr_inj; [lra|unfold rho; lra|]. unfold Rsqr. rewrite G. unfold rho. field. }
    assert (Gr' : g' = 1 + rho' / 4). { apply Rsqr_inj; [lra|unfold rho'; lra|]. unfold Rsqr. rewrite G'. unfold rho'. field. }
    assert (E : g * g' * (1 - dd) = d * d / 2). { transitivity (g * g' - g * g' * dd); [ring|]. rewrite N, Gr, Gr'. unfold rho, rho'. field. }
    assert (L : 1 <= g * g'). { rewrite Gr, Gr'. rewrite <- (Rmult_1_l 1). apply Rmult_le_compat; unfold rho, rho'; lra. }
    assert (1 * (1 - dd) <= g * g' * (1 - dd)) by (apply Rmult_le_compat_r; lra). lra.
Qed.
End Zen.
