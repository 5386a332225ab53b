(** Lemmas on spherical geometry. *)
From Coq Require Import Reals Lra Lia.
From Flocq Require Import Raux.
Require Import Verif.Py Verif.TractInfo Verif.Rings Verif.RingsSpec Verif.RingsProofs Verif.Sphere.
Open Scope R_scope.

Lemma sqr_sum_zero a b : a * a + b * b = 0 -> a = 0 /\ b = 0.
Proof.
  intros H. pose proof (Rle_0_sqr a) as Ha. pose proof (Rle_0_sqr b) as Hb. unfold Rsqr in *.
  split; apply Rsqr_0_uniq; unfold Rsqr; lra.
Qed.

(** [atan2] is the angle of the point. *)
Lemma atan2_polar y x r : x * x + y * y = r * r -> 0 < r ->
  r * cos (atan2 y x) = x /\ r * sin (atan2 y x) = y.
Proof.
  intros H Hr. unfold atan2.
  assert (K : forall x, x <> 0 -> x * x + y * y = r * r ->
     cos (atan (y / x)) = Rabs x / r /\ sin (atan (y / x)) = (y / x) * (Rabs x / r)).
  { clear x H. intros x Hx H. rewrite cos_atan, sin_atan.
    assert (E : sqrt (1 + (y / x)²) = r / Rabs x).
    { apply Rsqr_inj.
      - apply sqrt_pos.
      - apply Rlt_le, Rmult_lt_0_compat; [lra|]. apply Rinv_0_lt_compat, Rabs_pos_lt, Hx.
      - rewrite Rsqr_sqrt by (pose proof (Rle_0_sqr (y / x)); lra).
        rewrite !Rsqr_div'. rewrite <- Rsqr_abs. unfold Rsqr. field_simplify_eq; [|exact Hx]. lra. }
    rewrite E. pose proof (Rabs_pos_lt x Hx). split; field; lra. }
  destruct (Rlt_bool_spec 0 x) as [Hx|Hx].
  - destruct (K x ltac:(lra) H) as [-> ->]. rewrite Rabs_pos_eq by lra. split; field; lra.
  - destruct (Rlt_bool_spec x 0) as [Hx'|Hx'].
    + destruct (K x ltac:(lra) H) as [Kc Ks]. rewrite Rabs_left in Kc, Ks by lra.
      destruct (Rle_bool_spec 0 y).
      * rewrite neg_cos, neg_sin, Kc, Ks. split; field; lra.
      * replace (atan (y / x) - PI) with (- (PI - atan (y / x))) by ring.
        rewrite cos_neg, sin_neg.
        replace (PI - atan (y / x)) with (- atan (y / x) + PI) by ring.
        rewrite neg_cos, neg_sin, cos_neg, sin_neg, Kc, Ks. split; field; lra.
    + assert (x = 0) by lra. subst x.
      assert (Hy : y = r \/ y = - r).
      { assert (y * y = r * r) by lra. destruct (Rtotal_order 0 y) as [Hy|[Hy|Hy]].
        - left. apply Rsqr_inj; unfold Rsqr; lra.
        - subst y. nra.
        - right. assert (- y = r) by (apply Rsqr_inj; unfold Rsqr; lra). lra. }
      destruct (Rlt_bool_spec 0 y).
      * rewrite cos_PI2, sin_PI2. split; lra.
      * destruct (Rlt_bool_spec y 0); [|lra]. rewrite cos_neg, sin_neg, cos_PI2, sin_PI2. split; lra.
Qed.

Lemma cos_wrap a : cos (wrap a) = cos a.
Proof.
  unfold wrap. generalize (Zfloor (a / (2 * PI))). intros n.
  assert (K : forall (k : nat) x, cos (x - INR k * (2 * PI)) = cos x).
  { intros k x. rewrite <- (cos_period (x - INR k * (2 * PI)) k). f_equal. ring. }
  destruct n as [|p|p].
  - f_equal. ring.
  - rewrite <- (positive_nat_Z p), <- INR_IZR_INZ. apply K.
  - change (Zneg p) with (- Zpos p)%Z. rewrite opp_IZR. rewrite <- (positive_nat_Z p), <- INR_IZR_INZ.
    rewrite <- (cos_period a (Pos.to_nat p)). f_equal. ring.
Qed.
Lemma sin_wrap a : sin (wrap a) = sin a.
Proof.
  unfold wrap. generalize (Zfloor (a / (2 * PI))). intros n.
  assert (K : forall (k : nat) x, sin (x - INR k * (2 * PI)) = sin x).
  { intros k x. rewrite <- (sin_period (x - INR k * (2 * PI)) k). f_equal. ring. }
  destruct n as [|p|p].
  - f_equal. ring.
  - rewrite <- (positive_nat_Z p), <- INR_IZR_INZ. apply K.
  - change (Zneg p) with (- Zpos p)%Z. rewrite opp_IZR. rewrite <- (positive_nat_Z p), <- INR_IZR_INZ.
    rewrite <- (sin_period a (Pos.to_nat p)). f_equal. ring.
Qed.

Lemma cs a : cos a * cos a + sin a * sin a = 1.
Proof. pose proof (sin2_cos2 a). unfold Rsqr in *. lra. Qed.

Lemma vec_of_unit c : unit_vec (vec_of c).
Proof.
  unfold unit_vec, dot, vec_of, vx, vy, vz; cbn. pose proof (cs (fst c)). pose proof (cs (snd c)).
  replace (cos (fst c) * cos (snd c) * (cos (fst c) * cos (snd c)) +
           sin (fst c) * cos (snd c) * (sin (fst c) * cos (snd c)) + sin (snd c) * sin (snd c))
    with ((cos (fst c) * cos (fst c) + sin (fst c) * sin (fst c)) * (cos (snd c) * cos (snd c)) + sin (snd c) * sin (snd c)) by ring.
  rewrite H. lra.
Qed.

Lemma unit_z v : unit_vec v -> -1 <= vz v <= 1.
Proof. unfold unit_vec, dot. intros H. split; nra. Qed.

Lemma vec_of_coord v : unit_vec v -> vec_of (coord_of_unit v) = v.
Proof.
  intros Hu. pose proof (unit_z v Hu) as Hz. unfold vec_of, coord_of_unit. cbn [fst snd].
  rewrite sin_asin by exact Hz. rewrite cos_asin by exact Hz.
  unfold unit_vec, dot in Hu. destruct v as [[x y] z]. unfold vx, vy, vz in *. cbn [fst snd] in *.
  assert (Hs : x * x + y * y = sqrt (1 - z²) * sqrt (1 - z²)).
  { rewrite sqrt_sqrt; unfold Rsqr; nra. }
  destruct (Req_bool_spec x 0) as [Ex|Ex]; destruct (Req_bool_spec y 0) as [Ey|Ey]; cbn [andb].
  - subst. assert (sqrt (1 - z²) = 0) as ->.
    { replace (1 - z²) with 0 by (unfold Rsqr; lra). apply sqrt_0. }
    rewrite !Rmult_0_r. reflexivity.
  - rewrite cos_wrap, sin_wrap. destruct (atan2_polar y x (sqrt (1 - z²)) Hs) as [A B].
    { apply sqrt_lt_R0. unfold Rsqr. nra. }
    rewrite Rmult_comm, A, Rmult_comm, B. reflexivity.
  - rewrite cos_wrap, sin_wrap. destruct (atan2_polar y x (sqrt (1 - z²)) Hs) as [A B].
    { apply sqrt_lt_R0. unfold Rsqr. nra. }
    rewrite Rmult_comm, A, Rmult_comm, B. reflexivity.
  - rewrite cos_wrap, sin_wrap. destruct (atan2_polar y x (sqrt (1 - z²)) Hs) as [A B].
    { apply sqrt_lt_R0. unfold Rsqr. nra. }
    rewrite Rmult_comm, A, Rmult_comm, B. reflexivity.
Qed.

Lemma coord_on_sphere v : on_sphere (coord_of_unit v).
Proof.
  unfold on_sphere, coord_of_unit. cbn [fst snd]. split.
  - destruct (_ && _)%bool.
    + pose proof PI_RGT_0; lra.
    + apply wrap_range.
  - pose proof (asin_bound (vz v)). lra.
Qed.

Lemma dot_comm a b : dot a b = dot b a.
Proof. unfold dot. ring. Qed.
Lemma dot_vadd_l a b c : dot (vadd a b) c = dot a c + dot b c.
Proof. unfold dot, vadd, vx, vy, vz; cbn; ring. Qed.
Lemma dot_vscale_l k a b : dot (vscale k a) b = k * dot a b.
Proof. unfold dot, vscale, vx, vy, vz; cbn; ring. Qed.

Lemma dot_bound a b : unit_vec a -> unit_vec b -> -1 <= dot a b <= 1.
Proof.
  unfold unit_vec, dot. destruct a as [[a1 a2] a3], b as [[b1 b2] b3]. unfold vx, vy, vz; cbn. intros Ha Hb.
  split.
  - pose proof (Rle_0_sqr (a1 + b1)); pose proof (Rle_0_sqr (a2 + b2)); pose proof (Rle_0_sqr (a3 + b3)). unfold Rsqr in *. lra.
  - pose proof (Rle_0_sqr (a1 - b1)); pose proof (Rle_0_sqr (a2 - b2)); pose proof (Rle_0_sqr (a3 - b3)). unfold Rsqr in *. lra.
Qed.

(** The local frame at a point. *)
Lemma frame c : unit_vec (east c) /\ unit_vec (north c) /\ dot (vec_of c) (east c) = 0
  /\ dot (vec_of c) (north c) = 0 /\ dot (east c) (north c) = 0.
Proof.
  pose proof (cs (fst c)) as A. pose proof (cs (snd c)) as B.
  unfold unit_vec, north, cross, east, vec_of, dot, vx, vy, vz; cbn [fst snd].
  set (c1 := cos (fst c)) in *. set (s1 := sin (fst c)) in *. set (c2 := cos (snd c)) in *. set (s2 := sin (snd c)) in *.
  split; [nra|]. split.
  - replace ((s1 * c2 * 0 - s2 * c1) * (s1 * c2 * 0 - s2 * c1) + (s2 * - s1 - c1 * c2 * 0) * (s2 * - s1 - c1 * c2 * 0) +
       (c1 * c2 * c1 - s1 * c2 * - s1) * (c1 * c2 * c1 - s1 * c2 * - s1))
      with (s2 * s2 * (c1 * c1 + s1 * s1) + (c1 * c1 + s1 * s1) * (c1 * c1 + s1 * s1) * (c2 * c2)) by ring.
    rewrite A. lra.
  - split; [ring|]. split; ring.
Qed.

Lemma offset_dots c b a :
  dot (offset_vec c b a) (vec_of c) = cos a
  /\ dot (offset_vec c b a) (east c) = sin a * cos b
  /\ dot (offset_vec c b a) (north c) = sin a * sin b
  /\ unit_vec (offset_vec c b a).
Proof.
  destruct (frame c) as (E1 & E2 & E3 & E4 & E5). pose proof (vec_of_unit c) as E0. unfold unit_vec in *.
  assert (D : forall v, dot (offset_vec c b a) v
     = cos a * dot (vec_of c) v + sin a * (cos b * dot (east c) v + sin b * dot (north c) v)).
  { intros v. unfold offset_vec. rewrite !dot_vadd_l, !dot_vscale_l, !dot_vadd_l, !dot_vscale_l. reflexivity. }
  assert (D1 : dot (offset_vec c b a) (vec_of c) = cos a).
  { rewrite D, E0, (dot_comm (east c)), (dot_comm (north c)), E3, E4. ring. }
  assert (D2 : dot (offset_vec c b a) (east c) = sin a * cos b).
  { rewrite D, E1, E3, (dot_comm (north c)), E5. ring. }
  assert (D3 : dot (offset_vec c b a) (north c) = sin a * sin b).
  { rewrite D, E2, E4, E5. ring. }
  split; [exact D1|]. split; [exact D2|]. split; [exact D3|].
  rewrite D, (dot_comm (vec_of c)), (dot_comm (east c)), (dot_comm (north c)), D1, D2, D3.
  replace (cos a * cos a + sin a * (cos b * (sin a * cos b) + sin b * (sin a * sin b)))
    with (cos a * cos a + sin a * sin a * (cos b * cos b + sin b * sin b)) by ring.
  rewrite cs. rewrite Rmult_1_r. apply cs.
Qed.

(** In a zenithal WCS a point at distance [a] in direction [b] from the centre has
    the same pixel position whatever the centre. *)
Lemma zenithal_offset factor scale ctr b a :
  zenithal factor scale ctr (sphere_offset ctr b a)
  = match factor (cos a) with
    | Some f => Pix (- scale * (f * (sin a * cos b))) (scale * (f * (sin a * sin b)))
    | None => PixNaN
    end.
Proof.
  unfold zenithal. destruct (offset_dots ctr b a) as (D1 & D2 & D3 & U).
  unfold sphere_offset. rewrite (vec_of_coord _ U), D1, D2, D3. reflexivity.
Qed.

(** Parseval in the local frame. *)
Lemma frame_norm c v : unit_vec v ->
  dot v (vec_of c) * dot v (vec_of c) + dot v (east c) * dot v (east c) + dot v (north c) * dot v (north c) = 1.
Proof.
  unfold unit_vec. intros <-. pose proof (cs (fst c)) as A. pose proof (cs (snd c)) as B.
  destruct v as [[x y] z].
  unfold north, cross, east, vec_of, dot, vx, vy, vz; cbn [fst snd].
  set (c1 := cos (fst c)) in *. set (s1 := sin (fst c)) in *. set (c2 := cos (snd c)) in *. set (s2 := sin (snd c)) in *.
  assert (N : c1 * c2 * c1 - s1 * c2 * - s1 = c2).
  { replace (c1 * c2 * c1 - s1 * c2 * - s1) with (c2 * (c1 * c1 + s1 * s1)) by ring. rewrite A. ring. }
  rewrite N.
  replace ((x * (c1 * c2) + y * (s1 * c2) + z * s2) * (x * (c1 * c2) + y * (s1 * c2) + z * s2) +
   (x * - s1 + y * c1 + z * 0) * (x * - s1 + y * c1 + z * 0) +
   (x * (s1 * c2 * 0 - s2 * c1) + y * (s2 * - s1 - c1 * c2 * 0) + z * c2) *
   (x * (s1 * c2 * 0 - s2 * c1) + y * (s2 * - s1 - c1 * c2 * 0) + z * c2))
  with ((x * c1 + y * s1) * (x * c1 + y * s1) * (c2 * c2 + s2 * s2) + z * z * (c2 * c2 + s2 * s2)
        + (x * - s1 + y * c1) * (x * - s1 + y * c1)) by ring.
  rewrite B.
  replace ((x * c1 + y * s1) * (x * c1 + y * s1) * 1 + z * z * 1 + (x * - s1 + y * c1) * (x * - s1 + y * c1))
    with ((c1 * c1 + s1 * s1) * (x * x + y * y) + z * z) by ring.
  rewrite A. ring.
Qed.

(** The inverse projections. *)
Lemma frame_dots c p q r v : v = vadd (vscale p (vec_of c)) (vadd (vscale q (east c)) (vscale r (north c))) ->
  dot v (vec_of c) = p /\ dot v (east c) = q /\ dot v (north c) = r /\ dot v v = p * p + q * q + r * r.
Proof.
  intros ->. destruct (frame c) as (E1 & E2 & E3 & E4 & E5). pose proof (vec_of_unit c) as E0. unfold unit_vec in *.
  assert (D : forall v, dot (vadd (vscale p (vec_of c)) (vadd (vscale q (east c)) (vscale r (north c)))) v
     = p * dot (vec_of c) v + q * dot (east c) v + r * dot (north c) v).
  { intros v. rewrite !dot_vadd_l, !dot_vscale_l. ring. }
  assert (D1 : dot (vadd (vscale p (vec_of c)) (vadd (vscale q (east c)) (vscale r (north c)))) (vec_of c) = p).
  { rewrite D, E0, (dot_comm (east c)), (dot_comm (north c)), E3, E4. ring. }
  assert (D2 : dot (vadd (vscale p (vec_of c)) (vadd (vscale q (east c)) (vscale r (north c)))) (east c) = q).
  { rewrite D, E1, E3, (dot_comm (north c)), E5. ring. }
  assert (D3 : dot (vadd (vscale p (vec_of c)) (vadd (vscale q (east c)) (vscale r (north c)))) (north c) = r).
  { rewrite D, E2, E4, E5. ring. }
  split; [exact D1|]. split; [exact D2|]. split; [exact D3|].
  rewrite D, (dot_comm (vec_of c)), (dot_comm (east c)), (dot_comm (north c)), D1, D2, D3. ring.
Qed.

Lemma stg_roundtrip scale ctr x y : scale <> 0 ->
  skyToPixel (stg_wcs scale ctr) (pixelToSky (stg_wcs scale ctr) (x, y)) = Pix x y.
Proof.
  intros Hs. cbn [stg_wcs skyToPixel pixelToSky fst snd]. unfold zenithal, stg_inverse.
  set (X := - (x / scale)). set (Y := y / scale).
  assert (HX : - scale * X = x) by (unfold X; field; exact Hs).
  assert (HY : scale * Y = y) by (unfold Y; field; exact Hs).
  set (r2 := X * X + Y * Y). assert (Hr : 0 <= r2) by (unfold r2; nra).
  set (v := vscale _ _).
  assert (Ev : v = vadd (vscale ((4 - r2) / (4 + r2)) (vec_of ctr))
                        (vadd (vscale (4 * X / (4 + r2)) (east ctr)) (vscale (4 * Y / (4 + r2)) (north ctr)))).
  { unfold v, vscale, vadd, vx, vy, vz; cbn. f_equal; [f_equal|]; field; lra. }
  destruct (frame_dots ctr _ _ _ v Ev) as (D1 & D2 & D3 & D4).
  assert (U : unit_vec v). { unfold unit_vec. rewrite D4. unfold r2. field. unfold r2 in Hr. lra. }
  rewrite (vec_of_coord v U), D1, D2, D3. unfold stg_factor.
  assert (H1 : 1 + (4 - r2) / (4 + r2) = 8 / (4 + r2)) by (field; lra).
  destruct (Rlt_bool_spec (-1) ((4 - r2) / (4 + r2))).
  - rewrite H1. f_equal.
    + rewrite <- HX. field; lra.
    + rewrite <- HY. field; lra.
  - assert (0 < 8 / (4 + r2)) by (apply Rmult_lt_0_compat; [lra|apply Rinv_0_lt_compat; lra]). lra.
Qed.

Lemma tan_roundtrip scale ctr x y : scale <> 0 ->
  skyToPixel (tan_wcs scale ctr) (pixelToSky (tan_wcs scale ctr) (x, y)) = Pix x y.
Proof.
  intros Hs. cbn [tan_wcs skyToPixel pixelToSky fst snd]. unfold zenithal, tan_inverse.
  set (X := - (x / scale)). set (Y := y / scale).
  assert (HX : - scale * X = x) by (unfold X; field; exact Hs).
  assert (HY : scale * Y = y) by (unfold Y; field; exact Hs).
  assert (Hr : 0 < 1 + X * X + Y * Y) by nra.
  pose proof (sqrt_lt_R0 _ Hr) as Hq. pose proof (sqrt_sqrt _ (Rlt_le _ _ Hr)) as Hqq.
  set (q := sqrt _) in *.
  set (v := vscale _ _).
  assert (Ev : v = vadd (vscale (/ q) (vec_of ctr))
                        (vadd (vscale (X / q) (east ctr)) (vscale (Y / q) (north ctr)))).
  { unfold v, vscale, vadd, vx, vy, vz; cbn. f_equal; [f_equal|]; field; lra. }
  destruct (frame_dots ctr _ _ _ v Ev) as (D1 & D2 & D3 & D4).
  assert (U : unit_vec v).
  { unfold unit_vec. rewrite D4.
    replace (/ q * / q + X / q * (X / q) + Y / q * (Y / q)) with ((1 + X * X + Y * Y) * / (q * q)) by (field; lra).
    rewrite Hqq. field. lra. }
  rewrite (vec_of_coord v U), D1, D2, D3. unfold tan_factor.
  destruct (Rlt_bool_spec 0 (/ q)).
  - f_equal.
    + rewrite <- HX. field; lra.
    + rewrite <- HY. field; lra.
  - pose proof (Rinv_0_lt_compat q Hq). lra.
Qed.
