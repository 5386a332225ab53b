(** Sky polygons of tracts, patches and cells (C80). *)
From Coq Require Import Reals Lra Lia.
From Flocq Require Import Core.Raux.
Require Import Verif.Py Verif.Geom Verif.PatchInfo Verif.TractBuilder Verif.TractInfo Verif.Spec.
Require Import Verif.PatchProofs Verif.CellProofs Verif.TractProofs Verif.MainPatch Verif.MainCells Verif.MainTract.
Require Import Verif.Rings Verif.RingsSpec Verif.Sphere Verif.SphereProofs Verif.Region Verif.MapsProofs Verif.DodecaSpec Verif.HullProofs Verif.ProjSpec.
Require Import Verif.TractBox Verif.MainHull Verif.Examples.
Open Scope R_scope.

(** Three orthogonal functionals determine a vector. *)
Lemma basis_eq a b c u v : det a b c <> 0 -> dot a u = dot a v -> dot b u = dot b v -> dot c u = dot c v -> u = v.
Proof.
  intros H Ha Hb Hc.
  assert (K : forall w : vec, dot a w = 0 -> dot b w = 0 -> dot c w = 0 -> det a b c * vx w = 0 /\ det a b c * vy w = 0 /\ det a b c * vz w = 0).
  { intros w A B C. destruct a as [[a1 a2] a3], b as [[b1 b2] b3], c as [[c1 c2] c3], w as [[w1 w2] w3].
    unfold det, cross, dot, vx, vy, vz in *. cbn [fst snd] in *. split; [|split].
    - transitivity ((a1 * w1 + a2 * w2 + a3 * w3) * (b2 * c3 - b3 * c2) + (b1 * w1 + b2 * w2 + b3 * w3) * (c2 * a3 - c3 * a2) + (c1 * w1 + c2 * w2 + c3 * w3) * (a2 * b3 - a3 * b2)); [ring|rewrite A, B, C; ring].
    - transitivity ((a1 * w1 + a2 * w2 + a3 * w3) * (b3 * c1 - b1 * c3) + (b1 * w1 + b2 * w2 + b3 * w3) * (c3 * a1 - c1 * a3) + (c1 * w1 + c2 * w2 + c3 * w3) * (a3 * b1 - a1 * b3)); [ring|rewrite A, B, C; ring].
    - transitivity ((a1 * w1 + a2 * w2 + a3 * w3) * (b1 * c2 - b2 * c1) + (b1 * w1 + b2 * w2 + b3 * w3) * (c1 * a2 - c2 * a1) + (c1 * w1 + c2 * w2 + c3 * w3) * (a1 * b2 - a2 * b1)); [ring|rewrite A, B, C; ring]. }
  destruct (K (vadd u (vscale (-1) v))) as (X & Y & Z).
  1,2,3: rewrite dot_comm, dot_vadd_l, dot_vscale_l, 2(dot_comm _ a) || rewrite dot_comm, dot_vadd_l, dot_vscale_l, 2(dot_comm _ b) || rewrite dot_comm, dot_vadd_l, dot_vscale_l, 2(dot_comm _ c); lra.
  destruct u as [[u1 u2] u3], v as [[v1 v2] v3]. unfold vadd, vscale, vx, vy, vz in *. cbn [fst snd] in *.
  apply Rmult_integral in X, Y, Z. apply vec_eq; [destruct X|destruct Y|destruct Z]; lra.
Qed.

Lemma area_edges B : (0 < dimx B)%Z -> (0 < dimy B)%Z ->
  box2d_corners (box2d_of_box B) = let x0 := IZR (minx B) - / 2 in let x1 := IZR (minx B + dimx B) - / 2 in
    let y0 := IZR (miny B) - / 2 in let y1 := IZR (miny B + dimy B) - / 2 in
    [(x0, y0); (x1, y0); (x1, y1); (x0, y1)].
Proof.
  intros Hx Hy. unfold box2d_of_box, box_isEmpty. destruct (Z.eqb_spec (dimx B) 0); [lia|]. destruct (Z.eqb_spec (dimy B) 0); [lia|].
  cbn [orb box2d_corners]. unfold maxx, maxy. cbv zeta. rewrite !minus_IZR. replace (IZR (minx B + dimx B) - 1 + / 2) with (IZR (minx B + dimx B) - / 2) by lra.
  replace (IZR (miny B + dimy B) - 1 + / 2) with (IZR (miny B + dimy B) - / 2) by lra. reflexivity.
Qed.

(** The sky polygon of a rectangle in the pixel plane. *)
Lemma gnomonic_rect w x0 x1 y0 y1 c : gnomonic w -> x0 < x1 -> y0 < y1 ->
  (region_contains (sky_polygon (map (pixelToSky w) [(x0, y0); (x1, y0); (x1, y1); (x0, y1)])) c
   <-> exists x y, skyToPixel w c = Pix x y /\ x0 <= x <= x1 /\ y0 <= y <= y1).
Proof.
  intros ((ctr & a & b & u0 & v0 & A1 & A2 & A3 & A4 & A5 & Hw) & Hinv) X Y. unfold sky_polygon.
  set (k := vec_of ctr) in *. pose proof (vec_of_unit ctr) as Uk. fold k in Uk. unfold unit_vec in Uk.
  assert (Pos : forall s x y, skyToPixel w s = Pix x y ->
     0 < dot (vec_of s) k /\ dot (vec_of s) a = (x - u0) * dot (vec_of s) k /\ dot (vec_of s) b = (y - v0) * dot (vec_of s) k).
  { intros s x y E. rewrite Hw in E. cbv zeta in E. destruct (Rlt_bool_spec 0 (dot (vec_of s) k)) as [P|P]; [|discriminate].
    injection E as Ex Ey. split; [exact P|]. split; [rewrite <- Ex|rewrite <- Ey]; field; lra. }
  set (P := fun x y => vec_of (pixelToSky w (x, y))).
  assert (HP : forall x y, 0 < dot (P x y) k /\ dot (P x y) a = (x - u0) * dot (P x y) k /\ dot (P x y) b = (y - v0) * dot (P x y) k).
  { intros x y. apply Pos, Hinv. }
  cbn [map]. fold (P x0 y0). fold (P x1 y0). fold (P x1 y1). fold (P x0 y1). clearbody P. clear Hinv.
  assert (D : det k a b <> 0).
  { intros H. pose proof (det_gram k a b) as G. rewrite H, Uk, (dot_comm k a), (dot_comm k b), A1, A2, A3, <- A4 in G. nra. }
  cbn [region_contains]. split.
  - intros (ws & Hl & Hf & E).
    destruct ws as [|w0 [|w1 [|w2 [|w3 [|? ?]]]]]; try discriminate Hl. clear Hl.
    inversion Hf as [|? ? F0 Hf1]; subst. inversion Hf1 as [|? ? F1 Hf2]; subst. inversion Hf2 as [|? ? F2 Hf3]; subst. inversion Hf3 as [|? ? F3 _]; subst. clear Hf Hf1 Hf2 Hf3.
    cbn [combination] in E.
    assert (L : forall n, dot (vec_of c) n = w0 * dot (P x0 y0) n + (w1 * dot (P x1 y0) n + (w2 * dot (P x1 y1) n + w3 * dot (P x0 y1) n))).
    { intros n. rewrite E, !dot_vadd_l, !dot_vscale_l. replace (dot (0, 0, 0) n) with 0 by (unfold dot, vx, vy, vz; cbn; ring). ring. }
    pose proof (L k) as Lk. pose proof (L a) as La. pose proof (L b) as Lb.
    destruct (HP x0 y0) as (P0 & Q0 & R0). destruct (HP x1 y0) as (P1 & Q1 & R1). destruct (HP x1 y1) as (P2 & Q2 & R2). destruct (HP x0 y1) as (P3 & Q3 & R3).
    assert (Dp : 0 < dot (vec_of c) k).
    { destruct (Rle_lt_dec (dot (vec_of c) k) 0) as [H|H]; [|exact H]. exfalso.
      assert (Z : w0 = 0 /\ w1 = 0 /\ w2 = 0 /\ w3 = 0).
      { assert (0 <= w0 * dot (P x0 y0) k) by (apply Rmult_le_pos; lra). assert (0 <= w1 * dot (P x1 y0) k) by (apply Rmult_le_pos; lra).
        assert (0 <= w2 * dot (P x1 y1) k) by (apply Rmult_le_pos; lra). assert (0 <= w3 * dot (P x0 y1) k) by (apply Rmult_le_pos; lra).
        assert (w0 * dot (P x0 y0) k = 0) as Z0 by lra. assert (w1 * dot (P x1 y0) k = 0) as Z1 by lra.
        assert (w2 * dot (P x1 y1) k = 0) as Z2 by lra. assert (w3 * dot (P x0 y1) k = 0) as Z3 by lra.
        apply Rmult_integral in Z0, Z1, Z2, Z3. split; [destruct Z0|split; [destruct Z1|split; [destruct Z2|destruct Z3]]]; lra. }
      destruct Z as (-> & -> & -> & ->). pose proof (L (vec_of c)) as Lc. rewrite (vec_of_unit c) in Lc. lra. }
    rewrite Hw. cbv zeta. rewrite Rlt_bool_true by exact Dp. eexists _, _. split; [reflexivity|].
    set (d := dot (vec_of c) k) in *.
    rewrite Q0, Q1, Q2, Q3 in La. rewrite R0, R1, R2, R3 in Lb.
    set (d0 := dot (P x0 y0) k) in *. set (d1 := dot (P x1 y0) k) in *. set (d2 := dot (P x1 y1) k) in *. set (d3 := dot (P x0 y1) k) in *.
    set (da := dot (vec_of c) a) in *. set (db := dot (vec_of c) b) in *. clearbody d d0 d1 d2 d3 da db.
    assert (G0 : 0 <= w0 * d0) by (apply Rmult_le_pos; lra). assert (G1 : 0 <= w1 * d1) by (apply Rmult_le_pos; lra).
    assert (G2 : 0 <= w2 * d2) by (apply Rmult_le_pos; lra). assert (G3 : 0 <= w3 * d3) by (apply Rmult_le_pos; lra).
    assert (N : forall m p q, p * d <= m -> m <= q * d -> p <= m / d <= q).
    { intros m p q Hp Hq. split; apply (Rmult_le_reg_r d); try assumption; unfold Rdiv; rewrite Rmult_assoc, Rinv_l by lra; lra. }
    assert (Ea : (x0 - u0) * d <= da <= (x1 - u0) * d).
    { rewrite La, Lk. set (g0 := w0 * d0) in *. set (g1 := w1 * d1) in *. set (g2 := w2 * d2) in *. set (g3 := w3 * d3) in *.
      replace (w0 * ((x0 - u0) * d0)) with ((x0 - u0) * g0) by (unfold g0; ring). replace (w1 * ((x1 - u0) * d1)) with ((x1 - u0) * g1) by (unfold g1; ring).
      replace (w2 * ((x1 - u0) * d2)) with ((x1 - u0) * g2) by (unfold g2; ring). replace (w3 * ((x0 - u0) * d3)) with ((x0 - u0) * g3) by (unfold g3; ring).
      clearbody g0 g1 g2 g3. split; nra. }
    assert (Eb : (y0 - v0) * d <= db <= (y1 - v0) * d).
    { rewrite Lb, Lk. set (g0 := w0 * d0) in *. set (g1 := w1 * d1) in *. set (g2 := w2 * d2) in *. set (g3 := w3 * d3) in *.
      replace (w0 * ((y0 - v0) * d0)) with ((y0 - v0) * g0) by (unfold g0; ring). replace (w1 * ((y0 - v0) * d1)) with ((y0 - v0) * g1) by (unfold g1; ring).
      replace (w2 * ((y1 - v0) * d2)) with ((y1 - v0) * g2) by (unfold g2; ring). replace (w3 * ((y1 - v0) * d3)) with ((y1 - v0) * g3) by (unfold g3; ring).
      clearbody g0 g1 g2 g3. split; nra. }
    destruct (N da _ _ (proj1 Ea) (proj2 Ea)). destruct (N db _ _ (proj1 Eb) (proj2 Eb)). lra.
  - intros (x & y & E & Hx & Hy). destruct (Pos c x y E) as (Dp & Da & Db).
    destruct (HP x0 y0) as (P0 & Q0 & R0). destruct (HP x1 y0) as (P1 & Q1 & R1). destruct (HP x1 y1) as (P2 & Q2 & R2). destruct (HP x0 y1) as (P3 & Q3 & R3).
    set (d := dot (vec_of c) k) in *. set (l := (x - x0) / (x1 - x0)). set (m := (y - y0) / (y1 - y0)).
    assert (Hl : 0 <= l <= 1). { unfold l. split; [apply Rmult_le_pos; [lra|apply Rlt_le, Rinv_0_lt_compat; lra]|]. apply (Rmult_le_reg_r (x1 - x0)); [lra|]. unfold Rdiv. rewrite Rmult_assoc, Rinv_l by lra. lra. }
    assert (Hm : 0 <= m <= 1). { unfold m. split; [apply Rmult_le_pos; [lra|apply Rlt_le, Rinv_0_lt_compat; lra]|]. apply (Rmult_le_reg_r (y1 - y0)); [lra|]. unfold Rdiv. rewrite Rmult_assoc, Rinv_l by lra. lra. }
    assert (El : x = x0 + l * (x1 - x0)) by (unfold l; field; lra). assert (Em : y = y0 + m * (y1 - y0)) by (unfold m; field; lra). clearbody l m.
    set (d0 := dot (P x0 y0) k) in *. set (d1 := dot (P x1 y0) k) in *. set (d2 := dot (P x1 y1) k) in *. set (d3 := dot (P x0 y1) k) in *.
    exists [d * ((1 - l) * (1 - m)) / d0; d * (l * (1 - m)) / d1; d * (l * m) / d2; d * ((1 - l) * m) / d3].
    split; [reflexivity|]. split.
    { assert (Z : forall s t, 0 <= s -> 0 < t -> 0 <= d * s / t) by (intros s t Hs Ht; apply Rmult_le_pos; [apply Rmult_le_pos; lra|apply Rlt_le, Rinv_0_lt_compat; lra]).
      repeat (apply Forall_cons; [apply Z; [nra|assumption]|]). apply Forall_nil. }
    cbn [combination].
    assert (L : forall n, dot n (vadd (vscale (d * ((1 - l) * (1 - m)) / d0) (P x0 y0)) (vadd (vscale (d * (l * (1 - m)) / d1) (P x1 y0))
       (vadd (vscale (d * (l * m) / d2) (P x1 y1)) (vadd (vscale (d * ((1 - l) * m) / d3) (P x0 y1)) (0, 0, 0)))))
       = d * ((1 - l) * (1 - m)) / d0 * dot (P x0 y0) n + (d * (l * (1 - m)) / d1 * dot (P x1 y0) n + (d * (l * m) / d2 * dot (P x1 y1) n + d * ((1 - l) * m) / d3 * dot (P x0 y1) n))).
    { intros n. rewrite dot_comm, !dot_vadd_l, !dot_vscale_l. replace (dot (0, 0, 0) n) with 0 by (unfold dot, vx, vy, vz; cbn; ring). ring. }
    apply (basis_eq k a b _ _ D); rewrite L, dot_comm.
    + fold d d0 d1 d2 d3. clearbody d0 d1 d2 d3. field. repeat split; lra.
    + rewrite Da, Q0, Q1, Q2, Q3, El. clearbody d0 d1 d2 d3. field. repeat split; lra.
    + rewrite Db, R0, R1, R2, R3, Em. clearbody d0 d1 d2 d3. field. repeat split; lra.
Qed.

(*@ C80: with a gnomonic WCS (any centre, reference pixel, pixel scale, rotation, handedness) the sky polygon of a
    non-empty pixel box contains exactly the coordinates whose pixel position is in the (closed) area of the box. *)
Lemma gnomonic_polygon_proof : forall w B c,
  gnomonic w -> (0 < dimx B)%Z -> (0 < dimy B)%Z ->
  (region_contains (sky_polygon (makeSkyPolygonFromBBox B w)) c
   <-> exists x y, skyToPixel w c = Pix x y /\ in_area x y B).
Proof.
  intros w B c Hw Hdx Hdy. unfold makeSkyPolygonFromBBox, in_area. rewrite (area_edges B Hdx Hdy). cbv zeta.
  apply gnomonic_rect; [exact Hw| |]; [apply IZR_lt in Hdx|apply IZR_lt in Hdy]; rewrite plus_IZR; lra.
Qed.

(*@ C80: getInnerSkyPolygon and getOuterSkyPolygon of a patch or a cell, with any gnomonic WCS given as argument or (without argument)
    the patch's or cell's own, contain exactly the coordinates whose position in that WCS is in the area of
    its inner or outer box, respectively. *)
Lemma gnomonic_polygon_wcs_proof :
  (forall (p : patch (wcs sphere)) arg s, let w := match arg with Some w => w | None => p_wcs p end in gnomonic w ->
     ((0 < dimx (p_inner p))%Z -> (0 < dimy (p_inner p))%Z ->
        (region_contains (sky_polygon (patch_getInnerSkyPolygon p arg)) s <-> exists x y, skyToPixel w s = Pix x y /\ in_area x y (p_inner p)))
     /\ ((0 < dimx (p_outer p))%Z -> (0 < dimy (p_outer p))%Z ->
        (region_contains (sky_polygon (patch_getOuterSkyPolygon p arg)) s <-> exists x y, skyToPixel w s = Pix x y /\ in_area x y (p_outer p))))
  /\ (forall (c : cell (wcs sphere)) arg s, let w := match arg with Some w => w | None => c_wcs c end in gnomonic w ->
     ((0 < dimx (c_inner c))%Z -> (0 < dimy (c_inner c))%Z ->
        (region_contains (sky_polygon (cell_getInnerSkyPolygon c arg)) s <-> exists x y, skyToPixel w s = Pix x y /\ in_area x y (c_inner c)))
     /\ ((0 < dimx (c_outer c))%Z -> (0 < dimy (c_outer c))%Z ->
        (region_contains (sky_polygon (cell_getOuterSkyPolygon c arg)) s <-> exists x y, skyToPixel w s = Pix x y /\ in_area x y (c_outer c)))).
Proof.
  split; intros o arg s w Hg; split; intros Hx Hy; apply gnomonic_polygon_proof; assumption.
Qed.

(** Areas of boxes are unions of the closed areas of pixels. *)
Definition at_pixel (x y : R) (px py : Z) : Prop := IZR px - / 2 <= x <= IZR px + / 2 /\ IZR py - / 2 <= y <= IZR py + / 2.
Lemma axis_pixel m d x : (0 < d)%Z -> IZR m - / 2 <= x <= IZR (m + d) - / 2 -> exists q, (m <= q < m + d)%Z /\ IZR q - / 2 <= x <= IZR q + / 2.
Proof.
  intros Hd Hx. destruct (Z_lt_le_dec (Zfloor (x + / 2)) (m + d)) as [H|H].
  - exists (Zfloor (x + / 2)). split; [split; [apply Zfloor_lub; lra|exact H]|].
    pose proof (Zfloor_lb (x + / 2)). pose proof (Zfloor_ub (x + / 2)). lra.
  - exists (m + d - 1)%Z. split; [lia|]. apply IZR_le in H. pose proof (Zfloor_lb (x + / 2)). rewrite minus_IZR. lra.
Qed.
Lemma area_pixels x y B : (0 < dimx B)%Z -> (0 < dimy B)%Z ->
  (in_area x y B <-> exists px py, in_box px py B /\ at_pixel x y px py).
Proof.
  intros Hx Hy. unfold in_area, in_box, at_pixel. split.
  - intros [Ax Ay]. destruct (axis_pixel _ _ _ Hx Ax) as (px & P1 & P2). destruct (axis_pixel _ _ _ Hy Ay) as (py & Q1 & Q2).
    exists px, py. repeat split; tauto || lia.
  - intros (px & py & [[P1 P2] [Q1 Q2]] & [P3 Q3]).
    apply IZR_le in P1, Q1. assert (IZR px + 1 <= IZR (minx B + dimx B)) by (rewrite <- plus_IZR; apply IZR_le; lia).
    assert (IZR py + 1 <= IZR (miny B + dimy B)) by (rewrite <- plus_IZR; apply IZR_le; lia). lra.
Qed.

Lemma polygon_pixels w B c : gnomonic w -> (0 < dimx B)%Z -> (0 < dimy B)%Z ->
  (region_contains (sky_polygon (makeSkyPolygonFromBBox B w)) c
   <-> exists x y px py, skyToPixel w c = Pix x y /\ at_pixel x y px py /\ in_box px py B).
Proof.
  intros Hw Hx Hy. rewrite (gnomonic_polygon_proof w B c Hw Hx Hy). split.
  - intros (x & y & E & A). apply area_pixels in A; [|assumption..]. destruct A as (px & py & A1 & A2). eauto 10.
  - intros (x & y & px & py & E & A1 & A2). exists x, y. split; [exact E|]. apply area_pixels; eauto.
Qed.
Lemma no_polygon c : ~ region_contains (sky_polygon []) c.
Proof.
  cbn. intros (ws & Hl & _ & E). destruct ws; [|discriminate]. cbn in E. pose proof (vec_of_unit c) as U. rewrite E in U.
  unfold unit_vec, dot, vx, vy, vz in U. cbn in U. lra.
Qed.

Lemma gnomonic_shift w dx dy : gnomonic w -> gnomonic (copyAtShiftedPixelOrigin w dx dy).
Proof.
  intros ((ctr & a & b & x0 & y0 & A1 & A2 & A3 & A4 & A5 & Hw) & Hi). split.
  - exists ctr, a, b, (x0 + dx), (y0 + dy). repeat (split; [assumption|]). intros c. cbn [skyToPixel copyAtShiftedPixelOrigin].
    rewrite Hw. cbv zeta. destruct (Rlt_bool _ _); [|reflexivity]. f_equal; ring.
  - intros x y. cbn [skyToPixel pixelToSky copyAtShiftedPixelOrigin fst snd]. rewrite Hi. f_equal; ring.
Qed.
Lemma build_shift {Sky} b oid id (ctr : Sky) verts overlap w corners samples b' t :
  tract_build b oid id ctr verts overlap w corners samples = Ok (b', t) -> exists dx dy, t_wcs t = copyAtShiftedPixelOrigin w dx dy.
Proof.
  unfold tract_build. destruct (include_all w samples); [|discriminate]. cbn [bind].
  destruct (setupPatches b _) as [[b1 [B n]]|]; [|discriminate]. cbn [bind]. unfold finalOrientation. cbv zeta iota.
  intros H. injection H as _ <-. cbn [t_wcs]. eauto.
Qed.
Lemma explicit_shift {Sky} offset b oid id (ctr : Sky) radius overlap w corners b' t :
  ExplicitTractInfo_init offset b oid id ctr radius overlap w corners = Ok (b', t) -> exists dx dy, t_wcs t = copyAtShiftedPixelOrigin w dx dy.
Proof.
  unfold ExplicitTractInfo_init. destruct (tract_build _ _ _ _ _ _ _ _ _) as [[b1 t1]|] eqn:E; [|discriminate]. cbn [bind].
  intros H. injection H as _ <-. cbn [t_wcs]. eapply build_shift; eauto.
Qed.

(*@ C80: the WCS of a tract of either kind is gnomonic if the one it was made from is; the WCSs meant are those of the
    TAN projection: a gnomonic projection (as in C71) that maps pixels to the sky and back. *)
Lemma gnomonic_tracts_proof :
  (forall offset b oid id ctr verts overlap w corners b' t,
     TractInfo_init offset b oid id ctr verts overlap w corners = Ok (b', t) -> gnomonic w -> gnomonic (t_wcs t))
  /\ (forall offset b oid id ctr radius overlap w corners b' t,
     ExplicitTractInfo_init offset b oid id ctr radius overlap w corners = Ok (b', t) -> gnomonic w -> gnomonic (t_wcs t))
  /\ (forall ctr w, projects tan_factor ctr w -> (forall x y, skyToPixel w (pixelToSky w (x, y)) = Pix x y) -> gnomonic w)
  /\ (forall scale ctr, 0 < scale -> gnomonic (tan_wcs scale ctr)).
Proof.
  assert (P : forall ctr w, projects tan_factor ctr w -> (forall x y, skyToPixel w (pixelToSky w (x, y)) = Pix x y) -> gnomonic w).
  { intros ctr w (a & b & A1 & A2 & A3 & A4 & A5 & Hw) Hi. split; [|exact Hi]. exists ctr, a, b, 0, 0. repeat (split; [assumption|]).
    intros c. rewrite Hw. unfold tan_factor. cbv zeta. destruct (Rlt_bool_spec 0 (dot (vec_of c) (vec_of ctr))); [|reflexivity].
    f_equal; field; lra. }
  split; [|split; [|split; [exact P|]]].
  - intros offset b oid id ctr verts overlap w corners b' t E Hw. destruct (build_shift _ _ _ _ _ _ _ _ _ _ _ E) as (dx & dy & ->). now apply gnomonic_shift.
  - intros offset b oid id ctr radius overlap w corners b' t E Hw. destruct (explicit_shift _ _ _ _ _ _ _ _ _ _ _ E) as (dx & dy & ->). now apply gnomonic_shift.
  - intros scale ctr Hs. apply (P ctr); [|intros; apply tan_roundtrip; lra].
    destruct (standard_projections_proof tan_factor scale 0 1 ctr Hs (or_introl eq_refl)) as (_ & H & _). exact H.
Qed.

(** Which pixel of a box a position belongs to. *)
Lemma round_at x : IZR (round_pixel x) - / 2 <= x <= IZR (round_pixel x) + / 2.
Proof. unfold round_pixel. pose proof (Zfloor_lb (x + / 2)). pose proof (Zfloor_ub (x + / 2)). lra. Qed.
Lemma pixel_at {Sky} (t : tract Sky) s px py : pixel_of t s px py -> exists x y, skyToPixel (t_wcs t) s = Pix x y /\ at_pixel x y px py.
Proof. intros (x & y & E & H1 & H2). exists x, y. split; [exact E|]. unfold at_pixel. lra. Qed.

(*@ C80: let a tract in use have a gnomonic WCS. Its outer sky polygon contains all coordinates that contains()
    accepts, and otherwise only coordinates exactly on its upper or right pixel edge. It is the union of the inner
    sky polygons of the patches, which have only edges in common. *)
Lemma gnomonic_patch_polygons_proof : forall offset c b t s,
  cfg_ok c -> in_use offset c b t -> gnomonic (t_wcs t) ->
  let outer := region_contains (sky_polygon (tract_getOuterSkyPolygon t)) s in
  let inner p := region_contains (sky_polygon (patch_getInnerSkyPolygon p None)) s in
  (tract_contains t s = Ok true -> outer)
  /\ (outer -> tract_contains t s = Ok true
        \/ exists x y, skyToPixel (t_wcs t) s = Pix x y /\ (x = IZR (dimx (t_bbox t)) - / 2 \/ y = IZR (dimy (t_bbox t)) - / 2))
  /\ (outer <-> exists i j p, tract_getPatchInfo b t (IxIndex2D i j) = Ok p /\ inner p)
  /\ (forall i j p i' j' p', tract_getPatchInfo b t (IxIndex2D i j) = Ok p -> tract_getPatchInfo b t (IxIndex2D i' j') = Ok p' ->
        inner p -> inner p' -> (i, j) <> (i', j') ->
        exists x y, skyToPixel (t_wcs t) s = Pix x y
          /\ (x = IZR (minx (p_inner p)) - / 2 \/ x = IZR (minx (p_inner p) + dimx (p_inner p)) - / 2
              \/ y = IZR (miny (p_inner p)) - / 2 \/ y = IZR (miny (p_inner p) + dimy (p_inner p)) - / 2)).
Proof.
  intros offset c b t s Hc Hu Hg outer inner.
  destruct (in_use_spec offset c b t Hc Hu) as (nx & ny & Hi & Hinit & Hnb & Hnt & Hnx & Hny & Hz & HB).
  destruct (cfg_inner_pos c Hc) as [Hw Hh].
  assert (Hpatch : forall i j p, tract_getPatchInfo b t (IxIndex2D i j) = Ok p ->
     (0 <= i < nx)%Z /\ (0 <= j < ny)%Z /\ p = the_patch c nx ny (t_wcs t) i j).
  { intros i j p H. exact (getPatchInfo_pair_inv c b nx ny _ i j p Hc Hi Hinit Hnb H). }
  assert (Hin : forall i j, inner (the_patch c nx ny (t_wcs t) i j) <-> exists x y px py, skyToPixel (t_wcs t) s = Pix x y /\ at_pixel x y px py
     /\ in_box px py (Box (i * fst (cfg_inner c)) (j * snd (cfg_inner c)) (fst (cfg_inner c)) (snd (cfg_inner c)))).
  { intros i j. unfold inner, patch_getInnerSkyPolygon. cbn [the_patch p_inner p_wcs]. apply polygon_pixels; [exact Hg|assumption|assumption]. }
  destruct (Z.eq_dec nx 0) as [Hn0|Hn0].
  { assert (ny = 0%Z) by tauto. subst nx ny.
    assert (No : ~ outer). { unfold outer, tract_getOuterSkyPolygon, makeSkyPolygonFromBBox. rewrite HB. apply no_polygon. }
    split; [|split; [tauto|split; [split; [tauto|]|]]].
    - intros H. apply contains_lemma in H. destruct H as (px & py & _ & H). rewrite HB in H. unfold in_box in H. cbn in H. lia.
    - intros (i & j & p & H & _). apply Hpatch in H. lia.
    - intros i j p i' j' p' H. apply Hpatch in H. lia. }
  assert (Pnx : (0 < nx * fst (cfg_inner c))%Z) by nia. assert (Pny : (0 < ny * snd (cfg_inner c))%Z) by (assert (ny <> 0%Z) by tauto; nia).
  assert (Hout : outer <-> exists x y px py, skyToPixel (t_wcs t) s = Pix x y /\ at_pixel x y px py /\ in_box px py (t_bbox t)).
  { unfold outer, tract_getOuterSkyPolygon. apply polygon_pixels; [exact Hg|rewrite HB; assumption|rewrite HB; assumption]. }
  split; [|split; [|split]].
  - intros H. apply contains_lemma in H. destruct H as (px & py & H1 & H2). destruct (pixel_at _ _ _ _ H1) as (x & y & E & A).
    apply Hout. eauto 10.
  - intros H. apply Hout in H. destruct H as (x & y & px & py & E & [[A1 A2] [A3 A4]] & Hb).
    destruct (Req_dec x (IZR (dimx (t_bbox t)) - / 2)) as [Ex|Ex]; [right; eauto|].
    destruct (Req_dec y (IZR (dimy (t_bbox t)) - / 2)) as [Ey|Ey]; [right; eauto|]. left.
    apply contains_lemma. rewrite HB in *. unfold in_box in *. cbn [minx miny dimx dimy] in *.
    exists (round_pixel x), (round_pixel y).
    assert (Rnd : forall z, IZR (round_pixel z) - / 2 <= z < IZR (round_pixel z) + / 2).
    { intros z. unfold round_pixel. pose proof (Zfloor_lb (z + / 2)). pose proof (Zfloor_ub (z + / 2)). lra. }
    split; [exists x, y; split; [exact E|split; apply Rnd]|].
    assert (Ax : forall z pz n, IZR pz - / 2 <= z <= IZR pz + / 2 -> (0 <= pz < 0 + n)%Z -> z <> IZR n - / 2 -> (0 <= round_pixel z < 0 + n)%Z).
    { intros z pz n Hz1 Hz2 Hne. unfold round_pixel. split.
      - apply Zfloor_lub. assert (0 <= IZR pz) by (apply IZR_le; lia). change (IZR 0) with 0. lra.
      - apply lt_IZR. eapply Rle_lt_trans; [apply Zfloor_lb|]. assert (IZR pz + 1 <= IZR n) by (rewrite <- plus_IZR; apply IZR_le; lia).
        rewrite Z.add_0_l. lra. }
    destruct Hb as [B1 B2]. split; [apply (Ax x px)|apply (Ax y py)]; auto.
  - split.
    + intros H. apply Hout in H. destruct H as (x & y & px & py & E & A & Hb).
      destruct (patches_tile_tract_proof _ offset c b t Hc Hu) as (Ht & _). destruct (Ht px py Hb) as (i & j & p & Hp & Hbp & _).
      exists i, j, p. split; [exact Hp|]. destruct (Hpatch _ _ _ Hp) as (Hx & Hy & ->). apply Hin. cbn [the_patch p_inner] in Hbp. eauto 10.
    + intros (i & j & p & Hp & H). destruct (Hpatch _ _ _ Hp) as (Hx & Hy & ->). apply Hin in H.
      destruct H as (x & y & px & py & E & A & Hb). apply Hout. exists x, y, px, py. split; [exact E|]. split; [exact A|].
      destruct (patches_tile_tract_proof _ offset c b t Hc Hu) as (_ & Ht). destruct (Ht _ _ Hp) as (_ & Hs). apply Hs. exact Hb.
  - intros i j p i' j' p' Hp Hp' H H' Hne. destruct (Hpatch _ _ _ Hp) as (Hx & Hy & ->). destruct (Hpatch _ _ _ Hp') as (Hx' & Hy' & ->).
    apply Hin in H, H'. destruct H as (x & y & px & py & E & A & Hb). destruct H' as (x' & y' & px' & py' & E' & A' & Hb').
    rewrite E in E'. injection E' as <- <-. exists x, y. split; [exact E|]. cbn [the_patch p_inner minx miny dimx dimy].
    set (w := fst (cfg_inner c)) in *. set (h := snd (cfg_inner c)) in *.
    unfold in_box, at_pixel in *. cbn [minx miny dimx dimy] in *.
    assert (Ax : forall z q q' k k' n, (0 < n)%Z -> IZR q - / 2 <= z <= IZR q + / 2 -> IZR q' - / 2 <= z <= IZR q' + / 2 ->
      (k * n <= q < k * n + n)%Z -> (k' * n <= q' < k' * n + n)%Z -> k <> k' -> z = IZR (k * n) - / 2 \/ z = IZR (k * n + n) - / 2).
    { intros z q q' k k' n Hn Hq Hq' Hk Hk' Hkk.
      destruct (Z_lt_le_dec k k').
      - assert (k * n + n <= k' * n)%Z by nia. assert (IZR (k * n + n) <= IZR q') by (apply IZR_le; lia).
        assert (IZR q + 1 <= IZR (k * n + n)) by (rewrite <- plus_IZR; apply IZR_le; lia). right. lra.
      - assert (k' * n + n <= k * n)%Z by nia. assert (IZR (k * n) <= IZR q) by (apply IZR_le; lia).
        assert (IZR q' + 1 <= IZR (k * n)) by (rewrite <- plus_IZR; apply IZR_le; lia). left. lra. }
    destruct (Z.eq_dec i i') as [->|Hii].
    + destruct (Ax y py py' j j' h); try tauto; try lia. congruence.
    + destruct (Ax x px px' i i' w); try tauto; try lia.
Qed.

(*@ C80: the patch that findPatch returns has the coordinate in its inner sky polygon. *)
Lemma gnomonic_findPatch_polygon_proof : forall offset c b t s p,
  cfg_ok c -> in_use offset c b t -> (dimx (t_bbox t) < 2 ^ 31)%Z -> (dimy (t_bbox t) < 2 ^ 31)%Z -> gnomonic (t_wcs t) ->
  findPatch b t s = Ok p -> region_contains (sky_polygon (patch_getInnerSkyPolygon p None)) s.
Proof.
  intros offset c b t s p Hc Hu Hx Hy Hg E. pose proof (findPatch_lemma _ offset c b t s Hc Hu Hx Hy) as F.
  destruct (tract_contains t s) as [[|]|e]; [|rewrite E in F; discriminate..].
  destruct F as (p' & i & j & px & py & E' & Hp & Hpix & _ & Hb). rewrite E in E'. injection E' as <-.
  destruct (in_use_spec offset c b t Hc Hu) as (nx & ny & Hi & Hinit & Hnb & _).
  destruct (cfg_inner_pos c Hc) as [Hw Hh].
  destruct (getPatchInfo_pair_inv c b nx ny _ i j p Hc Hi Hinit Hnb Hp) as (_ & _ & ->).
  unfold patch_getInnerSkyPolygon. cbn [the_patch p_inner p_wcs] in *. apply polygon_pixels; [exact Hg|assumption|assumption|].
  destruct (pixel_at _ _ _ _ Hpix) as (x & y & E1 & A). eauto 10.
Qed.

Lemma polygon_mono w B B' c : gnomonic w -> (0 < dimx B)%Z -> (0 < dimy B)%Z -> (0 < dimx B')%Z -> (0 < dimy B')%Z ->
  (forall px py, in_box px py B -> in_box px py B') ->
  region_contains (sky_polygon (makeSkyPolygonFromBBox B w)) c -> region_contains (sky_polygon (makeSkyPolygonFromBBox B' w)) c.
Proof.
  intros Hw X Y X' Y' HB H. apply polygon_pixels in H; [|assumption..]. apply polygon_pixels; [assumption..|].
  destruct H as (x & y & px & py & E & A & Hb). eauto 10.
Qed.

(*@ C80: the outer sky polygon of a patch contains its inner one; with the legacy builder it is part of the tract's. *)
Lemma gnomonic_outer_polygon_proof : forall offset c b t i j p s,
  cfg_ok c -> in_use offset c b t -> gnomonic (t_wcs t) -> tract_getPatchInfo b t (IxIndex2D i j) = Ok p ->
  (region_contains (sky_polygon (patch_getInnerSkyPolygon p None)) s -> region_contains (sky_polygon (patch_getOuterSkyPolygon p None)) s)
  /\ (~ is_cells c -> region_contains (sky_polygon (patch_getOuterSkyPolygon p None)) s
      -> region_contains (sky_polygon (tract_getOuterSkyPolygon t)) s).
Proof.
  intros offset c b t i j p s Hc Hu Hg Hp.
  destruct (in_use_spec offset c b t Hc Hu) as (nx & ny & Hi & Hinit & Hnb & _ & _ & _ & _ & HB).
  destruct (cfg_inner_pos c Hc) as [Hw Hh].
  destruct (getPatchInfo_pair_inv c b nx ny _ i j p Hc Hi Hinit Hnb Hp) as (Hx & Hy & Ep).
  assert (Wc : p_wcs p = t_wcs t) by (rewrite Ep; reflexivity).
  unfold patch_getInnerSkyPolygon, patch_getOuterSkyPolygon, tract_getOuterSkyPolygon. rewrite Wc.
  assert (D1 : (0 < dimx (p_inner p))%Z /\ (0 < dimy (p_inner p))%Z) by (rewrite Ep; cbn [the_patch p_inner dimx dimy]; auto).
  assert (D3 : (0 < dimx (t_bbox t))%Z /\ (0 < dimy (t_bbox t))%Z) by (rewrite HB; cbn [dimx dimy]; split; nia).
  destruct c as [inner border|[cw ch] cb nI nB].
  - destruct (legacy_outer_proof _ offset inner border b t i j p Hc Hu Hp) as (Ho & Hio).
    assert (D2 : (0 < dimx (p_outer p))%Z /\ (0 < dimy (p_outer p))%Z).
    { assert (A : in_box (minx (p_inner p)) (miny (p_inner p)) (p_inner p)) by (unfold in_box; lia).
      apply Hio in A. unfold in_box in A. lia. }
    split; [|intros _]; apply polygon_mono; try tauto. intros px py H. apply Ho in H. tauto.
  - split; [|cbn; tauto]. destruct (cells_of_tract offset cw ch cb nI nB b t i j p Hc Hu Hp) as (_ & _ & Ho).
    cbv zeta in Ho. destruct Hc as (? & ? & ? & ? & ?).
    apply polygon_mono; try tauto.
    + rewrite Ho. cbn [dimx]. nia.
    + rewrite Ho. cbn [dimy]. nia.
    + intros px py. rewrite Ho, Ep. unfold in_box. cbn [the_patch p_inner cfg_inner fst snd minx miny dimx dimy]. nia.
Qed.

(*@ C80, cells: the inner sky polygon of a patch is the union of those of the cells not in its border; a cell's
    outer sky polygon contains its inner one; for square cells the outer sky polygon of a patch is the union of the
    outer sky polygons of its cells. *)
Lemma gnomonic_cell_polygons_proof : forall offset cw ch cb nI nB b t i j p s,
  cfg_ok (CellCfg (cw, ch) cb nI nB) -> in_use offset (CellCfg (cw, ch) cb nI nB) b t -> gnomonic (t_wcs t) ->
  tract_getPatchInfo b t (IxIndex2D i j) = Ok p ->
  let inner k := region_contains (sky_polygon (cell_getInnerSkyPolygon k None)) s in
  let outer k := region_contains (sky_polygon (cell_getOuterSkyPolygon k None)) s in
  (region_contains (sky_polygon (patch_getInnerSkyPolygon p None)) s
     <-> exists x y k, getCellInfo p (IxIndex2D x y) = Ok k /\ (nB <= x < nB + nI)%Z /\ (nB <= y < nB + nI)%Z /\ inner k)
  /\ (forall x y k, getCellInfo p (IxIndex2D x y) = Ok k -> inner k -> outer k)
  /\ (cw = ch -> (region_contains (sky_polygon (patch_getOuterSkyPolygon p None)) s
     <-> exists x y k, getCellInfo p (IxIndex2D x y) = Ok k /\ outer k)).
Proof.
  intros offset cw ch cb nI nB b t i j p s Hc Hu Hg Hp inner outer.
  destruct (cells_of_tract offset cw ch cb nI nB b t i j p Hc Hu Hp) as (Hi & _ & Ho).
  assert (Wp : p_wcs p = t_wcs t).
  { destruct (in_use_spec offset _ b t Hc Hu) as (nx & ny & Hi' & Hinit & Hnb & _).
    destruct (getPatchInfo_pair_inv _ b nx ny _ i j p Hc Hi' Hinit Hnb Hp) as (_ & _ & ->). reflexivity. }
  assert (Pos := Hc). destruct Pos as (P1 & P2 & P3 & P4 & P5).
  set (X0 := (i * (cw * nI))%Z) in *. set (Y0 := (j * (ch * nI))%Z) in *. set (N := (nI + 2 * nB)%Z).
  assert (Hk : forall x y k, getCellInfo p (IxIndex2D x y) = Ok k -> (0 <= x < N)%Z /\ (0 <= y < N)%Z
    /\ c_inner k = Box ((x - nB) * cw + X0) ((y - nB) * ch + Y0) cw ch /\ enlarged cb (c_inner k) (c_outer k) /\ c_wcs k = t_wcs t).
  { intros x y k H. destruct (getCellInfo_pair_inv _ _ _ _ _ _ _ _ Hi x y k H) as (A & B & ->).
    split; [exact A|]. split; [exact B|]. split; [reflexivity|]. split; [unfold enlarged; cbn; lia|exact Wp]. }
  assert (Kin : forall x y k, getCellInfo p (IxIndex2D x y) = Ok k -> (inner k <-> exists u v px py, skyToPixel (t_wcs t) s = Pix u v /\ at_pixel u v px py /\ in_box px py (c_inner k))).
  { intros x y k H. destruct (Hk x y k H) as (_ & _ & A & _ & W). unfold inner, cell_getInnerSkyPolygon. rewrite W. apply polygon_pixels; [exact Hg|rewrite A; assumption|rewrite A; assumption]. }
  assert (Kout : forall x y k, getCellInfo p (IxIndex2D x y) = Ok k -> (outer k <-> exists u v px py, skyToPixel (t_wcs t) s = Pix u v /\ at_pixel u v px py /\ in_box px py (c_outer k))).
  { intros x y k H. destruct (Hk x y k H) as (_ & _ & A & (_ & _ & D1 & D2) & W). rewrite A in D1, D2. cbn [dimx dimy] in D1, D2.
    unfold outer, cell_getOuterSkyPolygon. rewrite W. apply polygon_pixels; [exact Hg|lia|lia]. }
  split; [|split].
  - destruct (cells_tile_patch_proof _ offset cw ch cb nI nB b t i j p Hc Hu Hp) as (_ & Ht & _).
    unfold patch_getInnerSkyPolygon. rewrite Wp. rewrite polygon_pixels; [|exact Hg|rewrite (ci_inner _ _ _ _ _ _ _ _ Hi); cbn [dimx]; nia|rewrite (ci_inner _ _ _ _ _ _ _ _ Hi); cbn [dimy]; nia].
    split.
    + intros (u & v & px & py & E & A & Hb). apply Ht in Hb. destruct Hb as (x & y & k & H & Hb & Hx & Hy).
      exists x, y, k. split; [exact H|]. split; [exact Hx|]. split; [exact Hy|]. apply (Kin x y k H). eauto 10.
    + intros (x & y & k & H & Hx & Hy & Hin). apply (Kin x y k H) in Hin. destruct Hin as (u & v & px & py & E & A & Hb).
      exists u, v, px, py. split; [exact E|]. split; [exact A|]. apply Ht. exists x, y, k. auto.
  - intros x y k H Hin. apply (Kout x y k H). apply (Kin x y k H) in Hin. destruct Hin as (u & v & px & py & E & A & Hb).
    exists u, v, px, py. split; [exact E|]. split; [exact A|]. destruct (Hk x y k H) as (_ & _ & _ & (D1 & D2 & D3 & D4) & _).
    unfold in_box in *. lia.
  - intros ->. destruct (cell_outer_cover_proof _ offset ch cb nI nB b t i j p Hc Hu Hp) as (_ & Ht).
    unfold patch_getOuterSkyPolygon. rewrite Wp. cbv zeta in Ho. rewrite polygon_pixels; [|exact Hg|rewrite Ho; cbn [dimx]; nia|rewrite Ho; cbn [dimy]; nia].
    split.
    + intros (u & v & px & py & E & A & Hb). apply Ht in Hb. destruct Hb as (x & y & k & H & Hb).
      exists x, y, k. split; [exact H|]. apply (Kout x y k H). eauto 10.
    + intros (x & y & k & H & Hin). apply (Kout x y k H) in Hin. destruct Hin as (u & v & px & py & E & A & Hb).
      exists u, v, px, py. split; [exact E|]. split; [exact A|]. apply Ht. eauto 10.
Qed.

(*@ C80: a tract made from vertices with a gnomonic WCS about its centre: its outer sky polygon contains its inner
    sky polygon, and all coordinates within atan (cos 7.5 deg * tan (overlap / 2)) of it (hypotheses as in C71). *)
Lemma gnomonic_tract_polygons_proof : forall c b oid id ctr verts overlap w corners b' t p q,
  cfg_ok c -> builder_reachable c b -> projects tan_factor ctr w -> (forall x y, skyToPixel w (pixelToSky w (x, y)) = Pix x y) ->
  verts <> [] -> 0 <= overlap < PI -> (forall v, In v verts -> separation v ctr + overlap / 2 < PI / 2) ->
  TractInfo_init sphere_offset b oid id ctr verts overlap w corners = Ok (b', t) ->
  region_contains (getInnerSkyPolygon t) p -> separation p q <= inradius24 (overlap / 2) ->
  region_contains (sky_polygon (tract_getOuterSkyPolygon t)) q.
Proof.
  intros c b oid id ctr verts overlap w corners b' t p q Hc Hr Hw Hi Hv Ho Hh E Hp Hq.
  destruct gnomonic_tracts_proof as (G1 & _ & G3 & _). assert (Hg : gnomonic (t_wcs t)) by (eapply G1; eauto).
  assert (Hu : exists b2, in_use sphere_offset c b2 t).
  { exists b'. eapply plain_in_use; eauto. }
  destruct Hu as (b2 & Hu). destruct (gnomonic_patch_polygons_proof sphere_offset c b2 t q Hc Hu Hg) as (A & _). apply A.
  eapply tract_gnomonic_cover_proof; eauto.
Qed.

(** Stereographic directions. *)
Lemma four_pos a b : 0 < 4 + (a * a + b * b).
Proof. nra. Qed.
Lemma stg_vec scale ctr x y : scale <> 0 ->
  let X := - (x / scale) in let Y := y / scale in let v := vec_of (pixelToSky (stg_wcs scale ctr) (x, y)) in
  let q := 4 + (X * X + Y * Y) in
  forall al be ga, q * dot (vadd (vscale al (vec_of ctr)) (vadd (vscale be (east ctr)) (vscale ga (north ctr)))) v
    = al * (4 - (X * X + Y * Y)) + be * (4 * X) + ga * (4 * Y).
Proof.
  intros Hs X Y v q al be ga. assert (Hq : 0 < q) by (unfold q; nra). unfold v. cbn [pixelToSky stg_wcs fst snd]. fold X Y.
  unfold stg_inverse. cbv zeta. fold q. set (u := vscale (/ q) _).
  assert (Eu : u = vadd (vscale ((4 - (X * X + Y * Y)) / q) (vec_of ctr)) (vadd (vscale (4 * X / q) (east ctr)) (vscale (4 * Y / q) (north ctr)))).
  { unfold u, vscale, vadd, vx, vy, vz; cbn. f_equal; [f_equal|]; field; lra. }
  destruct (frame_dots ctr _ _ _ u Eu) as (D1 & D2 & D3 & D4).
  assert (U : unit_vec u) by (unfold unit_vec; rewrite D4; unfold q; field; unfold q in Hq; lra).
  rewrite (vec_of_coord u U), !dot_vadd_l, !dot_vscale_l, (dot_comm _ u), (dot_comm (east ctr)), (dot_comm (north ctr)), D1, D2, D3. field. lra.
Qed.

(*@ C80, refuted for the stereographic projection (the default of most maps): if a patch lies above the centre of the projection,
    less than a radian to its sides, then the coordinate at the middle of its lower edge belongs to the patch
    according to findPatch, but its inner sky polygon does not contain it. *)
Lemma stereographic_polygon_refuted_proof : forall offset c b t scale ctr dx dy i j p,
  cfg_ok c -> in_use offset c b t -> (dimx (t_bbox t) < 2 ^ 31)%Z -> (dimy (t_bbox t) < 2 ^ 31)%Z -> 0 < scale ->
  t_wcs t = copyAtShiftedPixelOrigin (stg_wcs scale ctr) dx dy ->
  tract_getPatchInfo b t (IxIndex2D i j) = Ok p ->
  dy < IZR (miny (p_inner p)) - / 2 ->
  dx - scale <= IZR (minx (p_inner p)) - / 2 -> IZR (minx (p_inner p) + dimx (p_inner p)) - / 2 <= dx + scale ->
  let s := pixelToSky (t_wcs t) (IZR (minx (p_inner p)) - / 2 + IZR (dimx (p_inner p)) / 2, IZR (miny (p_inner p)) - / 2) in
  findPatch b t s = Ok p /\ ~ region_contains (sky_polygon (patch_getInnerSkyPolygon p None)) s.
Proof.
  intros offset c b t scale ctr dx dy i j p Hc Hu HX HY Hsc Hw Hp Hdy Hdx0 Hdx1 s.
  destruct (in_use_spec offset c b t Hc Hu) as (nx & ny & Hi & Hinit & Hnb & Hnt & Hnx & Hny & Hz & HB).
  destruct (cfg_inner_pos c Hc) as [Pw Ph].
  destruct (getPatchInfo_pair_inv c b nx ny _ i j p Hc Hi Hinit Hnb Hp) as (Hx & Hy & Ep).
  assert (Wp : p_wcs p = t_wcs t) by (rewrite Ep; reflexivity).
  assert (D1 : (0 < dimx (p_inner p))%Z /\ (0 < dimy (p_inner p))%Z) by (rewrite Ep; cbn [the_patch p_inner dimx dimy]; auto). destruct D1 as [D1 D2].
  assert (Es : skyToPixel (t_wcs t) s = Pix (IZR (minx (p_inner p)) - / 2 + IZR (dimx (p_inner p)) / 2) (IZR (miny (p_inner p)) - / 2)).
  { unfold s. rewrite Hw. cbn [skyToPixel pixelToSky copyAtShiftedPixelOrigin fst snd].
    rewrite stg_roundtrip by lra. f_equal; ring. }
  split.
  - assert (Hpix : exists px py, pixel_of t s px py /\ in_box px py (p_inner p)).
    { exists (round_pixel (IZR (minx (p_inner p)) - / 2 + IZR (dimx (p_inner p)) / 2)), (miny (p_inner p)). split.
      - eexists _, _. split; [exact Es|]. split; [|lra]. unfold round_pixel. set (z := _ + / 2). pose proof (Zfloor_lb z). pose proof (Zfloor_ub z). unfold z in *. lra.
      - unfold in_box. split; [|lia]. unfold round_pixel. apply IZR_lt in D1. split.
        + apply Zfloor_lub. lra.
        + apply lt_IZR. eapply Rle_lt_trans; [apply Zfloor_lb|]. rewrite plus_IZR. lra. }
    destruct Hpix as (px & py & Hpix & Hb).
    destruct (patches_tile_tract_proof _ offset c b t Hc Hu) as (Ht1 & Ht2). destruct (Ht2 _ _ Hp) as (_ & Ht3). pose proof (Ht3 px py Hb) as Hbt.
    assert (Hct : tract_contains t s = Ok true) by (apply contains_lemma; eauto).
    pose proof (findPatch_lemma _ offset c b t s Hc Hu HX HY) as F. rewrite Hct in F. destruct F as (p' & i' & j' & px' & py' & E' & Hp' & Hpix' & _ & Hb').
    assert (px' = px /\ py' = py) as [-> ->].
    { destruct Hpix as (x & y & E1 & A1 & A2). destruct Hpix' as (x' & y' & E2 & B1 & B2). rewrite E1 in E2. injection E2 as <- <-.
      split; apply Z.le_antisymm; apply Z.lt_succ_r, lt_IZR; rewrite succ_IZR; lra. }
    destruct (Ht1 px py Hbt) as (i0 & j0 & p0 & _ & _ & Un). destruct (Un _ _ _ Hp Hb) as [-> ->]. destruct (Un _ _ _ Hp' Hb') as [-> ->].
    rewrite Hp in Hp'. injection Hp' as <-. exact E'.
  - unfold patch_getInnerSkyPolygon, makeSkyPolygonFromBBox, sky_polygon. rewrite Wp, (area_edges _ D1 D2). cbv zeta.
    assert (X : IZR (minx (p_inner p)) - / 2 < IZR (minx (p_inner p) + dimx (p_inner p)) - / 2) by (apply IZR_lt in D1; rewrite plus_IZR; lra).
    assert (Y : IZR (miny (p_inner p)) - / 2 < IZR (miny (p_inner p) + dimy (p_inner p)) - / 2) by (apply IZR_lt in D2; rewrite plus_IZR; lra).
    assert (Mid : IZR (minx (p_inner p)) - / 2 + IZR (dimx (p_inner p)) / 2 = (IZR (minx (p_inner p)) - / 2 + (IZR (minx (p_inner p) + dimx (p_inner p)) - / 2)) / 2).
    { rewrite plus_IZR. field. }
    unfold s. rewrite Mid, Hw. clear Mid Es s. cbn [pixelToSky copyAtShiftedPixelOrigin fst snd].
    set (x0 := IZR (minx (p_inner p)) - / 2) in *. set (x1 := IZR (minx (p_inner p) + dimx (p_inner p)) - / 2) in *.
    set (y0 := IZR (miny (p_inner p)) - / 2) in *. set (y1 := IZR (miny (p_inner p) + dimy (p_inner p)) - / 2) in *. clearbody x0 x1 y0 y1.
    set (X0 := - ((x0 - dx) / scale)). set (X1 := - ((x1 - dx) / scale)). set (Y0 := (y0 - dy) / scale). set (Y1 := (y1 - dy) / scale).
    assert (Sc : 0 < / scale) by (apply Rinv_0_lt_compat; lra).
    assert (E : forall u, u / scale * scale = u) by (intros u; field; lra).
    assert (HX0 : X1 < X0) by (unfold X0, X1, Rdiv; nra).
    assert (HY0 : 0 < Y0) by (unfold Y0, Rdiv; nra). assert (HY1 : Y0 < Y1) by (unfold Y0, Y1, Rdiv; nra).
    assert (B0 : X0 <= 1). { apply (Rmult_le_reg_r scale); [lra|]. unfold X0. rewrite Ropp_mult_distr_l_reverse, E. lra. }
    assert (B1 : -1 <= X1). { apply (Rmult_le_reg_r scale); [lra|]. unfold X1. rewrite Ropp_mult_distr_l_reverse, E. lra. }
    set (be := - (X0 + X1) / 4). set (ga := (X0 * X1 + 4 - Y0 * Y0) / (4 * Y0)).
    assert (Eg : ga * (4 * Y0) = X0 * X1 + 4 - Y0 * Y0) by (unfold ga; field; lra).
    assert (Ga : 0 <= Y1 + Y0 + 4 * ga).
    { assert (4 * ga + Y0 = (X0 * X1 + 4) / Y0) as K by (unfold ga; field; lra).
      assert (0 <= (X0 * X1 + 4) / Y0); [|lra]. apply Rmult_le_pos; [nra|]. apply Rlt_le, Rinv_0_lt_compat, HY0. }
    set (n := vadd (vscale (-1) (vec_of ctr)) (vadd (vscale be (east ctr)) (vscale ga (north ctr)))).
    assert (F : forall x y, let X := - ((x - dx) / scale) in let Y := (y - dy) / scale in
       (4 + (X * X + Y * Y)) * dot n (vec_of (pixelToSky (stg_wcs scale ctr) (x - dx, y - dy)))
       = X * X + Y * Y - 4 - (X0 + X1) * X + ga * (4 * Y)).
    { intros x y X2 Y2. unfold n, X2, Y2. rewrite stg_vec by lra. unfold be. field. lra. }
    assert (Side : forall x y, let X := - ((x - dx) / scale) in let Y := (y - dy) / scale in
       0 <= X * X + Y * Y - 4 - (X0 + X1) * X + ga * (4 * Y) -> 0 <= dot n (vec_of (pixelToSky (stg_wcs scale ctr) (x - dx, y - dy)))).
    { intros x y X2 Y2 H. unfold X2, Y2 in H. rewrite <- F in H. set (q := 4 + _) in H. assert (Hq : 0 < q) by apply four_pos.
      set (d := dot _ _) in *. clearbody q d. destruct (Rle_lt_dec 0 d) as [K|K]; [exact K|]. nra. }
    cbn [region_contains map]. intros (ws & Hl & Hf & Ec).
    assert (N : 0 <= dot n (vec_of (pixelToSky (stg_wcs scale ctr) ((x0 + x1) / 2 - dx, y0 - dy)))).
    { rewrite Ec. apply combination_nonneg; [exact Hf|]. intros v Hv.
      assert (C0 : 0 <= X0 * X0 + Y0 * Y0 - 4 - (X0 + X1) * X0 + ga * (4 * Y0)) by (rewrite Eg; apply Req_le; ring).
      assert (C1 : 0 <= X1 * X1 + Y0 * Y0 - 4 - (X0 + X1) * X1 + ga * (4 * Y0)) by (rewrite Eg; apply Req_le; ring).
      assert (G : 0 <= (Y1 - Y0) * (Y1 + Y0 + 4 * ga)) by (apply Rmult_le_pos; lra).
      assert (C2 : 0 <= X1 * X1 + Y1 * Y1 - 4 - (X0 + X1) * X1 + ga * (4 * Y1)) by (clearbody X0 X1 Y0 Y1 ga; clear -C1 G; lra).
      assert (C3 : 0 <= X0 * X0 + Y1 * Y1 - 4 - (X0 + X1) * X0 + ga * (4 * Y1)) by (clearbody X0 X1 Y0 Y1 ga; clear -C0 G; lra).
      destruct Hv as [<- | [<- | [<- | [<- | []]]]]; apply Side; [exact C0|exact C1|exact C2|exact C3]. }
    pose proof (F ((x0 + x1) / 2) y0) as Fm. cbv zeta in Fm. fold Y0 in Fm.
    replace (- (((x0 + x1) / 2 - dx) / scale)) with ((X0 + X1) / 2) in Fm by (unfold X0, X1; field; lra).
    rewrite Eg in Fm. set (d := dot _ _) in *. clearbody d X0 X1 Y0 Y1. assert (G : 0 < (X0 - X1) * (X0 - X1)) by nra.
    set (q := 4 + _) in Fm. assert (Hq : 0 < q) by apply four_pos. clearbody q. assert (0 <= q * d) by (apply Rmult_le_pos; lra). nra.
Qed.

Lemma example_tract c w (ctr : sphere) : cfg_ok c -> cfg_inner c = (4000, 4000)%Z -> (forall x y, skyToPixel w (pixelToSky w (x, y)) = Pix x y) ->
  exists b t, TractInfo_init sphere_offset (builder_init c) 0 0 ctr [pixelToSky w (0, 0); pixelToSky w (9999, 9999)] 0 w None = Ok (b, t)
    /\ in_use sphere_offset c b t /\ t_numPatches t = (3, 3)%Z /\ t_wcs t = copyAtShiftedPixelOrigin w 1000 1000.
Proof.
  intros Hc Hin Hi. unfold TractInfo_init, tract_build.
  assert (ES : min_bbox_samples sphere_offset [pixelToSky w (0, 0); pixelToSky w (9999, 9999)] 0 = [pixelToSky w (0, 0); pixelToSky w (9999, 9999)]).
  { unfold min_bbox_samples, overlap_samples. destruct (Req_bool_spec 0 0); [|lra]. reflexivity. }
  rewrite ES. destruct (ex_min_box 9999 9999 ltac:(lia) ltac:(lia)) as (m & Em & EB).
  assert (Em' : include_all w [pixelToSky w (0, 0); pixelToSky w (9999, 9999)] = Ok m).
  { rewrite <- Em. unfold include_all, ex_verts, flat_wcs. cbn [fold_left include_sky bind skyToPixel fst snd]. rewrite Hi. cbn [include_sky bind]. rewrite Hi. reflexivity. }
  rewrite Em'. cbn [bind]. rewrite EB.
  assert (Hm : box_wf (Box 0 0 (9999 + 1) (9999 + 1))) by (right; cbn; lia).
  destruct (setupPatches_spec c (builder_init c) _ Hc (builder_reachable_inv c _ Hc (br_init c)) Hm)
    as (b1 & x0 & y0 & nx & ny & E & Hi1 & Hinit & Hnum & Hnx & Hny & Hzx & Hzy & Hbx & Hby & Hmx & Hmy).
  rewrite Hin in *. cbn [fst snd minx miny dimx dimy] in *. rewrite E. cbn [bind]. unfold finalOrientation, box_dims. cbn [dimx dimy minx miny].
  assert (nx = 3 /\ ny = 3)%Z as [-> ->] by lia. rewrite box_make_dims by lia. cbn [minx miny]. change ((3 * 4000 - (9999 + 1)) / 2)%Z with 1000%Z in *.
  replace x0 with (-1000)%Z by lia. replace y0 with (-1000)%Z by lia. change (0 - -1000)%Z with 1000%Z.
  eexists _, _. split; [reflexivity|]. split; [|split; reflexivity].
  eapply (plain_in_use _ sphere_offset c (builder_init c) 0 0 ctr [pixelToSky w (0, 0); pixelToSky w (9999, 9999)] 0 w None); [exact Hc|constructor|].
  unfold TractInfo_init, tract_build. rewrite ES, Em'. cbn [bind]. rewrite EB, E. cbn [bind]. unfold finalOrientation, box_dims. cbn [dimx dimy minx miny].
  rewrite box_make_dims by lia. cbn [minx miny]. replace x0 with (-1000)%Z by lia. replace y0 with (-1000)%Z by lia. reflexivity.
Qed.

(*@ C80, non-vacuity: tracts of 3 x 3 patches with the gnomonic (for the legacy and the cells builder) and the stereographic
    projection; in the latter patch (0, 1) meets the hypotheses of the refutation. *)
Example polygon_hypotheses_met_proof :
  (forall c scale (ctr : sphere), c = legacy_default \/ c = CellCfg (200, 200)%Z 50 20 1 -> 0 < scale ->
     exists b t, in_use sphere_offset c b t /\ cfg_ok c /\ gnomonic (t_wcs t) /\ t_numPatches t = (3, 3)%Z
       /\ t_wcs t = copyAtShiftedPixelOrigin (tan_wcs scale ctr) 1000 1000
       /\ (dimx (t_bbox t) < 2 ^ 31)%Z /\ (dimy (t_bbox t) < 2 ^ 31)%Z
       /\ region_contains (sky_polygon (tract_getOuterSkyPolygon t)) (pixelToSky (t_wcs t) (6000, 6000))
       /\ exists p, findPatch b t (pixelToSky (t_wcs t) (6000, 6000)) = Ok p)
  /\ forall ctr : sphere, exists b t p, in_use sphere_offset legacy_default b t /\ (dimx (t_bbox t) < 2 ^ 31)%Z /\ (dimy (t_bbox t) < 2 ^ 31)%Z
       /\ t_wcs t = copyAtShiftedPixelOrigin (stg_wcs 20000 ctr) 1000 1000
       /\ tract_getPatchInfo b t (IxIndex2D 0 1) = Ok p
       /\ 1000 < IZR (miny (p_inner p)) - / 2 /\ 1000 - 20000 <= IZR (minx (p_inner p)) - / 2
       /\ IZR (minx (p_inner p) + dimx (p_inner p)) - / 2 <= 1000 + 20000.
Proof.
  split.
  - intros c scale ctr Hcc Hs.
    assert (Hc : cfg_ok c) by (destruct Hcc as [-> | ->]; cbn; lia).
    assert (Hin : cfg_inner c = (4000, 4000)%Z) by (destruct Hcc as [-> | ->]; reflexivity).
    destruct (example_tract c (tan_wcs scale ctr) ctr Hc Hin) as (b & t & E & Hu & Hn & Hw); [intros; apply tan_roundtrip; lra|].
    exists b, t. split; [exact Hu|]. split; [exact Hc|]. destruct gnomonic_tracts_proof as (G1 & _ & _ & G4).
    assert (Hg : gnomonic (t_wcs t)) by (eapply G1; eauto). split; [exact Hg|]. split; [exact Hn|]. split; [exact Hw|].
    destruct (in_use_spec _ _ b t Hc Hu) as (nx & ny & _ & _ & _ & Hnt & _ & _ & _ & HB). rewrite Hn in Hnt. injection Hnt as <- <-.
    rewrite Hin in HB. cbn [fst snd] in HB. rewrite HB. cbn [dimx dimy]. split; [reflexivity|]. split; [reflexivity|].
    assert (K : tract_contains t (pixelToSky (t_wcs t) (6000, 6000)) = Ok true).
    { apply contains_lemma. exists 6000%Z, 6000%Z. split; [|rewrite HB; unfold in_box; cbn; lia].
      exists 6000, 6000. split; [apply Hg|]. lra. }
    split; [exact (proj1 (gnomonic_patch_polygons_proof sphere_offset c b t _ Hc Hu Hg) K)|].
    pose proof (findPatch_lemma _ sphere_offset c b t (pixelToSky (t_wcs t) (6000, 6000)) Hc Hu) as F. rewrite K, HB in F. cbn [dimx dimy] in F.
    destruct F as (p & _ & _ & _ & _ & F & _); [reflexivity..|]. eauto.
  - intros ctr. assert (Hc : cfg_ok legacy_default) by (cbn; lia).
    destruct (example_tract legacy_default (stg_wcs 20000 ctr) ctr Hc eq_refl) as (b & t & E & Hu & Hn & Hw); [intros; apply stg_roundtrip; lra|].
    destruct (in_use_spec _ _ b t Hc Hu) as (nx & ny & Hi & Hinit & Hnb & Hnt & _ & _ & _ & HB). rewrite Hn in Hnt. injection Hnt as <- <-.
    eexists b, t, _. split; [exact Hu|]. rewrite HB. split; [reflexivity|]. split; [reflexivity|]. split; [exact Hw|].
    split; [exact (getPatchInfo_pair legacy_default b 3 3 (t_wcs t) 0 1 Hc Hi Hinit Hnb (conj (Z.le_refl 0) eq_refl) (conj (Z.le_0_1) eq_refl))|].
    cbn [the_patch p_inner minx miny dimx dimy cfg_inner legacy_default fst snd]. split; [|split]; [change (IZR (1 * 4000)) with 4000|change (IZR (0 * 4000)) with 0|change (IZR (0 * 4000 + 4000)) with 4000]; lra.
Qed.
