(** The inner regions of explicit tracts (C87). *)
From Coq Require Import Reals Lra Lia String.
From Flocq Require Import Core.Raux IEEE754.Binary IEEE754.Bits.
Require Import Verif.Py Verif.Geom Verif.PatchInfo Verif.TractBuilder Verif.TractInfo Verif.Spec.
Require Import Verif.PatchProofs Verif.TractProofs Verif.SkyMap Verif.SkySpec Verif.SkyProofs Verif.SkyProofs2 Verif.Uniform.
Require Import Verif.Rings Verif.RingsSpec Verif.RingsNum Verif.Sphere Verif.SphereProofs Verif.Maps Verif.TractBox Verif.MainMaps.
Require Import Verif.MapsProofs Verif.Region Verif.RegionProofs Verif.ProjSpec Verif.MainPolygons Verif.MiscSpec.
Require Import Verif.Config Verif.ConfigSpec Verif.ConfigProofs Verif.Wcs Verif.WcsSpec Verif.MainWcs Verif.RotatedProofs Verif.MainRotated Verif.InnerProofs.
Open Scope list_scope.
Open Scope R_scope.

Lemma zenithal_moved dist limit s o fl ctr w dx dy : zenithal_at dist limit s o fl ctr 0 0 w ->
  zenithal_at dist limit s o fl ctr dx dy (copyAtShiftedPixelOrigin w dx dy).
Proof.
  intros (H1 & H2 & H3 & H4 & H5). unfold zenithal_at, copyAtShiftedPixelOrigin. cbn [skyToPixel pixelToSky fst snd]. split; [|split; [|split; [|split]]].
  - intros r phi. rewrite <- H1. f_equal. apply f_equal2; ring.
  - intros x y. rewrite H2. f_equal; ring.
  - intros c x y H. destruct (skyToPixel w c) as [| |u v] eqn:E; try discriminate. injection H as <- <-.
    rewrite <- (H3 c u v E). do 2 f_equal. apply f_equal2; ring.
  - intros c. rewrite <- H4. destruct (skyToPixel w c) as [| |u v]; split; intros; try discriminate; assumption.
  - intros c. rewrite <- H5. destruct (skyToPixel w c) as [| |u v]; split; intros (x & y & H); try discriminate; eauto.
Qed.
Lemma explicit_zenithal dist limit s o fl offset b oid id ctr radius overlap w corners b' t :
  ExplicitTractInfo_init offset b oid id ctr radius overlap w corners = Ok (b', t) -> zenithal_at dist limit s o fl ctr 0 0 w ->
  exists cx cy, zenithal_at dist limit s o fl ctr cx cy (t_wcs t).
Proof. intros H Z. destruct (explicit_shift _ _ _ _ _ _ _ _ _ _ _ H) as (dx & dy & ->). exists dx, dy. now apply zenithal_moved. Qed.

(** The vertices of an explicit tract. *)
Lemma explicit_corners c b oid id (ctr : sphere) radius overlap w corners b' t : cfg_ok c -> builder_reachable c b ->
  ExplicitTractInfo_init sphere_offset b oid id ctr radius overlap w corners = Ok (b', t) ->
  exists W H : Z, t_bbox t = Box 0 0 W H
    /\ ((W = 0 /\ H = 0)%Z /\ t_verts t = []
        \/ (1 <= W /\ 1 <= H)%Z /\ let x0 := - / 2 + 1 / 1000 in let x1 := IZR W - / 2 - 1 / 1000 in let y1 := IZR H - / 2 - 1 / 1000 in
           t_verts t = map (pixelToSky (t_wcs t)) [(x0, x0); (x1, x0); (x1, y1); (x0, y1)]).
Proof.
  intros Hc Hb H. pose proof (explicit_in_use _ _ _ _ _ _ _ _ _ _ _ _ _ Hc Hb H) as Hu.
  destruct (explicit_init_inv _ _ _ _ _ _ _ _ _ _ _ _ H) as (t0 & _ & _ & _ & _ & _ & _ & _ & Ev).
  destruct (in_use_spec sphere_offset c b' t Hc Hu) as (nx & ny & _ & _ & _ & _ & Hnx & Hny & Hz & HB).
  destruct (cfg_inner_pos c Hc) as [Hw Hh]. exists (nx * fst (cfg_inner c))%Z, (ny * snd (cfg_inner c))%Z. split; [exact HB|].
  rewrite HB in Ev. revert Ev. unfold box2d_of_box, box_isEmpty. cbn [dimx dimy minx miny].
  destruct (Z.eq_dec nx 0) as [->|N].
  - assert (ny = 0)%Z as -> by tauto. cbn. intros ->. left. split; [lia|reflexivity].
  - assert (HW : (1 <= nx * fst (cfg_inner c))%Z) by nia. assert (HH : (1 <= ny * snd (cfg_inner c))%Z) by nia.
    set (W := (nx * fst (cfg_inner c))%Z) in *. set (Hh' := (ny * snd (cfg_inner c))%Z) in *. clearbody W Hh'.
    assert (HWr : 1 <= IZR W) by (apply IZR_le; lia). assert (HHr : 1 <= IZR Hh') by (apply IZR_le; lia).
    destruct (Z.eqb_spec W 0); [lia|]. destruct (Z.eqb_spec Hh' 0); [lia|]. cbn [andb]. unfold maxx, maxy. cbn [dimx dimy minx miny].
    rewrite !Z.add_0_l. unfold box2d_grow. cbv beta iota zeta. rewrite !minus_IZR.
    match goal with |- context [Rle_bool ?a ?b] => destruct (Rle_bool_spec a b); [lra|] end.
    match goal with |- context [Rle_bool ?a ?b] => destruct (Rle_bool_spec a b); [lra|] end.
    cbn [orb box2d_corners]. intros ->. right. split; [lia|]. cbv zeta.
    replace (0 - / 2 - - (1 / 1000)) with (- / 2 + 1 / 1000) by lra.
    replace (IZR W - 1 + / 2 + - (1 / 1000)) with (IZR W - / 2 - 1 / 1000) by lra.
    replace (IZR Hh' - 1 + / 2 + - (1 / 1000)) with (IZR Hh' - / 2 - 1 / 1000) by lra. reflexivity.
Qed.

Lemma contains_pixel (t : tract sphere) s x y W H : t_bbox t = Box 0 0 W H -> skyToPixel (t_wcs t) s = Pix x y ->
  (tract_contains t s = Ok true <-> - / 2 <= x < IZR W - / 2 /\ - / 2 <= y < IZR H - / 2).
Proof.
  intros HB E. rewrite contains_lemma. rewrite HB. unfold pixel_of, in_box. cbn [minx miny dimx dimy]. split.
  - intros (px & py & (x' & y' & E' & Hx & Hy) & P). rewrite E in E'. injection E' as <- <-. 
    destruct P as ([P1 P2] & P3 & P4).
    apply IZR_le in P1, P3. assert (Q1 : (px + 1 <= W)%Z) by lia. assert (Q2 : (py + 1 <= H)%Z) by lia. apply IZR_le in Q1, Q2. rewrite plus_IZR in Q1, Q2. lra.
  - intros [Px Py]. exists (round_pixel x), (round_pixel y). split; [exists x, y; split; [exact E|split; apply round_pixel_spec]|].
    pose proof (round_pixel_spec x) as Rx. pose proof (round_pixel_spec y) as Ry. set (px := round_pixel x) in *. set (py := round_pixel y) in *. clearbody px py.
    assert (-1 < px < W)%Z by (split; apply lt_IZR; lra). assert (-1 < py < H)%Z by (split; apply lt_IZR; lra). lia.
Qed.

(*@ C87: the inner sky polygon of a tract made from a centre, a radius and an overlap (all tracts of Rings and Discrete sky maps), with a gnomonic (TAN) WCS,
    consists of the coordinates whose position is in the box of the tract and at least a thousandth of a pixel away from its edges; the tract contains them. *)
Lemma explicit_inner_polygon_proof : forall c b oid id (ctr : sphere) radius overlap w corners b' t s, cfg_ok c -> builder_reachable c b ->
  ExplicitTractInfo_init sphere_offset b oid id ctr radius overlap w corners = Ok (b', t) -> gnomonic w ->
  (region_contains (getInnerSkyPolygon t) s
   <-> exists x y, skyToPixel (t_wcs t) s = Pix x y
        /\ - / 2 + 1 / 1000 <= x <= IZR (dimx (t_bbox t)) - / 2 - 1 / 1000
        /\ - / 2 + 1 / 1000 <= y <= IZR (dimy (t_bbox t)) - / 2 - 1 / 1000)
  /\ (region_contains (getInnerSkyPolygon t) s -> tract_contains t s = Ok true).
Proof.
  intros c b oid id ctr radius overlap w corners b' t s Hc Hb H Hg.
  assert (Hg' : gnomonic (t_wcs t)) by (eapply (proj1 (proj2 gnomonic_tracts_proof)); eauto).
  destruct (explicit_corners _ _ _ _ _ _ _ _ _ _ _ Hc Hb H) as (W & Hh & HB & K).
  assert (M : region_contains (getInnerSkyPolygon t) s
   <-> exists x y, skyToPixel (t_wcs t) s = Pix x y
        /\ - / 2 + 1 / 1000 <= x <= IZR (dimx (t_bbox t)) - / 2 - 1 / 1000
        /\ - / 2 + 1 / 1000 <= y <= IZR (dimy (t_bbox t)) - / 2 - 1 / 1000).
  { rewrite HB. cbn [dimx dimy]. unfold getInnerSkyPolygon. destruct K as [[[-> ->] ->]|[[H1 H2] ->]].
    - change (RegHull (map vec_of [])) with (sky_polygon []). split; [intros K; destruct (no_polygon _ K)|]. intros (x & y & _ & Hx & _). lra.
    - apply IZR_le in H1, H2. cbv zeta. fold (sky_polygon (map (pixelToSky (t_wcs t)) [(- / 2 + 1 / 1000, - / 2 + 1 / 1000); (IZR W - / 2 - 1 / 1000, - / 2 + 1 / 1000);
         (IZR W - / 2 - 1 / 1000, IZR Hh - / 2 - 1 / 1000); (- / 2 + 1 / 1000, IZR Hh - / 2 - 1 / 1000)])).
      apply gnomonic_rect; [exact Hg'|lra|lra]. }
  split; [exact M|]. rewrite M. intros (x & y & E & Hx & Hy). rewrite HB in Hx, Hy. cbn [dimx dimy] in Hx, Hy.
  apply (contains_pixel t s x y W Hh HB E). lra.
Qed.

(** The constant of the frame for each kind. *)
Lemma kinds_kap name dist limit : In (name, dist, limit) zenithal_kinds ->
  exists kap, (dist = atan /\ limit = PI / 2 /\ kap = 0 \/ dist = (fun t => 2 * atan (t / 2)) /\ limit = PI /\ kap = / 4) /\ (name = "TAN"%string /\ kap = 0 \/ name = "STG"%string /\ kap = / 4).
Proof. cbn [zenithal_kinds In]. intros [H|[H|[]]]; injection H as <- <- <-; [exists 0|exists (/ 4)]; auto. Qed.

Lemma atan_lip a b : b <= a -> atan a - atan b <= a - b.
Proof.
  intros H. destruct H as [H|<-]; [|lra].
  destruct (MVT_cor2 (fun x => atan x) (fun x => / (1 + x ^ 2)) b a H) as (x & E & _).
  { intros x _. apply derivable_pt_lim_atan. }
  rewrite E. assert (/ (1 + x ^ 2) <= 1); [|nra]. rewrite <- Rinv_1 at 2. apply Rinv_le_contravar; [lra|]. pose proof (pow2_ge_0 x). lra.
Qed.
Lemma kinds_lip name dist limit a b : In (name, dist, limit) zenithal_kinds -> b <= a -> dist a - dist b <= a - b.
Proof.
  cbn [zenithal_kinds In]. intros [H|[H|[]]] L; injection H as _ <- _; [now apply atan_lip|].
  pose proof (atan_lip (a / 2) (b / 2) ltac:(lra)). lra.
Qed.

Lemma at_polar' dist limit s o fl ctr cx cy w r phi : zenithal_at dist limit s o fl ctr cx cy w -> radial_law dist limit -> 0 < s -> 0 <= r ->
  separation (pixelToSky w (cx + r * cos phi, cy + r * sin phi)) ctr = dist (r * s).
Proof.
  intros (H1 & _) L Hs Hr. rewrite H1. apply separation_offset.
  pose proof (rl_bound _ _ L (r * s) ltac:(apply Rmult_le_pos; lra)). pose proof (rl_lim _ _ L). lra.
Qed.

(*@ C87: with a TAN or STG WCS of any scale, rotation and handedness, the inner sky polygon of such a tract contains the disc about its centre of h times the radius plus the overlap
    (h as in C85; less a thousandth of a pixel), with STG provided that its vertices are less than 90 degrees from the centre: it includes the overlap. *)
Lemma explicit_inner_disc_proof : forall name dist limit scale rotation flipX ctr w c b oid id radius overlap corners b' t s,
  In (name, dist, limit) zenithal_kinds -> 0 < scale -> zenithal_at dist limit scale rotation flipX ctr 0 0 w ->
  cfg_ok c -> builder_reachable c b -> 0 <= radius + overlap < limit ->
  ExplicitTractInfo_init sphere_offset b oid id ctr radius overlap w corners = Ok (b', t) ->
  (name = "STG"%string -> forall v, In v (t_verts t) -> separation v ctr < PI / 2) ->
  separation s ctr <= axis_part rotation * (radius + overlap) - scale / 1000 ->
  region_contains (getInnerSkyPolygon t) s.
Proof.
  intros name dist limit scale rotation flipX ctr w c b oid id radius overlap corners b' t s Hk Hs HW Hc Hb Hro H Hsep Hd.
  pose proof (kinds_law _ _ _ Hk) as L.
  destruct (explicit_rotated_proof name dist limit scale rotation flipX ctr w c b oid id radius overlap corners b' t Hk Hs HW Hc Hb Hro H)
    as ((Hh & _) & _ & r & Hr & Er & K & _).
  set (h := axis_part rotation) in *. clearbody h.
  destruct (explicit_zenithal _ _ _ _ _ _ _ _ _ _ _ _ _ _ _ _ H HW) as (cx & cy & Z).
  set (m := h * r). assert (Hm : 0 <= m) by (unfold m; nra).
  assert (C1 : h * (radius + overlap) <= dist (m * scale)).
  { rewrite <- Er. unfold m. rewrite (Rmult_assoc h). apply (rl_concave _ _ L); [lra|nra]. }
  assert (S0 : 0 <= separation s ctr) by (unfold separation; apply acos_bound).
  assert (D0 : forall a, 0 <= a -> dist a <= a).
  { intros a Ha. pose proof (kinds_lip _ _ _ a 0 Hk Ha) as Q. rewrite (rl_0 _ _ L) in Q. lra. }
  assert (Hm1 : 1 / 1000 <= m).
  { pose proof (D0 (m * scale) ltac:(nra)). apply (Rmult_le_reg_r scale); [exact Hs|]. lra. }
  assert (C2 : separation s ctr <= dist ((m - 1 / 1000) * scale)).
  { pose proof (kinds_lip _ _ _ (m * scale) ((m - 1 / 1000) * scale) Hk ltac:(nra)). lra. }
  (* the position of s *)
  pose proof Z as (Z1 & Z2 & Z3 & Z4 & Z5).
  destruct (proj2 (Z5 s)) as (x & y & E).
  { pose proof (rl_bound _ _ L ((m - 1 / 1000) * scale) ltac:(apply Rmult_le_pos; lra)). lra. }
  destruct (polar (x - cx) (y - cy)) as (q & phi & Hq & Ex & Ey).
  assert (Hqm : q <= m - 1 / 1000).
  { destruct (Rle_lt_dec q (m - 1 / 1000)) as [Q|Q]; [exact Q|exfalso].
    pose proof (at_polar' _ _ _ _ _ _ _ _ _ q phi Z L Hs Hq) as A. rewrite <- Ex, <- Ey in A.
    replace (cx + (x - cx)) with x in A by ring. replace (cy + (y - cy)) with y in A by ring.
    unfold separation in A. rewrite (Z3 _ _ _ E) in A. fold (separation s ctr) in A.
    pose proof (rl_mono _ _ L ((m - 1 / 1000) * scale) (q * scale) ltac:(split; [apply Rmult_le_pos; lra|apply Rmult_lt_compat_r; lra])). lra. }
  (* the extent of the tract *)
  destruct (explicit_corners _ _ _ _ _ _ _ _ _ _ _ Hc Hb H) as (W & H' & HB & V).
  assert (X : forall phi, (- / 2 <= cx + m * cos phi < IZR W - / 2) /\ (- / 2 <= cy + m * sin phi < IZR H' - / 2)).
  { intros a. apply (contains_pixel t (pixelToSky (t_wcs t) (cx + m * cos a, cy + m * sin a)) _ _ W H' HB (Z2 _ _)).
    apply K. rewrite (at_polar' _ _ _ _ _ _ _ _ _ m a Z L Hs Hm). fold m. lra. }
  pose proof (proj1 (X 0)) as X0. rewrite cos_0 in X0. pose proof (proj1 (X PI)) as X1. rewrite cos_PI in X1.
  pose proof (proj2 (X (PI / 2))) as Y0. rewrite sin_PI2 in Y0. pose proof (proj2 (X (- (PI / 2)))) as Y1. rewrite sin_neg, sin_PI2 in Y1.
  destruct V as [[[-> ->] V]|[[H1 H2] V]]; [lra|]. apply IZR_le in H1, H2. cbv zeta in V.
  destruct (kinds_kap _ _ _ Hk) as (kap & Hkap & Hname).
  unfold getInnerSkyPolygon. rewrite V in *.
  fold (sky_polygon (map (pixelToSky (t_wcs t)) [(- / 2 + 1 / 1000, - / 2 + 1 / 1000); (IZR W - / 2 - 1 / 1000, - / 2 + 1 / 1000);
         (IZR W - / 2 - 1 / 1000, IZR H' - / 2 - 1 / 1000); (- / 2 + 1 / 1000, IZR H' - / 2 - 1 / 1000)])).
  assert (B : - (m - 1 / 1000) <= x - cx <= m - 1 / 1000 /\ - (m - 1 / 1000) <= y - cy <= m - 1 / 1000).
  { rewrite Ex, Ey. pose proof (COS_bound phi). pose proof (SIN_bound phi). split; nra. }
  apply (zen_rect kap dist limit scale rotation flipX ctr cx cy (t_wcs t) Hkap Hs Z _ _ _ _ s x y); [lra|lra|lra|lra| |exact E|lra|lra].
  intros p Hp. destruct Hname as [(-> & Ek)|(-> & _)].
  - destruct (Z5 (pixelToSky (t_wcs t) p)) as [Q _]. destruct Hkap as [(_ & E1 & _)|(_ & _ & E1)]; [rewrite E1 in Q|exfalso; lra]. apply Q.
    destruct p as [px py]. exists px, py. apply Z2.
  - apply (Hsep eq_refl), in_map, Hp.
Qed.

(*@ C87, refuted: that the inner region of such a tract is part of the tract.  With the STG projection (the default), if the width squared times the height of the tract
    is a quarter or more in units of the (inverse squared) pixel scale, there is a coordinate in its inner sky polygon that the tract does not contain: the great circles
    between the vertices bend out of the tract. *)
Lemma explicit_inner_outside_refuted_proof : forall scale rotation flipX ctr w c b oid id radius overlap corners b' t,
  0 < scale -> zenithal_at (fun t => 2 * atan (t / 2)) PI scale rotation flipX ctr 0 0 w -> cfg_ok c -> builder_reachable c b ->
  ExplicitTractInfo_init sphere_offset b oid id ctr radius overlap w corners = Ok (b', t) ->
  (forall v, In v (t_verts t) -> separation v ctr < PI / 2) ->
  / 4 <= IZR (dimx (t_bbox t)) * IZR (dimx (t_bbox t)) * IZR (dimy (t_bbox t)) * (scale * scale) ->
  exists s, region_contains (getInnerSkyPolygon t) s /\ tract_contains t s = Ok false.
Proof.
  intros scale rotation flipX ctr w c b oid id radius overlap corners b' t Hs HW Hc Hb H Hsep Hbig.
  destruct (explicit_zenithal _ _ _ _ _ _ _ _ _ _ _ _ _ _ _ _ H HW) as (cx & cy & Z).
  destruct (explicit_corners _ _ _ _ _ _ _ _ _ _ _ Hc Hb H) as (W & H' & HB & V). rewrite HB in Hbig. cbn [dimx dimy] in Hbig.
  destruct V as [[[-> ->] V]|[[H1 H2] V]]; [lra|]. apply IZR_le in H1, H2. cbv zeta in V.
  set (x0 := - / 2 + 1 / 1000) in *. set (x1 := IZR W - / 2 - 1 / 1000) in *. set (y1 := IZR H' - / 2 - 1 / 1000) in *.
  assert (E0 : x0 = - / 2 + 1 / 1000) by reflexivity. assert (E1 : x1 = IZR W - / 2 - 1 / 1000) by reflexivity. assert (E2 : y1 = IZR H' - / 2 - 1 / 1000) by reflexivity.
  clearbody x0 x1 y1. pose proof Z as (_ & Z2 & _).
  rewrite V in Hsep. cbn [map] in Hsep.
  assert (Hw2 : 996 / 1000 * (IZR W * IZR W) <= (x1 - x0) * (x1 - x0)) by (rewrite E0, E1; nra).
  assert (Main : forall ye sg dY, sg = 1 \/ sg = -1 -> sg * (ye - cy) = dY -> 498 / 1000 * IZR H' <= dY ->
     separation (pixelToSky (t_wcs t) (x0, ye)) ctr < PI / 2 -> separation (pixelToSky (t_wcs t) (x1, ye)) ctr < PI / 2 ->
     exists cc n0 n1 x y, 0 <= n0 /\ 0 <= n1
    /\ vec_of cc = vadd (vscale n0 (vec_of (pixelToSky (t_wcs t) (x0, ye)))) (vscale n1 (vec_of (pixelToSky (t_wcs t) (x1, ye))))
    /\ skyToPixel (t_wcs t) cc = Pix x y /\ dY + 1 / 1000 < sg * (y - cy)).
  { intros ye sg dY Hsg Ed Hd P1 P2.
    apply (stg_middle (/ 4) (fun t => 2 * atan (t / 2)) PI scale rotation flipX ctr cx cy (t_wcs t) (or_intror (conj eq_refl (conj eq_refl eq_refl))) Hs Z x0 x1 ye sg dY eq_refl); try assumption; try lra.
    assert (Q : 496 / 1000 * (IZR W * IZR W * IZR H') <= (x1 - x0) * (x1 - x0) * dY).
    { apply Rle_trans with (996 / 1000 * (IZR W * IZR W) * (498 / 1000 * IZR H')).
      - assert (0 <= IZR W * IZR W * IZR H') by (apply Rmult_le_pos; [apply Rle_0_sqr|lra]). lra.
      - apply Rmult_le_compat; [pose proof (Rle_0_sqr (IZR W)); unfold Rsqr in *; lra|lra|exact Hw2|exact Hd]. }
    assert (Q2 : 0 <= scale * scale) by (apply Rle_0_sqr).
    pose proof (Rmult_le_compat_r (scale * scale) _ _ Q2 Q). lra. }
  assert (Out : forall s x y, skyToPixel (t_wcs t) s = Pix x y -> y < - / 2 \/ IZR H' - / 2 < y -> tract_contains t s = Ok false).
  { intros s x y E Hy. destruct (tract_contains t s) as [[|]|e] eqn:T; [|reflexivity|].
    - apply (contains_pixel t s x y W H' HB E) in T. lra.
    - unfold tract_contains in T. rewrite E in T. discriminate. }
  unfold getInnerSkyPolygon. rewrite V. cbn [map region_contains].
  destruct (Rle_lt_dec (2 * cy) (IZR H' - 1)) as [L|L].
  - destruct (Main y1 1 (y1 - cy) (or_introl eq_refl) ltac:(ring) ltac:(lra)) as (s & n0 & n1 & x & y & N0 & N1 & Ev & E & Hy).
    { apply Hsep. cbn [In]. tauto. } { apply Hsep. cbn [In]. tauto. }
    exists s. split.
    + exists [0; 0; n1; n0]. split; [reflexivity|]. split; [repeat (apply Forall_cons; [lra|]); apply Forall_nil|].
      rewrite Ev. cbn [combination]. unfold vadd, vscale; apply vec_eq; unfold vadd, vscale, vx, vy, vz; cbn [fst snd]; ring.
    + apply (Out s x y E). right. lra.
  - destruct (Main x0 (-1) (cy - x0) (or_intror eq_refl) ltac:(ring) ltac:(lra)) as (s & n0 & n1 & x & y & N0 & N1 & Ev & E & Hy).
    { apply Hsep. cbn [In]. tauto. } { apply Hsep. cbn [In]. tauto. }
    exists s. split.
    + exists [n0; n1; 0; 0]. split; [reflexivity|]. split; [repeat (apply Forall_cons; [lra|]); apply Forall_nil|].
      rewrite Ev. cbn [combination]. unfold vadd, vscale; apply vec_eq; unfold vadd, vscale, vx, vy, vz; cbn [fst snd]; ring.
    + apply (Out s x y E). left. lra.
Qed.

(*@ C87, refuted: that the tract extends beyond its inner region by at least the overlap (as documented).  With TAN or STG, a pixel scale of at most a radian and any radius and overlap,
    there is a coordinate in the inner sky polygon and one less than a hundredth of a pixel scale from it that the tract does not contain. *)
Lemma explicit_no_overlap_refuted_proof : forall name dist limit scale rotation flipX ctr w c b oid id radius overlap corners b' t,
  In (name, dist, limit) zenithal_kinds -> 0 < scale <= 1 -> zenithal_at dist limit scale rotation flipX ctr 0 0 w ->
  cfg_ok c -> builder_reachable c b -> 0 <= radius + overlap < limit ->
  ExplicitTractInfo_init sphere_offset b oid id ctr radius overlap w corners = Ok (b', t) ->
  exists p q, region_contains (getInnerSkyPolygon t) p /\ separation p q <= scale / 100 /\ tract_contains t q = Ok false.
Proof.
  intros name dist limit scale rotation flipX ctr w c b oid id radius overlap corners b' t Hk Hs HW Hc Hb Hro H.
  destruct (explicit_zenithal _ _ _ _ _ _ _ _ _ _ _ _ _ _ _ _ H HW) as (cx & cy & Z).
  destruct (explicit_corners _ _ _ _ _ _ _ _ _ _ _ Hc Hb H) as (W & H' & HB & V).
  pose proof Z as (_ & Z2 & _).
  assert (Out : forall s x y, skyToPixel (t_wcs t) s = Pix x y -> x < - / 2 \/ IZR W - / 2 <= x -> tract_contains t s = Ok false).
  { intros s x y E Hy. destruct (tract_contains t s) as [[|]|e] eqn:T; [|reflexivity|].
    - apply (contains_pixel t s x y W H' HB E) in T. lra.
    - unfold tract_contains in T. rewrite E in T. discriminate. }
  destruct V as [[[-> ->] V]|[[H1 H2] V]].
  { exfalso. destruct (explicit_rotated_proof name dist limit scale rotation flipX ctr w c b oid id radius overlap corners b' t Hk (proj1 Hs) HW Hc Hb Hro H) as ((Hh & _) & K & _).
    assert (E0 : separation ctr ctr <= axis_part rotation * (radius + overlap)).
    { unfold separation. replace (dot (vec_of ctr) (vec_of ctr)) with 1 by (symmetry; apply vec_of_unit). rewrite acos_1. apply Rmult_le_pos; lra. }
    specialize (K ctr E0). apply contains_lemma in K. destruct K as (px & py & _ & K). rewrite HB in K. unfold in_box in K. cbn in K. lia. }
  apply IZR_le in H1, H2. cbv zeta in V. destruct (kinds_kap _ _ _ Hk) as (kap & Hkap & _).
  set (x1 := IZR W - / 2 - 1 / 1000) in *. set (y1 := IZR H' - / 2 - 1 / 1000) in *.
  exists (pixelToSky (t_wcs t) (x1, y1)), (pixelToSky (t_wcs t) (x1 + 1 / 1000, y1)). split; [|split].
  - unfold getInnerSkyPolygon. rewrite V. cbn [map region_contains]. exists [0; 0; 1; 0]. split; [reflexivity|].
    split; [repeat (apply Forall_cons; [lra|]); apply Forall_nil|].
    cbn [combination]. set (v2 := vec_of (pixelToSky (t_wcs t) (x1, y1))). destruct v2 as [[a1 a2] a3]. unfold vadd, vscale; apply vec_eq; unfold vx, vy, vz; cbn [fst snd]; ring.
  - pose proof PI_lower as PL. apply separation_cos; [lra|].
    eapply Rle_trans; [|apply (zen_near kap dist limit scale rotation flipX ctr cx cy (t_wcs t) Hkap (proj1 Hs) Z x1 (x1 + 1 / 1000) y1 (scale / 1000)); [field|lra]].
    destruct (cos_bound (scale / 100) 0) as [_ C]; [lra|lra|]. unfold cos_approx, sum_f_R0, cos_term in C. cbn in C.
    set (u := scale / 100) in *. assert (Hu : 0 < u <= 1 / 100) by (unfold u; lra). replace (scale / 1000) with (u / 10) by (unfold u; field). clearbody u.
    assert (C' : cos u <= 1 - u * u / 2 + u * u * (u * u) / 24) by lra. assert (u * u <= 1) by nra. assert (0 <= u * u) by nra.
    assert (u * u * (u * u) <= u * u * 1) by (apply Rmult_le_compat_l; lra). lra.
  - apply (Out _ (x1 + 1 / 1000) y1); [apply Z2|]. right. unfold x1. lra.
Qed.

(*@ C87: with TAN or STG such a tract is not much larger than asked for: with r the distance in the plane that corresponds to the radius plus the overlap, every coordinate
    that the tract contains, and so each of its vertices, is closer to its centre than what corresponds to 2 h r and the half width and height of a patch and 4 pixels. *)
Lemma explicit_extent_proof : forall name dist limit scale rotation flipX ctr w c b oid id radius overlap corners b' t r s,
  In (name, dist, limit) zenithal_kinds -> 0 < scale -> zenithal_at dist limit scale rotation flipX ctr 0 0 w ->
  cfg_ok c -> builder_reachable c b -> 0 <= r < IZR (2 ^ 51) -> dist (r * scale) = radius + overlap ->
  ExplicitTractInfo_init sphere_offset b oid id ctr radius overlap w corners = Ok (b', t) ->
  tract_contains t s = Ok true \/ In s (t_verts t) ->
  separation s ctr < dist ((2 * (axis_part rotation * r) + IZR (fst (cfg_inner c)) / 2 + IZR (snd (cfg_inner c)) / 2 + 4) * scale).
Proof.
  intros name dist limit scale rotation flipX ctr w c b oid id radius overlap corners b' t r s Hk Hs HW Hc Hb Hr Hd H Ht.
  pose proof (kinds_law _ _ _ Hk) as L.
  destruct (axis_part_bounds rotation) as [HA _]. destruct (cfg_inner_pos c Hc) as [Hp Hq]. apply IZR_lt in Hp, Hq.
  assert (Ht' : tract_contains t s = Ok true).
  { destruct Ht as [Ht|Ht]; [exact Ht|].
    destruct (explicit_zenithal _ _ _ _ _ _ _ _ _ _ _ _ _ _ _ _ H HW) as (cx & cy & (_ & Z2 & _)).
    destruct (explicit_corners _ _ _ _ _ _ _ _ _ _ _ Hc Hb H) as (W & H' & HB & V).
    destruct V as [[_ V]|[[H1 H2] V]]; rewrite V in Ht; [contradiction|]. apply IZR_le in H1, H2. cbn [map In] in Ht.
    destruct Ht as [<-|[<-|[<-|[<-|[]]]]]; apply (contains_pixel t _ _ _ W H' HB (Z2 _ _)); lra. }
  clear Ht. pose proof HW as (Z1 & Z2 & Z3 & _).
  destruct (explicit_init_inv _ _ _ _ _ _ _ _ _ _ _ _ H) as (t0 & H0 & Ew & Eb & _).
  assert (Tc : tract_contains t s = tract_contains t0 s) by (unfold tract_contains; now rewrite Ew, Eb).
  pose proof (rotated_samples dist limit scale rotation flipX ctr w HW radius overlap r (proj1 Hr) Hd) as Hsam. cbv zeta in Hsam. set (m := if flipX then 1 else -1) in *.
  assert (Hm : m = 1 \/ m = -1) by (unfold m; destruct flipX; auto). clearbody m.
  destruct (explicit_shift _ _ _ _ _ _ _ _ _ _ _ H) as (dx & dy & Esh).
  assert (E : exists x y, skyToPixel w s = Pix x y).
  { unfold tract_contains in Ht'. rewrite Esh in Ht'. unfold copyAtShiftedPixelOrigin in Ht'. cbn [skyToPixel] in Ht'.
    destruct (skyToPixel w s) as [[]| |x y]; try discriminate. eauto. }
  destruct E as (x & y & E).
  set (M := axis_part rotation * r) in *. assert (HM : 0 <= M < IZR (2 ^ 51)) by (unfold M; split; nra).
  assert (B : Rabs x < M + IZR (fst (cfg_inner c)) / 2 + 2 /\ Rabs y < M + IZR (snd (cfg_inner c)) / 2 + 2).
  { assert (O : forall P : Prop, (P -> tract_contains t0 s = Ok false) -> ~ P) by (intros P HP p; rewrite Tc in Ht'; rewrite (HP p) in Ht'; discriminate).
    assert (G : M + IZR (fst (cfg_inner c)) / 2 + 2 <= Rabs x \/ M + IZR (snd (cfg_inner c)) / 2 + 2 <= Rabs y -> tract_contains t0 s = Ok false).
    { apply (tract_build_outside sphere_offset c b oid id ctr [] overlap w corners _ b' t0 s x y M Hc Hb H0 HM); [| |exact E].
      - destruct (in_pix_map _ _ _ _ Hsam (or_introl eq_refl)) as (u & Hu & Eu). eauto.
      - intros s' x' y' Hin E'. apply (sample_bounds rotation r m (proj1 Hr) Hm). eapply in_map_pix; eauto. }
    apply O in G. split; apply Rnot_le_lt; intros Q; apply G; tauto. }
  destruct (polar x y) as (q & phi & Hq0 & Ex & Ey).
  pose proof (at_polar' _ _ _ _ _ _ _ _ _ q phi HW L Hs Hq0) as A. rewrite !Rplus_0_l, <- Ex, <- Ey in A.
  unfold separation in A. rewrite (Z3 _ _ _ E) in A. fold (separation s ctr) in A. rewrite A.
  apply (rl_mono _ _ L). split; [apply Rmult_le_pos; lra|]. apply Rmult_lt_compat_r; [exact Hs|].
  assert (Hn : q <= Rabs x + Rabs y).
  { apply Rsqr_incr_0_var; [|pose proof (Rabs_pos x); pose proof (Rabs_pos y); lra].
    assert (Q : q * q = x * x + y * y) by (rewrite Ex, Ey; pose proof (cs phi) as C; transitivity (q * q * (cos phi * cos phi + sin phi * sin phi)); [rewrite C; ring|ring]).
    unfold Rsqr. rewrite Q. pose proof (Rabs_pos x) as Px. pose proof (Rabs_pos y) as Py.
    assert (Ax : Rabs x * Rabs x = x * x) by (rewrite <- Rabs_mult; apply Rabs_pos_eq, Rle_0_sqr). assert (Ay : Rabs y * Rabs y = y * y) by (rewrite <- Rabs_mult; apply Rabs_pos_eq, Rle_0_sqr).
    pose proof (Rmult_le_pos _ _ Px Py). nra. }
  lra.
Qed.

(** The inner region of a tract of a Discrete map is the polygon of its vertices. *)
Lemma held_discrete named p2a bnd order sha1 c ver m0 m i t ras decs radii :
  construct sphere_offset (factory_wcs named) p2a bnd order c ver = Ok m0 -> used sphere_offset sha1 m0 m ->
  c_class c = DiscreteCfg ras decs radii -> holds sphere_offset (m_def m) i (m_state m) t -> getInnerSkyRegion t = getInnerSkyPolygon t.
Proof.
  intros C U Ec Hh. pose proof (used_reachable _ _ _ _ _ _ _ _ _ _ C U) as Hr.
  destruct (used_fields _ _ _ _ U) as (_ & _ & Ed & _). rewrite Ed in Hh.
  unfold construct in C. rewrite Ec in C. unfold wcsFactory in C. destruct (negb _); cbn [bind] in C; [discriminate|].
  destruct (finish_ok _ _ _ _ _ C) as (s & _ & ->). cbn [m_def] in *.
  destruct (holds_args _ _ _ _ _ Hr Hh) as (_ & a & b & b' & oid & Ea & Hb & M).
  cbn [sd_args discrete_def] in Ea. unfold discrete_args in Ea.
  destruct (py_nth (dc_ra _) i) as [ra|]; cbn [bind] in Ea; [|discriminate].
  destruct (py_nth (dc_dec _) i) as [dec|]; cbn [bind] in Ea; [|discriminate].
  destruct (makeSpherePoint _ _) as [ctr|]; cbn [bind] in Ea; [|discriminate].
  destruct (py_nth (dc_radius _) i) as [x|] eqn:Ex; cbn [bind] in Ea; [|discriminate].
  assert (Ea' : a = ExplicitArgs ctr (deg x) (deg (f2r (c_overlap c))) (factory_wcs named (c_projection c) (f2r (c_scale c)) (f2r (c_rotation c)) ctr) None) by congruence.
  subst a. cbn [make_tract] in M. apply explicit_keeps in M. destruct M as (_ & _ & _ & _ & Q). unfold getInnerSkyRegion, getInnerSkyPolygon.
  first [rewrite Q; reflexivity | destruct Q as (Q & _); rewrite Q; reflexivity].
Qed.

(*@ C87: hence for the Rings and Discrete sky maps made from a configuration, at any point of their life, with the TAN or STG projection: the inner sky polygon of each tract (for Discrete
    maps, its inner sky region) contains the disc of h times the radius plus the overlap about the tract's centre (less a thousandth of a pixel; with STG, if the vertices are less
    than 90 degrees away); with TAN it is the set of coordinates in the tract's box but for a thousandth of a pixel at its edges, and the tract contains it. *)
Lemma inner_maps_proof : forall named p2a bnd order sha1 c ver m0 m i t radius name dist limit s, knows named ->
  construct sphere_offset (factory_wcs named) p2a bnd order c ver = Ok m0 -> used sphere_offset sha1 m0 m ->
  cfg_ok (selected (c_tb c)) -> (forall n ra, c_class c = RingsCfg n ra -> (1 <= n)%Z) -> 0 < f2r (c_scale c) ->
  c_projection c = of_string name -> In (name, dist, limit) zenithal_kinds ->
  holds sphere_offset (m_def m) i (m_state m) t -> tract_radius (c_class c) i radius ->
  let overlap := f2r (c_overlap c) * (PI / 180) in
  let rotation := f2r (c_rotation c) * (PI / 180) in
  let scale := f2r (c_scale c) * (PI / 648000) in
  (0 <= radius + overlap < limit ->
   (name = "STG"%string -> forall v, In v (t_verts t) -> separation v (t_ctr t) < PI / 2) ->
   separation s (t_ctr t) <= axis_part rotation * (radius + overlap) - scale / 1000 -> region_contains (getInnerSkyPolygon t) s)
  /\ (name = "TAN"%string ->
      (region_contains (getInnerSkyPolygon t) s
       <-> exists x y, skyToPixel (t_wcs t) s = Pix x y
            /\ - / 2 + 1 / 1000 <= x <= IZR (dimx (t_bbox t)) - / 2 - 1 / 1000
            /\ - / 2 + 1 / 1000 <= y <= IZR (dimy (t_bbox t)) - / 2 - 1 / 1000)
      /\ (region_contains (getInnerSkyPolygon t) s -> tract_contains t s = Ok true))
  /\ (forall ras decs radii, c_class c = DiscreteCfg ras decs radii -> getInnerSkyRegion t = getInnerSkyPolygon t).
Proof.
  intros named p2a bnd order sha1 c ver m0 m i t radius name dist limit s Hk C U Hc Hn Hs Hname Hin Hh Hrad overlap rotation scale.
  destruct (held_explicit named p2a bnd order sha1 c ver m0 m i t radius name C U Hn Hname Hh Hrad) as (b & b' & oid & cor & Hb & M).
  change (deg (f2r (c_overlap c))) with overlap in M.
  assert (Hp : 0 < scale) by (apply Rmult_lt_0_compat; [exact Hs|pose proof PI_RGT_0; lra]).
  pose proof (factory_zenithal named name dist limit (f2r (c_scale c)) (f2r (c_rotation c)) (t_ctr t) Hk Hin Hs) as Z. fold rotation scale in Z.
  split; [|split].
  - intros Hro Hv Hd.
    exact (explicit_inner_disc_proof name dist limit scale rotation false (t_ctr t) _ _ b oid i radius overlap cor b' t s Hin Hp Z Hc Hb Hro M Hv Hd).
  - intros ->. apply (explicit_inner_polygon_proof _ b oid i (t_ctr t) radius overlap _ cor b' t s Hc Hb M).
    apply (proj1 (factory_projections_proof named _ _ Hk Hs)).
  - intros ras decs radii Ec. exact (held_discrete named p2a bnd order sha1 c ver m0 m i t ras decs radii C U Ec Hh).
Qed.

(** One tract of 4 degrees, at the default settings. *)
Definition discrete4 (name : string) : config :=
  mkConfig tb_default f64_one f64_0_333 (of_string name) f64_zero (DiscreteCfg [f64_3_5] [f64_45] [f64_4]).

Lemma discrete4_used p2a bnd order sha1 name dist limit : In (name, dist, limit) zenithal_kinds ->
  let c := discrete4 name in
  exists m0 m t, construct sphere_offset (factory_wcs fits_projections) p2a bnd order c None = Ok m0 /\ used sphere_offset sha1 m0 m
    /\ holds sphere_offset (m_def m) 0 (m_state m) t.
Proof.
  intros Hin c.
  assert (Hc : cfg_ok (selected (c_tb c))) by (cbn; lia). assert (F2 : f2r f64_45 = 45) by (vm_compute; lra).
  set (dc := mkDiscrete [f2r f64_3_5] [f2r f64_45] [f2r f64_4]).
  set (mk := factory_wcs fits_projections (of_string name) (f2r (c_scale c)) (f2r (c_rotation c))).
  set (d := discrete_def (selected (c_tb c)) mk (f2r f64_one) dc).
  assert (E0 : exists s0, sm_new sphere_offset d = Ok s0) by (eexists; reflexivity). destruct E0 as (s0 & E0).
  set (m0 := mkMap c (VerInt 0) d s0 None).
  assert (L3 : Nat.eqb (length (of_string name)) 3 = true) by (cbn [zenithal_kinds In] in Hin; destruct Hin as [H|[H|[]]]; injection H as <- _ _; reflexivity).
  assert (C0 : construct sphere_offset (factory_wcs fits_projections) p2a bnd order c None = Ok m0).
  { unfold construct. cbn [c_class c discrete4]. unfold wcsFactory. cbn [c_projection c discrete4].
    rewrite L3. cbn [negb bind]. unfold finish.
    change (sm_new sphere_offset _) with (sm_new sphere_offset d). rewrite E0. reflexivity. }
  assert (Hr : sm_reachable sphere_offset d s0) by (exists s0; split; [exact E0|constructor]).
  destruct (discrete_access_proof sphere_offset (selected (c_tb c)) mk (f2r f64_one) dc s0 0 Hc Hr) as [A _].
  { intros k co e. unfold mk, factory_wcs, makeWcs. cbn [makeSkyWcs skyToPixel]. destruct (plane_of _ _ _); discriminate. }
  { cbn. lia. }
  destruct (A eq_refl) as (s & t & G).
  { cbn [dc dc_dec In]. rewrite F2. intros dec [<-|[]]; lra. }
  destruct (getitem_holds sphere_offset d s0 0%Z s t Hr ltac:(lia) G) as (Hr' & Ac & Hh).
  exists m0, (mkMap c (VerInt 0) d s None), t. split; [exact C0|]. split; [|exact Hh].
  apply (used_access sphere_offset sha1 m0 m0 s (used_not _ _ _) Ac).
Qed.

(*@ C87, non-vacuity and refutation for a constructed map: the Discrete map with the default settings and one tract of radius 4 degrees, with TAN or STG, meets the assumptions: its tract 0
    in use has its vertices less than 90 degrees from its centre.  With STG (the default), its inner sky region contains a coordinate that the tract does not; with either projection it contains
    one that is less than a hundredth of a pixel from a coordinate outside the tract, although the overlap is 1 degree. *)
Lemma inner_region_refuted_proof : forall p2a bnd order sha1 name dist limit, In (name, dist, limit) zenithal_kinds ->
  let c := discrete4 name in
  exists m0 m t, construct sphere_offset (factory_wcs fits_projections) p2a bnd order c None = Ok m0 /\ used sphere_offset sha1 m0 m
    /\ knows fits_projections /\ cfg_ok (selected (c_tb c)) /\ 0 < f2r (c_scale c) /\ holds sphere_offset (m_def m) 0 (m_state m) t
    /\ tract_radius (c_class c) 0 (deg 4) /\ f2r (c_overlap c) * (PI / 180) = deg 1 /\ 0 <= deg 4 + deg 1 < limit
    /\ axis_part (f2r (c_rotation c) * (PI / 180)) = 1
    /\ (forall v, In v (t_verts t) -> separation v (t_ctr t) < PI / 2)
    /\ (name = "STG"%string -> exists s, region_contains (getInnerSkyRegion t) s /\ tract_contains t s = Ok false)
    /\ (exists p q, region_contains (getInnerSkyRegion t) p /\ separation p q <= deg (333 / 1000 / 3600) / 99 /\ tract_contains t q = Ok false).
Proof.
  intros p2a bnd order sha1 name dist limit Hin c. pose proof PI_RGT_0 as HP. pose proof PI_lower as PL. pose proof PI_upper as PU.
  assert (Hk : knows fits_projections) by (unfold knows, fits_projections; repeat split).
  assert (Hc : cfg_ok (selected (c_tb c))) by (cbn; lia).
  assert (F1 : f2r f64_one = 1) by (vm_compute; lra). assert (F0 : f2r f64_zero = 0) by (vm_compute; lra).
  assert (F3 : 333 / 1001 <= f2r f64_0_333 <= 333001 / 1000000) by (vm_compute; lra). assert (F4 : f2r f64_4 = 4) by (vm_compute; lra).
  destruct (discrete4_used p2a bnd order sha1 name dist limit Hin) as (m0 & m & t & C0 & Hu & Hh).
  exists m0, m, t. fold c in C0. split; [exact C0|]. split; [exact Hu|]. split; [exact Hk|]. split; [exact Hc|].
  assert (Hs : 0 < f2r (c_scale c)) by (change (c_scale c) with f64_0_333; lra). split; [exact Hs|]. split; [exact Hh|].
  assert (Hrad : tract_radius (c_class c) 0 (deg 4)) by (exists f64_4; split; [reflexivity|now rewrite F4]). split; [exact Hrad|].
  assert (Hov : f2r (c_overlap c) * (PI / 180) = deg 1) by (change (c_overlap c) with f64_one; now rewrite F1). split; [exact Hov|].
  assert (H5 : 0 <= deg 4 + deg 1 < limit).
  { unfold deg. cbn [zenithal_kinds In] in Hin. destruct Hin as [H|[H|[]]]; injection H as _ _ <-; lra. }
  split; [exact H5|].
  assert (Hax : axis_part (f2r (c_rotation c) * (PI / 180)) = 1).
  { apply quarter_turns. right. change (c_rotation c) with f64_zero. rewrite F0, Rmult_0_l. apply sin_0. }
  split; [exact Hax|].
  destruct (held_explicit fits_projections p2a bnd order sha1 c None m0 m 0%Z t (deg 4) name C0 Hu ltac:(intros; discriminate) eq_refl Hh Hrad) as (b & b' & oid & cor & Hb & M).
  change (deg (f2r (c_overlap c))) with (f2r (c_overlap c) * (PI / 180)) in M. rewrite Hov in M.
  pose proof (held_discrete fits_projections p2a bnd order sha1 c None m0 m 0%Z t _ _ _ C0 Hu eq_refl Hh) as Reg.
  pose proof (factory_zenithal fits_projections name dist limit (f2r (c_scale c)) (f2r (c_rotation c)) (t_ctr t) Hk Hin Hs) as Z.
  set (sc := f2r (c_scale c) * (PI / 648000)) in *.
  assert (Hsc : 11 / 10000000 <= sc <= 17 / 10000000 /\ sc / 100 <= deg (333 / 1000 / 3600) / 99).
  { unfold sc, deg. change (c_scale c) with f64_0_333. set (f := f2r f64_0_333) in *. clearbody f. split; [split|].
    - apply Rle_trans with (333 / 1001 * (314 / 100 / 648000)); [lra|]. apply Rmult_le_compat; lra.
    - apply Rle_trans with (334 / 1000 * (315 / 100 / 648000)); [|lra]. apply Rmult_le_compat; lra.
    - nra. }
  clearbody sc. destruct Hsc as [Hsc Hsc2].
  destruct (explicit_rotated_proof name dist limit sc _ false (t_ctr t) _ _ b oid 0%Z (deg 4) (deg 1) cor b' t Hin ltac:(lra) Z Hc Hb H5 M) as (_ & _ & r & Hr & Er & K & _).
  rewrite Hax in K.
  (* bounds of r *)
  assert (Br : 872 / 10000 <= r * sc <= 880 / 10000).
  { destruct (tan_bounds (5 * PI / 360) ltac:(lra) ltac:(lra)) as [T1 T2]. destruct (tan_bounds (5 * PI / 180) ltac:(lra) ltac:(lra)) as [T3 T4].
    assert (B5 : 5 * PI / 360 / (1 - 5 * PI / 360 * (5 * PI / 360) / 2) <= 439 / 10000).
    { apply Rmult_le_reg_r with (1 - 5 * PI / 360 * (5 * PI / 360) / 2); [nra|]. unfold Rdiv at 1. rewrite Rmult_assoc, Rinv_l by nra. rewrite Rmult_1_r. nra. }
    assert (B6 : 5 * PI / 180 / (1 - 5 * PI / 180 * (5 * PI / 180) / 2) <= 880 / 10000).
    { apply Rmult_le_reg_r with (1 - 5 * PI / 180 * (5 * PI / 180) / 2); [nra|]. unfold Rdiv at 1. rewrite Rmult_assoc, Rinv_l by nra. rewrite Rmult_1_r. nra. }
    assert (E5 : deg 4 + deg 1 = 5 * PI / 180) by (unfold deg; field). rewrite E5 in Er.
    cbn [zenithal_kinds In] in Hin. destruct Hin as [H|[H|[]]]; injection H as _ <- _.
    - assert (r * sc = tan (5 * PI / 180)) as -> by (rewrite <- Er, tan_atan; reflexivity). lra.
    - assert (Q : atan (r * sc / 2) = 5 * PI / 360) by lra. assert (r * sc / 2 = tan (5 * PI / 360)) by (rewrite <- Q, tan_atan; reflexivity). lra. }
  assert (Hr51 : 0 <= r < IZR (2 ^ 51)).
  { split; [exact Hr|]. apply Rlt_le_trans with 1000000; [|apply IZR_le; vm_compute; discriminate]. apply (Rmult_lt_reg_r sc); lra. }
  assert (Vn : forall v, In v (t_verts t) -> separation v (t_ctr t) < PI / 2).
  { intros v Hv. pose proof (explicit_extent_proof name dist limit sc _ false (t_ctr t) _ _ b oid 0%Z (deg 4) (deg 1) cor b' t r v Hin ltac:(lra) Z Hc Hb Hr51 Er M (or_intror Hv)) as Q.
    rewrite Hax in Q. eapply Rlt_le_trans; [exact Q|].
    change (fst (cfg_inner (selected (c_tb c)))) with 4000%Z. change (snd (cfg_inner (selected (c_tb c)))) with 4000%Z.
    set (a := (2 * (1 * r) + 4000 / 2 + 4000 / 2 + 4) * sc). assert (Ha : 0 <= a <= 1).
    { replace a with (2 * (r * sc) + 4004 * sc) by (unfold a; field). lra. }
    pose proof (kinds_lip _ _ _ a 0 Hin (proj1 Ha)) as Lp. rewrite (rl_0 _ _ (kinds_law _ _ _ Hin)) in Lp. lra. }
  split; [exact Vn|]. rewrite Reg. split.
  - intros ->. assert (Hin' : dist = (fun t => 2 * atan (t / 2)) /\ limit = PI).
    { cbn [zenithal_kinds In] in Hin. destruct Hin as [H|[H|[]]]; [discriminate|]. injection H as <- <-. auto. }
    destruct Hin' as [-> ->].
    apply (explicit_inner_outside_refuted_proof sc _ false (t_ctr t) _ _ b oid 0%Z (deg 4) (deg 1) cor b' t ltac:(lra) Z Hc Hb M Vn).
    destruct (explicit_zenithal _ _ _ _ _ _ _ _ _ _ _ _ _ _ _ _ M Z) as (cx & cy & Zt).
    destruct (explicit_corners _ _ _ _ _ _ _ _ _ _ _ Hc Hb M) as (W & H' & HB & _).
    assert (X : forall phi, (- / 2 <= cx + r * cos phi < IZR W - / 2) /\ (- / 2 <= cy + r * sin phi < IZR H' - / 2)).
    { intros a. apply (contains_pixel t (pixelToSky (t_wcs t) (cx + r * cos a, cy + r * sin a)) _ _ W H' HB (proj1 (proj2 Zt) _ _)).
      apply K. rewrite (at_polar' _ _ _ _ _ _ _ _ _ r a Zt stg_law ltac:(lra) Hr). rewrite Rmult_1_l. lra. }
    pose proof (proj1 (X 0)) as X0. rewrite cos_0 in X0. pose proof (proj1 (X PI)) as X1. rewrite cos_PI in X1.
    pose proof (proj2 (X (PI / 2))) as Y0. rewrite sin_PI2 in Y0. pose proof (proj2 (X (- (PI / 2)))) as Y1. rewrite sin_neg, sin_PI2 in Y1.
    rewrite HB. cbn [dimx dimy].
    assert (HW : 17 / 100 <= IZR W * sc). { apply Rle_trans with (2 * r * sc); [lra|]. apply Rmult_le_compat_r; lra. }
    assert (HH : 100000 <= IZR H').
    { apply Rle_trans with (2 * r); [|lra]. apply (Rmult_le_reg_r sc); [lra|]. lra. }
    replace (IZR W * IZR W * IZR H' * (sc * sc)) with (IZR W * sc * (IZR W * sc) * IZR H') by ring.
    apply Rle_trans with (17 / 100 * (17 / 100) * 100000); [lra|]. apply Rmult_le_compat; [lra|lra| |exact HH]. apply Rmult_le_compat; lra.
  - destruct (explicit_no_overlap_refuted_proof name dist limit sc _ false (t_ctr t) _ _ b oid 0%Z (deg 4) (deg 1) cor b' t Hin ltac:(lra) Z Hc Hb H5 M) as (p & q & A & B & C).
    exists p, q. split; [exact A|]. split; [lra|exact C].
Qed.
