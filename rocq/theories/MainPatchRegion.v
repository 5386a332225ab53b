(** findPatchList and the region that its coordinates span (C82). *)
From Coq Require Import Reals Lra Lia.
From Flocq Require Import Core.Raux.
Require Import Verif.Py Verif.Geom Verif.PatchInfo Verif.TractBuilder Verif.TractInfo Verif.Spec.
Require Import Verif.PatchProofs Verif.TractProofs Verif.MainPatch Verif.MainTract.
Require Import Verif.SkyMap Verif.SkySpec Verif.SkyProofs Verif.SkyProofs2 Verif.MainSky.
Require Import Verif.Rings Verif.RingsSpec Verif.Sphere Verif.SphereProofs Verif.Region Verif.MapsProofs Verif.DodecaSpec Verif.HullProofs Verif.ProjSpec.
Require Import Verif.MainPolygons Verif.MiscSpec Verif.Examples.
Open Scope list_scope.
Open Scope R_scope.

Lemma list_min {A} (f : A -> R) (l : list A) : l <> [] -> exists k, In k l /\ forall j, In j l -> f k <= f j.
Proof.
  induction l as [|a l IH]; [contradiction|]. intros _. destruct l as [|b l].
  - exists a. split; [now left|]. intros j [<-|[]]. lra.
  - destruct IH as (k & Hk & Hm); [discriminate|]. destruct (Rle_lt_dec (f a) (f k)) as [L|L].
    + exists a. split; [now left|]. intros j [<-|Hj]; [lra|]. specialize (Hm j Hj). lra.
    + exists k. split; [now right|]. intros j [<-|Hj]; [lra|auto].
Qed.
Lemma combination_zero_dot n ws vs : (forall v, In v vs -> dot n v = 0) -> dot n (combination ws vs) = 0.
Proof.
  intros H. rewrite dot_combination. revert vs H. induction ws as [|w ws IH]; intros [|v vs] H; cbn [combine map fold_right fst snd]; try reflexivity.
  rewrite IH by (intros; apply H; now right). rewrite (H v (or_introl eq_refl)). ring.
Qed.

(** With a gnomonic WCS the position of a coordinate in the hull of others is
    between their positions, along every axis. *)
Lemma gnomonic_between w coords s : gnomonic w -> (forall k, In k coords -> exists x y, skyToPixel w k = Pix x y) ->
  region_contains (sky_polygon coords) s ->
  exists x y, skyToPixel w s = Pix x y
    /\ (exists k1 k2 x1 y1 x2 y2, In k1 coords /\ In k2 coords /\ skyToPixel w k1 = Pix x1 y1 /\ skyToPixel w k2 = Pix x2 y2 /\ x1 <= x <= x2)
    /\ (exists k1 k2 x1 y1 x2 y2, In k1 coords /\ In k2 coords /\ skyToPixel w k1 = Pix x1 y1 /\ skyToPixel w k2 = Pix x2 y2 /\ y1 <= y <= y2).
Proof.
  intros ((ctr & a & b & x0 & y0 & A1 & A2 & A3 & A4 & A5 & H) & _) Hall Hreg.
  cbn [sky_polygon region_contains] in Hreg. destruct Hreg as (ws & Hlen & Hws & Hv).
  set (v := vec_of s) in *. assert (Uv : dot v v = 1) by (apply vec_of_unit). 
  assert (P : forall k, In k coords -> 0 < dot (vec_of k) (vec_of ctr)).
  { intros k Hk. destruct (Hall k Hk) as (x & y & E). rewrite H in E. cbv zeta in E. destruct (Rlt_bool_spec 0 (dot (vec_of k) (vec_of ctr))); [assumption|discriminate]. }
  assert (Pv : forall n, (forall k, In k coords -> 0 <= dot n (vec_of k)) -> 0 <= dot n v).
  { intros n Hn. rewrite Hv. apply combination_nonneg; [exact Hws|]. intros u Hu. apply in_map_iff in Hu. destruct Hu as (k & <- & Hk). auto. }
  assert (Ne : coords <> []). { intros ->. cbn [map] in Hv. rewrite Hv in Uv. destruct ws; cbn in Uv; unfold dot, vx, vy, vz in Uv; cbn in Uv; lra. }
  (* the direction is in front of the plane *)
  assert (D : 0 < dot v (vec_of ctr)).
  { destruct (list_min (fun k => dot (vec_of k) (vec_of ctr)) coords Ne) as (k0 & Hk0 & Hmin). pose proof (P k0 Hk0) as P0. set (m := dot (vec_of k0) (vec_of ctr)) in *.
    (* dot u ctr >= m >= m * dot u v *)
    pose proof (Pv (vadd (vec_of ctr) (vscale (- m) v))) as Q. rewrite dot_vadd_l, dot_vscale_l, Uv, (dot_comm (vec_of ctr)) in Q.
    assert (0 <= dot v (vec_of ctr) + - m * 1); [|lra]. apply Q. intros k Hk. rewrite dot_vadd_l, dot_vscale_l.
    specialize (Hmin k Hk). cbv beta in Hmin. rewrite (dot_comm (vec_of ctr)). pose proof (dot_bound v (vec_of k) (vec_of_unit s) (vec_of_unit k)) as B. nra. }
  exists (x0 + dot v a / dot v (vec_of ctr)), (y0 + dot v b / dot v (vec_of ctr)).
  split. { rewrite H. cbv zeta. fold v. destruct (Rlt_bool_spec 0 (dot v (vec_of ctr))); [reflexivity|lra]. }
  (* one axis *)
  assert (Ax : forall q, exists k1 k2, In k1 coords /\ In k2 coords
     /\ dot (vec_of k1) q / dot (vec_of k1) (vec_of ctr) <= dot v q / dot v (vec_of ctr) <= dot (vec_of k2) q / dot (vec_of k2) (vec_of ctr)).
  { intros q.
    assert (Low : forall q, exists k1, In k1 coords /\ dot (vec_of k1) q / dot (vec_of k1) (vec_of ctr) <= dot v q / dot v (vec_of ctr)).
    { clear q. intros q. destruct (list_min (fun k => dot (vec_of k) q / dot (vec_of k) (vec_of ctr)) coords Ne) as (k1 & Hk1 & Hmin).
      exists k1. split; [exact Hk1|]. cbv beta in Hmin. set (r := dot (vec_of k1) q / _) in *.
      assert (Q : 0 <= dot (vadd q (vscale (- r) (vec_of ctr))) v).
      { apply Pv. intros k Hk. rewrite dot_vadd_l, dot_vscale_l, !(dot_comm _ (vec_of k)). specialize (Hmin k Hk). pose proof (P k Hk) as Pk.
        apply (Rmult_le_compat_r (dot (vec_of k) (vec_of ctr))) in Hmin; [|lra]. unfold Rdiv in Hmin. rewrite Rmult_assoc, Rinv_l in Hmin by lra. lra. }
      rewrite dot_vadd_l, dot_vscale_l, !(dot_comm _ v) in Q.
      apply (Rmult_le_reg_r (dot v (vec_of ctr))); [exact D|]. unfold Rdiv. rewrite Rmult_assoc, Rinv_l by lra. lra. }
    destruct (Low q) as (k1 & Hk1 & L1). destruct (Low (vscale (-1) q)) as (k2 & Hk2 & L2). exists k1, k2. split; [exact Hk1|]. split; [exact Hk2|]. split; [exact L1|].
    rewrite !(dot_comm _ (vscale _ _)), !dot_vscale_l in L2. rewrite !(dot_comm q) in L2. unfold Rdiv in *. lra. }
  split; [destruct (Ax a) as (k1 & k2 & Hk1 & Hk2 & B)|destruct (Ax b) as (k1 & k2 & Hk1 & Hk2 & B)];
    destruct (Hall k1 Hk1) as (x1 & y1 & E1), (Hall k2 Hk2) as (x2 & y2 & E2); exists k1, k2, x1, y1, x2, y2;
    split; try assumption; split; try assumption; split; try assumption; split; try assumption;
    rewrite H in E1, E2; cbv zeta in E1, E2;
    pose proof (P k1 Hk1); pose proof (P k2 Hk2);
    destruct (Rlt_bool_spec 0 (dot (vec_of k1) (vec_of ctr))); try discriminate; destruct (Rlt_bool_spec 0 (dot (vec_of k2) (vec_of ctr))); try discriminate;
    injection E1 as <- <-; injection E2 as <- <-; lra.
Qed.

(** Whoever is between two positions has a pixel between the two pixels. *)
Lemma pixel_between x x1 px p1 : IZR px - / 2 <= x < IZR px + / 2 -> IZR p1 - / 2 <= x1 < IZR p1 + / 2 -> x1 <= x -> (p1 <= px)%Z.
Proof. intros H1 H2 H. apply Z.lt_succ_r, lt_IZR. rewrite succ_IZR. lra. Qed.
Lemma pixel_of_pos {Sky} (t : tract Sky) s x y : skyToPixel (t_wcs t) s = Pix x y -> pixel_of t s (round_pixel x) (round_pixel y).
Proof.
  intros E. exists x, y. split; [exact E|]. unfold round_pixel.
  pose proof (Zfloor_lb (x + / 2)). pose proof (Zfloor_ub (x + / 2)). pose proof (Zfloor_lb (y + / 2)). pose proof (Zfloor_ub (y + / 2)). lra.
Qed.

(*@ C82: let a tract in use have a gnomonic WCS, and all the given coordinates a pixel position. For every coordinate in the
    spherical convex polygon they span, findPatchList contains the patch that findPatch gives, and more generally
    every patch whose outer box contains its pixel. *)
Lemma findPatchList_region_proof : forall offset c b t coords s,
  cfg_ok c -> in_use offset c b t -> (dimx (t_bbox t) < 2 ^ 31)%Z -> (dimy (t_bbox t) < 2 ^ 31)%Z -> gnomonic (t_wcs t) ->
  (forall k, In k coords -> exists x y, skyToPixel (t_wcs t) k = Pix x y) ->
  region_contains (sky_polygon coords) s ->
  exists ps, findPatchList b t coords = Ok ps
    /\ (forall p, findPatch b t s = Ok p -> In p ps)
    /\ (forall i j p px py, tract_getPatchInfo b t (IxIndex2D i j) = Ok p -> pixel_of t s px py -> in_box px py (p_outer p) -> In p ps).
Proof.
  intros offset c b t coords s Hc Hu HX HY Hg Hall Hreg.
  destruct (findPatchList_correct_proof _ offset c b t coords Hc Hu HX HY) as (ps & B & E & (_ & HB1 & _) & Hin & _).
  { intros k Hk. destruct (Hall k Hk) as (x & y & ->). discriminate. }
  assert (Key : forall px py, pixel_of t s px py -> in_box px py B).
  { intros px py (x & y & Es & Hx & Hy).
    destruct (gnomonic_between _ _ _ Hg Hall Hreg) as (x' & y' & Es' & (k1 & k2 & x1 & y1 & x2 & y2 & I1 & I2 & P1 & P2 & Bx) & (k3 & k4 & x3 & y3 & x4 & y4 & I3 & I4 & P3 & P4 & By)).
    rewrite Es in Es'. injection Es' as <- <-.
    pose proof (HB1 _ _ _ I1 (pixel_of_pos t _ _ _ P1)) as [C1 _]. pose proof (HB1 _ _ _ I2 (pixel_of_pos t _ _ _ P2)) as [C2 _].
    pose proof (HB1 _ _ _ I3 (pixel_of_pos t _ _ _ P3)) as [_ C3]. pose proof (HB1 _ _ _ I4 (pixel_of_pos t _ _ _ P4)) as [_ C4].
    assert (Q : forall z, IZR (round_pixel z) - / 2 <= z < IZR (round_pixel z) + / 2).
    { intros z. unfold round_pixel. pose proof (Zfloor_lb (z + / 2)). pose proof (Zfloor_ub (z + / 2)). lra. }
    pose proof (pixel_between x x1 px _ Hx (Q x1) ltac:(lra)). pose proof (pixel_between x2 x _ px (Q x2) Hx ltac:(lra)).
    pose proof (pixel_between y y3 py _ Hy (Q y3) ltac:(lra)). pose proof (pixel_between y4 y _ py (Q y4) Hy ltac:(lra)).
    unfold in_box. lia. }
  assert (Bd : (0 <= cfg_border c)%Z) by (destruct c as [[w h] bo|[w h] cb n nb]; cbn in *; nia).
  exists ps. split; [exact E|]. split.
  - intros p Hf.
    assert (Hct : tract_contains t s = Ok true).
    { pose proof (findPatch_lemma _ offset c b t s Hc Hu HX HY) as F. destruct (tract_contains t s) as [[|]|]; [reflexivity| |]; rewrite F in Hf; discriminate. }
    pose proof (findPatch_lemma _ offset c b t s Hc Hu HX HY) as F. rewrite Hct in F. destruct F as (p' & i & j & px & py & Ep & Hp & Hpix & _ & Hbox).
    rewrite Ep in Hf. injection Hf as <-. apply (Hin _ _ _ Hp). exists px, py, px, py. split; [now apply Key|]. split; [exact Hbox|]. lia.
  - intros i j p px py Hp Hpix Hout. apply (Hin _ _ _ Hp).
    assert (Near : exists qx qy, in_box qx qy (p_inner p) /\ (Z.abs (px - qx) <= cfg_border c)%Z /\ (Z.abs (py - qy) <= cfg_border c)%Z).
    { destruct (in_use_spec offset c b t Hc Hu) as (nx & ny & Hi & Hinit & Hnb & Hnt & Hnx & Hny & Hz & HB).
      destruct (cfg_inner_pos c Hc) as [Pw Ph]. destruct (getPatchInfo_pair_inv c b nx ny _ i j p Hc Hi Hinit Hnb Hp) as (Hx & Hy & ->).
      cbn [the_patch p_outer p_inner] in *. set (w := fst (cfg_inner c)) in *. set (h := snd (cfg_inner c)) in *.
      exists (Z.max (i * w) (Z.min px (i * w + w - 1))), (Z.max (j * h) (Z.min py (j * h + h - 1))).
      unfold in_box in *. cbn [minx miny dimx dimy]. assert (i * w - cfg_border c <= px < i * w + w + cfg_border c /\ j * h - cfg_border c <= py < j * h + h + cfg_border c)%Z; [|lia].
      unfold outer_of in Hout. fold w h in Hout. destruct c; cbn [minx miny dimx dimy] in Hout; lia. }
    destruct Near as (qx & qy & Q1 & Q2 & Q3). exists px, py, qx, qy. split; [now apply Key|auto].
Qed.

(*@ C82: likewise for a whole map whose tracts have equal patch counts: findTractPatchList lists every tract that has a patch for a coordinate of the region, with that patch
    (if the tract's WCS is gnomonic and all the given coordinates have a position in it). *)
Lemma findTractPatchList_region_proof : forall offset d n coords st st' l i t s p,
  cfg_ok (sd_cfg d) -> uniform_counts offset d n -> sm_reachable offset d st ->
  base_findTractPatchList offset d coords st = (st', Ok l) -> holds offset d i st' t ->
  (dimx (t_bbox t) < 2 ^ 31)%Z -> (dimy (t_bbox t) < 2 ^ 31)%Z -> gnomonic (t_wcs t) ->
  (forall k, In k coords -> exists x y, skyToPixel (t_wcs t) k = Pix x y) ->
  region_contains (sky_polygon coords) s -> findPatch (sm_builder st') t s = Ok p ->
  exists pl, In (t, pl) l /\ In p pl.
Proof.
  intros offset d n coords st st' l i t s p Hc Hn Hr Hl Hh HX HY Hg Hall Hreg Hf.
  assert (Hst : settled offset d st) by exact (proj1 (settled_maps_proof _ offset d st Hr) n Hc Hn).
  destruct (findTractPatchList_settled_proof _ offset d coords st st' l Hst Hr Hl) as (_ & L & _).
  destruct (findTractPatchList_correct_proof _ offset d coords st st' l Hr Hl) as (Ac & _).
  pose proof (reachable_accesses _ _ _ _ Hr Ac) as Hr'.
  assert (Hu : in_use offset (sd_cfg d) (sm_builder st') t) by exact (uniform_in_use offset d n _ i t Hc Hn Hr' Hh).
  destruct (findPatchList_region_proof offset _ _ t coords s Hc Hu HX HY Hg Hall Hreg) as (ps & E & In1 & _).
  exists ps. split; [|auto]. apply L. split; [eauto|]. split; [exact E|]. intros ->. exact (In1 p Hf).
Qed.

Lemma stg_vector scale ctr x y : scale <> 0 -> let X := - (x / scale) in let Y := y / scale in
  vec_of (pixelToSky (stg_wcs scale ctr) (x, y))
  = vscale (/ (4 + (X * X + Y * Y))) (vadd (vscale (4 - (X * X + Y * Y)) (vec_of ctr)) (vadd (vscale (4 * X) (east ctr)) (vscale (4 * Y) (north ctr)))).
Proof.
  intros Hs X Y. cbn [pixelToSky stg_wcs fst snd]. fold X Y. pose proof (four_pos X Y) as Hq.
  assert (E : stg_inverse ctr X Y = vscale (/ (4 + (X * X + Y * Y))) (vadd (vscale (4 - (X * X + Y * Y)) (vec_of ctr)) (vadd (vscale (4 * X) (east ctr)) (vscale (4 * Y) (north ctr))))).
  { reflexivity. }
  rewrite E. apply vec_of_coord. set (q := 4 + _) in *. set (u := vscale _ _).
  assert (Eu : u = vadd (vscale ((4 - (X * X + Y * Y)) / q) (vec_of ctr)) (vadd (vscale (4 * X / q) (east ctr)) (vscale (4 * Y / q) (north ctr)))).
  { unfold u, vscale, vadd, vx, vy, vz; cbn [fst snd]. apply vec_eq; field; lra. }
  destruct (frame_dots ctr _ _ _ u Eu) as (_ & _ & _ & D4). unfold unit_vec. rewrite D4. unfold q. field. unfold q in Hq. lra.
Qed.

(*@ C82, refuted for the stereographic projection (the default): whatever the centre, there is a tract of 3 x 3 default patches (pixels of about 20
    arcseconds), three coordinates in it and a coordinate of the triangle they span whose patch findPatchList does not list. *)
Lemma findPatchList_region_refuted_proof : forall ctr : sphere, exists b t coords s p ps,
  in_use sphere_offset legacy_default b t /\ (dimx (t_bbox t) < 2 ^ 31)%Z /\ (dimy (t_bbox t) < 2 ^ 31)%Z
  /\ same_projection (stg_wcs 10000 ctr) (t_wcs t)
  /\ (forall k, In k coords -> tract_contains t k = Ok true) /\ region_contains (sky_polygon coords) s
  /\ findPatchList b t coords = Ok ps /\ findPatch b t s = Ok p /\ ~ In p ps.
Proof.
  intros ctr. assert (Hc : cfg_ok legacy_default) by (cbn; lia).
  set (w0 := copyAtShiftedPixelOrigin (stg_wcs 10000 ctr) 5000 0).
  destruct (example_tract legacy_default w0 ctr Hc eq_refl) as (b & t & E & Hu & Hn & Hw).
  { intros x y. unfold w0. cbn [skyToPixel pixelToSky copyAtShiftedPixelOrigin fst snd]. rewrite stg_roundtrip by lra. f_equal; ring. }
  destruct (in_use_spec _ _ b t Hc Hu) as (nx & ny & Hi & Hinit & Hnb & Hnt & _ & _ & _ & HB). rewrite Hn in Hnt. injection Hnt as <- <-.
  change (cfg_inner legacy_default) with (4000, 4000)%Z in HB. cbn [fst snd] in HB.
  assert (HX : (dimx (t_bbox t) < 2 ^ 31)%Z) by (rewrite HB; reflexivity). assert (HY : (dimy (t_bbox t) < 2 ^ 31)%Z) by (rewrite HB; reflexivity).
  assert (Rt : forall x y, skyToPixel (t_wcs t) (pixelToSky (t_wcs t) (x, y)) = Pix x y).
  { intros x y. rewrite Hw. unfold w0. cbn [skyToPixel pixelToSky copyAtShiftedPixelOrigin fst snd]. rewrite stg_roundtrip by lra. f_equal; ring. }
  set (k1 := pixelToSky (t_wcs t) (100, 3899)). set (k2 := pixelToSky (t_wcs t) (11900, 3899)). set (k0 := pixelToSky (t_wcs t) (6000, 1000)).
  set (s := pixelToSky (t_wcs t) (6000, 4100)).
  assert (Pk : forall k, In k [k1; k2; k0] -> exists x y, skyToPixel (t_wcs t) k = Pix x y /\ y <= 3899 /\ -1000 <= y).
  { intros k [<-|[<-|[<-|[]]]]; eexists _, _; (split; [apply Rt|lra]). }
  destruct (findPatchList_correct_proof _ sphere_offset legacy_default b t [k1; k2; k0] Hc Hu HX HY) as (ps & B & Eps & (_ & _ & HB2) & Hin & _).
  { intros k Hk. destruct (Pk k Hk) as (x & y & -> & _). discriminate. }
  assert (Cs : tract_contains t s = Ok true).
  { apply contains_lemma. exists 6000%Z, 4100%Z. split; [|rewrite HB; unfold in_box; cbn; lia]. exists 6000, 4100. split; [apply Rt|lra]. }
  pose proof (findPatch_lemma _ sphere_offset legacy_default b t s Hc Hu HX HY) as F. rewrite Cs in F. destruct F as (p & i & j & px & py & Ep & Hp & Hpix & _ & Hbox).
  exists b, t, [k1; k2; k0], s, p, ps. split; [exact Hu|]. split; [exact HX|]. split; [exact HY|].
  split. { exists 6000%Z, 1000%Z. rewrite Hw. unfold w0. cbn [skyToPixel pixelToSky copyAtShiftedPixelOrigin]. split.
    - intros k. destruct (skyToPixel (stg_wcs 10000 ctr) k) as [| |u v]; try reflexivity. f_equal; ring.
    - intros x y. cbn [fst snd]. do 2 f_equal; field. }
  split. { intros k Hk. apply contains_lemma. destruct Hk as [<-|[<-|[<-|[]]]]; [exists 100%Z, 3899%Z|exists 11900%Z, 3899%Z|exists 6000%Z, 1000%Z];
    (split; [eexists _, _; split; [apply Rt|lra]|rewrite HB; unfold in_box; cbn; lia]). }
  split.
  { cbn [sky_polygon region_contains map].
    assert (V : forall x y, vec_of (pixelToSky (t_wcs t) (x, y)) = vec_of (pixelToSky (stg_wcs 10000 ctr) (x - 6000, y - 1000))).
    { intros x y. rewrite Hw. unfold w0. cbn [pixelToSky copyAtShiftedPixelOrigin fst snd]. do 2 f_equal. apply f_equal2; ring. }
    unfold k1, k2, k0, s. rewrite !V, !stg_vector by lra. cbv zeta.
    set (Q := 4 + (59 / 100 * (59 / 100) + 2899 / 10000 * (2899 / 10000))). set (q := 4 + 31 / 100 * (31 / 100)).
    set (al := 31 / 100 * Q / (2 * (2899 / 10000) * q)).
    exists [al; al; (4 - 31 / 100 * (31 / 100)) / q - 31 / 100 * (8 - Q) / (2899 / 10000 * q)].
    assert (Hq : 0 < q) by (unfold q; lra). assert (HQ : 0 < Q) by (unfold Q; lra).
    split; [reflexivity|]. split.
    - assert (0 <= al) by (unfold al; apply Rlt_le, Rdiv_lt_0_compat; [nra|nra]). do 2 (constructor; [assumption|]). constructor; [|constructor].
      unfold q, Q. lra.
    - cbn [combination]. unfold al, q, Q. destruct (vec_of ctr) as [[c1 c2] c3], (east ctr) as [[e1 e2] e3], (north ctr) as [[n1 n2] n3].
      unfold vscale, vadd, vx, vy, vz; cbn [fst snd]. apply vec_eq; field. }
  split; [exact Eps|]. split; [exact Ep|].
  intros Hps. apply (Hin _ _ _ Hp) in Hps. destruct Hps as (bx & by_ & qx & qy & InB & InQ & _ & Hd). change (cfg_border legacy_default) with 100%Z in Hd.
  assert (Hqy : (4000 <= qy)%Z).
  { destruct (getPatchInfo_pair_inv legacy_default b 3 3 _ i j p Hc Hi Hinit Hnb Hp) as (Hx & Hy & ->). cbn [the_patch p_inner] in *.
    change (cfg_inner legacy_default) with (4000, 4000)%Z in *. cbn [fst snd] in *. unfold in_box in *. cbn [minx miny dimx dimy] in *.
    destruct Hpix as (x' & y' & E1 & _ & E2). unfold s in E1. rewrite Rt in E1. injection E1 as <- <-.
    assert (py = 4100)%Z by (apply Z.le_antisymm; apply Z.lt_succ_r, lt_IZR; rewrite succ_IZR; lra). lia. }
  destruct HB2 as (_ & _ & _ & k & x & y & Hk & E1 & E2). { unfold in_box in InB. lia. }
  destruct (Pk k Hk) as (x' & y' & E3 & L1 & L2). rewrite E1 in E3. injection E3 as <- <-.
  assert (By : (3900 <= miny B + dimy B - 1)%Z) by (unfold in_box in InB; lia). apply IZR_le in By.
  assert (A1 : Rmax 1 (Rabs y) <= 4000) by (apply Rmax_lub; [lra|apply Rabs_le; lra]).
  assert (A2 : / IZR (2 ^ 51) <= / 1000000).
  { apply Rinv_le_contravar; [lra|]. apply IZR_le. vm_compute. discriminate. }
  assert (A3 : 0 < / IZR (2 ^ 51)) by (apply Rinv_0_lt_compat, IZR_lt; reflexivity).
  assert (A4 : 0 <= Rmax 1 (Rabs y)) by (pose proof (Rmax_l 1 (Rabs y)); lra). set (M := Rmax 1 (Rabs y)) in *. set (e := / IZR (2 ^ 51)) in *. clearbody M e.
  assert (e * M <= / 1000000 * 4000) by (apply Rmult_le_compat; lra). lra.
Qed.

(*@ C82, non-vacuity: in a tract of 3 x 3 patches with the gnomonic projection (legacy or cells builder, any scale and centre) the corners of patches (0, 0) and (2, 2)
    span a diagonal through the middle of patch (1, 1), which contains none of them, and which findPatchList lists. *)
Example findPatchList_region_met_proof : forall c scale (ctr : sphere), c = legacy_default \/ c = CellCfg (200, 200)%Z 50 20 1 -> 0 < scale ->
  exists b t coords s p ps, in_use sphere_offset c b t /\ cfg_ok c /\ gnomonic (t_wcs t)
    /\ (dimx (t_bbox t) < 2 ^ 31)%Z /\ (dimy (t_bbox t) < 2 ^ 31)%Z
    /\ (forall k, In k coords -> exists x y, skyToPixel (t_wcs t) k = Pix x y)
    /\ region_contains (sky_polygon coords) s
    /\ findPatch b t s = Ok p /\ p_index p = (1, 1)%Z /\ findPatchList b t coords = Ok ps /\ In p ps
    /\ (forall k, In k coords -> findPatch b t k <> Ok p).
Proof.
  intros c scale ctr Hcc Hs.
  destruct (proj1 polygon_hypotheses_met_proof c scale ctr Hcc Hs) as (b & t & Hu & Hc & Hg & Hn & Hw & HX & HY & _ & _).
  assert (Hin : cfg_inner c = (4000, 4000)%Z) by (destruct Hcc as [-> | ->]; reflexivity).
  destruct (in_use_spec _ _ b t Hc Hu) as (nx & ny & Hi & Hinit & Hnb & Hnt & _ & _ & _ & HB). rewrite Hn in Hnt. injection Hnt as <- <-.
  rewrite Hin in HB. cbn [fst snd] in HB. pose proof (proj2 Hg) as Rt.
  assert (Find : forall x y : Z, (0 <= x < 12000)%Z -> (0 <= y < 12000)%Z -> exists p i j, findPatch b t (pixelToSky (t_wcs t) (IZR x, IZR y)) = Ok p
     /\ tract_getPatchInfo b t (IxIndex2D i j) = Ok p /\ p_index p = (i, j) /\ (i * 4000 <= x < i * 4000 + 4000)%Z /\ (j * 4000 <= y < j * 4000 + 4000)%Z).
  { intros x y Hx Hy. pose proof (findPatch_lemma _ sphere_offset c b t (pixelToSky (t_wcs t) (IZR x, IZR y)) Hc Hu HX HY) as F.
    assert (K : tract_contains t (pixelToSky (t_wcs t) (IZR x, IZR y)) = Ok true).
    { apply contains_lemma. exists x, y. split; [|rewrite HB; unfold in_box; cbn [minx miny dimx dimy]; lia].
      exists (IZR x), (IZR y). split; [apply Rt|]. lra. }
    rewrite K in F. destruct F as (p & i & j & px & py & E & Hp & Hpix & _ & Hbox). exists p, i, j. split; [exact E|]. split; [exact Hp|].
    destruct (getPatchInfo_pair_inv c b 3 3 _ i j p Hc Hi Hinit Hnb Hp) as (_ & _ & Ep). rewrite Ep in Hbox |- *. cbn [the_patch p_inner p_index] in *.
    rewrite Hin in Hbox. unfold in_box in Hbox. cbn [fst snd minx miny dimx dimy] in Hbox. split; [reflexivity|].
    destruct Hpix as (x' & y' & E1 & E2 & E3). rewrite Rt in E1. injection E1 as <- <-.
    assert (px = x) as -> by (apply Z.le_antisymm; apply Z.lt_succ_r, lt_IZR; rewrite succ_IZR; lra).
    assert (py = y) as -> by (apply Z.le_antisymm; apply Z.lt_succ_r, lt_IZR; rewrite succ_IZR; lra). exact Hbox. }
  set (k1 := pixelToSky (t_wcs t) (0, 0)). set (k2 := pixelToSky (t_wcs t) (11998, 11998)). set (s := pixelToSky (t_wcs t) (5999, 5999)).
  destruct (Find 5999 5999)%Z as (p & i & j & F1 & F2 & F3 & F4 & F5); [lia..|].
  assert (i = 1 /\ j = 1)%Z as [-> ->] by lia.
  assert (Hall : forall k, In k [k1; k2] -> exists x y, skyToPixel (t_wcs t) k = Pix x y).
  { intros k [<-|[<-|[]]]; eexists _, _; apply Rt. }
  assert (Hreg : region_contains (sky_polygon [k1; k2]) s).
  { (* the middle of a segment *)
    destruct Hg as ((c0 & a & b0 & x0 & y0 & A1 & A2 & A3 & A4 & A5 & H) & _). cbn [sky_polygon region_contains map].
    assert (Pos : forall x y, let v := vec_of (pixelToSky (t_wcs t) (x, y)) in
       0 < dot v (vec_of c0) /\ dot v a = (x - x0) * dot v (vec_of c0) /\ dot v b0 = (y - y0) * dot v (vec_of c0)).
    { intros x y v. pose proof (Rt x y) as Q. rewrite H in Q. cbv zeta in Q. fold v in Q. destruct (Rlt_bool_spec 0 (dot v (vec_of c0))); [|discriminate].
      injection Q as Q1 Q2. split; [assumption|]. split; [rewrite <- Q1|rewrite <- Q2]; field; lra. }
    destruct (Pos 0 0) as (P1 & P2 & P3). destruct (Pos 11998 11998) as (P4 & P5 & P6). destruct (Pos 5999 5999) as (P7 & P8 & P9). fold k1 in P1, P2, P3. fold k2 in P4, P5, P6. fold s in P7, P8, P9.
    set (d1 := dot (vec_of k1) (vec_of c0)) in *. set (d2 := dot (vec_of k2) (vec_of c0)) in *. set (d := dot (vec_of s) (vec_of c0)) in *.
    exists [d / (2 * d1); d / (2 * d2)]. split; [reflexivity|]. split.
    { constructor; [apply Rlt_le, Rdiv_lt_0_compat; lra|]. constructor; [apply Rlt_le, Rdiv_lt_0_compat; lra|constructor]. }
    apply (basis_eq (vec_of c0) a b0).
    { intros Hd. pose proof (det_gram (vec_of c0) a b0) as G. pose proof (vec_of_unit c0) as Uk. unfold unit_vec in Uk.
      rewrite Hd, Uk, (dot_comm (vec_of c0) a), (dot_comm (vec_of c0) b0), A1, A2, A3, <- A4 in G. nra. }
    1,2,3: rewrite dot_combination; cbn [combine map fold_right fst snd]; rewrite !(dot_comm (vec_of c0)) || rewrite !(dot_comm a) || rewrite !(dot_comm b0); fold d d1 d2;
      rewrite ?P2, ?P3, ?P5, ?P6, ?P8, ?P9; fold d d1 d2; field; lra. }
  destruct (findPatchList_region_proof sphere_offset c b t [k1; k2] s Hc Hu HX HY Hg Hall Hreg) as (ps & E & In1 & _).
  exists b, t, [k1; k2], s, p, ps. split; [exact Hu|]. split; [exact Hc|]. split; [exact Hg|]. split; [exact HX|]. split; [exact HY|].
  split; [exact Hall|]. split; [exact Hreg|]. split; [exact F1|]. split; [exact F3|]. split; [exact E|]. split; [exact (In1 p F1)|].
  intros k [<-|[<-|[]]] Hf.
  - destruct (Find 0 0)%Z as (p' & i' & j' & G1 & _ & G3 & G4 & _); [lia..|]. unfold k1 in Hf. rewrite Hf in G1. injection G1 as <-. rewrite F3 in G3. injection G3 as <- <-. lia.
  - destruct (Find 11998 11998)%Z as (p' & i' & j' & G1 & _ & G3 & G4 & _); [lia..|]. unfold k2 in Hf. rewrite Hf in G1. injection G1 as <-. rewrite F3 in G3. injection G3 as <- <-. lia.
Qed.
