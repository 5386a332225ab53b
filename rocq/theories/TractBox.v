(** How the box of a tract relates to the pixel positions it was sized from, and
    what this gives for explicit tracts with a zenithal WCS. *)
From Coq Require Import Reals Lra Lia.
From Flocq Require Import Raux.
Require Import Verif.Py Verif.Geom Verif.PatchInfo Verif.TractBuilder Verif.TractInfo Verif.Spec.
Require Import Verif.PatchProofs Verif.TractProofs Verif.SkyMap Verif.SkySpec Verif.SkyProofs.
Require Import Verif.Rings Verif.RingsSpec Verif.RingsProofs Verif.Sphere Verif.SphereProofs.
Open Scope Z_scope.

Section Box.
Context {Sky : Type}.
Variable offset : Sky -> R -> R -> Sky.

Lemma include_all_attained (w : wcs Sky) L l b0 b :
  (forall s, In s l -> In s L) -> attained w L b0 ->
  fold_left (include_sky w) l (Ok b0) = Ok b -> attained w L b.
Proof.
  revert b0. induction l as [|c l IH]; cbn [fold_left]; intros b0 HL Ha H.
  - injection H as <-. exact Ha.
  - cbn [include_sky bind] in H. destruct (skyToPixel w c) as [e| |x y] eqn:E.
    + exfalso. clear -H. revert H. assert (F : forall l, fold_left (include_sky w) l (Raise WcsError) = Raise WcsError)
        by (induction l0; cbn; auto). rewrite F. discriminate.
    + apply (IH b0); auto. intros; apply HL; now right.
    + apply (IH (box2d_include b0 x y)); auto.
      * intros; apply HL; now right.
      * eapply include_attained; eauto. apply HL; now left.
Qed.

(** The tract box is the pixel bounding box [B] of the samples, enlarged by less
    than a patch, and moved to the origin by [(-x0, -y0)]. *)
Lemma tract_build_box c b oid id ctr verts overlap w corners samples b' t :
  cfg_ok c -> builder_reachable c b ->
  tract_build (Sky := Sky) b oid id ctr verts overlap w corners samples = Ok (b', t) ->
  exists m B x0 y0 nx ny, include_all w samples = Ok m /\ B = box_of_box2d m /\ box2d_wf m
    /\ attained w samples m
    /\ (forall s x y, In s samples -> skyToPixel w s = Pix x y -> in_box2d x y m)
    /\ t_numPatches t = (nx, ny)
    /\ t_bbox t = Box 0 0 (nx * fst (cfg_inner c)) (ny * snd (cfg_inner c))
    /\ (forall s, skyToPixel (t_wcs t) s = match skyToPixel w s with
          Pix x y => Pix (x + IZR (- x0)) (y + IZR (- y0)) | r => r end)
    /\ dimx B <= nx * fst (cfg_inner c) < dimx B + fst (cfg_inner c)
    /\ dimy B <= ny * snd (cfg_inner c) < dimy B + snd (cfg_inner c)
    /\ minx B - x0 = (nx * fst (cfg_inner c) - dimx B) / 2
    /\ miny B - y0 = (ny * snd (cfg_inner c) - dimy B) / 2.
Proof.
  intros Hc Hr. unfold tract_build.
  destruct (include_all w samples) as [m|e] eqn:Em; [|discriminate]. cbn [bind].
  destruct (include_all_spec w samples Box2DEmpty I m Em) as (Hw & _ & Hs).
  pose proof (include_all_attained w samples samples Box2DEmpty m (fun s H => H) I Em) as Ha.
  pose proof (box_of_box2d_wf m Hw) as Hm.
  destruct (setupPatches_spec c b (box_of_box2d m) Hc (builder_reachable_inv c b Hc Hr) Hm)
    as (b1 & x0 & y0 & nx & ny & E & Hi & Hinit & Hnum & Hnx & Hny & Hzx & Hzy & Hbx & Hby & Hmx & Hmy).
  rewrite E. cbn [bind].
  destruct (cfg_inner_pos c Hc) as [Hpw Hph].
  assert (Hzz : nx = 0 <-> ny = 0).
  { destruct Hm as [Hm|Hm]; [rewrite Hm in Hzx, Hzy; cbn in *; lia|lia]. }
  unfold finalOrientation, box_dims. cbn [dimx dimy minx miny].
  rewrite box_make_dims by assumption. cbn [minx miny].
  intros [= <- <-]. cbn [t_numPatches t_bbox t_wcs].
  exists m, (box_of_box2d m), x0, y0, nx, ny. split; [reflexivity|]. split; [reflexivity|]. split; [exact Hw|].
  split; [exact Ha|]. split; [exact Hs|]. split; [reflexivity|]. split; [reflexivity|].
  split; [|auto]. intros s. cbn [skyToPixel copyAtShiftedPixelOrigin].
  reflexivity.
Qed.

(** Every position inside the box of the samples is in the tract. *)
Lemma tract_build_inside c b oid id ctr verts overlap w corners samples b' t s x y m :
  cfg_ok c -> builder_reachable c b ->
  tract_build (Sky := Sky) b oid id ctr verts overlap w corners samples = Ok (b', t) ->
  include_all w samples = Ok m -> skyToPixel w s = Pix x y -> in_box2d x y m ->
  tract_contains t s = Ok true.
Proof.
  intros Hc Hr E Em Es Hin.
  destruct (tract_build_box c b oid id ctr verts overlap w corners samples b' t Hc Hr E)
    as (m' & B & x0 & y0 & nx & ny & Em' & EB & Hw & Ha & Hs & Hn & Hb & Hwcs & Hx & Hy & Hx0 & Hy0).
  rewrite Em in Em'. injection Em' as <-.
  unfold tract_contains. rewrite Hwcs, Es, Hb. f_equal.
  apply box_of_box2d_contains in Hin. rewrite <- EB in Hin. rewrite !round_pixel_shift.
  unfold box_contains_point, maxx, maxy. cbn [minx miny dimx dimy].
  unfold in_box in Hin. rewrite !andb_true_iff, !Z.leb_le. lia.
Qed.

(** A position more than half a patch (plus rounding) above all samples is not. *)
Lemma tract_build_above c b oid id ctr verts overlap w corners samples b' t s x y M :
  cfg_ok c -> builder_reachable c b ->
  tract_build (Sky := Sky) b oid id ctr verts overlap w corners samples = Ok (b', t) ->
  (0 <= M < IZR (2 ^ 51))%R ->
  (forall s x y, In s samples -> skyToPixel w s = Pix x y -> (y <= M)%R) ->
  skyToPixel w s = Pix x y -> (M + IZR (snd (cfg_inner c)) / 2 + 2 <= y)%R ->
  tract_contains t s = Ok false.
Proof.
  intros Hc Hr E HM HS Es Hyb.
  destruct (tract_build_box c b oid id ctr verts overlap w corners samples b' t Hc Hr E)
    as (m & B & x0 & y0 & nx & ny & Em & EB & Hw & Ha & Hs & Hn & Hb & Hwcs & Hx & Hy & Hx0 & Hy0).
  unfold tract_contains. rewrite Hwcs, Es, Hb. f_equal. rewrite !round_pixel_shift.
  destruct (cfg_inner_pos c Hc) as [Hpw Hph].
  assert (K : y0 + ny * snd (cfg_inner c) <= round_pixel y).
  { assert (K1 : 2 * (y0 + ny * snd (cfg_inner c)) <= 2 * (miny B + dimy B) + snd (cfg_inner c)).
    { pose proof (Z.div_mod (ny * snd (cfg_inner c) - dimy B) 2 ltac:(lia)).
      pose proof (Z.mod_pos_bound (ny * snd (cfg_inner c) - dimy B) 2 ltac:(lia)). lia. }
    assert (K2 : (IZR (miny B + dimy B) < M + 5 / 2)%R).
    { rewrite EB. destruct m as [|a0 c0 a1 c1]; cbn.
      - lra.
      - destruct Ha as (_ & _ & _ & (s' & x' & y' & I' & E' & F')).
        pose proof (HS s' x' y' I' E') as Hle.
        replace (Zfloor (c0 + / 2) + (Zceil (c1 - / 2) + 1 - Zfloor (c0 + / 2))) with (Zceil (c1 - / 2) + 1) by lia.
        rewrite plus_IZR. pose proof (Zceil_lb (c1 - / 2)) as Hz.
        assert (Ht : (tweak_max y' <= M + 1)%R).
        { pose proof box2d_eps_pos as He. unfold tweak_max.
          destruct (Rlt_bool_spec y' 0); [nra|]. destruct (Rlt_bool_spec 0 y'); [|lra].
          assert (y' * box2d_eps <= 1)%R.
          { unfold box2d_eps. apply Rmult_le_reg_r with (IZR (2 ^ 51)); [apply IZR_lt; reflexivity|].
            rewrite Rmult_assoc, Rinv_l by (apply IZR_neq; lia). lra. }
          lra. }
        lra. }
    apply Zfloor_lub. apply IZR_le in K1.
    rewrite !plus_IZR, !mult_IZR, !plus_IZR in K1. rewrite plus_IZR in K2. rewrite plus_IZR.
    rewrite !mult_IZR in *. lra. }
  unfold box_contains_point, maxx, maxy. cbn [minx miny dimx dimy].
  destruct (Z.leb_spec (round_pixel y + - y0) (0 + ny * snd (cfg_inner c) - 1)); [lia|].
  now rewrite ?andb_false_r.
Qed.
End Box.

(** ** Zenithal projections *)
Lemma cardinal (i : Z) : 0 <= i < 4 ->
  (cos (IZR i * (PI / 2)) = nth (Z.to_nat i) [1; 0; -1; 0] 0
   /\ sin (IZR i * (PI / 2)) = nth (Z.to_nat i) [0; 1; 0; -1] 0)%R.
Proof.
  intros Hi. assert (i = 0 \/ i = 1 \/ i = 2 \/ i = 3) as [->|[->|[->| ->]]] by lia; cbn [Z.to_nat nth].
  - rewrite Rmult_0_l, cos_0, sin_0. auto.
  - rewrite Rmult_1_l, cos_PI2, sin_PI2. auto.
  - replace (2 * (PI / 2))%R with PI by lra. rewrite cos_PI, sin_PI. auto.
  - replace (3 * (PI / 2))%R with (3 * (PI / 2))%R by lra. rewrite cos_3PI2, sin_3PI2. auto.
Qed.

Section Zenithal.
Variables (factor : R -> option R) (scale : R).

(** The four positions from which an explicit tract is sized. *)
Lemma zenithal_samples w ctr radius overlap f :
  (forall c, skyToPixel w c = zenithal factor scale ctr c) ->
  factor (cos (radius + overlap)) = Some f ->
  let M := (scale * (f * sin (radius + overlap)))%R in
  map (skyToPixel w) (explicit_samples sphere_offset ctr radius overlap)
  = [Pix (- M) 0; Pix 0 M; Pix M 0; Pix 0 (- M)].
Proof.
  intros Hw Hf M. unfold explicit_samples. change (zrange 0 4) with [0; 1; 2; 3]. cbn [map].
  rewrite !Hw, !zenithal_offset, Hf.
  destruct (cardinal 0 ltac:(lia)) as [-> ->]. destruct (cardinal 1 ltac:(lia)) as [-> ->].
  destruct (cardinal 2 ltac:(lia)) as [-> ->]. destruct (cardinal 3 ltac:(lia)) as [-> ->].
  cbn [Z.to_nat nth]. change (Pos.to_nat 1) with 1%nat. change (Pos.to_nat 2) with 2%nat. change (Pos.to_nat 3) with 3%nat. cbn [nth]. unfold M.
  repeat (f_equal; try lra).
Qed.

Lemma in_map_pix (w : wcs sphere) l s x y ps :
  map (skyToPixel w) l = ps -> In s l -> skyToPixel w s = Pix x y -> In (Pix x y) ps.
Proof. intros <- Hin <-. now apply in_map. Qed.
Lemma in_pix_map (w : wcs sphere) l ps p :
  map (skyToPixel w) l = ps -> In p ps -> exists s, In s l /\ skyToPixel w s = p.
Proof. intros <- Hin. apply in_map_iff in Hin. destruct Hin as (s & E & Hin). eauto. Qed.

(** An explicit tract contains every position with |x|, |y| <= M. *)
Lemma explicit_square c b oid id ctr radius overlap w corners b' t f s x y :
  cfg_ok c -> builder_reachable c b ->
  (forall c, skyToPixel w c = zenithal factor scale ctr c) ->
  ExplicitTractInfo_init sphere_offset b oid id ctr radius overlap w corners = Ok (b', t) ->
  factor (cos (radius + overlap)) = Some f ->
  let M := (scale * (f * sin (radius + overlap)))%R in
  skyToPixel w s = Pix x y -> (- M <= x <= M)%R -> (- M <= y <= M)%R ->
  tract_contains t s = Ok true.
Proof.
  intros Hc Hr Hw H Hf M Es Hx Hy.
  destruct (explicit_init_inv _ _ _ _ _ _ _ _ _ _ _ _ H) as (t0 & H0 & Ew & Eb & _).
  pose proof (zenithal_samples w ctr radius overlap f Hw Hf) as Hsam. cbv zeta in Hsam. fold M in Hsam.
  destruct (tract_build_box sphere_offset c _ _ _ _ _ _ _ _ _ _ _ Hc Hr H0)
    as (m & B & x0 & y0 & nx & ny & Em & EB & Hwf & Ha & Hs & _).
  assert (Hc0 : tract_contains t0 s = Ok true).
  { eapply (tract_build_inside sphere_offset c); eauto.
    assert (P : forall p q, In (Pix p q) [Pix (- M) 0; Pix 0 M; Pix M 0; Pix 0 (- M)] -> in_box2d p q m).
    { intros p q Hin. destruct (in_pix_map _ _ _ _ Hsam Hin) as (u & Hu & Eu). eauto. }
    pose proof (P (- M)%R 0%R ltac:(cbn; tauto)) as P1. pose proof (P 0%R M ltac:(cbn; tauto)) as P2.
    pose proof (P M 0%R ltac:(cbn; tauto)) as P3. pose proof (P 0%R (- M)%R ltac:(cbn; tauto)) as P4.
    destruct m as [|u0 v0 u1 v1]; cbn in *; [contradiction|]. lra. }
  unfold tract_contains in *. rewrite Ew, Eb. exact Hc0.
Qed.
End Zenithal.

(** The factors times the sine of the distance grow with the distance. *)
Definition good_factor (factor : R -> option R) (a : R) : Prop :=
  exists f0, factor (cos a) = Some f0 /\ (0 < f0)%R
  /\ forall d, (cos a <= d <= 1)%R -> exists f, factor d = Some f /\ (0 < f)%R
       /\ (f * sqrt (1 - d * d) <= f0 * sin a)%R.

Lemma disc_sqrt_le a d : (0 <= a <= PI)%R -> (0 <= cos a -> cos a <= d <= 1 -> sqrt (1 - d * d) <= sin a)%R.
Proof.
  intros Ha H0 Hd. rewrite <- (sqrt_square (sin a)) by (apply sin_ge_0; lra).
  apply sqrt_le_1_alt. pose proof (cs a). nra.
Qed.

Lemma tan_factor_good a : (0 <= a < PI / 2)%R -> good_factor tan_factor a.
Proof.
  intros Ha. assert (Hc : (0 < cos a)%R) by (apply cos_gt_0; lra).
  exists (/ cos a)%R. unfold tan_factor. destruct (Rlt_bool_spec 0 (cos a)); [|lra].
  split; [reflexivity|]. split; [now apply Rinv_0_lt_compat|]. intros d Hd.
  destruct (Rlt_bool_spec 0 d); [|lra]. exists (/ d)%R. split; [reflexivity|]. split; [now apply Rinv_0_lt_compat|].
  pose proof (disc_sqrt_le a d ltac:(lra) ltac:(lra) Hd) as Hs.
  pose proof (sqrt_pos (1 - d * d)).
  assert (/ d <= / cos a)%R by (apply Rinv_le_contravar; lra).
  assert (0 < / d)%R by (now apply Rinv_0_lt_compat).
  apply Rmult_le_compat; lra.
Qed.

Lemma stg_factor_good a : (0 <= a < PI)%R -> good_factor stg_factor a.
Proof.
  intros Ha. assert (Hc : (-1 < cos a)%R).
  { rewrite <- cos_PI. apply cos_decreasing_1; lra. }
  exists (2 / (1 + cos a))%R. unfold stg_factor. destruct (Rlt_bool_spec (-1) (cos a)); [|lra].
  split; [reflexivity|]. split; [apply Rmult_lt_0_compat; [lra|apply Rinv_0_lt_compat; lra]|]. intros d Hd.
  destruct (Rlt_bool_spec (-1) d); [|lra]. exists (2 / (1 + d))%R. split; [reflexivity|].
  split; [apply Rmult_lt_0_compat; [lra|apply Rinv_0_lt_compat; lra]|].
  assert (Hsa : (0 <= sin a)%R) by (apply sin_ge_0; lra).
  apply Rsqr_incr_0_var; [|apply Rmult_le_pos; [apply Rlt_le, Rmult_lt_0_compat; [lra|apply Rinv_0_lt_compat; lra]|lra]].
  rewrite !Rsqr_mult. rewrite Rsqr_sqrt by nra.
  assert (E1 : (Rsqr (2 / (1 + d)) * (1 - d * d) = 4 * (1 - d) / (1 + d))%R) by (unfold Rsqr; field; lra).
  assert (E2 : (Rsqr (2 / (1 + cos a)) * Rsqr (sin a) = 4 * (1 - cos a) / (1 + cos a))%R).
  { replace (Rsqr (sin a)) with ((1 - cos a) * (1 + cos a))%R by (pose proof (cs a); unfold Rsqr; nra).
    unfold Rsqr; field; lra. }
  rewrite E1, E2.
  apply Rmult_le_reg_r with ((1 + d) * (1 + cos a))%R; [nra|].
  replace (4 * (1 - d) / (1 + d) * ((1 + d) * (1 + cos a)))%R with (4 * (1 - d) * (1 + cos a))%R by (field; lra).
  replace (4 * (1 - cos a) / (1 + cos a) * ((1 + d) * (1 + cos a)))%R with (4 * (1 - cos a) * (1 + d))%R by (field; lra).
  nra.
Qed.

(** The distance as a cosine. *)
Lemma separation_cos a b r : (0 <= r <= PI)%R ->
  (separation a b <= r)%R <-> (cos r <= dot (vec_of a) (vec_of b))%R.
Proof.
  intros Hr. unfold separation. pose proof (dot_bound _ _ (vec_of_unit a) (vec_of_unit b)) as Hd.
  pose proof (acos_bound (dot (vec_of a) (vec_of b))) as Hb. set (x := acos _) in *.
  assert (E : cos x = dot (vec_of a) (vec_of b)) by (apply cos_acos; lra).
  rewrite <- E. split; intros H.
  - destruct H as [H|H]; [left; apply cos_decreasing_1; lra|rewrite H; lra].
  - destruct H as [H|H]; [left; apply cos_decreasing_0; lra|right].
    assert (Hacos : acos (cos x) = acos (cos r)) by now rewrite H.
    rewrite !acos_cos in Hacos by lra. exact Hacos.
Qed.

(** The disc of radius radius + overlap around the centre is in the tract. *)
Lemma explicit_disc factor scale c b oid id ctr radius overlap w corners b' t s :
  cfg_ok c -> builder_reachable c b -> (0 < scale)%R ->
  (forall c, skyToPixel w c = zenithal factor scale ctr c) ->
  ExplicitTractInfo_init sphere_offset b oid id ctr radius overlap w corners = Ok (b', t) ->
  (0 <= radius + overlap <= PI)%R -> good_factor factor (radius + overlap)%R ->
  (separation s ctr <= radius + overlap)%R ->
  tract_contains t s = Ok true.
Proof.
  intros Hc Hr Hsc Hw H Ha (f0 & Ef0 & Hf0 & G) Hsep. set (a := (radius + overlap)%R) in *.
  apply separation_cos in Hsep; [|exact Ha].
  pose proof (dot_bound _ _ (vec_of_unit s) (vec_of_unit ctr)) as Hd.
  destruct (G (dot (vec_of s) (vec_of ctr))) as (f & Ef & Hf & Hle); [lra|].
  pose proof (frame_norm ctr (vec_of s) (vec_of_unit s)) as Hn.
  set (d := dot (vec_of s) (vec_of ctr)) in *. set (X := dot (vec_of s) (east ctr)) in *.
  set (Y := dot (vec_of s) (north ctr)) in *.
  set (q := sqrt (1 - d * d)) in *.
  assert (Hq : (0 <= q)%R) by apply sqrt_pos.
  assert (Hqq : (q * q = 1 - d * d)%R) by (apply sqrt_sqrt; nra).
  assert (HX : (- q <= X <= q)%R) by (split; nra).
  assert (HY : (- q <= Y <= q)%R) by (split; nra).
  assert (K : forall u, (- q <= u <= q -> - (f0 * sin a) <= f * u <= f0 * sin a)%R).
  { intros u Hu. split; nra. }
  pose proof (K X HX) as KX. pose proof (K Y HY) as KY.
  eapply (explicit_square factor scale c b oid id ctr radius overlap w corners b' t f0 s
            (- scale * (f * X)) (scale * (f * Y))); eauto.
  - rewrite Hw. unfold zenithal. fold d X Y. rewrite Ef. reflexivity.
  - fold a. split; nra.
  - fold a. split; nra.
Qed.
