(** Explicit tracts under zenithal projections with any rotation (C85). *)
From Coq Require Import Reals Lra Lia.
From Flocq Require Import Core.Raux.
Require Import Verif.Py Verif.Geom Verif.PatchInfo Verif.TractBuilder Verif.TractInfo Verif.Spec.
Require Import Verif.PatchProofs Verif.TractProofs Verif.SkyMap Verif.SkySpec Verif.SkyProofs.
Require Import Verif.Rings Verif.Sphere Verif.SphereProofs Verif.TractBox Verif.WcsSpec.
Open Scope Z_scope.

(** One axis: the tract reaches from [o] over [n * p] pixels, the samples from [lo] over [dim]. *)
Lemma axis_outside (n p lo dim o : Z) (a0 a1 M v : R) :
  0 < p -> n * p < dim + p -> lo - o = (n * p - dim) / 2 ->
  lo = Zfloor (a0 + / 2) -> lo + dim = Zceil (a1 - / 2) + 1 ->
  (- M <= a0)%R -> (exists u, a1 = tweak_max u /\ - M <= u <= M)%R -> (0 <= M < IZR (2 ^ 51))%R ->
  (M + IZR p / 2 + 2 <= Rabs v)%R ->
  ~ (0 <= round_pixel v + - o <= 0 + n * p - 1).
Proof.
  intros Hp Hn Ho Elo Ehi H0 (u & E1 & Hu) HM Hv [C1 C2].
  pose proof (Z.div_mod (n * p - dim) 2 ltac:(lia)) as D1.
  pose proof (Z.mod_pos_bound (n * p - dim) 2 ltac:(lia)) as D2.
  assert (Ht : (a1 <= M + 1)%R).
  { rewrite E1. pose proof box2d_eps_pos as He. unfold tweak_max.
    assert (forall z, 0 <= z <= M -> z * box2d_eps <= 1)%R.
    { intros z Hz. unfold box2d_eps. apply Rmult_le_reg_r with (IZR (2 ^ 51)); [apply IZR_lt; reflexivity|].
      rewrite Rmult_assoc, Rinv_l by (apply IZR_neq; lia). lra. }
    destruct (Rlt_bool_spec u 0); [nra|]. destruct (Rlt_bool_spec 0 u).
    - pose proof (H u ltac:(lra)). lra.
    - unfold box2d_eps. assert (/ IZR (2 ^ 51) <= / 1)%R; [|lra].
      apply Rinv_le_contravar; [lra|]. apply IZR_le. lia. }
  pose proof (Zfloor_lb (a0 + / 2)) as F1. pose proof (Zfloor_ub (a0 + / 2)) as F2. rewrite <- Elo in F1, F2.
  pose proof (Zceil_lb (a1 - / 2)) as F3.
  assert (F4 : (IZR (lo + dim) < a1 + / 2 + 1)%R) by (rewrite Ehi, plus_IZR; lra).
  unfold round_pixel in *. pose proof (Zfloor_lb (v + / 2)) as G1. pose proof (Zfloor_ub (v + / 2)) as G2.
  set (z := Zfloor (v + / 2)) in *. clearbody z.
  assert (K1 : 2 * (o + n * p) <= 2 * (lo + dim) + p) by lia.
  assert (K2 : 2 * lo - p <= 2 * o) by lia.
  apply IZR_le in K1, K2. rewrite minus_IZR, !mult_IZR in K2. rewrite plus_IZR, !mult_IZR, !plus_IZR, mult_IZR in K1.
  rewrite plus_IZR in F4.
  assert (C1' : o <= z) by lia. assert (C2' : z + 1 <= o + n * p) by lia.
  apply IZR_le in C1', C2'. rewrite !plus_IZR, mult_IZR in C2'.
  unfold Rabs in Hv. destruct (Rcase_abs v); lra.
Qed.

Section Outside.
Context {Sky : Type}.
Variable offset : Sky -> R -> R -> Sky.

(** A position more than half a patch (plus rounding) away from all samples is not in the tract. *)
Lemma tract_build_outside c b oid id ctr verts overlap w corners samples b' t s x y M :
  cfg_ok c -> builder_reachable c b ->
  tract_build (Sky := Sky) b oid id ctr verts overlap w corners samples = Ok (b', t) ->
  (0 <= M < IZR (2 ^ 51))%R ->
  (exists s x y, In s samples /\ skyToPixel w s = Pix x y) ->
  (forall s x y, In s samples -> skyToPixel w s = Pix x y -> - M <= x <= M /\ - M <= y <= M)%R ->
  skyToPixel w s = Pix x y ->
  (M + IZR (fst (cfg_inner c)) / 2 + 2 <= Rabs x \/ M + IZR (snd (cfg_inner c)) / 2 + 2 <= Rabs y)%R ->
  tract_contains t s = Ok false.
Proof.
  intros Hc Hr E HM (s1 & x1 & y1 & I1 & P1) HS Es Hout.
  destruct (tract_build_box offset c b oid id ctr verts overlap w corners samples b' t Hc Hr E)
    as (m & B & x0 & y0 & nx & ny & Em & EB & Hw & Ha & Hs & Hn & Hb & Hwcs & Hx & Hy & Hx0 & Hy0).
  unfold tract_contains. rewrite Hwcs, Es, Hb. f_equal. rewrite !round_pixel_shift.
  destruct (cfg_inner_pos c Hc) as [Hpw Hph].
  destruct m as [|a0 c0 a1 c1]; [now pose proof (Hs s1 x1 y1 I1 P1)|].
  destruct Ha as ((u1 & v1 & A1 & B1) & (u2 & v2 & A2 & B2) & (u3 & v3 & w3 & A3 & B3 & C3) & (u4 & v4 & w4 & A4 & B4 & C4)).
  pose proof (HS _ _ _ A1 B1) as L1. pose proof (HS _ _ _ A2 B2) as L2. pose proof (HS _ _ _ A3 B3) as L3. pose proof (HS _ _ _ A4 B4) as L4.
  assert (EBx : minx B = Zfloor (a0 + / 2) /\ miny B = Zfloor (c0 + / 2) /\ minx B + dimx B = Zceil (a1 - / 2) + 1 /\ miny B + dimy B = Zceil (c1 - / 2) + 1).
  { rewrite EB. cbn. lia. }
  destruct EBx as (X1 & X2 & X3 & X4).
  unfold box_contains_point, maxx, maxy. cbn [minx miny dimx dimy].
  apply Bool.not_true_iff_false. rewrite !andb_true_iff, !Z.leb_le. intros T. destruct Hout as [Ho|Ho].
  - apply (axis_outside nx (fst (cfg_inner c)) (minx B) (dimx B) x0 a0 a1 M x); auto; try lra; try lia. exists v3. split; [exact C3|lra].
  - apply (axis_outside ny (snd (cfg_inner c)) (miny B) (dimy B) y0 c0 c1 M y); auto; try lra; try lia. exists w4. split; [exact C4|lra].
Qed.
End Outside.

(** ** The radial laws *)
Record radial_law (dist : R -> R) (limit : R) : Prop := {
  rl_lim : (limit <= PI)%R;
  rl_0 : dist 0%R = 0%R;
  rl_mono : forall a b, (0 <= a < b -> dist a < dist b)%R;
  rl_bound : forall a, (0 <= a -> 0 <= dist a < limit)%R;
  rl_concave : forall k a, (0 <= k <= 1 -> 0 <= a -> k * dist a <= dist (k * a))%R }.

Lemma atan_concave k a : (0 <= k <= 1 -> 0 <= a -> k * atan a <= atan (k * a))%R.
Proof.
  intros Hk Ha. destruct (Req_dec k 0) as [->|Hk0]; [rewrite !Rmult_0_l, atan_0; lra|].
  destruct (Req_dec a 0) as [->|Ha0]; [rewrite Rmult_0_r, atan_0; lra|].
  destruct (Req_dec k 1) as [->|Hk1]; [rewrite !Rmult_1_l; lra|].
  set (f := fun x : R => (atan (k * x) - k * atan x)%R).
  assert (D : forall x, derivable_pt_lim f x (k * / (1 + (k * x) ^ 2) - k * / (1 + x ^ 2))%R).
  { intros x. unfold f.
    apply (derivable_pt_lim_minus (fun x => atan (k * x))%R (fun x => k * atan x)%R).
    - replace (k * / (1 + (k * x) ^ 2))%R with (/ (1 + (k * x) ^ 2) * k)%R by ring.
      apply (derivable_pt_lim_comp (fun x => k * x)%R atan).
      + pose proof (derivable_pt_lim_scal id k x 1 (derivable_pt_lim_id x)) as Hi. rewrite Rmult_1_r in Hi. exact Hi.
      + apply derivable_pt_lim_atan.
    - apply (derivable_pt_lim_scal atan k x). apply derivable_pt_lim_atan. }
  set (pr := fun x => exist (derivable_pt_abs f x) _ (D x) : derivable_pt f x).
  destruct (MVT_cor1 f 0 a pr ltac:(lra)) as (c & Hc1 & Hc2).
  assert (E0 : f 0%R = 0%R) by (unfold f; rewrite Rmult_0_r, atan_0; ring).
  assert (Ed : derive_pt f c (pr c) = (k * / (1 + (k * c) ^ 2) - k * / (1 + c ^ 2))%R) by reflexivity.
  rewrite Ed, E0, !Rminus_0_r in Hc1.
  assert (Hle : (/ (1 + c ^ 2) <= / (1 + (k * c) ^ 2))%R).
  { apply Rinv_le_contravar; [nra|]. assert (k * c <= c)%R by nra. assert (0 <= k * c)%R by nra. nra. }
  assert (0 <= f a)%R; [rewrite Hc1; apply Rmult_le_pos; [nra|lra]|]. unfold f in *. lra.
Qed.

Lemma atan_law : radial_law atan (PI / 2).
Proof.
  pose proof PI_RGT_0. split.
  - lra.
  - apply atan_0.
  - intros a b [_ H1]. now apply atan_increasing.
  - intros a Ha. pose proof (atan_bound a). split; [|lra]. destruct (Req_dec a 0) as [->|N]; [rewrite atan_0; lra|].
    rewrite <- atan_0. left. apply atan_increasing. lra.
  - apply atan_concave.
Qed.
Lemma stg_law : radial_law (fun t => 2 * atan (t / 2))%R PI.
Proof.
  destruct atan_law as [_ L0 L1 L2 L3]. split.
  - lra.
  - replace (0 / 2)%R with 0%R by lra. rewrite L0. ring.
  - intros a b H. pose proof (L1 (a / 2)%R (b / 2)%R ltac:(lra)). lra.
  - intros a H. pose proof (L2 (a / 2)%R ltac:(lra)). lra.
  - intros k a Hk Ha. pose proof (L3 k (a / 2)%R Hk ltac:(lra)) as L. replace (k * a / 2)%R with (k * (a / 2))%R by lra. lra.
Qed.
Lemma kinds_law name dist limit : In (name, dist, limit) zenithal_kinds -> radial_law dist limit.
Proof.
  cbn [zenithal_kinds In]. intros [H|[H|[]]]; injection H as _ <- <-; [apply atan_law|apply stg_law].
Qed.

Lemma polar x y : exists q phi, (0 <= q /\ x = q * cos phi /\ y = q * sin phi)%R.
Proof.
  destruct (Req_dec (x * x + y * y) 0) as [E|N].
  - exists 0%R, 0%R. assert (x = 0%R) by nra. assert (y = 0%R) by nra. subst. split; [lra|]. split; ring.
  - set (q := sqrt (x * x + y * y)). assert (P : (0 < x * x + y * y)%R) by nra.
    assert (Hq : (0 < q)%R) by (apply sqrt_lt_R0; exact P).
    assert (Q : (q * q = x * x + y * y)%R) by (apply sqrt_sqrt; lra). clearbody q.
    destruct (atan2_polar y x q ltac:(lra) Hq) as [A B]. exists q, (atan2 y x). split; [lra|]. split; symmetry; assumption.
Qed.

Lemma separation_offset ctr beta a : (0 <= a <= PI)%R -> separation (sphere_offset ctr beta a) ctr = a.
Proof.
  intros Ha. destruct (offset_dots ctr beta a) as (D1 & _ & _ & U). unfold separation, sphere_offset.
  rewrite vec_of_coord by exact U. rewrite D1. now apply acos_cos.
Qed.

(** ** Explicit tracts *)
Section Rotated.
Variables (dist : R -> R) (limit scale rotation : R) (flipX : bool) (ctr : sphere) (w : wcs sphere).
Hypothesis Law : radial_law dist limit.
Hypothesis Hscale : (0 < scale)%R.
Hypothesis HW : zenithal_at dist limit scale rotation flipX ctr 0 0 w.

Lemma at_polar r phi : (0 <= r)%R ->
  skyToPixel w (sphere_offset ctr (if flipX then phi - rotation else PI - phi - rotation) (dist (r * scale))) = Pix (r * cos phi) (r * sin phi).
Proof.
  intros Hr. destruct HW as (H1 & H2 & _). rewrite <- H1. rewrite H2. f_equal; ring.
Qed.
Lemma polar_sep r phi : (0 <= r)%R -> separation (pixelToSky w (r * cos phi, r * sin phi)%R) ctr = dist (r * scale).
Proof.
  intros Hr. destruct HW as (H1 & _). pose proof (H1 r phi) as E. rewrite !Rplus_0_l in E. rewrite E. apply separation_offset.
  pose proof (rl_bound _ _ Law (r * scale)%R ltac:(apply Rmult_le_pos; lra)). pose proof (rl_lim _ _ Law). lra.
Qed.
Lemma dist_le a b : (0 <= a -> 0 <= b -> dist a <= dist b -> a <= b)%R.
Proof. intros Ha Hb H. destruct (Rle_lt_dec a b) as [L|L]; [exact L|]. pose proof (rl_mono _ _ Law b a ltac:(lra)). lra. Qed.

(** A coordinate at most [dist (R * scale)] away has a position at most [R] away. *)
Lemma pixel_within coord Rr : (0 <= Rr)%R -> (separation coord ctr <= dist (Rr * scale))%R ->
  exists q phi, skyToPixel w coord = Pix (q * cos phi) (q * sin phi) /\ (0 <= q <= Rr)%R.
Proof.
  intros HR Hs. destruct HW as (H1 & H2 & H3 & H4 & H5).
  pose proof (rl_bound _ _ Law (Rr * scale)%R ltac:(apply Rmult_le_pos; lra)) as B.
  destruct (proj2 (H5 coord)) as (x & y & E); [lra|]. destruct (polar x y) as (q & phi & Hq & -> & ->).
  exists q, phi. split; [exact E|]. split; [exact Hq|].
  pose proof (H3 _ _ _ E) as V. pose proof (polar_sep q phi Hq) as S. unfold separation in S, Hs. rewrite V in S.
  assert (q * scale <= Rr * scale)%R; [|nra]. apply dist_le; [apply Rmult_le_pos; lra|apply Rmult_le_pos; lra|lra].
Qed.

Notation axis_part := (WcsSpec.axis_part rotation).
Lemma axis_part_bounds : (0 <= axis_part <= 1)%R /\ (1 <= 2 * (axis_part * axis_part))%R.
Proof.
  unfold WcsSpec.axis_part. pose proof (cs rotation) as C. pose proof (COS_bound rotation). pose proof (SIN_bound rotation).
  assert (A1 : (Rabs (cos rotation) <= 1)%R) by (apply Rabs_le; lra). assert (A2 : (Rabs (sin rotation) <= 1)%R) by (apply Rabs_le; lra).
  pose proof (Rabs_pos (cos rotation)). pose proof (Rabs_pos (sin rotation)).
  assert (S1 : (Rabs (cos rotation) * Rabs (cos rotation) = cos rotation * cos rotation)%R) by (rewrite <- Rabs_mult; apply Rabs_pos_eq; nra).
  assert (S2 : (Rabs (sin rotation) * Rabs (sin rotation) = sin rotation * sin rotation)%R) by (rewrite <- Rabs_mult; apply Rabs_pos_eq; nra).
  apply Rmax_case_strong; intros; (split; [lra|nra]).
Qed.

(** The positions from which the tract is sized: on the circle of radius [r], a quarter turn apart. *)
Lemma rotated_samples radius overlap r : (0 <= r)%R -> dist (r * scale) = (radius + overlap)%R ->
  let m := if flipX then 1%R else (-1)%R in
  map (skyToPixel w) (explicit_samples sphere_offset ctr radius overlap)
  = [Pix (r * (m * cos rotation)) (r * sin rotation); Pix (r * (- m * sin rotation)) (r * cos rotation);
     Pix (r * (- m * cos rotation)) (r * - sin rotation); Pix (r * (m * sin rotation)) (r * - cos rotation)].
Proof.
  intros Hr Hd m. unfold explicit_samples. change (zrange 0 4) with [0; 1; 2; 3]. cbn [map].
  assert (K : forall i, skyToPixel w (sphere_offset ctr (IZR i * (PI / 2)) (radius + overlap))
     = let phi := (if flipX then IZR i * (PI / 2) + rotation else PI - IZR i * (PI / 2) - rotation)%R in Pix (r * cos phi) (r * sin phi)).
  { intros i. cbv zeta. rewrite <- Hd, <- at_polar by exact Hr. f_equal. f_equal. destruct flipX; ring. }
  assert (C : forall i, 0 <= i < 4 -> let phi := (if flipX then IZR i * (PI / 2) + rotation else PI - IZR i * (PI / 2) - rotation)%R in
     cos phi = (m * (cos (IZR i * (PI / 2)) * cos rotation - sin (IZR i * (PI / 2)) * sin rotation))%R
     /\ sin phi = (sin (IZR i * (PI / 2)) * cos rotation + cos (IZR i * (PI / 2)) * sin rotation)%R).
  { intros i Hi phi. unfold phi, m. destruct flipX.
    - rewrite cos_plus, sin_plus. split; ring.
    - replace (PI - IZR i * (PI / 2) - rotation)%R with (PI - (IZR i * (PI / 2) + rotation))%R by ring.
      rewrite Rtrigo_facts.cos_pi_minus, Rtrigo_facts.sin_pi_minus, cos_plus, sin_plus. split; ring. }
  rewrite !K. cbv zeta.
  rewrite (proj1 (C 0 ltac:(lia))), (proj2 (C 0 ltac:(lia))), (proj1 (C 1 ltac:(lia))), (proj2 (C 1 ltac:(lia))),
    (proj1 (C 2 ltac:(lia))), (proj2 (C 2 ltac:(lia))), (proj1 (C 3 ltac:(lia))), (proj2 (C 3 ltac:(lia))).
  destruct (cardinal 0 ltac:(lia)) as [-> ->]. destruct (cardinal 1 ltac:(lia)) as [-> ->].
  destruct (cardinal 2 ltac:(lia)) as [-> ->]. destruct (cardinal 3 ltac:(lia)) as [-> ->].
  cbn [Z.to_nat nth]. change (Pos.to_nat 1) with 1%nat. change (Pos.to_nat 2) with 2%nat. change (Pos.to_nat 3) with 3%nat. cbn [nth].
  repeat (apply f_equal2; [apply f_equal2; ring|]). reflexivity.
Qed.

Lemma sample_bounds r m : (0 <= r)%R -> m = 1%R \/ m = (-1)%R ->
  forall x y, In (Pix x y) [Pix (r * (m * cos rotation)) (r * sin rotation); Pix (r * (- m * sin rotation)) (r * cos rotation);
     Pix (r * (- m * cos rotation)) (r * - sin rotation); Pix (r * (m * sin rotation)) (r * - cos rotation)] ->
  (- (axis_part * r) <= x <= axis_part * r /\ - (axis_part * r) <= y <= axis_part * r)%R.
Proof.
  intros Hr Hm x y Hin. unfold WcsSpec.axis_part.
  pose proof (Rmax_l (Rabs (cos rotation)) (Rabs (sin rotation))) as M1. pose proof (Rmax_r (Rabs (cos rotation)) (Rabs (sin rotation))) as M2.
  set (h := Rmax _ _) in *. clearbody h. apply Rabs_le_inv in M1, M2.
  set (c := cos rotation) in *. set (s := sin rotation) in *. clearbody c s.
  cbn [In] in Hin. destruct Hin as [E|[E|[E|[E|[]]]]]; injection E as <- <-; destruct Hm as [-> | ->]; split; nra.
Qed.

Lemma explicit_rotated c b oid id radius overlap corners b' t r :
  cfg_ok c -> builder_reachable c b -> (0 <= r)%R -> dist (r * scale) = (radius + overlap)%R ->
  ExplicitTractInfo_init sphere_offset b oid id ctr radius overlap w corners = Ok (b', t) ->
  (forall coord, (separation coord ctr <= dist (axis_part * r * scale))%R -> tract_contains t coord = Ok true)
  /\ ((r < IZR (2 ^ 51))%R -> forall q, (axis_part * r + IZR (fst (cfg_inner c)) / 2 + 2 <= q)%R ->
        exists coord, separation coord ctr = dist (q * scale) /\ tract_contains t coord = Ok false).
Proof.
  intros Hc Hb Hr Hd H. destruct (explicit_init_inv _ _ _ _ _ _ _ _ _ _ _ _ H) as (t0 & H0 & Ew & Eb & _).
  pose proof (rotated_samples radius overlap r Hr Hd) as Hsam. cbv zeta in Hsam. set (m := if flipX then 1%R else (-1)%R) in *.
  assert (Hm : m = 1%R \/ m = (-1)%R) by (unfold m; destruct flipX; auto). clearbody m.
  assert (Tc : forall s, tract_contains t s = tract_contains t0 s) by (intros s; unfold tract_contains; now rewrite Ew, Eb).
  destruct axis_part_bounds as [HA _].
  split.
  - intros coord Hs. rewrite Tc.
    destruct (pixel_within coord (axis_part * r) ltac:(nra) Hs) as (q & phi & E & Hq).
    destruct (tract_build_box sphere_offset c _ _ _ _ _ _ _ _ _ _ _ Hc Hb H0)
      as (mb & B & x0 & y0 & nx & ny & Em & EB & Hwf & Ha & Hs' & _).
    eapply (tract_build_inside sphere_offset c); eauto.
    assert (P : forall x y, In (Pix x y) [Pix (r * (m * cos rotation)) (r * sin rotation); Pix (r * (- m * sin rotation)) (r * cos rotation);
       Pix (r * (- m * cos rotation)) (r * - sin rotation); Pix (r * (m * sin rotation)) (r * - cos rotation)] -> in_box2d x y mb).
    { intros x y Hin. destruct (in_pix_map _ _ _ _ Hsam Hin) as (u & Hu & Eu). eauto. }
    pose proof (P _ _ (or_introl eq_refl)) as P1. pose proof (P _ _ (or_intror (or_introl eq_refl))) as P2.
    pose proof (P _ _ (or_intror (or_intror (or_introl eq_refl)))) as P3. pose proof (P _ _ (or_intror (or_intror (or_intror (or_introl eq_refl))))) as P4.
    assert (X : (- (axis_part * r) <= q * cos phi <= axis_part * r /\ - (axis_part * r) <= q * sin phi <= axis_part * r)%R).
    { pose proof (COS_bound phi). pose proof (SIN_bound phi). split; nra. }
    assert (HX : (axis_part * r = Rabs (cos rotation) * r \/ axis_part * r = Rabs (sin rotation) * r)%R).
    { unfold WcsSpec.axis_part. apply Rmax_case_strong; intros _; auto. }
    destruct mb as [|u0 v0 u1 v1]; cbn in *; [contradiction|].
    set (c1 := cos rotation) in *. set (s1 := sin rotation) in *. set (X1 := (q * cos phi)%R) in *. set (Y1 := (q * sin phi)%R) in *.
    set (h := (axis_part * r)%R) in *. clearbody c1 s1 X1 Y1 h.
    unfold Rabs in HX. destruct (Rcase_abs c1), (Rcase_abs s1), Hm as [-> | ->], HX as [-> | ->]; repeat split; lra.
  - intros H51 q Hq. exists (pixelToSky w (q * cos 0, q * sin 0)%R).
    destruct (cfg_inner_pos c Hc) as [Hp _]. apply IZR_lt in Hp.
    assert (Hq0 : (0 <= q)%R) by nra.
    split; [apply polar_sep; exact Hq0|]. rewrite Tc.
    eapply (tract_build_outside sphere_offset c) with (M := (axis_part * r)%R) (x := (q * cos 0)%R) (y := (q * sin 0)%R);
      [exact Hc|exact Hb|exact H0|split; nra| | | |].
    + destruct (in_pix_map _ _ _ _ Hsam (or_introl eq_refl)) as (u & Hu & Eu). eauto.
    + intros s x y Hin E. apply (sample_bounds r m Hr Hm). eapply in_map_pix; eauto.
    + apply HW.
    + left. rewrite cos_0, Rmult_1_r, Rabs_pos_eq by exact Hq0. exact Hq.
Qed.

(** In terms of angles. *)
Lemma explicit_rotated_angle c b oid id radius overlap corners b' t :
  cfg_ok c -> builder_reachable c b -> (0 <= radius + overlap)%R -> (exists r, (0 <= r)%R /\ dist (r * scale) = (radius + overlap)%R) ->
  ExplicitTractInfo_init sphere_offset b oid id ctr radius overlap w corners = Ok (b', t) ->
  forall coord, (separation coord ctr <= axis_part * (radius + overlap))%R -> tract_contains t coord = Ok true.
Proof.
  intros Hc Hb Ha (r & Hr & Hd) H coord Hs.
  apply (explicit_rotated c b oid id radius overlap corners b' t r Hc Hb Hr Hd H).
  eapply Rle_trans; [exact Hs|]. rewrite <- Hd, Rmult_assoc. apply (rl_concave _ _ Law); [apply axis_part_bounds|apply Rmult_le_pos; lra].
Qed.
End Rotated.
