(** Tracts with given vertices contain the convex hull of the vertices (TAN). *)
From Coq Require Import Reals Lra Lia.
From Flocq Require Import Core.Raux.
Require Import Verif.Py Verif.Geom Verif.PatchInfo Verif.TractBuilder Verif.TractInfo Verif.Spec.
Require Import Verif.PatchProofs Verif.TractProofs.
Require Import Verif.Rings Verif.RingsSpec Verif.RingsProofs Verif.Sphere Verif.SphereProofs Verif.TractBox Verif.MapsProofs.
Require Import Verif.Region Verif.ProjSpec Verif.HullProofs.
Open Scope R_scope.

Lemma frame_sum c v :
  dot v (vec_of c) * dot v (vec_of c) + (dot v (east c) * dot v (east c) + dot v (north c) * dot v (north c)) = dot v v.
Proof.
  rewrite <- Rplus_assoc. pose proof (cs (fst c)) as A. pose proof (cs (snd c)) as B.
  destruct v as [[x y] z].
  unfold north, cross, east, vec_of, dot, vx, vy, vz; cbn [fst snd].
  set (c1 := cos (fst c)) in *. set (s1 := sin (fst c)) in *. set (c2 := cos (snd c)) in *. set (s2 := sin (snd c)) in *.
  assert (N : c1 * c2 * c1 - s1 * c2 * - s1 = c2).
  { replace (c1 * c2 * c1 - s1 * c2 * - s1) with (c2 * (c1 * c1 + s1 * s1)) by ring. rewrite A. ring. }
  rewrite N.
  replace ((x * (c1 * c2) + y * (s1 * c2) + z * s2) * (x * (c1 * c2) + y * (s1 * c2) + z * s2) +
   (x * - s1 + y * c1 + z * 0) * (x * - s1 + y * c1 + z * 0) +
   (x * (s1 * c2 * 0 - s2 * c1) + y * (s2 * - s1 - c1 * c2 * 0) + z * c2) *
   (x * (s1 * c2 * 0 - s2 * c1) + y * (s2 * - s1 - c1 * c2 * 0) + z * c2))
  with ((x * c1 + y * s1) * (x * c1 + y * s1) * (c2 * c2 + s2 * s2) + z * z * (c2 * c2 + s2 * s2)
        + (x * - s1 + y * c1) * (x * - s1 + y * c1)) by ring.
  rewrite B.
  replace ((x * c1 + y * s1) * (x * c1 + y * s1) * 1 + z * z * 1 + (x * - s1 + y * c1) * (x * - s1 + y * c1))
    with ((c1 * c1 + s1 * s1) * (x * x + y * y) + z * z) by ring.
  rewrite A. ring.
Qed.

(** One of 24 equally spaced directions is within 1/48 turn of a given one. *)
Lemma cos_turns x (n : Z) : cos (x + IZR n * (2 * PI)) = cos x.
Proof.
  rewrite <- (cos_wrap (x + IZR n * (2 * PI))), <- (cos_wrap x). f_equal. now apply (wrap_shift _ _ n).
Qed.

Lemma direction24 e n : exists i, (0 <= i < 24)%Z
  /\ cos (2 * PI / 24 * IZR i) * e + sin (2 * PI / 24 * IZR i) * n >= cos (PI / 24) * sqrt (e * e + n * n).
Proof.
  destruct (Req_dec (e * e + n * n) 0) as [Z|Z].
  { destruct (sqr_sum_zero _ _ Z) as [-> ->]. exists 0%Z. split; [lia|]. rewrite Z, sqrt_0. lra. }
  set (r := sqrt (e * e + n * n)).
  assert (H0 : 0 <= e * e + n * n) by nra.
  assert (Hr : 0 < r) by (apply sqrt_lt_R0; lra).
  destruct (atan2_polar n e r) as [Pe Pn]; [unfold r; symmetry; apply sqrt_sqrt; exact H0|exact Hr|].
  set (p := atan2 n e) in *. pose proof PI_RGT_0 as Hpi.
  set (k := Zfloor (p / (2 * PI / 24) + 1 / 2)).
  assert (Hk : Rabs (p - IZR k * (2 * PI / 24)) <= PI / 24).
  { pose proof (Zfloor_lb (p / (2 * PI / 24) + 1 / 2)) as L. pose proof (Zfloor_ub (p / (2 * PI / 24) + 1 / 2)) as U. fold k in L, U.
    assert (E : p = p / (2 * PI / 24) * (2 * PI / 24)) by (field; lra).
    set (q := p / (2 * PI / 24)) in *. rewrite E. clearbody q. apply Rabs_le. nra. }
  exists (k mod 24)%Z. split; [apply Z.mod_pos_bound; lia|].
  rewrite <- Pe, <- Pn. apply Rle_ge.
  replace (cos (2 * PI / 24 * IZR (k mod 24)) * (r * cos p) + sin (2 * PI / 24 * IZR (k mod 24)) * (r * sin p))
    with (cos (p - 2 * PI / 24 * IZR (k mod 24)) * r) by (rewrite cos_minus; ring).
  apply Rmult_le_compat_r; [lra|].
  assert (Ek : IZR (k mod 24) = IZR k - 24 * IZR (k / 24)).
  { rewrite <- (mult_IZR 24), <- minus_IZR. f_equal. pose proof (Z.div_mod k 24 ltac:(lia)). lia. }
  rewrite Ek. replace (p - 2 * PI / 24 * (IZR k - 24 * IZR (k / 24))) with ((p - IZR k * (2 * PI / 24)) + IZR (k / 24) * (2 * PI)) by (field; lra).
  rewrite cos_turns. rewrite <- (Rabs_pos_eq (PI / 24)) by lra.
  assert (Ev : forall x, cos (Rabs x) = cos x).
  { intros x. unfold Rabs. destruct (Rcase_abs x); [apply cos_neg|reflexivity]. }
  rewrite Ev, <- (Ev (p - _)). apply cos_decr_1; try lra; try apply Rabs_pos.
Qed.

Lemma offset_dot n p b r : dot n (vec_of (sphere_offset p b r))
  = cos r * dot n (vec_of p) + sin r * (cos b * dot n (east p) + sin b * dot n (north p)).
Proof.
  unfold sphere_offset. destruct (offset_dots p b r) as (_ & _ & _ & U). rewrite (vec_of_coord _ U).
  unfold offset_vec. generalize (vec_of p) (east p) (north p). intros [[? ?] ?] [[? ?] ?] [[? ?] ?]. destruct n as [[? ?] ?].
  unfold dot, vadd, vscale, vx, vy, vz. cbn [fst snd]. ring.
Qed.

(** If the 24 points around [p] satisfy [n . s <= k], the point [p] does with a margin. *)
Lemma margin24 n p r k : 0 <= sin r ->
  (forall i, (0 <= i < 24)%Z -> dot n (vec_of (sphere_offset p (2 * PI / 24 * IZR i) r)) <= k) ->
  cos r * dot n (vec_of p) + sin r * (cos (PI / 24) * sqrt (dot n n - dot n (vec_of p) * dot n (vec_of p))) <= k.
Proof.
  intros Hs H. destruct (direction24 (dot n (east p)) (dot n (north p))) as (i & Hi & D). specialize (H i Hi). rewrite offset_dot in H.
  pose proof (frame_sum p n) as F.
  replace (dot n n - dot n (vec_of p) * dot n (vec_of p)) with (dot n (east p) * dot n (east p) + dot n (north p) * dot n (north p)) by lra.
  apply Rge_le in D. apply (Rmult_le_compat_l (sin r)) in D; [|exact Hs]. lra.
Qed.

(** A nonnegative combination of unit vectors of length one has weights adding up to one at least. *)
Lemma combination_norm ws vs : length ws = length vs -> Forall (fun w => 0 <= w) ws -> (forall v, In v vs -> unit_vec v) ->
  dot (combination ws vs) (combination ws vs) <= fold_right Rplus 0 ws * fold_right Rplus 0 ws.
Proof.
  intros Hl Hw Hu.
  assert (W0 : forall ws : list R, Forall (fun w => 0 <= w) ws -> 0 <= fold_right Rplus 0 ws).
  { clear. induction 1; cbn; lra. }
  assert (B : forall x ws vs, unit_vec x -> Forall (fun w => 0 <= w) ws -> (forall v, In v vs -> unit_vec v) -> length ws = length vs ->
            dot x (combination ws vs) <= fold_right Rplus 0 ws).
  { clear. intros x ws. induction ws as [|w ws IH]; intros [|v vs] Hx Hw Hv Hl; cbn [combination fold_right]; try discriminate.
    - unfold dot, vx, vy, vz. cbn. lra.
    - inversion Hw as [|? ? W1 W2]; subst. injection Hl as Hl. specialize (IH vs Hx W2 (fun y Hy => Hv y (or_intror Hy)) Hl).
      rewrite dot_comm, dot_vadd_l, dot_vscale_l, (dot_comm v), (dot_comm _ x). pose proof (dot_bound x v Hx (Hv v (or_introl eq_refl))). nra. }
  set (v := combination ws vs). set (S := fold_right Rplus 0 ws). pose proof (W0 ws Hw) as HS. fold S in HS.
  destruct (Rle_lt_dec (dot v v) (S * S)) as [|L]; [assumption|exfalso].
  assert (P : 0 < dot v v) by nra.
  set (q := sqrt (dot v v)). assert (Hq : 0 < q) by (apply sqrt_lt_R0; exact P). assert (Eq : q * q = dot v v) by (apply sqrt_sqrt; lra).
  assert (U : unit_vec (vscale (/ q) v)).
  { unfold unit_vec. rewrite dot_vscale_l, dot_comm, dot_vscale_l, <- Eq. field. lra. }
  pose proof (B _ ws vs U Hw Hu Hl) as K. fold v S in K. rewrite dot_vscale_l, <- Eq in K.
  replace (/ q * (q * q)) with q in K by (field; lra). nra.
Qed.

Lemma combination_lower n ws vs m : length ws = length vs -> Forall (fun w => 0 <= w) ws -> (forall v, In v vs -> m <= dot n v) ->
  m * fold_right Rplus 0 ws <= dot n (combination ws vs).
Proof.
  intros Hl Hw Hv. rewrite dot_combination. revert vs Hv Hl. induction ws as [|w ws IH]; intros [|v vs] Hv Hl; cbn [combine map fold_right fst snd]; try discriminate; try lra.
  inversion Hw as [|? ? W1 W2]; subst. injection Hl as Hl. specialize (IH W2 vs (fun x Hx => Hv x (or_intror Hx)) Hl). pose proof (Hv v (or_introl eq_refl)). nra.
Qed.

(** Unit vectors [u], [v] at an angle of at most [rho]: what [n] says of [v] with a margin it says of [u]. *)
Lemma near_side n u v rho : unit_vec u -> unit_vec v -> 0 <= rho < PI / 2 -> cos rho <= dot u v ->
  (sin rho * sqrt (dot n n) <= dot n v -> 0 <= dot n u)
  /\ (sin rho * sqrt (dot n n) < dot n v -> 0 < dot n u).
Proof.
  intros Uu Uv Hr Huv. unfold unit_vec in *.
  pose proof (det_gram n u v) as G. rewrite Uu, Uv in G.
  assert (Q : 0 <= det n u v * det n u v) by (pose proof (Rle_0_sqr (det n u v)) as X; exact X).
  assert (Hs : 0 <= sin rho) by (apply sin_ge_0; lra). assert (Hc : 0 < cos rho) by (apply cos_gt_0; lra).
  pose proof (cs rho) as C.
  assert (N0 : 0 <= dot n n) by (unfold dot; nra).
  pose proof (sqrt_pos (dot n n)) as SN. pose proof (sqrt_sqrt (dot n n) N0) as SS. set (N := sqrt (dot n n)) in *. clearbody N.
  set (a := dot n u) in *. set (b := dot n v) in *. set (d := dot u v) in *. clearbody a b d. rewrite <- SS in *.
  assert (M : cos rho * cos rho <= d * d) by nra.
  split; intros Hb.
  - destruct (Rle_lt_dec 0 a) as [|La]; [assumption|exfalso].
    assert (H1 : sin rho * N * (sin rho * N) <= b * b) by (assert (0 <= sin rho * N) by nra; nra).
    assert (H2 : a * d * b <= 0) by (assert (0 <= b) by nra; assert (0 <= d * b) by nra; nra).
    assert (H3 : N * N * (cos rho * cos rho) <= N * N * (d * d)) by nra.
    nra.
  - destruct (Rlt_le_dec 0 a) as [|La]; [assumption|exfalso].
    assert (H1 : sin rho * N * (sin rho * N) < b * b) by (assert (0 <= sin rho * N) by nra; nra).
    assert (H2 : a * d * b <= 0) by (assert (0 <= b) by nra; assert (0 <= d * b) by nra; nra).
    assert (H3 : N * N * (cos rho * cos rho) <= N * N * (d * d)) by nra.
    nra.
Qed.

(** ** The radius of the disc in the 24-gon *)
Lemma inradius24_range r : 0 <= r < PI / 2 -> 0 <= inradius24 r < PI / 2 /\ inradius24 r <= r.
Proof.
  intros Hr. pose proof PI_RGT_0 as Hpi. assert (Hc : 0 < cos (PI / 24)) by (apply cos_gt_0; lra).
  assert (Ht : 0 <= tan r).
  { unfold tan. apply Rmult_le_pos; [apply sin_ge_0; lra|]. left. apply Rinv_0_lt_compat, cos_gt_0; lra. }
  unfold inradius24. pose proof (atan_bound (cos (PI / 24) * tan r)). pose proof (COS_bound (PI / 24)).
  split; [split; [|lra]|].
  - rewrite <- atan_0. assert (0 <= cos (PI / 24) * tan r) by (apply Rmult_le_pos; lra).
    destruct H1 as [L|L]; [left; now apply atan_increasing|rewrite <- L; lra].
  - rewrite <- (atan_tan r) at 2 by lra. assert (cos (PI / 24) * tan r <= tan r) by nra.
    destruct H1 as [L|L]; [left; now apply atan_increasing|rewrite L; lra].
Qed.

(** In terms of sines: [q] the component toward the point, [N] the length. *)
Lemma inradius24_margin r q N : 0 <= r < PI / 2 -> 0 <= N -> - N <= q <= N ->
  0 <= cos r * q - sin r * (cos (PI / 24) * sqrt (N * N - q * q)) ->
  sin (inradius24 r) * N <= q.
Proof.
  intros Hr HN Hq H. destruct (inradius24_range r Hr) as [Hi _]. pose proof PI_RGT_0 as Hpi.
  assert (Hc : 0 < cos (PI / 24)) by (apply cos_gt_0; lra). assert (Hcr : 0 < cos r) by (apply cos_gt_0; lra).
  assert (Hsr : 0 <= sin r) by (apply sin_ge_0; lra).
  pose proof (sqrt_pos (N * N - q * q)) as Sp. assert (Q2 : 0 <= N * N - q * q) by nra.
  pose proof (sqrt_sqrt _ Q2) as SS. set (S := sqrt (N * N - q * q)) in *. clearbody S.
  set (i := inradius24 r) in *. assert (Ci : 0 < cos i) by (apply cos_gt_0; lra). assert (Si : 0 <= sin i) by (apply sin_ge_0; lra).
  assert (T : sin i * cos r = cos (PI / 24) * sin r * cos i).
  { assert (tan i = cos (PI / 24) * tan r) by (unfold i, inradius24; apply tan_atan). unfold tan in H0.
    assert (sin i = sin i / cos i * cos i) by (field; lra). rewrite H1, H0. field. lra. }
  assert (K : sin i * S <= cos i * q).
  { apply (Rmult_le_reg_r (cos r)); [exact Hcr|]. replace (sin i * S * cos r) with (sin i * cos r * S) by ring. rewrite T.
    assert (0 <= cos i * (cos r * q - sin r * (cos (PI / 24) * S))) by (apply Rmult_le_pos; lra). nra. }
  assert (Hq0 : 0 <= q).
  { assert (0 <= sin i * S) by nra. destruct (Rle_lt_dec 0 q); [assumption|]. assert (cos i * q < 0) by nra. lra. }
  pose proof (cs i) as C. assert (sin i * N <= q); [|assumption].
  destruct (Rle_lt_dec (sin i * N) q) as [|L]; [assumption|exfalso].
  assert (q * q < sin i * N * (sin i * N)) by nra.
  assert (sin i * S * (sin i * S) <= cos i * q * (cos i * q)) by (assert (0 <= sin i * S) by nra; nra).
  nra.
Qed.

Lemma sqrt_bound n v : unit_vec v -> - sqrt (dot n n) <= dot n v <= sqrt (dot n n).
Proof.
  intros U. assert (N0 : 0 <= dot n n) by (unfold dot; nra). pose proof (sqrt_pos (dot n n)). pose proof (sqrt_sqrt _ N0) as SS.
  set (N := sqrt (dot n n)) in *. clearbody N.
  assert (dot n v * dot n v <= N * N).
  { rewrite SS. unfold unit_vec in U. rewrite <- (Rmult_1_r (dot n n)), <- U.
    destruct n as [[a1 a2] a3], v as [[b1 b2] b3]. unfold dot, vx, vy, vz. cbn [fst snd].
    pose proof (Rle_0_sqr (a1 * b2 - a2 * b1)). pose proof (Rle_0_sqr (a1 * b3 - a3 * b1)). pose proof (Rle_0_sqr (a2 * b3 - a3 * b2)). unfold Rsqr in *. nra. }
  split; nra.
Qed.

(** The core: a half space through the centre of the sphere that contains the sample points of the vertices
    contains all points close to the cone of the vertices. *)
Definition sample_of (overlap : R) (verts : list sphere) (s : sphere) : Prop := In s (min_bbox_samples sphere_offset verts overlap).

Lemma samples_margin n verts overlap p : 0 <= overlap < PI -> In p verts ->
  (forall s, sample_of overlap verts s -> 0 <= dot n (vec_of s)) ->
  sin (inradius24 (overlap / 2)) * sqrt (dot n n) <= dot n (vec_of p).
Proof.
  intros Ho Hp H. pose proof (vec_of_unit p) as U. pose proof (sqrt_bound n (vec_of p) U) as B. pose proof PI_RGT_0 as Hpi.
  apply inradius24_margin; [lra|apply sqrt_pos|exact B|]. unfold sample_of, min_bbox_samples in H.
  rewrite sqrt_sqrt by (unfold dot; nra).
  destruct (Req_bool overlap 0) eqn:E.
  - revert E. case Req_bool_spec; [|discriminate]. intros -> _. replace (0 / 2) with 0 by field. rewrite cos_0, sin_0.
    assert (0 <= dot n (vec_of p)); [|lra]. apply H. apply in_flat_map. exists p. split; [exact Hp|]. unfold overlap_samples. rewrite Req_bool_true by reflexivity. now left.
  - pose proof (margin24 (vscale (-1) n) p (overlap / 2) 0) as M. rewrite !dot_vscale_l in M. rewrite (dot_comm n (vscale _ _)), dot_vscale_l in M.
    assert (X : cos (overlap / 2) * (-1 * dot n (vec_of p)) + sin (overlap / 2) * (cos (PI / 24) *
       sqrt (-1 * (-1 * dot n n) - -1 * dot n (vec_of p) * (-1 * dot n (vec_of p)))) <= 0).
    { apply M; [apply sin_ge_0; lra|]. intros i Hi. rewrite dot_vscale_l.
      assert (0 <= dot n (vec_of (sphere_offset p (2 * PI / 24 * IZR i) (overlap / 2)))); [|lra]. apply H. apply in_flat_map. exists p. split; [exact Hp|].
      unfold overlap_samples. rewrite E. apply (in_map (fun i => sphere_offset p (2 * PI / 24 * IZR i) (overlap / 2))). now apply in_zrange. }
    replace (-1 * (-1 * dot n n) - -1 * dot n (vec_of p) * (-1 * dot n (vec_of p))) with (dot n n - dot n (vec_of p) * dot n (vec_of p)) in X by ring. lra.
Qed.

Lemma hull_side n verts overlap p q : 0 <= overlap < PI ->
  region_contains (RegHull (map vec_of verts)) p -> separation p q <= inradius24 (overlap / 2) ->
  ((forall v, In v verts -> sin (inradius24 (overlap / 2)) * sqrt (dot n n) <= dot n (vec_of v)) -> 0 <= dot n (vec_of q))
  /\ ((forall v, In v verts -> sin (inradius24 (overlap / 2)) * sqrt (dot n n) < dot n (vec_of v)) -> 0 < dot n (vec_of q)).
Proof.
  intros Ho (ws & Hl & Hw & E) Hs. pose proof PI_RGT_0 as Hpi.
  destruct (inradius24_range (overlap / 2)) as [Hi _]; [lra|]. set (rho := inradius24 (overlap / 2)) in *.
  assert (Hu : forall v, In v (map vec_of verts) -> unit_vec v).
  { intros v Hv. apply in_map_iff in Hv. destruct Hv as (x & <- & _). apply vec_of_unit. }
  pose proof (combination_norm ws (map vec_of verts) Hl Hw Hu) as N1. rewrite <- E, (vec_of_unit p) in N1.
  assert (W0 : 0 <= fold_right Rplus 0 ws) by (clear - Hw; induction Hw; cbn; lra).
  assert (W1 : 1 <= fold_right Rplus 0 ws) by nra.
  assert (Sn : 0 <= sin rho * sqrt (dot n n)) by (apply Rmult_le_pos; [apply sin_ge_0; lra|apply sqrt_pos]).
  apply separation_cos in Hs; [|lra]. rewrite dot_comm in Hs.
  destruct (near_side n (vec_of q) (vec_of p) rho (vec_of_unit q) (vec_of_unit p) Hi Hs) as [A B]. split; intros H.
  - apply A. rewrite E. eapply Rle_trans; [|apply (combination_lower n ws _ (sin rho * sqrt (dot n n)) Hl Hw)].
    + nra.
    + intros v Hv. apply in_map_iff in Hv. destruct Hv as (x & <- & Hx). now apply H.
  - apply B. rewrite E.
    assert (Hm : exists m, sin rho * sqrt (dot n n) < m /\ forall v, In v verts -> m <= dot n (vec_of v)).
    { clear - H. induction verts as [|v verts IH]; [exists (sin rho * sqrt (dot n n) + 1); split; [lra|intros ? []]|].
      destruct IH as (m & M1 & M2); [intros x Hx; apply H; now right|]. pose proof (H v (or_introl eq_refl)) as Hv.
      exists (Rmin m (dot n (vec_of v))). split; [now apply Rmin_glb_lt|]. intros x [->|Hx]; [apply Rmin_r|].
      eapply Rle_trans; [apply Rmin_l|now apply M2]. }
    destruct Hm as (m & M1 & M2). eapply Rlt_le_trans; [|apply (combination_lower n ws _ m Hl Hw)].
    + nra.
    + intros v Hv. apply in_map_iff in Hv. destruct Hv as (x & <- & Hx). now apply M2.
Qed.

(** Finitely many numbers below a bound. *)
Lemma below_max {A} (f : A -> option R) (l : list A) x1 : (forall s x, In s l -> f s = Some x -> x < x1) ->
  exists M, M < x1 /\ forall s x, In s l -> f s = Some x -> x <= M.
Proof.
  induction l as [|a l IH]; intros H; [exists (x1 - 1); split; [lra|intros ? ? []]|].
  destruct IH as (M & M1 & M2); [intros s x Hs; apply H; now right|].
  destruct (f a) as [x|] eqn:E.
  - exists (Rmax M x). split; [apply Rmax_lub_lt; [exact M1|apply (H a x); [now left|exact E]]|].
    intros s y [->|Hs] Ey; [rewrite E in Ey; injection Ey as <-; apply Rmax_r|]. eapply Rle_trans; [now apply (M2 s)|apply Rmax_l].
  - exists M. split; [exact M1|]. intros s y [->|Hs] Ey; [congruence|now apply (M2 s)].
Qed.

(** A position that is within every axis-parallel bound on the samples is in the tract. *)
Lemma plain_inside c b oid id ctr verts overlap w corners b' t q x y :
  cfg_ok c -> builder_reachable c b ->
  TractInfo_init sphere_offset b oid id ctr verts overlap w corners = Ok (b', t) ->
  skyToPixel w q = Pix x y -> verts <> [] ->
  (forall s, sample_of overlap verts s -> exists x y, skyToPixel w s = Pix x y) ->
  (forall M, (forall s x y, sample_of overlap verts s -> skyToPixel w s = Pix x y -> x <= M) -> x <= M) ->
  (forall M, (forall s x y, sample_of overlap verts s -> skyToPixel w s = Pix x y -> M <= x) -> M <= x) ->
  (forall M, (forall s x y, sample_of overlap verts s -> skyToPixel w s = Pix x y -> y <= M) -> y <= M) ->
  (forall M, (forall s x y, sample_of overlap verts s -> skyToPixel w s = Pix x y -> M <= y) -> M <= y) ->
  tract_contains t q = Ok true.
Proof.
  intros Hc Hr E Eq Hv Hex Xu Xl Yu Yl. unfold TractInfo_init in E.
  destruct (tract_build_box sphere_offset c b oid id ctr verts overlap w corners _ b' t Hc Hr E)
    as (m & B & x0 & y0 & nx & ny & Em & EB & Hw & Ha & Hs & _).
  apply (tract_build_inside sphere_offset c b oid id ctr verts overlap w corners _ b' t q x y m Hc Hr E Em Eq).
  assert (S0 : exists s, sample_of overlap verts s).
  { destruct verts as [|v verts]; [contradiction|]. unfold sample_of, min_bbox_samples, overlap_samples. cbn [flat_map].
    destruct (Req_bool overlap 0); [exists v; now left|]. eexists. apply in_app_iff. left. apply (in_map _ _ 0%Z). now apply in_zrange. }
  destruct S0 as (s0 & Hs0). destruct (Hex s0 Hs0) as (a0 & a1 & E0). specialize (Hs s0 a0 a1 Hs0 E0) as Hin.
  destruct m as [|m0 n0 m1 n1]; [destruct Hin|]. cbn [in_box2d].
  split; split.
  - apply Xl. intros s u v Hss Es. now apply (Hs s u v).
  - destruct (below_max (fun s => match skyToPixel w s with Pix u v => Some u | _ => None end) (min_bbox_samples sphere_offset verts overlap) m1) as (M & M1 & M2).
    { intros s u Hss Es. destruct (skyToPixel w s) as [| |u' v'] eqn:E'; try discriminate. injection Es as ->. now apply (Hs s u v'). }
    eapply Rle_lt_trans; [|exact M1]. apply Xu. intros s u v Hss Es. apply (M2 s); [exact Hss|]. now rewrite Es.
  - apply Yl. intros s u v Hss Es. now apply (Hs s u v).
  - destruct (below_max (fun s => match skyToPixel w s with Pix u v => Some v | _ => None end) (min_bbox_samples sphere_offset verts overlap) n1) as (M & M1 & M2).
    { intros s v Hss Es. destruct (skyToPixel w s) as [| |u' v'] eqn:E'; try discriminate. injection Es as ->. now apply (Hs s u' v). }
    eapply Rle_lt_trans; [|exact M1]. apply Yu. intros s u v Hss Es. apply (M2 s); [exact Hss|]. now rewrite Es.
Qed.
