(** Tracts made from vertices (equatorial, healpix, dodecahedral maps) in the gnomonic projection cover their inner region (C71). *)
From Coq Require Import Reals Lra Lia.
From Flocq Require Import Core.Raux.
Require Import Verif.Py Verif.Geom Verif.PatchInfo Verif.TractBuilder Verif.TractInfo Verif.Spec.
Require Import Verif.SkyMap Verif.SkySpec Verif.PatchProofs Verif.TractProofs.
Require Import Verif.Rings Verif.RingsSpec Verif.RingsProofs Verif.RingsNum Verif.Sphere Verif.SphereProofs Verif.TractBox Verif.MapsProofs.
Require Import Verif.SkyProofs Verif.SkyProofs2 Verif.MainSky Verif.Uniform Verif.Dodeca Verif.DodecaSpec Verif.DodecaZ Verif.DodecaProofs Verif.DodecaProofs2 Verif.DodecaProofs3 Verif.DodecaProofs4.
Require Import Verif.Region Verif.RegionProofs Verif.ProjSpec Verif.HullProofs Verif.TractHull Verif.MainDodeca Verif.MainDodeca2.
Open Scope R_scope.

(** Samples half the overlap from vertices that are far enough from the horizon are above it. *)
Lemma offset_above ctr p b r : 0 <= r < PI / 2 -> separation p ctr + r < PI / 2 -> 0 < dot (vec_of (sphere_offset p b r)) (vec_of ctr).
Proof.
  intros Hr Hs. pose proof PI_RGT_0 as Hpi. rewrite dot_comm, offset_dot.
  pose proof (frame_sum p (vec_of ctr)) as F. rewrite (vec_of_unit ctr) in F.
  assert (Hd : 0 <= separation p ctr <= PI) by (unfold separation; apply acos_bound).
  assert (Ed : dot (vec_of ctr) (vec_of p) = cos (separation p ctr)).
  { rewrite dot_comm. unfold separation. rewrite cos_acos; [reflexivity|]. pose proof (dot_bound _ _ (vec_of_unit p) (vec_of_unit ctr)). lra. }
  set (d := separation p ctr) in *. rewrite Ed in *. clearbody d.
  assert (P : 0 < cos (d + r)) by (apply cos_gt_0; lra). rewrite cos_plus in P.
  pose proof (cs d) as C. pose proof (cs b) as B. assert (Sd : 0 <= sin d) by (apply sin_ge_0; lra). assert (Sr : 0 <= sin r) by (apply sin_ge_0; lra).
  set (e := dot (vec_of ctr) (east p)) in *. set (n := dot (vec_of ctr) (north p)) in *. clearbody e n.
  assert (L : - sin d <= cos b * e + sin b * n).
  { assert (Q : (cos b * e + sin b * n) * (cos b * e + sin b * n) <= sin d * sin d).
    { pose proof (Rle_0_sqr (cos b * n - sin b * e)) as X. unfold Rsqr in X.
      assert ((cos b * e + sin b * n) * (cos b * e + sin b * n) + (cos b * n - sin b * e) * (cos b * n - sin b * e)
              = (cos b * cos b + sin b * sin b) * (e * e + n * n)) by ring. rewrite B in H. lra. }
    nra. }
  nra.
Qed.

Lemma hull_tan factor c b oid id ctr verts overlap w corners b' t p q :
  factor = tan_factor ->
  cfg_ok c -> builder_reachable c b -> projects factor ctr w -> verts <> [] ->
  0 <= overlap < PI -> (forall v, In v verts -> separation v ctr + overlap / 2 < PI / 2) ->
  TractInfo_init sphere_offset b oid id ctr verts overlap w corners = Ok (b', t) ->
  region_contains (RegHull (map vec_of verts)) p -> separation p q <= inradius24 (overlap / 2) ->
  tract_contains t q = Ok true.
Proof.
  intros -> Hc Hr (a & b0 & A1 & A2 & A3 & A4 & A5 & Hw) Hv Ho Hh E Hp Hq. pose proof PI_RGT_0 as Hpi.
  destruct (inradius24_range (overlap / 2)) as [Hi Hir]; [lra|].
  assert (Sab : forall s, sample_of overlap verts s -> 0 < dot (vec_of s) (vec_of ctr)).
  { intros s Hs. apply in_flat_map in Hs. destruct Hs as (v & Hv' & Hs). unfold overlap_samples in Hs. destruct (Req_bool overlap 0).
    - destruct Hs as [<-|[]]. specialize (Hh v Hv'). pose proof (dot_bound _ _ (vec_of_unit v) (vec_of_unit ctr)) as D.
      rewrite <- (cos_acos (dot _ _)) by exact D. fold (separation v ctr). apply cos_gt_0; [|lra]. unfold separation.
      pose proof (acos_bound (dot (vec_of v) (vec_of ctr))). lra.
    - apply in_map_iff in Hs. destruct Hs as (i & <- & _). apply offset_above; [lra|now apply Hh]. }
  assert (Qab : 0 < dot (vec_of q) (vec_of ctr)).
  { rewrite dot_comm. destruct (hull_side (vec_of ctr) verts overlap p q Ho Hp Hq) as [_ K]. apply K. intros v Hv'.
    rewrite (vec_of_unit ctr), sqrt_1, Rmult_1_r. specialize (Hh v Hv').
    pose proof (dot_bound _ _ (vec_of_unit v) (vec_of_unit ctr)) as D. rewrite dot_comm, <- (cos_acos (dot _ _)) by exact D.
    pose proof (acos_bound (dot (vec_of v) (vec_of ctr))) as B. unfold separation in Hh. set (x := acos _) in *. clearbody x.
    rewrite <- cos_shift. apply cos_decreasing_1; lra. }
  assert (Epix : forall s, 0 < dot (vec_of s) (vec_of ctr) ->
     skyToPixel w s = Pix (dot (vec_of s) a / dot (vec_of s) (vec_of ctr)) (dot (vec_of s) b0 / dot (vec_of s) (vec_of ctr))).
  { intros s Hs. rewrite Hw. unfold tan_factor. rewrite Rlt_bool_true by exact Hs. f_equal; unfold Rdiv; apply Rmult_comm. }
  assert (Half : forall u M, (forall s, sample_of overlap verts s -> dot (vec_of s) u / dot (vec_of s) (vec_of ctr) <= M) ->
             dot (vec_of q) u / dot (vec_of q) (vec_of ctr) <= M).
  { intros u M H. set (n := vadd (vscale M (vec_of ctr)) (vscale (-1) u)).
    assert (Dn : forall x, dot n x = M * dot x (vec_of ctr) - dot x u).
    { intros x. unfold n. rewrite dot_vadd_l, !dot_vscale_l, (dot_comm (vec_of ctr)), (dot_comm u). ring. }
    assert (Side : forall s, 0 < dot (vec_of s) (vec_of ctr) -> (dot (vec_of s) u / dot (vec_of s) (vec_of ctr) <= M <-> 0 <= dot n (vec_of s))).
    { intros s Hs. rewrite Dn. split; intros K.
      - apply (Rmult_le_compat_r (dot (vec_of s) (vec_of ctr))) in K; [|lra]. unfold Rdiv in K. rewrite Rmult_assoc, Rinv_l, Rmult_1_r in K by lra. lra.
      - apply (Rmult_le_reg_r (dot (vec_of s) (vec_of ctr))); [exact Hs|]. unfold Rdiv. rewrite Rmult_assoc, Rinv_l, Rmult_1_r by lra. lra. }
    apply Side; [exact Qab|]. destruct (hull_side n verts overlap p q Ho Hp Hq) as [K _]. apply K. intros v Hv'.
    apply (samples_margin n verts overlap v Ho Hv'). intros s Hs. apply Side; [now apply Sab|now apply H]. }
  assert (Neg : forall u s, dot (vec_of s) (vscale (-1) u) / dot (vec_of s) (vec_of ctr) = - (dot (vec_of s) u / dot (vec_of s) (vec_of ctr))).
  { intros u s. rewrite dot_comm, dot_vscale_l, (dot_comm u). unfold Rdiv. ring. }
  apply (plain_inside c b oid id ctr verts overlap w corners b' t q _ _ Hc Hr E (Epix q Qab) Hv).
  - intros s Hs. rewrite (Epix s (Sab s Hs)). eauto.
  - intros M H. apply Half. intros s Hs. exact (H s _ _ Hs (Epix s (Sab s Hs))).
  - intros M H. specialize (Half (vscale (-1) a) (- M)). rewrite Neg in Half. apply Ropp_le_cancel, Half. intros s Hs. rewrite Neg. apply Ropp_le_contravar. exact (H s _ _ Hs (Epix s (Sab s Hs))).
  - intros M H. apply Half. intros s Hs. exact (H s _ _ Hs (Epix s (Sab s Hs))).
  - intros M H. specialize (Half (vscale (-1) b0) (- M)). rewrite Neg in Half. apply Ropp_le_cancel, Half. intros s Hs. rewrite Neg. apply Ropp_le_contravar. exact (H s _ _ Hs (Epix s (Sab s Hs))).
Qed.

(*@ C71: a tract that is made from vertices and whose WCS is a gnomonic (TAN) projection about its centre (any
    scale, rotation and handedness) contains every coordinate of its inner sky polygon, and every coordinate
    within atan (cos 7.5 deg * tan (overlap / 2)) of it, provided the vertices are more than half the overlap
    away from the horizon. *)
Lemma tract_gnomonic_cover_proof : forall c b oid id ctr verts overlap w corners b' t p q,
  cfg_ok c -> builder_reachable c b -> projects tan_factor ctr w -> verts <> [] ->
  0 <= overlap < PI -> (forall v, In v verts -> separation v ctr + overlap / 2 < PI / 2) ->
  TractInfo_init sphere_offset b oid id ctr verts overlap w corners = Ok (b', t) ->
  region_contains (getInnerSkyPolygon t) p -> separation p q <= inradius24 (overlap / 2) ->
  tract_contains t q = Ok true.
Proof.
  intros c b oid id ctr verts overlap w corners b' t p q Hc Hr Hw Hv Ho Hh E Hp Hq.
  apply (hull_tan tan_factor c b oid id ctr verts overlap w corners b' t p q); try assumption; [reflexivity|].
  unfold getInnerSkyPolygon in Hp. assert (K : t_verts t = verts) by (unfold TractInfo_init in E; now apply tract_build_keeps in E).
  now rewrite K in Hp.
Qed.

(** The distance of the vertices of a face from its centre. *)
Lemma face_vertex f t : (f < 12)%nat -> In t canon -> In f t -> 0.794 < dot (phi_f f) (phi_v t) < 0.795.
Proof.
  intros Hf Ht Hft. pose proof (fv_max f t Hf Ht) as [_ Et]. apply mem_In in Hft. rewrite Hft in Et. apply Z.eqb_eq in Et.
  assert (It : In (zdot (F f) (Fsum t), rfv f t) fv_tab) by (apply in_lookup; now apply fv_known).
  rewrite dot_fv. rewrite Et in It. pose proof sqrt_2133 as S. pose proof golden_bounds as G. generalize dependent (sqrt (val z2133)). intros q Hq.
  generalize dependent (zdot (F f) (Fsum t)). intros z It. cbn in It.
  assert (z = (2, 3)%Z) as -> by (destruct It as [It|[It|[It|[It|[]]]]]; congruence). unfold val. cbn [fst snd].
  split; apply (Rmult_lt_reg_r q); try lra; unfold Rdiv; rewrite Rmult_assoc, Rinv_l, Rmult_1_r by lra; lra.
Qed.

(*@ C71: so with gnomonic projections and an overlap from 0 to 90 degrees the tract that findTract of a Dodeca map
    returns contains the coordinate, and every coordinate within the overlap margin of it. *)
Lemma dodeca_gnomonic_cover_proof : forall order c mk ov b D s0 s p, any_order order -> cfg_ok c ->
  (forall ctr, projects tan_factor ctr (mk ctr)) -> 0 <= ov <= 90 ->
  dodeca_new order sphere_offset c mk ov b = Ok (D, s0) -> accesses sphere_offset (dodeca_def c mk ov D) s0 s ->
  exists t, dodeca_findTract sphere_offset (dodeca_def c mk ov D) D p s = (s, Ok t)
    /\ tract_contains t p = Ok true
    /\ forall q, separation p q <= inradius24 (deg ov / 2) -> tract_contains t q = Ok true.
Proof.
  intros order c mk ov b D s0 s p Ho Hc Hw Hov En Ha. pose proof PI_RGT_0 as Hpi.
  destruct (dodeca_inner_polygons_proof order sphere_offset c mk ov b D s0 s Ho En Ha) as (_ & Hcov & _).
  destruct (Hcov p) as (t & Ef & Hp). exists t. split; [exact Ef|].
  assert (Hd : 0 <= deg ov <= PI / 2) by (unfold deg; nra).
  assert (All : forall q, separation p q <= inradius24 (deg ov / 2) -> tract_contains t q = Ok true).
  { intros q Hq.
    destruct (dodeca_findTract_default_proof order sphere_offset c mk ov b D s0 s p Ho En Ha) as (t' & Ef' & _ & Hh & _).
    rewrite Ef in Ef'. injection Ef' as <-.
    assert (En' := En). unfold dodeca_new in En'.
    destruct (Dodecahedron_init order b) as [D'|] eqn:E; [|discriminate]. cbn [bind] in En'.
    destruct (sm_new sphere_offset (dodeca_def c mk ov D')) as [s'|] eqn:Es; [|discriminate]. cbn [bind] in En'. injection En' as -> ->.
    destruct (shape_of order b D Ho E) as (_ & m & ts & fs & Sh). set (d := dodeca_def c mk ov D) in *.
    assert (Hr : sm_reachable sphere_offset d s) by (exists s0; split; assumption).
    destruct (dodeca_holds D m ts fs Sh sphere_offset c mk ov s _ t Hr Hh) as (_ & _ & f & Hn & Hf & Ec & Ev).
    destruct (path_facts _ _ _ _ Sh f Hf) as (P1 & _ & P3 & _).
    destruct (holds_args sphere_offset d s _ t Hr Hh) as (Hi & a & b1 & b' & oid & Ea & Hb & Hm).
    destruct (dodeca_args_ok D m ts fs Sh mk ov _ Hi) as (f' & ctr & vcs & _ & _ & Ea' & _).
    change (sd_args d (t_id t)) with (dodeca_args mk ov D (t_id t)) in Ea. rewrite Ea' in Ea. injection Ea as <-. cbn [make_tract] in Hm.
    assert (Kc : t_ctr t = ctr /\ t_verts t = vcs) by (unfold TractInfo_init in Hm; apply tract_build_keeps in Hm; tauto). destruct Kc as [Kc Kv].
    apply (tract_gnomonic_cover_proof c b1 oid (t_id t) ctr vcs (deg ov) (mk ctr) None b' t p q); try assumption.
    - apply Hw.
    - rewrite <- Kv. intros N. rewrite N in Ev. apply (f_equal (@length _)) in Ev. rewrite !map_length in Ev. cbn in Ev. lia.
    - lra.
    - intros v Hv. rewrite <- Kv in Hv. rewrite <- Kc. apply (in_map vec_of) in Hv. rewrite Ev in Hv. apply in_map_iff in Hv. destruct Hv as (u & Eu & Hu).
      apply P3 in Hu. destruct Hu as [U1 U2]. pose proof (face_vertex f u Hf U1 U2) as B.
      assert (Sp : separation v (t_ctr t) < PI / 4).
      { apply Rnot_le_lt. intros L. assert (X : dot (vec_of v) (vec_of (t_ctr t)) <= cos (PI / 4)).
        { rewrite <- (cos_acos (dot _ _)) by (apply dot_bound; apply vec_of_unit). fold (separation v (t_ctr t)).
          pose proof (acos_bound (dot (vec_of v) (vec_of (t_ctr t)))) as AB. unfold separation in *.
          destruct L as [L|L]; [left; apply cos_decreasing_1; lra|rewrite <- L; lra]. }
        rewrite <- Eu, Ec, (sh_rigid _ _ _ _ Sh), dot_comm, cos_PI4 in X.
        assert (S2 : 1.4 < sqrt 2). { apply Rnot_le_lt. intros Y. pose proof (sqrt_sqrt 2 ltac:(lra)). pose proof (sqrt_pos 2). nra. }
        assert (1 / sqrt 2 < 0.72). { apply (Rmult_lt_reg_r (sqrt 2)); [lra|]. unfold Rdiv. rewrite Rmult_assoc, Rinv_l by lra. lra. }
        lra. }
      lra. }
  split; [|exact All]. apply All. destruct (inradius24_range (deg ov / 2)) as [K _]; [lra|].
  assert (Z : separation p p = 0). { unfold separation. rewrite (vec_of_unit p). apply acos_1. }
  lra.
Qed.

(*@ C71, C72: the standard gnomonic and stereographic projections, turned by any angle and mirrored or not, satisfy the
    hypothesis on the projections, so there are such maps: *)
Example standard_projections_proof : forall factor S angle sigma ctr, 0 < S -> sigma = 1 \/ sigma = -1 ->
  projects factor ctr (mkWcs (fun c => match factor (dot (vec_of c) (vec_of ctr)) with
     | Some f => let x := S * sigma * (f * dot (vec_of c) (east ctr)) in let y := S * (f * dot (vec_of c) (north ctr)) in
                 Pix (cos angle * x - sin angle * y) (sin angle * x + cos angle * y)
     | None => PixNaN end) (fun _ => ctr))
  /\ projects tan_factor ctr (tan_wcs S ctr) /\ projects stg_factor ctr (stg_wcs S ctr).
Proof.
  assert (Main : forall factor S angle sigma ctr inv, 0 < S -> sigma = 1 \/ sigma = -1 ->
    projects factor ctr (mkWcs (fun c => match factor (dot (vec_of c) (vec_of ctr)) with
     | Some f => let x := S * sigma * (f * dot (vec_of c) (east ctr)) in let y := S * (f * dot (vec_of c) (north ctr)) in
                 Pix (cos angle * x - sin angle * y) (sin angle * x + cos angle * y)
     | None => PixNaN end) inv)).
  { intros factor S angle sigma ctr inv HS Hsg. destruct (frame ctr) as (E1 & E2 & E3 & E4 & E5). unfold unit_vec in *.
    exists (vadd (vscale (S * sigma * cos angle) (east ctr)) (vscale (- S * sin angle) (north ctr))),
           (vadd (vscale (S * sigma * sin angle) (east ctr)) (vscale (S * cos angle) (north ctr))).
    assert (G : sigma * sigma = 1) by (destruct Hsg as [-> | ->]; ring). pose proof (cs angle) as C.
    assert (K : forall k l v, dot (vadd (vscale k (east ctr)) (vscale l (north ctr))) v = k * dot v (east ctr) + l * dot v (north ctr)).
    { intros k l v. rewrite dot_vadd_l, !dot_vscale_l, (dot_comm (east ctr)), (dot_comm (north ctr)). reflexivity. }
    assert (L : forall k l k' l', dot (vadd (vscale k (east ctr)) (vscale l (north ctr))) (vadd (vscale k' (east ctr)) (vscale l' (north ctr))) = k * k' + l * l').
    { intros k l k' l'. rewrite !K, (dot_comm (north ctr)), E1, E2, E5. ring. }
    rewrite !L. split; [rewrite K, E3, E4; ring|]. split; [rewrite K, E3, E4; ring|].
    assert (X1 : S * sigma * cos angle * (S * sigma * cos angle) + - S * sin angle * (- S * sin angle) = S * S).
    { replace (S * sigma * cos angle * (S * sigma * cos angle) + - S * sin angle * (- S * sin angle)) with (S * S * ((sigma * sigma) * (cos angle * cos angle) + sin angle * sin angle)) by ring.
      rewrite G, Rmult_1_l, C. ring. }
    assert (X2 : S * sigma * sin angle * (S * sigma * sin angle) + S * cos angle * (S * cos angle) = S * S).
    { replace (S * sigma * sin angle * (S * sigma * sin angle) + S * cos angle * (S * cos angle)) with (S * S * (cos angle * cos angle + (sigma * sigma) * (sin angle * sin angle))) by ring.
      rewrite G, Rmult_1_l, C. ring. }
    split; [|split; [|split]].
    - replace (S * sigma * cos angle * (S * sigma * sin angle) + - S * sin angle * (S * cos angle)) with (S * S * sin angle * cos angle * (sigma * sigma - 1)) by ring. rewrite G. ring.
    - now rewrite X1, X2.
    - rewrite X1. nra.
    - intros c. cbn [skyToPixel]. destruct (factor _) as [f|]; [|reflexivity]. cbv zeta. rewrite !(dot_comm (vec_of c) (vadd _ _)), !K. f_equal; ring. }
  assert (Std : forall factor S ctr inv, 0 < S -> projects factor ctr (mkWcs (zenithal factor S ctr) inv)).
  { intros factor S ctr inv HS. destruct (Main factor S 0 (-1) ctr inv HS (or_intror eq_refl)) as (a & b & A1 & A2 & A3 & A4 & A5 & A6).
    exists a, b. split; [exact A1|]. split; [exact A2|]. split; [exact A3|]. split; [exact A4|]. split; [exact A5|].
    intros c. rewrite <- A6. cbn [skyToPixel]. unfold zenithal. destruct (factor _); [|reflexivity]. cbv zeta. rewrite cos_0, sin_0. f_equal; ring. }
  intros factor S angle sigma ctr HS Hsg. split; [now apply Main|]. split; now apply Std.
Qed.
