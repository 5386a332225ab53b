(** Sizes of tracts in pixels (C100). *)
From Coq Require Import Reals Lra Lia.
From Flocq Require Import Core.Raux.
Require Import Verif.Py Verif.Geom Verif.PatchInfo Verif.TractBuilder Verif.TractInfo Verif.Spec.
Require Import Verif.PatchProofs Verif.TractProofs Verif.SkyMap Verif.SkySpec Verif.SkyProofs.
Require Import Verif.Rings Verif.Sphere Verif.SphereProofs Verif.TractBox Verif.WcsSpec Verif.RotatedProofs Verif.BoundsSpec.
From Coq Require Import ZifyBool.
Open Scope Z_scope.

Lemma tweak_le u M : (- M <= u <= M)%R -> (0 <= M < IZR (2 ^ 51))%R -> (tweak_max u <= M + 1)%R.
Proof.
  intros Hu HM. pose proof box2d_eps_pos as He. unfold tweak_max.
  assert (H : forall z, (0 <= z <= M -> z * box2d_eps <= 1)%R).
  { intros z Hz. unfold box2d_eps. apply Rmult_le_reg_r with (IZR (2 ^ 51)); [apply IZR_lt; reflexivity|].
    rewrite Rmult_assoc, Rinv_l by (apply IZR_neq; lia). lra. }
  destruct (Rlt_bool_spec u 0); [nra|]. destruct (Rlt_bool_spec 0 u).
  - pose proof (H u ltac:(lra)). lra.
  - unfold box2d_eps. assert (/ IZR (2 ^ 51) <= / 1)%R; [|lra].
    apply Rinv_le_contravar; [lra|]. apply IZR_le. lia.
Qed.

(** One axis of the box of the samples. *)
Lemma axis_extent (lo dim : Z) (a0 a1 M : R) :
  lo = Zfloor (a0 + / 2) -> lo + dim = Zceil (a1 - / 2) + 1 ->
  (- M <= a0)%R -> (exists u, a1 = tweak_max u /\ - M <= u <= M)%R -> (0 <= M < IZR (2 ^ 51))%R ->
  (IZR dim < 2 * M + 3)%R /\ (- M - / 2 < IZR lo)%R /\ (IZR lo + IZR dim < M + 5 / 2)%R.
Proof.
  intros Elo Ehi H0 (u & E1 & Hu) HM.
  pose proof (tweak_le u M Hu HM) as Ht. rewrite <- E1 in Ht.
  pose proof (Zfloor_ub (a0 + / 2)) as F2. rewrite <- Elo in F2.
  pose proof (Zceil_lb (a1 - / 2)) as F3.
  assert (F4 : (IZR (lo + dim) < a1 + / 2 + 1)%R) by (rewrite Ehi, plus_IZR; lra).
  rewrite plus_IZR in F4. lra.
Qed.
Lemma axis_reach (lo dim : Z) (a0 a1 M : R) :
  lo = Zfloor (a0 + / 2) -> lo + dim = Zceil (a1 - / 2) + 1 -> (a0 <= - M)%R -> (M <= a1)%R -> (2 * M <= IZR dim)%R.
Proof.
  intros Elo Ehi H0 H1. pose proof (Zfloor_lb (a0 + / 2)) as F2. rewrite <- Elo in F2.
  pose proof (Zceil_ub (a1 - / 2)) as F3.
  assert (F4 : (a1 - / 2 + 1 <= IZR (lo + dim))%R) by (rewrite Ehi, plus_IZR; lra).
  rewrite plus_IZR in F4. lra.
Qed.

Section Size.
Context {Sky : Type}.
Variable offset : Sky -> R -> R -> Sky.

(** The box of the samples [m], the grown box, and the box of the tract, when all sample positions are within [M] of the origin. *)
Lemma tract_build_size c b oid id ctr verts overlap w corners samples b' t M :
  cfg_ok c -> builder_reachable c b ->
  tract_build (Sky := Sky) b oid id ctr verts overlap w corners samples = Ok (b', t) ->
  (0 <= M < IZR (2 ^ 51))%R ->
  (forall s x y, In s samples -> skyToPixel w s = Pix x y -> - M <= x <= M /\ - M <= y <= M)%R ->
  exists m bbox n, include_all w samples = Ok m /\ setupPatches b (box_of_box2d m) = Ok (b', (bbox, n))
    /\ (IZR (dimx (t_bbox t)) < 2 * M + IZR (fst (cfg_inner c)) + 3)%R
    /\ (IZR (dimy (t_bbox t)) < 2 * M + IZR (snd (cfg_inner c)) + 3)%R
    /\ (- M - / 2 < IZR (minx (box_of_box2d m)) /\ IZR (minx (box_of_box2d m)) + IZR (dimx (box_of_box2d m)) < M + 5 / 2)%R
    /\ (- M - / 2 < IZR (miny (box_of_box2d m)) /\ IZR (miny (box_of_box2d m)) + IZR (dimy (box_of_box2d m)) < M + 5 / 2)%R
    /\ 0 <= dimx (box_of_box2d m) /\ 0 <= dimy (box_of_box2d m)
    /\ t_bbox t = Box 0 0 (dimx bbox) (dimy bbox)
    /\ dimx (box_of_box2d m) <= dimx bbox < dimx (box_of_box2d m) + fst (cfg_inner c)
    /\ dimy (box_of_box2d m) <= dimy bbox < dimy (box_of_box2d m) + snd (cfg_inner c)
    /\ minx bbox = minx (box_of_box2d m) - (dimx bbox - dimx (box_of_box2d m)) / 2
    /\ miny bbox = miny (box_of_box2d m) - (dimy bbox - dimy (box_of_box2d m)) / 2.
Proof.
  intros Hc Hr E HM HS.
  destruct (tract_build_box offset c b oid id ctr verts overlap w corners samples b' t Hc Hr E)
    as (m & B & x0 & y0 & nx & ny & Em & EB & Hw & Ha & Hs & Hn & Hb & Hwcs & Hx & Hy & Hx0 & Hy0).
  unfold tract_build in E. rewrite Em in E. cbn [bind] in E.
  pose proof (box_of_box2d_wf m Hw) as Hm.
  destruct (setupPatches_spec c b (box_of_box2d m) Hc (builder_reachable_inv c b Hc Hr) Hm)
    as (b1 & x1 & y1 & nx1 & ny1 & E1 & Hi & Hinit & Hnum & Hnx & Hny & Hzx & Hzy & Hbx & Hby & Hmx & Hmy).
  rewrite E1 in E. cbn [bind] in E. unfold finalOrientation, box_dims in E. cbn [dimx dimy minx miny] in E.
  destruct (cfg_inner_pos c Hc) as [Hpw Hph].
  assert (Hzz : nx1 = 0 <-> ny1 = 0).
  { destruct Hm as [Hm|Hm]; [rewrite Hm in Hzx, Hzy; cbn in *; lia|lia]. }
  rewrite box_make_dims in E by assumption. injection E as <- <-. cbn [t_bbox t_numPatches] in *.
  injection Hn as -> ->. rewrite <- EB in *.
  exists m, (Box x1 y1 (nx * fst (cfg_inner c)) (ny * snd (cfg_inner c))), (nx, ny).
  rewrite <- EB. cbn [minx miny dimx dimy]. split; [exact Em|]. split; [exact E1|].
  assert (D : 0 <= dimx B /\ 0 <= dimy B) by (destruct Hm as [-> | ?]; [cbn; lia|lia]).
  pose proof (proj1 Hx) as L1. pose proof (proj1 Hy) as L2.
  assert (X : ((IZR (dimx B) < 2 * M + 3)%R /\ (- M - / 2 < IZR (minx B) /\ IZR (minx B) + IZR (dimx B) < M + 5 / 2)%R)
     /\ ((IZR (dimy B) < 2 * M + 3)%R /\ (- M - / 2 < IZR (miny B) /\ IZR (miny B) + IZR (dimy B) < M + 5 / 2)%R)).
  { rewrite EB. destruct m as [|a0 c0 a1 c1]; [cbn; split; lra|].
    destruct Ha as ((u1 & v1 & A1 & B1) & (u2 & v2 & A2 & B2) & (u3 & v3 & w3 & A3 & B3 & C3) & (u4 & v4 & w4 & A4 & B4 & C4)).
    pose proof (HS _ _ _ A1 B1) as K1. pose proof (HS _ _ _ A2 B2) as K2. pose proof (HS _ _ _ A3 B3) as K3. pose proof (HS _ _ _ A4 B4) as K4.
    set (B0 := box_of_box2d _) in *.
    assert (EBx : minx B0 = Zfloor (a0 + / 2) /\ miny B0 = Zfloor (c0 + / 2) /\ minx B0 + dimx B0 = Zceil (a1 - / 2) + 1 /\ miny B0 + dimy B0 = Zceil (c1 - / 2) + 1).
    { unfold B0. cbn. lia. }
    destruct EBx as (X1 & X2 & X3 & X4).
    destruct (axis_extent (minx B0) (dimx B0) a0 a1 M X1 X3) as (P1 & P2 & P3); [lra|exists v3; split; [exact C3|lra]|exact HM|].
    destruct (axis_extent (miny B0) (dimy B0) c0 c1 M X2 X4) as (Q1 & Q2 & Q3); [lra|exists w4; split; [exact C4|lra]|exact HM|].
    auto. }
  destruct X as ((P1 & P2 & P3) & Q1 & Q2 & Q3).
  destruct Hx as [_ Hx]. destruct Hy as [_ Hy]. pose proof (IZR_lt _ _ Hx) as HxR. pose proof (IZR_lt _ _ Hy) as HyR. rewrite plus_IZR in HxR, HyR.
  split; [lra|]. split; [lra|]. split; [lra|]. split; [lra|]. split; [lia|]. split; [lia|]. split; [reflexivity|].
  split; [lia|]. split; [lia|]. split; [|].
  - lia.
  - lia.
Qed.

(** If the positions reach from [-M] to [M] along an axis, then so does the tract. *)
Lemma tract_build_reach c b oid id ctr verts overlap w corners samples b' t M :
  cfg_ok c -> builder_reachable c b ->
  tract_build (Sky := Sky) b oid id ctr verts overlap w corners samples = Ok (b', t) ->
  ((exists s x y, In s samples /\ skyToPixel w s = Pix x y /\ x = - M) /\ (exists s x y, In s samples /\ skyToPixel w s = Pix x y /\ x = M)
   -> 2 * M <= IZR (dimx (t_bbox t)))%R
  /\ ((exists s x y, In s samples /\ skyToPixel w s = Pix x y /\ y = - M) /\ (exists s x y, In s samples /\ skyToPixel w s = Pix x y /\ y = M)
   -> 2 * M <= IZR (dimy (t_bbox t)))%R.
Proof.
  intros Hc Hr E.
  destruct (tract_build_box offset c b oid id ctr verts overlap w corners samples b' t Hc Hr E)
    as (m & B & x0 & y0 & nx & ny & Em & EB & Hw & Ha & Hs & Hn & Hb & Hwcs & Hx & Hy & _).
  rewrite Hb. cbn [dimx dimy]. destruct Hx as [Hx _], Hy as [Hy _]. apply IZR_le in Hx, Hy.
  split; intros [(s & x & y & I1 & P1 & E1) (s' & x' & y' & I2 & P2 & E2)]; pose proof (Hs _ _ _ I1 P1) as K1; pose proof (Hs _ _ _ I2 P2) as K2;
    (destruct m as [|a0 c0 a1 c1]; [contradiction|]); cbn in K1, K2, Hw; rewrite EB in *;
    match goal with |- (2 * M <= IZR ?n)%R => set (N := n) in * end;
    set (B0 := box_of_box2d _) in *;
    assert (EBx : minx B0 = Zfloor (a0 + / 2) /\ miny B0 = Zfloor (c0 + / 2) /\ minx B0 + dimx B0 = Zceil (a1 - / 2) + 1 /\ miny B0 + dimy B0 = Zceil (c1 - / 2) + 1)
      by (unfold B0; cbn; lia);
    destruct EBx as (X1 & X2 & X3 & X4).
  - pose proof (axis_reach (minx B0) (dimx B0) a0 a1 M X1 X3 ltac:(lra) ltac:(lra)). lra.
  - pose proof (axis_reach (miny B0) (dimy B0) c0 c1 M X2 X4 ltac:(lra) ltac:(lra)). lra.
Qed.
End Size.
