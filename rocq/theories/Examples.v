(** Concrete tracts, used to show that the hypotheses of the property theorems
    can be met: a flat sky whose coordinates are pixel positions. *)
From Coq Require Import Reals Lra.
From Flocq Require Import Raux.
Require Import Verif.Py Verif.Geom Verif.PatchInfo Verif.TractBuilder Verif.TractInfo Verif.Spec.
Require Import Verif.PatchProofs.
Open Scope Z_scope.

Notation flat := (R * R)%type.
Definition flat_wcs : wcs flat := mkWcs (fun c => Pix (fst c) (snd c)) (fun p => p).
(** Not spherical geometry; any function will do. *)
Definition flat_offset (c : flat) (bearing amount : R) : flat :=
  ((fst c + amount * cos bearing)%R, (snd c + amount * sin bearing)%R).

Definition ex_verts (w h : Z) : list flat := [(0, 0); (IZR w, IZR h)]%R.

Lemma tweak_ceil n : 0 < n < 2 ^ 49 -> Zceil (tweak_max (IZR n) - / 2) = n.
Proof.
  intros Hn. unfold tweak_max.
  assert (Hp : (0 < IZR n)%R) by (apply IZR_lt; lia).
  destruct (Rlt_bool_spec (IZR n) 0); [lra|]. destruct (Rlt_bool_spec 0 (IZR n)); [|lra].
  apply Zceil_imp. rewrite minus_IZR. pose proof box2d_eps_pos.
  assert (IZR n * box2d_eps <= / 4)%R.
  { unfold box2d_eps. apply Rmult_le_reg_r with (IZR (2 ^ 51)); [apply IZR_lt; reflexivity|].
    rewrite Rmult_assoc, Rinv_l by (apply IZR_neq; lia).
    assert (IZR n <= IZR (2 ^ 49))%R by (apply IZR_le; lia).
    replace (IZR (2 ^ 51)) with (4 * IZR (2 ^ 49))%R by (rewrite <- mult_IZR; reflexivity). lra. }
  assert (0 <= IZR n * box2d_eps)%R by (apply Rmult_le_pos; lra).
  lra.
Qed.

Lemma ex_min_box w h :
  0 < w < 2 ^ 49 -> 0 < h < 2 ^ 49 ->
  exists m, include_all flat_wcs (ex_verts w h) = Ok m
    /\ box_of_box2d m = Box 0 0 (w + 1) (h + 1).
Proof.
  intros Hw Hh. unfold include_all, ex_verts, flat_wcs. cbn.
  assert (H0w : (1 <= IZR w)%R) by (apply IZR_le; lia).
  assert (H0h : (1 <= IZR h)%R) by (apply IZR_le; lia).
  assert (E0 : tweak_max 0 = box2d_eps).
  { unfold tweak_max. destruct (Rlt_bool_spec 0 0); [lra|]. reflexivity. }
  rewrite E0. pose proof box2d_eps_pos as He. unfold include_axis.
  destruct (Rlt_bool_spec (IZR w) 0); [lra|]. destruct (Rle_bool_spec box2d_eps (IZR w)); [|lra].
  destruct (Rlt_bool_spec (IZR h) 0); [lra|]. destruct (Rle_bool_spec box2d_eps (IZR h)); [|lra].
  eexists; split; [reflexivity|]. cbn.
  rewrite !tweak_ceil by assumption.
  assert (Zfloor (0 + / 2) = 0) as -> by (apply Zfloor_imp; cbn; lra).
  f_equal; lia.
Qed.

(** A tract with the given patch counts. *)
Lemma ex_tract c oid id w h b :
  cfg_ok c -> builder_reachable c b -> 0 < w < 2 ^ 49 -> 0 < h < 2 ^ 49 ->
  exists b' t, TractInfo_init flat_offset b oid id (0, 0)%R (ex_verts w h) 0 flat_wcs None = Ok (b', t)
    /\ in_use flat_offset c b' t
    /\ t_numPatches t = ((w + fst (cfg_inner c)) / fst (cfg_inner c),
                         (h + snd (cfg_inner c)) / snd (cfg_inner c)).
Proof.
  intros Hc Hr Hw Hh.
  unfold TractInfo_init.
  assert (ES : min_bbox_samples flat_offset (ex_verts w h) 0 = ex_verts w h).
  { unfold min_bbox_samples, overlap_samples. destruct (Req_bool_spec 0 0); [|lra]. reflexivity. }
  rewrite ES.
  destruct (ex_min_box w h Hw Hh) as (m & Em & EB).
  destruct (tract_build b oid id (0, 0)%R (ex_verts w h) 0 flat_wcs None (ex_verts w h))
    as [[b' t]|e] eqn:E.
  - exists b', t. split; [reflexivity|].
    pose proof E as E'. eapply tract_build_spec in E'; eauto.
    destruct E' as (Hr' & Hinit & Hn & HB & _).
    split.
    + constructor; auto. eapply tm_plain with (b := b) (b' := b') ; eauto.
      unfold TractInfo_init. rewrite ES. exact E.
    + rewrite <- Hn. clear Hn HB. unfold tract_build in E. rewrite Em in E. cbn [bind] in E.
      rewrite EB in E.
      destruct (cfg_inner_pos c Hc) as [Hpw Hph].
      pose proof (builder_reachable_inv c b Hc Hr) as [_ Hin _ _].
      unfold setupPatches in E. cbn [minx miny dimx dimy] in E. rewrite Hin in E.
      unfold setup_axis, py_floordiv in E.
      destruct (Z.eqb_spec (fst (cfg_inner c)) 0); [lia|].
      destruct (Z.eqb_spec (snd (cfg_inner c)) 0); [lia|].
      cbn [bind] in E.
      replace (w + 1 + fst (cfg_inner c) - 1) with (w + fst (cfg_inner c)) in E by lia.
      replace (h + 1 + snd (cfg_inner c) - 1) with (h + snd (cfg_inner c)) in E by lia.
      destruct (0 <? _) in E; destruct (0 <? _) in E; cbn [bind] in E;
        unfold finalOrientation in E; inversion E; reflexivity.
  - exfalso. unfold tract_build in E. rewrite Em in E. cbn [bind] in E. rewrite EB in E.
    destruct (setupPatches_spec c b (Box 0 0 (w + 1) (h + 1)) Hc (builder_reachable_inv c b Hc Hr))
      as (b1 & x0 & y0 & nx & ny & E1 & _); [right; cbn; lia|].
    rewrite E1 in E. cbn [bind] in E. unfold finalOrientation in E. discriminate.
Qed.

Lemma ex_min_box_explicit w ov :
  0 < w < 2 ^ 49 -> ov = 0%R ->
  exists m, include_all flat_wcs
     (explicit_samples (fun c bearing amount => if Req_bool bearing 0 then (fst c + amount, snd c + amount)%R else c)
                       (0, 0)%R (IZR w) ov) = Ok m
    /\ box_of_box2d m = Box 0 0 (w + 1) (w + 1).
Proof.
  intros Hw ->.
  assert (H0w : (1 <= IZR w)%R) by (apply IZR_le; lia).
  pose proof PI_RGT_0 as HPI.
  unfold explicit_samples. change (zrange 0 4) with [0; 1; 2; 3]. cbn [map].
  destruct (Req_bool_spec (0 * (PI / 2)) 0); [|lra].
  destruct (Req_bool_spec (1 * (PI / 2)) 0); [lra|].
  destruct (Req_bool_spec (2 * (PI / 2)) 0); [lra|].
  destruct (Req_bool_spec (3 * (PI / 2)) 0); [lra|].
  cbn [fst snd]. rewrite !Rplus_0_l, Rplus_0_r.
  pose proof (tweak_max_gt (IZR w)) as Ht. set (T := tweak_max (IZR w)) in *.
  assert (A1 : include_axis (IZR w) T 0 = (0%R, T)).
  { unfold include_axis. destruct (Rlt_bool_spec 0 (IZR w)); [reflexivity|lra]. }
  assert (A2 : include_axis 0 T 0 = (0%R, T)).
  { unfold include_axis. destruct (Rlt_bool_spec 0 0); [lra|].
    destruct (Rle_bool_spec T 0); [lra|reflexivity]. }
  assert (B : box2d_include (Box2D 0 0 T T) 0 0 = Box2D 0 0 T T).
  { cbn. rewrite !A2. reflexivity. }
  exists (Box2D 0 0 T T). split.
  - unfold include_all. cbn. fold T. rewrite !A1. cbn. rewrite !A2. cbn. rewrite !A2. reflexivity.
  - cbn. unfold T. rewrite tweak_ceil by assumption.
    assert (Zfloor (0 + / 2) = 0) as -> by (apply Zfloor_imp; cbn; lra). f_equal; lia.
Qed.
