(** Tracts made by maps with the modelled WCSs: generation always succeeds, and
    the patch counts of explicit tracts of equal radius do not depend on the centre. *)
From Coq Require Import Reals Lra Lia.
From Flocq Require Import Raux.
Require Import Verif.Py Verif.Geom Verif.PatchInfo Verif.TractBuilder Verif.TractInfo Verif.Spec.
Require Import Verif.PatchProofs Verif.TractProofs.
Require Import Verif.SkyMap Verif.SkySpec Verif.SkyProofs Verif.SkyProofs2 Verif.MainSky.
Require Import Verif.Rings Verif.Sphere Verif.SphereProofs Verif.TractBox.
Open Scope Z_scope.

Section Any.
Context {Sky : Type}.
Variable offset : Sky -> R -> R -> Sky.

Lemma include_all_map (w w' : wcs Sky) l l' :
  map (skyToPixel w) l = map (skyToPixel w') l' -> include_all w l = include_all w' l'.
Proof.
  unfold include_all. generalize (Ok Box2DEmpty) as acc.
  revert l'. induction l as [|x l IH]; intros [|y l'] acc H; cbn in H; try discriminate; [reflexivity|].
  injection H as E H. cbn [fold_left].
  assert (include_sky w acc x = include_sky w' acc y) as -> by (unfold include_sky; rewrite E; reflexivity).
  now apply IH.
Qed.

Lemma include_all_ok (w : wcs Sky) l :
  (forall s e, In s l -> skyToPixel w s <> PixRaise e) -> exists m, include_all w l = Ok m.
Proof.
  intros H. unfold include_all. generalize Box2DEmpty as b. induction l as [|x l IH]; intros b; cbn [fold_left]; [eauto|].
  unfold include_sky at 2. cbn [bind]. destruct (skyToPixel w x) as [e| |px py] eqn:E.
  - exfalso. eapply H; [now left|exact E].
  - apply IH. intros; apply H; now right.
  - apply IH. intros; apply H; now right.
Qed.

Lemma tract_build_ok c b oid id ctr verts overlap w corners samples m :
  cfg_ok c -> builder_reachable c b -> include_all w samples = Ok m ->
  exists b' t, tract_build (Sky := Sky) b oid id ctr verts overlap w corners samples = Ok (b', t).
Proof.
  intros Hc Hr Em. unfold tract_build. rewrite Em. cbn [bind].
  destruct (include_all_spec w samples Box2DEmpty I m Em) as (Hw & _ & Hs).
  pose proof (box_of_box2d_wf m Hw) as Hm.
  destruct (setupPatches_spec c b (box_of_box2d m) Hc (builder_reachable_inv c b Hc Hr) Hm)
    as (b1 & x0 & y0 & nx & ny & E & _).
  rewrite E. cbn [bind]. destruct (finalOrientation _ _). eauto.
Qed.

(** The samples of the arguments of a tract. *)
Definition args_samples (a : tract_args Sky) : list Sky :=
  match a with
  | PlainArgs _ verts ov _ _ => min_bbox_samples offset verts ov
  | ExplicitArgs ctr r ov _ _ => explicit_samples offset ctr r ov
  end.
Definition args_wcs (a : tract_args Sky) : wcs Sky :=
  match a with PlainArgs _ _ _ w _ => w | ExplicitArgs _ _ _ w _ => w end.

Lemma make_tract_ok c b oid id a m :
  cfg_ok c -> builder_reachable c b -> include_all (args_wcs a) (args_samples a) = Ok m ->
  exists b' t, make_tract offset b oid id a = Ok (b', t).
Proof.
  intros Hc Hr Em. destruct a as [ctr verts ov w cor|ctr rad ov w cor]; cbn [args_wcs args_samples] in Em; cbn [make_tract].
  - unfold TractInfo_init. eapply tract_build_ok; eauto.
  - unfold ExplicitTractInfo_init.
    destruct (tract_build_ok c b oid id ctr [] ov w cor _ m Hc Hr Em) as (b' & t & E). rewrite E. cbn [bind]. eauto.
Qed.

(** The patch counts depend only on the positions of the samples. *)
Lemma make_tract_counts c b b0 oid oid0 id id0 a a0 b' b0' t t0 :
  cfg_ok c -> builder_reachable c b -> builder_reachable c b0 ->
  make_tract offset b oid id a = Ok (b', t) -> make_tract offset b0 oid0 id0 a0 = Ok (b0', t0) ->
  map (skyToPixel (args_wcs a)) (args_samples a) = map (skyToPixel (args_wcs a0)) (args_samples a0) ->
  t_numPatches t = t_numPatches t0.
Proof.
  intros Hc Hr Hr0 H H0 E. apply include_all_map in E.
  assert (K : forall b oid id a b' t, builder_reachable c b -> make_tract offset b oid id a = Ok (b', t) ->
     exists m nx ny, include_all (args_wcs a) (args_samples a) = Ok m /\ t_numPatches t = (nx, ny)
       /\ dimx (box_of_box2d m) <= nx * fst (cfg_inner c) < dimx (box_of_box2d m) + fst (cfg_inner c)
       /\ dimy (box_of_box2d m) <= ny * snd (cfg_inner c) < dimy (box_of_box2d m) + snd (cfg_inner c)).
  { clear -Hc. intros b oid id a b' t Hr H. destruct a as [ctr verts ov w cor|ctr rad ov w cor]; cbn [args_wcs args_samples]; cbn [make_tract] in H.
    - destruct (tract_build_box offset c _ _ _ _ _ _ _ _ _ _ _ Hc Hr H) as (m & B & x0 & y0 & nx & ny & Em & -> & Hw & Ha & Hs & Hn & Hb & Hwcs & Hx & Hy & _).
      exists m, nx, ny. auto.
    - destruct (explicit_init_inv _ _ _ _ _ _ _ _ _ _ _ _ H) as (t1 & H0 & Ew & Eb & En & _).
      destruct (tract_build_box offset c _ _ _ _ _ _ _ _ _ _ _ Hc Hr H0) as (m & B & x0 & y0 & nx & ny & Em & -> & Hw & Ha & Hs & Hn & Hb & Hwcs & Hx & Hy & _).
      exists m, nx, ny. rewrite En. auto. }
  destruct (K _ _ _ _ _ _ Hr H) as (m & nx & ny & Em & -> & Hx & Hy).
  destruct (K _ _ _ _ _ _ Hr0 H0) as (m0 & nx0 & ny0 & Em0 & -> & Hx0 & Hy0).
  rewrite Em, Em0 in E. injection E as ->. destruct (cfg_inner_pos c Hc). f_equal; nia.
Qed.

(** All tracts can be generated. *)
Definition always_ok (d : skydef Sky) : Prop :=
  forall i, 0 <= i < sd_num d -> exists a, sd_args d i = Ok a
    /\ forall s e, In s (args_samples a) -> skyToPixel (args_wcs a) s <> PixRaise e.

Lemma getitem_total d s i :
  cfg_ok (sd_cfg d) -> always_ok d -> sm_reachable offset d s -> 0 <= i < sd_num d ->
  exists s' t, sm_getitem offset d i s = (s', Ok t) /\ holds offset d i s' t /\ accesses offset d s s' /\ sm_reachable offset d s'.
Proof.
  intros Hc Ho Hr Hi. pose proof (reachable_inv _ _ _ Hr) as Hinv.
  assert (exists s' t, sm_getitem offset d i s = (s', Ok t)) as (s' & t & H).
  { destruct (Ho i Hi) as (a & Ea & Hp).
    destruct (include_all_ok (args_wcs a) (args_samples a) Hp) as (m & Em).
    destruct (sd_kind d) eqn:Hk.
    - destruct (caching_index_range_proof Sky offset d s i Hk Hr) as [_ K].
      unfold sm_len in K. rewrite Hk in K. specialize (K Hi).
      destruct (sm_getitem offset d i s) as [s' [t|e]]; [eauto|]. exfalso. destruct K as [_ K].
      rewrite Ea in K. cbn [bind] in K.
      destruct (make_tract_ok (sd_cfg d) (sm_builder s) (sm_next s) i a m Hc (si_reach _ _ _ _ Hinv) Em) as (b' & t & E).
      rewrite E in K. discriminate.
    - destruct (reachable_full offset d s Hk Hr (Z.to_nat i)) as (t & Et); [lia|].
      exists s, t. unfold sm_getitem. rewrite Hk. unfold smbind.
      rewrite (py_nth_in _ _ _ (proj1 Hi) Et). reflexivity. }
  exists s', t. split; [exact H|]. destruct (getitem_holds offset d s i s' t Hr (proj1 Hi) H) as (A & B & C). auto.
Qed.

(** Every existing tract was made from the arguments of its index. *)
Lemma holds_args d s i t : sm_reachable offset d s -> holds offset d i s t ->
  0 <= i < sd_num d /\ exists a b b' oid, sd_args d i = Ok a /\ builder_reachable (sd_cfg d) b
    /\ make_tract offset b oid i a = Ok (b', t).
Proof.
  intros Hr Hh. pose proof Hh as Hs. apply (holds_slot _ _ _ _ _ Hr) in Hs. destruct Hs as [Hi Hs].
  split; [exact Hi|].
  destruct (so_made _ _ _ _ _ (si_slots _ _ _ _ (reachable_inv _ _ _ Hr) _ _ Hs)) as (a & b0 & b1 & Ha & Hb & Hm).
  rewrite Z2Nat.id in Ha, Hm by lia. exists a, b0, b1. eauto.
Qed.
End Any.

(** The modelled WCSs do not raise. *)
Lemma zenithal_no_raise factor scale ctr c e : zenithal factor scale ctr c <> PixRaise e.
Proof. unfold zenithal. destruct (factor _); discriminate. Qed.

(** The positions of the samples of an explicit tract do not depend on its centre. *)
Lemma zenithal_samples_indep factor scale (mk : sphere -> wcs sphere) ctr ctr0 r ov :
  (forall k c, skyToPixel (mk k) c = zenithal factor scale k c) ->
  map (skyToPixel (mk ctr)) (explicit_samples sphere_offset ctr r ov)
  = map (skyToPixel (mk ctr0)) (explicit_samples sphere_offset ctr0 r ov).
Proof.
  intros Hm. unfold explicit_samples. rewrite !map_map. apply map_ext. intros i.
  rewrite !Hm, !zenithal_offset. reflexivity.
Qed.

(** The modelled WCS factories: reference pixel (0, 0), rotation 0. *)
Definition standard_wcs (scale : R) (mk : sphere -> wcs sphere) : Prop :=
  mk = tan_wcs scale \/ mk = stg_wcs scale.
Lemma standard_zenithal scale mk : standard_wcs scale mk ->
  exists factor, (factor = tan_factor \/ factor = stg_factor)
    /\ forall k c, skyToPixel (mk k) c = zenithal factor scale k c.
Proof. intros [->| ->]; [exists tan_factor|exists stg_factor]; split; auto. Qed.
