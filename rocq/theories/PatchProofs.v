(** Lemmas about tract growth, patches and cells. *)
From Coq Require Import Reals Lra.
From Flocq Require Import Raux.
Require Import Verif.Py Verif.Geom Verif.PatchInfo Verif.TractBuilder Verif.TractInfo Verif.Spec.
Require Import Verif.Float64 Verif.Float64Proofs.
From Coq Require Import ZifyBool.
Open Scope Z_scope.
Ltac Zify.zify_post_hook ::= Z.div_mod_to_equations.

Lemma cfg_inner_pos c : cfg_ok c -> 0 < fst (cfg_inner c) /\ 0 < snd (cfg_inner c).
Proof. destruct c as [[w h] bd|[w h] cb n nb]; cbn; nia. Qed.

Lemma cfg_border_nonneg c : cfg_ok c -> 0 <= cfg_border c.
Proof. destruct c as [[w h] bd|[w h] cb n nb]; cbn; nia. Qed.

(** ** setupPatches *)
Lemma setup_axis_spec mn dim w :
  0 < w -> 0 <= dim ->
  exists mn' num, setup_axis mn dim w = Ok (mn', num * w, num)
    /\ 0 <= num /\ (num = 0 <-> dim = 0) /\ dim <= num * w < dim + w
    /\ mn - mn' = (num * w - dim) / 2.
Proof.
  intros Hw Hd. unfold setup_axis, py_floordiv.
  destruct (Z.eqb_spec w 0); [lia|]. cbn [bind].
  set (num := (dim + w - 1) / w).
  assert (H : dim <= num * w < dim + w) by (unfold num; nia).
  assert (Hn : 0 <= num) by nia.
  assert (Hz : num = 0 <-> dim = 0) by (split; intro; nia).
  destruct (Z.ltb_spec 0 (w * num - dim)).
  - exists (mn - (w * num - dim) / 2), num.
    split; [f_equal; f_equal; f_equal; lia|]. split; [lia|]. split; [lia|]. split; [lia|].
    rewrite (Z.mul_comm num w). lia.
  - exists mn, num. split; [f_equal; f_equal; f_equal; lia|].
    split; [lia|]. split; [lia|]. split; [lia|]. replace (num * w - dim) with 0 by lia. cbn. lia.
Qed.

Record builder_inv (c : tb_config) (b : builder) : Prop := {
  bi_config : b_config b = c;
  bi_inner : b_patchInner b = cfg_inner c;
  bi_border : b_patchBorder b = cfg_border c;
  bi_box : b_initialized b = true ->
     exists nx ny, b_numPatches b = (nx, ny) /\ 0 <= nx /\ 0 <= ny /\ (nx = 0 <-> ny = 0)
       /\ b_tractBBox b = Box 0 0 (nx * fst (cfg_inner c)) (ny * snd (cfg_inner c)) }.

Lemma setupPatches_spec c b m :
  cfg_ok c -> builder_inv c b -> box_wf m ->
  exists b' x0 y0 nx ny,
    setupPatches b m = Ok (b', (Box x0 y0 (nx * fst (cfg_inner c)) (ny * snd (cfg_inner c)), (nx, ny)))
    /\ builder_inv c b' /\ b_initialized b' = true /\ b_numPatches b' = (nx, ny)
    /\ 0 <= nx /\ 0 <= ny /\ (nx = 0 <-> dimx m = 0) /\ (ny = 0 <-> dimy m = 0)
    /\ dimx m <= nx * fst (cfg_inner c) < dimx m + fst (cfg_inner c)
    /\ dimy m <= ny * snd (cfg_inner c) < dimy m + snd (cfg_inner c)
    /\ minx m - x0 = (nx * fst (cfg_inner c) - dimx m) / 2
    /\ miny m - y0 = (ny * snd (cfg_inner c) - dimy m) / 2.
Proof.
  intros Hc [Hcfg Hin Hbd Hbox] Hm.
  destruct (cfg_inner_pos c Hc) as [Hw Hh].
  assert (Hd : 0 <= dimx m /\ 0 <= dimy m /\ (dimx m = 0 <-> dimy m = 0)
               /\ (dimx m = 0 -> minx m = 0 /\ miny m = 0)).
  { destruct Hm as [->|?]; cbn; lia. }
  destruct Hd as (Hdx & Hdy & Hdd & Hd0).
  unfold setupPatches. rewrite Hin.
  set (w := fst (cfg_inner c)) in *. set (h := snd (cfg_inner c)) in *.
  destruct (setup_axis_spec (minx m) (dimx m) w Hw Hdx) as (x0 & nx & -> & Hnx & Hzx & Hbx & Hmx).
  destruct (setup_axis_spec (miny m) (dimy m) h Hh Hdy) as (y0 & ny & -> & Hny & Hzy & Hby & Hmy).
  cbn [bind].
  assert (Ebox : box_make (x0, y0) (nx * w, ny * h) = Box x0 y0 (nx * w) (ny * h)).
  { unfold box_make.
    destruct (Z.eqb_spec (nx * w) 0); destruct (Z.eqb_spec (ny * h) 0); cbn [orb].
    - assert (dimx m = 0) by nia. assert (dimy m = 0) by lia.
      assert (nx = 0) by lia. assert (ny = 0) by lia. subst nx ny.
      unfold box_empty. f_equal; nia.
    - assert (nx = 0) by nia. assert (dimx m = 0) by lia. assert (ny = 0) by lia. nia.
    - assert (ny = 0) by nia. assert (dimx m = 0) by lia. assert (nx = 0) by lia. nia.
    - destruct (Z.ltb_spec (nx * w) 0); [nia|]. destruct (Z.ltb_spec (ny * h) 0); [nia|].
      f_equal; nia. }
  assert (Ebox0 : box_make (0, 0) (nx * w, ny * h) = Box 0 0 (nx * w) (ny * h)).
  { unfold box_make.
    destruct (Z.eqb_spec (nx * w) 0); destruct (Z.eqb_spec (ny * h) 0); cbn [orb].
    - unfold box_empty. f_equal; nia.
    - assert (nx = 0) by nia. assert (dimx m = 0) by lia. assert (ny = 0) by lia. nia.
    - assert (ny = 0) by nia. assert (dimx m = 0) by lia. assert (nx = 0) by lia. nia.
    - destruct (Z.ltb_spec (nx * w) 0); [nia|]. destruct (Z.ltb_spec (ny * h) 0); [nia|].
      f_equal; nia. }
  rewrite Ebox. unfold box_dims; cbn [dimx dimy]. rewrite Ebox0.
  eexists _, x0, y0, nx, ny. split; [reflexivity|].
  split.
  { constructor; cbn; auto.
    intros _. exists nx, ny. repeat split; auto; try lia. }
  cbn. repeat split; auto; lia.
Qed.

Lemma builder_inv_init c : builder_inv c (builder_init c).
Proof. destruct c as [[w h] bd|[w h] cb n nb]; constructor; cbn; try reflexivity; discriminate. Qed.

Lemma builder_reachable_inv c b : cfg_ok c -> builder_reachable c b -> builder_inv c b.
Proof.
  intros Hc. induction 1 as [|b m b' out Hr IH Hm Hs].
  - apply builder_inv_init.
  - destruct (setupPatches_spec c b m Hc IH Hm) as (b1 & x0 & y0 & nx & ny & E & Hi & _).
    rewrite E in Hs. inversion Hs; subst. exact Hi.
Qed.

(** ** Boxes made from sky samples are well formed *)
Open Scope R_scope.
Definition box2d_wf (b : box2d) : Prop :=
  match b with Box2DEmpty => True | Box2D x0 y0 x1 y1 => x0 < x1 /\ y0 < y1 end.

Lemma box2d_eps_pos : 0 < box2d_eps < 1.
Proof.
  unfold box2d_eps. split.
  - apply Rinv_0_lt_compat, IZR_lt. reflexivity.
  - rewrite <- Rinv_1. apply Rinv_lt_contravar.
    + rewrite Rmult_1_l. apply IZR_lt. reflexivity.
    + apply IZR_lt. reflexivity.
Qed.

Lemma tweak_max_gt x : x < tweak_max x.
Proof.
  pose proof box2d_eps_pos. unfold tweak_max.
  destruct (Rlt_bool_spec x 0); [nra|]. destruct (Rlt_bool_spec 0 x); nra.
Qed.

Lemma include_axis_spec lo hi p lo' hi' :
  lo < hi -> include_axis lo hi p = (lo', hi') ->
  lo' < hi' /\ lo' <= lo /\ hi <= hi' /\ lo' <= p < hi'.
Proof.
  intros H. unfold include_axis. pose proof (tweak_max_gt p).
  destruct (Rlt_bool_spec p lo); [intros [= <- <-]; lra|].
  destruct (Rle_bool_spec hi p); intros [= <- <-]; lra.
Qed.

Definition in_box2d (x y : R) (b : box2d) : Prop :=
  match b with Box2DEmpty => False | Box2D x0 y0 x1 y1 => x0 <= x < x1 /\ y0 <= y < y1 end.

Lemma box2d_include_spec b x y :
  box2d_wf b ->
  box2d_wf (box2d_include b x y) /\ in_box2d x y (box2d_include b x y)
  /\ (forall u v, in_box2d u v b -> in_box2d u v (box2d_include b x y)).
Proof.
  destruct b as [|x0 y0 x1 y1]; cbn.
  - pose proof (tweak_max_gt x). pose proof (tweak_max_gt y). intuition lra.
  - intros [Hx Hy].
    destruct (include_axis x0 x1 x) as [x0' x1'] eqn:Ex.
    destruct (include_axis y0 y1 y) as [y0' y1'] eqn:Ey.
    destruct (include_axis_spec _ _ _ _ _ Hx Ex) as (? & ? & ? & ?).
    destruct (include_axis_spec _ _ _ _ _ Hy Ey) as (? & ? & ? & ?).
    cbn. intuition lra.
Qed.

Lemma ceil_floor_pos x0 x1 : x0 < x1 -> (Zfloor (x0 + / 2) <= Zceil (x1 - / 2))%Z.
Proof.
  intros H.
  assert (H1 : IZR (Zfloor (x0 + / 2)) <= x0 + / 2) by apply Zfloor_lb.
  assert (H2 : x1 - / 2 <= IZR (Zceil (x1 - / 2))) by apply Zceil_ub.
  assert (IZR (Zfloor (x0 + / 2)) < IZR (Zceil (x1 - / 2) + 1)).
  { rewrite plus_IZR. lra. }
  apply lt_IZR in H0. lia.
Qed.

Lemma box_of_box2d_wf b : box2d_wf b -> box_wf (box_of_box2d b).
Proof.
  destruct b as [|x0 y0 x1 y1]; cbn; [intros _; left; reflexivity|].
  intros [Hx Hy]. right. cbn.
  pose proof (ceil_floor_pos x0 x1 Hx). pose proof (ceil_floor_pos y0 y1 Hy). lia.
Qed.

Lemma round_in_axis x0 x1 x :
  x0 <= x < x1 -> (Zfloor (x0 + / 2) <= round_pixel x <= Zceil (x1 - / 2))%Z.
Proof.
  intros [H1 H2]. unfold round_pixel. split.
  - apply Zfloor_le. lra.
  - apply ceil_floor_pos. exact H2.
Qed.

Lemma box_of_box2d_contains b x y :
  in_box2d x y b -> in_box (round_pixel x) (round_pixel y) (box_of_box2d b).
Proof.
  destruct b as [|x0 y0 x1 y1]; cbn; [tauto|]. intros [Hx Hy].
  apply round_in_axis in Hx. apply round_in_axis in Hy.
  unfold in_box; cbn. lia.
Qed.
Close Scope R_scope.

Section Sky.
Context {Sky : Type}.

Lemma include_all_spec (w : wcs Sky) l b0 :
  box2d_wf b0 ->
  forall b, fold_left (include_sky w) l (Ok b0) = Ok b ->
    box2d_wf b
    /\ (forall u v, in_box2d u v b0 -> in_box2d u v b)
    /\ (forall c x y, In c l -> skyToPixel w c = Pix x y -> in_box2d x y b).
Proof.
  revert b0. induction l as [|c l IH]; cbn; intros b0 H0 b.
  - intros [= <-]. repeat split; auto. intros ? ? ? [].
  - destruct (skyToPixel w c) as [e| |x y] eqn:E.
    + cbn. assert (F : forall l, fold_left (include_sky w) l (Raise WcsError) = Raise WcsError).
      { induction l0; cbn; auto. }
      rewrite F. discriminate.
    + cbn. intros Hb. destruct (IH b0 H0 b Hb) as (Hw & Hm & Hc). repeat split; auto.
      intros c' x y [<-|Hin] Hp; [congruence|eauto].
    + cbn. intros Hb. destruct (box2d_include_spec b0 x y H0) as (Hw1 & Hin1 & Hm1).
      destruct (IH _ Hw1 b Hb) as (Hw & Hm & Hc). repeat split; auto.
      intros c' x' y' [<-|Hin] Hp; [|eauto].
      assert (x' = x /\ y' = y) as [-> ->] by (split; congruence). auto.
Qed.
End Sky.

(** ** The row-major grid *)
Lemma flat_map_rows_length (nx : Z) (l : list Z) :
  length (flat_map (fun y => map (fun x => (x, y)) (zrange 0 nx)) l) = (length l * Z.to_nat nx)%nat.
Proof.
  induction l as [|y l IH]; [reflexivity|]. cbn [flat_map length].
  rewrite app_length, map_length, zrange_length, IH, Z.sub_0_r. lia.
Qed.

Lemma grid_length nx ny :
  0 <= nx -> 0 <= ny -> Z.of_nat (length (grid nx ny)) = nx * ny.
Proof.
  intros Hx Hy. unfold grid. rewrite flat_map_rows_length, zrange_length, Z.sub_0_r. nia.
Qed.

Lemma grid_nth_error_gen nx (l : list Z) k x y :
  0 <= nx -> nth_error (flat_map (fun y => map (fun x => (x, y)) (zrange 0 nx)) l) k = Some (x, y) ->
  exists j, nth_error l j = Some y /\ 0 <= x < nx /\ Z.of_nat k = nx * Z.of_nat j + x.
Proof.
  intros Hnx. revert k. induction l as [|y0 l IH]; intros k; cbn [flat_map].
  - destruct k; discriminate.
  - intros H.
    destruct (Nat.lt_ge_cases k (Z.to_nat nx)) as [Hk|Hk].
    + rewrite nth_error_app1 in H by (rewrite map_length, zrange_length; lia).
      rewrite nth_error_map, zrange_nth_error in H by lia. cbn in H. inversion H; subst.
      exists 0%nat. cbn. split; [reflexivity|]. lia.
    + rewrite nth_error_app2 in H by (rewrite map_length, zrange_length; lia).
      rewrite map_length, zrange_length in H.
      destruct (IH _ H) as (j & Hj & Hx & E). exists (S j). split; [exact Hj|]. split; [exact Hx|]. nia.
Qed.

Lemma grid_nth_error nx ny k x y :
  0 <= nx -> 0 <= ny -> nth_error (grid nx ny) k = Some (x, y) ->
  0 <= x < nx /\ 0 <= y < ny /\ Z.of_nat k = nx * y + x.
Proof.
  intros Hx Hy H. apply grid_nth_error_gen in H; [|assumption].
  destruct H as (j & Hj & Hx' & E).
  assert (Hl : (j < length (zrange 0 ny))%nat) by (apply nth_error_Some; congruence).
  rewrite zrange_length in Hl. rewrite zrange_nth_error in Hj by exact Hl.
  inversion Hj; subst y. split; [exact Hx'|]. split; [lia|]. lia.
Qed.

Lemma in_grid nx ny x y : In (x, y) (grid nx ny) <-> 0 <= x < nx /\ 0 <= y < ny.
Proof.
  unfold grid. rewrite in_flat_map. split.
  - intros (y' & Hy & Hx). apply in_map_iff in Hx. destruct Hx as (x' & E & Hx).
    apply in_zrange in Hx. apply in_zrange in Hy. inversion E; subst. lia.
  - intros [Hx Hy]. exists y. split; [apply in_zrange; lia|].
    apply in_map_iff. exists x. split; [reflexivity|apply in_zrange; lia].
Qed.

(** ** Patches *)
Definition outer_of (c : tb_config) (nx ny x y : Z) : box :=
  let w := fst (cfg_inner c) in let h := snd (cfg_inner c) in let n := cfg_border c in
  match c with
  | LegacyCfg _ _ =>
      let x0 := Z.max (x * w - n) 0 in let y0 := Z.max (y * h - n) 0 in
      Box x0 y0 (Z.min (x * w + w + n) (nx * w) - x0) (Z.min (y * h + h + n) (ny * h) - y0)
  | CellCfg _ _ _ _ => Box (x * w - n) (y * h - n) (w + 2 * n) (h + 2 * n)
  end.

Definition the_patch {W} (c : tb_config) (nx ny : Z) (wcs : W) (x y : Z) : patch W :=
  mkPatch (x, y) (nx * y + x)
    (Box (x * fst (cfg_inner c)) (y * snd (cfg_inner c)) (fst (cfg_inner c)) (snd (cfg_inner c)))
    (outer_of c nx ny x y) wcs
    (match c with LegacyCfg _ _ => (0, 0) | CellCfg d _ _ _ => d end)
    (match c with LegacyCfg _ _ => 0 | CellCfg _ cb _ _ => cb end)
    (match c with LegacyCfg _ _ => 0 | CellCfg _ _ _ nb => nb end)
    (match c with LegacyCfg _ _ => (0, 0) | CellCfg _ _ n nb => (n + 2 * nb, n + 2 * nb) end).

Lemma box_make_pos x y w h : 0 < w -> 0 < h -> box_make (x, y) (w, h) = Box x y w h.
Proof.
  intros Hw Hh. unfold box_make.
  destruct (Z.eqb_spec w 0); [lia|]. destruct (Z.eqb_spec h 0); [lia|]. cbn [orb].
  destruct (Z.ltb_spec w 0); [lia|]. destruct (Z.ltb_spec h 0); [lia|]. f_equal; lia.
Qed.

Lemma box_grow_pos x y w h n :
  0 < w -> 0 < h -> 0 <= n ->
  box_grow (Box x y w h) n = Box (x - n) (y - n) (w + 2 * n) (h + 2 * n).
Proof.
  intros Hw Hh Hn. unfold box_grow, box_isEmpty; cbn [dimx dimy minx miny].
  destruct (Z.eqb_spec w 0); [lia|]. cbn [andb].
  destruct (Z.leb_spec (w + 2 * n) 0); [lia|]. destruct (Z.leb_spec (h + 2 * n) 0); [lia|].
  reflexivity.
Qed.

Lemma getPatchInfo_pair {W} c b nx ny (wcs : W) x y :
  cfg_ok c -> builder_inv c b -> b_initialized b = true -> b_numPatches b = (nx, ny) ->
  0 <= x < nx -> 0 <= y < ny ->
  getPatchInfo b (IxIndex2D x y) wcs = Ok (the_patch c nx ny wcs x y).
Proof.
  intros Hc [Hcfg Hin Hbd Hbox] Hinit Hnum Hx Hy.
  destruct (Hbox Hinit) as (nx' & ny' & Hn & Hnx & Hny & _ & HB).
  rewrite Hnum in Hn. inversion Hn; subst nx' ny'; clear Hn.
  destruct (cfg_inner_pos c Hc) as [Hw Hh]. pose proof (cfg_border_nonneg c Hc) as Hb.
  unfold getPatchInfo. rewrite Hinit, Hnum, Hin, Hbd, HB, Hcfg. cbn [negb bind].
  destruct (Z.leb_spec 0 x); [|lia]. destruct (Z.ltb_spec x nx); [|lia].
  destruct (Z.leb_spec 0 y); [|lia]. destruct (Z.ltb_spec y ny); [|lia].
  cbn [andb orb negb].
  destruct (cfg_inner c) as [w h] eqn:Ei. cbn [fst snd] in *.
  rewrite box_make_pos by assumption.
  rewrite box_grow_pos by assumption.
  assert (Hcont : box_contains_box (Box 0 0 (nx * w) (ny * h)) (Box (x * w) (y * h) w h) = true).
  { unfold box_contains_box, box_isEmpty, maxx, maxy; cbn [minx miny dimx dimy].
    destruct (Z.eqb_spec w 0); [lia|]. cbn [andb orb].
    rewrite !andb_true_iff, !Z.leb_le. nia. }
  rewrite Hcont. cbn [negb].
  unfold getSequentialPatchIndexFromPair. rewrite Hnum. cbn [bind fst snd].
  unfold the_patch. rewrite Ei. cbn [fst snd].
  assert (HW : x * w + w <= nx * w) by nia. assert (HH : y * h + h <= ny * h) by nia.
  assert (H0x : 0 <= x * w) by nia. assert (H0y : 0 <= y * h) by nia.
  set (n := cfg_border c) in *.
  destruct c as [d bd|[cw ch] cb nI nB].
  - assert (Hclip : box_clip (Box (x * w - n) (y * h - n) (w + 2 * n) (h + 2 * n))
                             (Box 0 0 (nx * w) (ny * h))
                    = outer_of (LegacyCfg d bd) nx ny x y).
    { unfold box_clip, box_isEmpty, outer_of, maxx, maxy. fold n. rewrite Ei.
      cbn [minx miny dimx dimy fst snd].
      destruct (Z.eqb_spec (w + 2 * n) 0); [lia|]. cbn [andb].
      destruct (Z.eqb_spec (nx * w) 0); [nia|]. cbn [andb].
      match goal with |- context [?a <? ?b] => destruct (Z.ltb_spec a b); [lia|] end.
      match goal with |- context [?a <? ?b] => destruct (Z.ltb_spec a b); [lia|] end.
      cbn [orb]. f_equal; lia. }
    rewrite Hclip. unfold PatchInfo_init.
    assert (Hc2 : box_contains_box (outer_of (LegacyCfg d bd) nx ny x y) (Box (x * w) (y * h) w h) = true).
    { unfold box_contains_box, box_isEmpty, outer_of, maxx, maxy. fold n. rewrite Ei.
      cbn [minx miny dimx dimy fst snd].
      destruct (Z.eqb_spec w 0); [lia|]. cbn [andb orb].
      rewrite !andb_true_iff, !Z.leb_le. lia. }
    rewrite Hc2. cbn [negb bind]. reflexivity.
  - unfold PatchInfo_init.
    assert (Hc2 : box_contains_box (Box (x * w - n) (y * h - n) (w + 2 * n) (h + 2 * n))
                                   (Box (x * w) (y * h) w h) = true).
    { unfold box_contains_box, box_isEmpty, maxx, maxy; cbn [minx miny dimx dimy fst snd].
      destruct (Z.eqb_spec w 0); [lia|]. cbn [andb orb].
      rewrite !andb_true_iff, !Z.leb_le. lia. }
    rewrite Hc2. cbn [negb bind]. cbn in Hc.
    destruct (Z.eqb_spec nI 0); [lia|].
    unfold outer_of. rewrite Ei. cbn [fst snd]. reflexivity.
Qed.

Lemma getPatchInfo_pair_out {W} b nx ny (wcs : W) x y :
  b_initialized b = true -> b_numPatches b = (nx, ny) ->
  ~ (0 <= x < nx /\ 0 <= y < ny) ->
  getPatchInfo b (IxIndex2D x y) wcs = Raise IndexError.
Proof.
  intros Hinit Hnum H. unfold getPatchInfo. rewrite Hinit, Hnum. cbn [negb bind].
  destruct (Z.leb_spec 0 x); destruct (Z.ltb_spec x nx);
  destruct (Z.leb_spec 0 y); destruct (Z.ltb_spec y ny); cbn [andb orb negb]; try reflexivity. lia.
Qed.

Lemma getPatchInfo_pair_inv {W} c b nx ny (wcs : W) x y p :
  cfg_ok c -> builder_inv c b -> b_initialized b = true -> b_numPatches b = (nx, ny) ->
  getPatchInfo b (IxIndex2D x y) wcs = Ok p ->
  0 <= x < nx /\ 0 <= y < ny /\ p = the_patch c nx ny wcs x y.
Proof.
  intros Hc Hi Hinit Hnum H.
  assert (D : (0 <= x < nx /\ 0 <= y < ny) \/ ~ (0 <= x < nx /\ 0 <= y < ny)) by lia.
  destruct D as [[Hx Hy]|D].
  - rewrite (getPatchInfo_pair c b nx ny wcs x y) in H by assumption.
    inversion H. auto.
  - rewrite (getPatchInfo_pair_out b nx ny) in H by assumption. discriminate.
Qed.

(** A pair given as any 2-sequence behaves as the Index2D. *)
Lemma getPatchInfo_seq {W} b (wcs : W) x y :
  getPatchInfo b (IxSeq [x; y]) wcs = getPatchInfo b (IxIndex2D x y) wcs.
Proof. reflexivity. Qed.

Lemma getPatchInfo_num {W} b nx ny (wcs : W) n :
  b_numPatches b = (nx, ny) -> nx <> 0 ->
  getPatchInfo b (IxNum n) wcs = getPatchInfo b (IxIndex2D (n mod nx) (n / nx)) wcs.
Proof.
  intros Hn Hx. unfold getPatchInfo, getPatchIndexPair. rewrite Hn.
  unfold py_mod, py_floordiv. destruct (Z.eqb_spec nx 0); [lia|]. reflexivity.
Qed.

(** ** Tracts *)
Lemma round_pixel_shift x k : round_pixel (x + IZR k) = round_pixel x + k.
Proof.
  unfold round_pixel. apply Zfloor_imp. rewrite !plus_IZR.
  pose proof (Zfloor_lb (x + / 2)) as H1. pose proof (Zfloor_ub (x + / 2)) as H2.
  cbn in *. lra.
Qed.

Section Tracts.
Context {Sky : Type}.
Variable offset : Sky -> R -> R -> Sky.

Record tract_inv (c : tb_config) (t : tract Sky) : Prop := {
  ti_box : exists nx ny, t_numPatches t = (nx, ny) /\ 0 <= nx /\ 0 <= ny /\ (nx = 0 <-> ny = 0)
       /\ t_bbox t = Box 0 0 (nx * fst (cfg_inner c)) (ny * snd (cfg_inner c)) }.

Lemma box_make_dims nx ny w h :
  0 < w -> 0 < h -> 0 <= nx -> 0 <= ny -> (nx = 0 <-> ny = 0) ->
  box_make (0, 0) (nx * w, ny * h) = Box 0 0 (nx * w) (ny * h).
Proof.
  intros Hw Hh Hnx Hny Hz.
  destruct (Z.eq_dec nx 0) as [->|].
  - assert (ny = 0) by lia. subst ny. reflexivity.
  - apply box_make_pos; nia.
Qed.

Lemma tract_build_spec c b oid id ctr verts overlap w corners samples b' t :
  cfg_ok c -> builder_reachable c b ->
  tract_build (Sky := Sky) b oid id ctr verts overlap w corners samples = Ok (b', t) ->
  builder_reachable c b' /\ b_initialized b' = true
  /\ b_numPatches b' = t_numPatches t /\ b_tractBBox b' = t_bbox t
  /\ tract_inv c t
  /\ t_oid t = oid /\ t_id t = id /\ t_ctr t = ctr /\ t_verts t = verts /\ t_overlap t = overlap
  /\ t_innerBoxCorners t = corners
  /\ (exists dx dy : Z, t_wcs t = copyAtShiftedPixelOrigin w (IZR dx) (IZR dy))
  /\ (forall s x y, In s samples -> skyToPixel w s = Pix x y -> tract_contains t s = Ok true).
Proof.
  intros Hc Hr. unfold tract_build.
  destruct (include_all w samples) as [m|e] eqn:Em; [|discriminate]. cbn [bind].
  destruct (include_all_spec w samples Box2DEmpty I m Em) as (Hw & _ & Hs).
  pose proof (box_of_box2d_wf m Hw) as Hm.
  destruct (setupPatches_spec c b (box_of_box2d m) Hc (builder_reachable_inv c b Hc Hr) Hm)
    as (b1 & x0 & y0 & nx & ny & E & Hi & Hinit & Hnum & Hnx & Hny & Hzx & Hzy & Hbx & Hby & Hmx & Hmy).
  rewrite E. cbn [bind].
  destruct (cfg_inner_pos c Hc) as [Hpw Hph].
  assert (Hzz : nx = 0 <-> ny = 0).
  { destruct Hm as [Hm|Hm]; [rewrite Hm in Hzx, Hzy; cbn in *; lia|lia]. }
  unfold finalOrientation, box_dims. cbn [dimx dimy minx miny].
  rewrite box_make_dims by assumption. cbn [minx miny].
  intros [= <- <-]. cbn [t_numPatches t_bbox t_oid t_id t_ctr t_verts t_overlap t_innerBoxCorners t_wcs].
  assert (Hr' : builder_reachable c b1) by (eapply br_setup; eauto).
  split; [exact Hr'|]. split; [exact Hinit|]. split; [exact Hnum|].
  split.
  { destruct (bi_box c b1 Hi Hinit) as (nx' & ny' & Hn & _ & _ & _ & HB).
    rewrite Hnum in Hn. inversion Hn; subst. exact HB. }
  split. { constructor. exists nx, ny. cbn. repeat split; auto; lia. }
  do 6 (split; [reflexivity|]).
  split. { do 2 eexists; reflexivity. }
  intros s x y Hin Hp. unfold tract_contains. cbn [t_wcs skyToPixel copyAtShiftedPixelOrigin].
  rewrite Hp. cbn [t_bbox]. f_equal.
  pose proof (box_of_box2d_contains m x y (Hs s x y Hin Hp)) as Hbox.
  rewrite !round_pixel_shift.
  unfold box_contains_point, maxx, maxy. cbn [minx miny dimx dimy].
  unfold in_box in Hbox. rewrite !andb_true_iff, !Z.leb_le. lia.
Qed.

Lemma tract_made_inv c t : cfg_ok c -> tract_made offset c t -> tract_inv c t.
Proof.
  intros Hc. destruct 1 as [b b' t oid id ctr verts ov w corners Hr H
                           |b b' t oid id ctr radius ov w corners Hr H].
  - unfold TractInfo_init in H. eapply tract_build_spec in H; eauto. intuition.
  - unfold ExplicitTractInfo_init in H.
    destruct (tract_build b oid id ctr [] ov w corners (explicit_samples offset ctr radius ov))
      as [[b1 t1]|e] eqn:E; [|discriminate]. cbn [bind] in H. inversion H; subst.
    eapply tract_build_spec in E; eauto. destruct E as (_ & _ & _ & _ & [Hi] & _).
    constructor. exact Hi.
Qed.

(** All that later proofs need about a tract in use. *)
Lemma in_use_spec c b t :
  cfg_ok c -> in_use offset c b t ->
  exists nx ny,
    builder_inv c b /\ b_initialized b = true /\ b_numPatches b = (nx, ny)
    /\ t_numPatches t = (nx, ny) /\ 0 <= nx /\ 0 <= ny /\ (nx = 0 <-> ny = 0)
    /\ t_bbox t = Box 0 0 (nx * fst (cfg_inner c)) (ny * snd (cfg_inner c)).
Proof.
  intros Hc [Hr Hinit Hm Hs].
  destruct (tract_made_inv c t Hc Hm) as [(nx & ny & Hn & Hnx & Hny & Hz & HB)].
  exists nx, ny. split; [now apply builder_reachable_inv|]. rewrite Hs, Hn. auto 10.
Qed.
End Tracts.
