(** Pixel look-up with positions in binary64 (C101). *)
From Coq Require Import Reals Lra Lia Sorted.
From Flocq Require Import Core BinarySingleNaN.
Require Import Verif.Py Verif.Float64 Verif.Geom Verif.PatchInfo Verif.TractBuilder Verif.TractInfo Verif.Spec.
Require Import Verif.RingsFloat Verif.PixelFloat Verif.PixelFloatSpec.
Require Import Verif.FloatOps Verif.PatchProofs Verif.TractProofs Verif.PixelFloatProofs Verif.Examples.
Import ListNotations.
Open Scope Z_scope.
Local Arguments Z.mul : simpl never.

(*@ C101: rounding a binary64 position to a pixel (Point2I of a Point2D: floor of the sum with 0.5, which is rounded itself) gives the pixel
    it lies in, for every finite double up to 2^49 but exactly one: the double before 0.5, which lies in pixel 0, gets pixel 1. *)
Lemma pixel_of_double_proof : forall (x : f64) n, finite x = true -> (Rabs (f2R x) <= 562949953421312)%R -> in_pixel (f2R x) n ->
  (f2R x <> before_half -> f_pixel x = n) /\ (f2R x = before_half -> n = 0 /\ f_pixel x = 1).
Proof.
  intros x n Fx Hx Hn. destruct (f_pixel_lemma x Fx ltac:(lra)) as [P1 P2].
  pose proof (round_pixel_unique _ _ Hn) as U. split.
  - intros H. rewrite <- U. now apply P1.
  - intros H. split; [|now apply P2]. rewrite <- U, H. apply round_pixel_unique. unfold before_half. lra.
Qed.

Lemma in_round x : in_pixel x (round_pixel x).
Proof. apply round_pixel_spec. Qed.

(** What the exception changes for an axis of [n] patches of [w >= 2] pixels. *)
Lemma axis_pixel (x : f64) w n : 2 <= w -> finite x = true -> (Rabs (f2R x) <= 562949953421312)%R ->
  f_pixel x = round_pixel (f2R x)
  \/ (round_pixel (f2R x) = 0 /\ f_pixel x = 1
      /\ ((0 <=? 0) && (0 <=? 0 + n * w - 1) = (0 <=? 1) && (1 <=? 0 + n * w - 1)) /\ 0 / w = 1 / w).
Proof.
  intros Hw Fx Hx. destruct (pixel_of_double_proof x _ Fx Hx (in_round _)) as [P1 P2].
  destruct (Req_dec (f2R x) before_half) as [D|D]; [|left; now apply P1].
  right. destruct (P2 D) as [H0 H1]. split; [exact H0|]. split; [exact H1|]. split.
  - cbn [andb Z.leb]. change (0 <=? 0) with true. change (0 <=? 1) with true. cbn [andb].
    assert (n <= 0 \/ 1 <= n) as [N|N] by lia; destruct (Z.leb_spec 0 (0 + n * w - 1)), (Z.leb_spec 1 (0 + n * w - 1)); try reflexivity; nia.
  - rewrite !Z.div_small by lia. reflexivity.
Qed.

Lemma contains_same (b : box) w h nx ny (x y : f64) : 2 <= w -> 2 <= h -> b = Box 0 0 (nx * w) (ny * h) -> position (x, y) ->
  box_contains_point b (f_pixel x, f_pixel y) = box_contains_point b (round_pixel (f2R x), round_pixel (f2R y))
  /\ f_pixel x / w = round_pixel (f2R x) / w /\ f_pixel y / h = round_pixel (f2R y) / h.
Proof.
  intros Hw Hh -> [[Fx Bx] [Fy By]]. cbn [fst snd] in *. unfold box_contains_point, maxx, maxy. cbn [minx miny dimx dimy].
  assert (Ax : (0 <=? f_pixel x) && (f_pixel x <=? 0 + nx * w - 1) = (0 <=? round_pixel (f2R x)) && (round_pixel (f2R x) <=? 0 + nx * w - 1)
               /\ f_pixel x / w = round_pixel (f2R x) / w).
  { destruct (axis_pixel x w nx Hw Fx Bx) as [-> |(-> & -> & E & D)]; [auto|]. split; [symmetry; exact E|symmetry; exact D]. }
  assert (Ay : (0 <=? f_pixel y) && (f_pixel y <=? 0 + ny * h - 1) = (0 <=? round_pixel (f2R y)) && (round_pixel (f2R y) <=? 0 + ny * h - 1)
               /\ f_pixel y / h = round_pixel (f2R y) / h).
  { destruct (axis_pixel y h ny Hh Fy By) as [-> |(-> & -> & E & D)]; [auto|]. split; [symmetry; exact E|symmetry; exact D]. }
  destruct Ax as [Ax Dx]. destruct Ay as [Ay Dy]. split; [|auto].
  rewrite <- !andb_assoc. rewrite (andb_assoc (0 <=? f_pixel x)), Ax, Ay. now rewrite <- andb_assoc.
Qed.

Lemma findPatch_same (Sky : Type) (offset : Sky -> R -> R -> Sky) c b (t : tract Sky) s p :
  cfg_ok c -> in_use offset c b t -> dimx (t_bbox t) < 2 ^ 31 -> dimy (t_bbox t) < 2 ^ 31 ->
  2 <= fst (cfg_inner c) -> 2 <= snd (cfg_inner c) -> position p ->
  skyToPixel (t_wcs t) s = Pix (f2R (fst p)) (f2R (snd p)) ->
  tract_contains t s = Ok (f_contains t p) /\ findPatch b t s = f_findPatch b t p.
Proof.
  intros Hc Hu Hdx Hdy Hw Hh Hp Es. destruct p as [x y]. cbn [fst snd] in Es.
  destruct (in_use_spec offset c b t Hc Hu) as (nx & ny & Hinv & Hinit & Hnb & Hnt & Hnx & Hny & Hz & HB).
  destruct (contains_same (t_bbox t) _ _ nx ny x y Hw Hh HB Hp) as (EC & Dx & Dy).
  split. { unfold tract_contains, f_contains. rewrite Es. cbn [fst snd]. now rewrite EC. }
  unfold findPatch, f_findPatch. rewrite Es. cbn [point2I_of_pix fst snd]. rewrite EC.
  destruct (box_contains_point (t_bbox t) (round_pixel (f2R x), round_pixel (f2R y))) eqn:F; [|reflexivity]. cbn [negb].
  pose proof (proj1 (contains_point_in_box _ _ _) F) as F1. apply contains_point_in_box in EC.
  destruct (getPatchInfo_pixel offset c b t nx ny _ _ Hc Hu Hdx Hdy Hnt F1) as (E1 & E2 & _).
  destruct (getPatchInfo_pixel offset c b t nx ny _ _ Hc Hu Hdx Hdy Hnt EC) as (E3 & E4 & _).
  rewrite E1, E2, E3, E4, Dx, Dy. reflexivity.
Qed.

(*@ C101: so when patches are at least 2 pixels wide and high, contains and findPatch with binary64 positions answer exactly what they answer
    in exact arithmetic (to which C15 applies), for every position up to 2^49 pixels, in the tract or not. *)
Lemma lookup_as_exact_proof : forall (Sky : Type) (offset : Sky -> R -> R -> Sky) c b (t : tract Sky) s p,
  cfg_ok c -> in_use offset c b t -> dimx (t_bbox t) < 2 ^ 31 -> dimy (t_bbox t) < 2 ^ 31 ->
  2 <= fst (cfg_inner c) -> 2 <= snd (cfg_inner c) -> position p ->
  skyToPixel (t_wcs t) s = Pix (f2R (fst p)) (f2R (snd p)) ->
  tract_contains t s = Ok (f_contains t p) /\ findPatch b t s = f_findPatch b t p.
Proof. exact findPatch_same. Qed.

(*@ C101: in other words: a tract contains exactly the positions on the region its box covers, and findPatch returns exactly the patch on the
    region of whose inner box the position is (LookupError when there is none): no rounding moves a position into a neighbouring patch or across
    the edge of the tract. *)
Lemma patch_of_double_proof : forall (Sky : Type) (offset : Sky -> R -> R -> Sky) c b (t : tract Sky) p,
  cfg_ok c -> in_use offset c b t -> dimx (t_bbox t) < 2 ^ 31 -> dimy (t_bbox t) < 2 ^ 31 ->
  2 <= fst (cfg_inner c) -> 2 <= snd (cfg_inner c) -> position p ->
  (f_contains t p = true <-> on_box p (t_bbox t))
  /\ (forall q, f_findPatch b t p = Ok q <->
       (exists i j, tract_getPatchInfo b t (IxIndex2D i j) = Ok q) /\ on_box p (p_inner q))
  /\ (f_contains t p = false -> f_findPatch b t p = Raise LookupError).
Proof.
  intros Sky offset c b t p Hc Hu Hdx Hdy Hw Hh Hp.
  destruct (in_use_spec offset c b t Hc Hu) as (nx & ny & Hinv & Hinit & Hnb & Hnt & Hnx & Hny & Hz & HB).
  destruct p as [x y].
  destruct (contains_same (t_bbox t) _ _ nx ny x y Hw Hh HB Hp) as (EC & Dx & Dy).
  pose proof (in_round (f2R x)) as Rx. pose proof (in_round (f2R y)) as Ry. unfold in_pixel in Rx, Ry.
  assert (IB : forall (B : box), on_box (x, y) B <-> in_box (round_pixel (f2R x)) (round_pixel (f2R y)) B).
  { intros B. unfold on_box, in_box. cbn [fst snd].
    assert (A : forall (v : R) n lo d, (IZR n - / 2 <= v < IZR n + / 2)%R ->
      ((IZR lo - / 2 <= v < IZR (lo + d) - / 2)%R <-> lo <= n < lo + d)).
    { intros v n lo d Hv. split.
      - intros [H1 H2]. split; apply Z.lt_succ_r || idtac.
        + apply lt_IZR. rewrite succ_IZR. lra.
        + apply lt_IZR. lra.
      - intros [H1 H2]. apply IZR_le in H1. assert (n + 1 <= lo + d) as H3 by lia. apply IZR_le in H3. rewrite plus_IZR in H3. lra. }
    rewrite (A _ _ _ _ Rx), (A _ _ _ _ Ry). tauto. }
  assert (C : f_contains t (x, y) = true <-> in_box (round_pixel (f2R x)) (round_pixel (f2R y)) (t_bbox t)).
  { unfold f_contains. cbn [fst snd]. rewrite EC. apply contains_point_in_box. }
  split; [now rewrite C, IB|].
  assert (N : f_contains t (x, y) = false -> f_findPatch b t (x, y) = Raise LookupError).
  { intros H. unfold f_contains in H. unfold f_findPatch. cbn [fst snd] in *. now rewrite H. }
  split; [|exact N].
  intros q. rewrite IB. split.
  - intros H. destruct (f_contains t (x, y)) eqn:F; [|rewrite (N eq_refl) in H; discriminate].
    pose proof (proj1 C eq_refl) as F1. unfold f_findPatch in H. unfold f_contains in F. cbn [fst snd] in *. rewrite F in H.
    apply contains_point_in_box in F.
    destruct (getPatchInfo_pixel offset c b t nx ny _ _ Hc Hu Hdx Hdy Hnt F) as (E3 & E4 & I1 & I2).
    cbn [negb] in H. rewrite E3, E4 in H. cbn [bind] in H. unfold tract_getPatchInfo in H. rewrite getPatchInfo_seq in H.
    split; [eexists _, _; exact H|].
    pose proof (getPatchInfo_pair c b nx ny (t_wcs t) _ _ Hc Hinv Hinit Hnb I1 I2) as G. rewrite G in H. injection H as <-.
    unfold in_box. cbn [p_inner the_patch minx miny dimx dimy]. rewrite Dx, Dy.
    pose proof (Z.div_mod (round_pixel (f2R x)) (fst (cfg_inner c)) ltac:(lia)).
    pose proof (Z.mod_pos_bound (round_pixel (f2R x)) (fst (cfg_inner c)) ltac:(lia)).
    pose proof (Z.div_mod (round_pixel (f2R y)) (snd (cfg_inner c)) ltac:(lia)).
    pose proof (Z.mod_pos_bound (round_pixel (f2R y)) (snd (cfg_inner c)) ltac:(lia)). nia.
  - intros ((i & j & G) & Hin).
    destruct (getPatchInfo_pair_inv c b nx ny (t_wcs t) i j q Hc Hinv Hinit Hnb G) as (Hi & Hj & ->).
    unfold in_box in Hin. cbn [p_inner the_patch minx miny dimx dimy] in Hin.
    assert (F1 : in_box (round_pixel (f2R x)) (round_pixel (f2R y)) (t_bbox t)).
    { rewrite HB. unfold in_box. cbn [minx miny dimx dimy]. nia. }
    pose proof (proj2 C F1) as F. unfold f_findPatch. unfold f_contains in F. cbn [fst snd] in *. rewrite F. cbn [negb].
    apply contains_point_in_box in F.
    destruct (getPatchInfo_pixel offset c b t nx ny _ _ Hc Hu Hdx Hdy Hnt F) as (E3 & E4 & I1 & I2).
    rewrite E3, E4. cbn [bind]. unfold tract_getPatchInfo. rewrite getPatchInfo_seq, Dx, Dy.
    replace (round_pixel (f2R x) / fst (cfg_inner c)) with i by (apply Z.div_unique with (round_pixel (f2R x) - i * fst (cfg_inner c)); lia).
    replace (round_pixel (f2R y) / snd (cfg_inner c)) with j by (apply Z.div_unique with (round_pixel (f2R y) - j * snd (cfg_inner c)); lia).
    exact G.
Qed.

(** ** findPatchList *)
Lemma exact_box (l : list f64) a u : axis_box l a u ->
  exists m, (forall p, In p l -> m <= round_pixel (f2R p) <= u) /\ (exists p, In p l /\ round_pixel (f2R p) = m)
    /\ m <= a <= u /\ (a = m \/ (m = 0 /\ a = 1))
    /\ (exists q, In q l /\ (IZR u - / 2 < f2R q + / 1125899906842624 * Rmax 1 (Rabs (f2R q)))%R).
Proof.
  intros (A1 & A2 & (lo & L1 & L2 & L3) & Q). exists (round_pixel (f2R lo)).
  split; [intros p Hp; auto|]. split; [eauto|]. split; [lia|]. split; [|exact Q]. destruct L3 as [->|[-> ->]]; auto.
Qed.

(** One axis of the boxes: pixel 0 can be replaced by pixel 1. *)
Lemma axis_reach m a u bd lo w : m <= a <= u -> (a = m \/ (m = 0 /\ a = 1)) -> 0 <= bd -> (1 <= bd \/ 2 <= w) ->
  0 < w -> 0 <= lo -> (exists i, lo = i * w) ->
  ((exists px qx, m <= px < u + 1 /\ lo <= qx < lo + w /\ Z.abs (px - qx) <= bd)
   <-> (exists px qx, a <= px < u + 1 /\ lo <= qx < lo + w /\ Z.abs (px - qx) <= bd)).
Proof.
  intros Hm [->|[-> ->]] Hb Hw Hw0 Hlo (i & Ei); [tauto|]. split.
  - intros (px & qx & H1 & H2 & H3). destruct (Z.eq_dec px 0) as [->|]; [|exists px, qx; lia].
    destruct (Z.eq_dec bd 0) as [->|Hb0].
    + assert (qx = 0) as -> by lia. assert (lo = 0) by nia. exists 1, 1. lia.
    + exists 1, qx. lia.
  - intros (px & qx & H1 & H2 & H3). exists px, qx. lia.
Qed.

(*@ C101: findPatchList with binary64 positions (the box is accumulated with rounding, its upper edges are moved by the factor of
    Box2D's tweakMax and its corners rounded), when there is a patch border or patches are at least 2 pixels wide and high: it returns the patches, ordered by x then y without
    repetition, whose inner box comes within patch_border of a pixel bounding box of the positions that is exact below and on the left and
    within a relative 2^-50 above and on the right; without positions it returns none. *)
Lemma patches_of_doubles_proof : forall (Sky : Type) (offset : Sky -> R -> R -> Sky) c b (t : tract Sky) l,
  cfg_ok c -> in_use offset c b t -> dimx (t_bbox t) < 2 ^ 31 -> dimy (t_bbox t) < 2 ^ 31 ->
  (1 <= cfg_border c \/ (2 <= fst (cfg_inner c) /\ 2 <= snd (cfg_inner c))) -> (forall p, In p l -> position p) ->
  (l = [] -> f_findPatchList b t l = Ok [])
  /\ (l <> [] -> exists ps B, f_findPatchList b t l = Ok ps
    /\ positions_box l B
    /\ (forall i j p, tract_getPatchInfo b t (IxIndex2D i j) = Ok p ->
          (In p ps <-> exists px py qx qy, in_box px py B /\ in_box qx qy (p_inner p)
                         /\ Z.abs (px - qx) <= cfg_border c /\ Z.abs (py - qy) <= cfg_border c))
    /\ (forall p, In p ps -> exists i j, tract_getPatchInfo b t (IxIndex2D i j) = Ok p)
    /\ StronglySorted (fun p q => fst (p_index p) < fst (p_index q) \/
                        (fst (p_index p) = fst (p_index q) /\ snd (p_index p) < snd (p_index q))) ps).
Proof.
  intros Sky offset c b t l Hc Hu Hdx Hdy Hbw Hl. split.
  { intros ->. unfold f_findPatchList. cbn [fold_left f_box_of_box2d].
    replace (box_grow box_empty (b_patchBorder b)) with box_empty by reflexivity. reflexivity. }
  intros Hne. destruct (f_box_lemma l Hne Hl) as (a & a' & u & v & EB & Ax & Ay).
  pose proof (cfg_border_nonneg c Hc) as Hbd. destruct (cfg_inner_pos c Hc) as [Hw Hh].
  assert (Wf : box_wf (Box a a' (u + 1 - a) (v + 1 - a'))).
  { right. cbn [dimx dimy]. destruct Ax as (_ & ? & _), Ay as (_ & ? & _). lia. }
  destruct (box_patches_lemma Sky offset c b t _ Hc Hu Hdx Hdy Wf) as (ps & E & Hm & Hr).
  destruct (exact_box _ _ _ Ax) as (m & X1 & X2 & X3 & X4 & X5). destruct (exact_box _ _ _ Ay) as (n & Y1 & Y2 & Y3 & Y4 & Y5).
  exists ps, (Box m n (u + 1 - m) (v + 1 - n)).
  split; [unfold f_findPatchList; rewrite EB; exact E|]. split.
  { constructor; cbn [minx miny dimx dimy].
    - intros p px py Hp H1 H2. rewrite <- (round_pixel_unique _ _ H1), <- (round_pixel_unique _ _ H2).
      pose proof (X1 _ (in_map fst _ _ Hp)). pose proof (Y1 _ (in_map snd _ _ Hp)). unfold in_box. cbn [minx miny dimx dimy]. lia.
    - destruct X2 as (z & Hz & <-). apply in_map_iff in Hz. destruct Hz as (p & <- & Hp). exists p. split; [exact Hp|apply in_round].
    - destruct Y2 as (z & Hz & <-). apply in_map_iff in Hz. destruct Hz as (p & <- & Hp). exists p. split; [exact Hp|apply in_round].
    - destruct X5 as (z & Hz & H). apply in_map_iff in Hz. destruct Hz as (p & <- & Hp). exists p. split; [exact Hp|].
      replace (m + (u + 1 - m) - 1) with u by ring. exact H.
    - destruct Y5 as (z & Hz & H). apply in_map_iff in Hz. destruct Hz as (p & <- & Hp). exists p. split; [exact Hp|].
      replace (n + (v + 1 - n) - 1) with v by ring. exact H. }
  split; [|exact Hr].
  intros i j p G. rewrite (Hm i j p G).
  destruct (in_use_spec offset c b t Hc Hu) as (nx & ny & Hinv & Hinit & Hnb & Hnt & Hnx & Hny & Hz & HB).
  destruct (getPatchInfo_pair_inv c b nx ny (t_wcs t) i j p Hc Hinv Hinit Hnb G) as (Hi & Hj & ->).
  unfold in_box. cbn [p_inner the_patch minx miny dimx dimy].
  pose proof (axis_reach m a u (cfg_border c) (i * fst (cfg_inner c)) (fst (cfg_inner c)) X3 X4 Hbd ltac:(lia) Hw ltac:(nia) ltac:(eauto)) as RX.
  pose proof (axis_reach n a' v (cfg_border c) (j * snd (cfg_inner c)) (snd (cfg_inner c)) Y3 Y4 Hbd ltac:(lia) Hh ltac:(nia) ltac:(eauto)) as RY.
  split.
  - intros (px & py & qx & qy & [? ?] & [? ?] & ? & ?).
    destruct (proj2 RX) as (px' & qx' & ? & ? & ?); [exists px, qx; lia|].
    destruct (proj2 RY) as (py' & qy' & ? & ? & ?); [exists py, qy; lia|].
    exists px', py', qx', qy'. lia.
  - intros (px & py & qx & qy & [? ?] & [? ?] & ? & ?).
    destruct (proj1 RX) as (px' & qx' & ? & ? & ?); [exists px, qx; lia|].
    destruct (proj1 RY) as (py' & qy' & ? & ? & ?); [exists py, qy; lia|].
    exists px', py', qx', qy'. lia.
Qed.

(*@ C101: in particular the patch found for each of the positions is in the list (patches at least 2 pixels wide and high). *)
Lemma doubles_complete_proof : forall (Sky : Type) (offset : Sky -> R -> R -> Sky) c b (t : tract Sky) l p q,
  cfg_ok c -> in_use offset c b t -> dimx (t_bbox t) < 2 ^ 31 -> dimy (t_bbox t) < 2 ^ 31 ->
  2 <= fst (cfg_inner c) -> 2 <= snd (cfg_inner c) -> (forall p, In p l -> position p) ->
  In p l -> f_findPatch b t p = Ok q -> exists ps, f_findPatchList b t l = Ok ps /\ In q ps.
Proof.
  intros Sky offset c b t l p q Hc Hu Hdx Hdy Hw Hh Hl Hp Hq.
  destruct (patches_of_doubles_proof Sky offset c b t l Hc Hu Hdx Hdy ltac:(auto) Hl) as [_ H].
  destruct H as (ps & B & E & PB & Hm & _); [intros ->; destruct Hp|].
  exists ps. split; [exact E|].
  destruct (patch_of_double_proof Sky offset c b t p Hc Hu Hdx Hdy Hw Hh (Hl p Hp)) as (_ & F & _).
  destruct (proj1 (F q) Hq) as ((i & j & G) & [O1 O2]).
  apply (Hm i j q G).
  exists (round_pixel (f2R (fst p))), (round_pixel (f2R (snd p))), (round_pixel (f2R (fst p))), (round_pixel (f2R (snd p))).
  pose proof (cfg_border_nonneg c Hc). pose proof (round_pixel_spec (f2R (fst p))) as R1. pose proof (round_pixel_spec (f2R (snd p))) as R2.
  split; [apply (pb_holds l B PB p); [exact Hp|exact R1|exact R2]|].
  split; [|rewrite !Z.sub_diag; cbn; lia].
  assert (A : forall (v : R) n lo d, (IZR n - / 2 <= v < IZR n + / 2)%R -> (IZR lo - / 2 <= v < IZR (lo + d) - / 2)%R -> lo <= n < lo + d).
  { intros v n lo d Hv [H1 H2]. split.
    - apply Z.lt_succ_r. apply lt_IZR. rewrite succ_IZR. lra.
    - apply lt_IZR. lra. }
  unfold in_box. split; eapply A; eassumption.
Qed.

Lemma int_position m n : (Z.abs m <= 2 ^ 40)%Z -> (Z.abs n <= 2 ^ 40)%Z ->
  position (float_of_int m, float_of_int n) /\ f2R (float_of_int m) = IZR m /\ f2R (float_of_int n) = IZR n.
Proof.
  intros Hm Hn. destruct (float_of_int_ok m ltac:(lia)) as [F1 E1]. destruct (float_of_int_ok n ltac:(lia)) as [F2 E2].
  split; [|auto].
  assert (A : forall k, (Z.abs k <= 2 ^ 40)%Z -> (Rabs (IZR k) <= 562949953421312)%R).
  { intros k Hk. rewrite <- abs_IZR. apply (IZR_le _ 562949953421312). lia. }
  split; (split; [assumption|]); cbn [fst snd]; [rewrite E1|rewrite E2]; apply A; assumption.
Qed.

(*@ C101, refuted: that this holds for patches one pixel wide: in a tract of 10 x 10 patches of one pixel the position (1/2 - 2^-54, 3) is on patch (0, 3), and
    findPatch returns patch (1, 3). *)
Lemma one_pixel_patches_refuted_proof :
  exists b (t : tract flat) p q r, in_use flat_offset (LegacyCfg (1, 1) 0) b t /\ cfg_ok (LegacyCfg (1, 1) 0)
    /\ t_bbox t = Box 0 0 10 10 /\ position p
    /\ f_findPatch b t p = Ok q /\ p_index q = (1, 3) /\ ~ on_box p (p_inner q)
    /\ tract_getPatchInfo b t (IxIndex2D 0 3) = Ok r /\ on_box p (p_inner r).
Proof.
  assert (H1 : cfg_ok (LegacyCfg (1, 1) 0)) by (cbn; lia).
  destruct (ex_tract (LegacyCfg (1, 1) 0) 0 0 9 9 (builder_init _) H1 (br_init _)) as (b & t & E & Hu & Hn); [lia|lia|].
  change (t_numPatches t = (10, 10)) in Hn.
  destruct (in_use_spec _ _ b t H1 Hu) as (nx & ny & Hinv & Hinit & Hnb & Hnt & _ & _ & _ & HB).
  rewrite Hn in Hnt. injection Hnt as <- <-. change (t_bbox t = Box 0 0 10 10) in HB.
  destruct (f64_make_ok 9007199254740991 (-54) ltac:(lia) ltac:(lia)) as [F1 E1].
  change (bpow radix2 (-54)) with (/ 18014398509481984)%R in E1.
  set (x := f64_make 9007199254740991 (-54)) in *.
  assert (Ex : f2R x = before_half) by (rewrite E1; unfold before_half; lra). clear E1.
  destruct (float_of_int_ok 3 ltac:(lia)) as [F3 E3].
  destruct (f_pixel_lemma x F1) as [_ P1]; [rewrite Ex; unfold before_half; rewrite Rabs_pos_eq; lra|]. specialize (P1 Ex).
  destruct (f_pixel_lemma (float_of_int 3) F3) as [P3 _]; [rewrite E3, Rabs_pos_eq; lra|].
  rewrite E3 in P3. specialize (P3 ltac:(unfold below_half; lra)). rewrite (round_pixel_unique 3 3) in P3 by lra.
  exists b, t, (x, float_of_int 3).
  exists (the_patch (LegacyCfg (1, 1) 0) 10 10 (t_wcs t) 1 3), (the_patch (LegacyCfg (1, 1) 0) 10 10 (t_wcs t) 0 3).
  split; [exact Hu|]. split; [exact H1|]. split; [exact HB|]. split.
  { split; (split; [assumption|]); cbn [fst snd]; [rewrite Ex; unfold before_half|rewrite E3]; rewrite Rabs_pos_eq; lra. }
  split.
  { unfold f_findPatch. cbn [fst snd]. rewrite P1, P3, HB. change (negb (box_contains_point (Box 0 0 10 10) (1, 3))) with false. cbv iota.
    rewrite (bi_inner _ _ Hinv). cbn [fst snd cfg_inner].
    replace (py_int_truediv 1 1) with (Ok 1) by (vm_compute; reflexivity).
    replace (py_int_truediv 3 1) with (Ok 3) by (vm_compute; reflexivity). cbn [bind].
    unfold tract_getPatchInfo. rewrite getPatchInfo_seq. apply getPatchInfo_pair; try assumption; lia. }
  split; [reflexivity|]. split.
  { intros [[H _] _]. cbn [p_inner the_patch minx dimx fst snd] in H. rewrite Ex in H. unfold before_half in H.
    change (1 * fst (cfg_inner (LegacyCfg (1, 1) 0))) with 1 in H. lra. }
  split; [apply getPatchInfo_pair; try assumption; lia|].
  unfold on_box. cbn [p_inner the_patch minx dimx miny dimy fst snd]. rewrite Ex, E3.
  change (0 * fst (cfg_inner (LegacyCfg (1, 1) 0))) with 0. change (3 * snd (cfg_inner (LegacyCfg (1, 1) 0))) with 3.
  change (0 + fst (cfg_inner (LegacyCfg (1, 1) 0))) with 1. change (3 + snd (cfg_inner (LegacyCfg (1, 1) 0))) with 4.
  unfold before_half. lra.
Qed.

(*@ C101, non-vacuity: a tract in use with two positions in it. *)
Example double_positions_met_proof :
  exists b (t : tract flat) p q, in_use flat_offset legacy_default b t /\ cfg_ok legacy_default
    /\ dimx (t_bbox t) < 2 ^ 31 /\ dimy (t_bbox t) < 2 ^ 31
    /\ 2 <= fst (cfg_inner legacy_default) /\ 2 <= snd (cfg_inner legacy_default)
    /\ position p /\ position q /\ f_contains t p = true /\ f_contains t q = true /\ f_findPatch b t p <> f_findPatch b t q.
Proof.
  assert (H1 : cfg_ok legacy_default) by (cbn; lia).
  destruct (ex_tract legacy_default 0 0 9999 4999 (builder_init _) H1 (br_init _)) as (b & t & E & Hu & Hn); [lia|lia|].
  destruct (in_use_spec _ _ b t H1 Hu) as (nx & ny & Hinv & Hinit & Hnb & Hnt & _ & _ & _ & HB).
  rewrite Hn in Hnt. vm_compute in Hnt. injection Hnt as <- <-. change (t_bbox t = Box 0 0 12000 8000) in HB.
  destruct (int_position 10 20 ltac:(lia) ltac:(lia)) as (S1 & E1 & E2).
  destruct (int_position 9000 5000 ltac:(lia) ltac:(lia)) as (S2 & E3 & E4).
  assert (D1 : dimx (t_bbox t) < 2 ^ 31) by (rewrite HB; reflexivity).
  assert (D2 : dimy (t_bbox t) < 2 ^ 31) by (rewrite HB; reflexivity).
  assert (W1 : 2 <= fst (cfg_inner legacy_default)) by (cbn; lia). assert (W2 : 2 <= snd (cfg_inner legacy_default)) by (cbn; lia).
  destruct (patch_of_double_proof _ _ _ b t _ H1 Hu D1 D2 W1 W2 S1) as (C1 & P1 & _).
  destruct (patch_of_double_proof _ _ _ b t _ H1 Hu D1 D2 W1 W2 S2) as (C2 & P2 & _).
  exists b, t, (float_of_int 10, float_of_int 20), (float_of_int 9000, float_of_int 5000).
  split; [exact Hu|]. split; [exact H1|]. split; [exact D1|]. split; [exact D2|]. split; [exact W1|]. split; [exact W2|].
  split; [exact S1|]. split; [exact S2|].
  assert (O1 : on_box (float_of_int 10, float_of_int 20) (t_bbox t)).
  { unfold on_box. rewrite HB. cbn [minx dimx miny dimy fst snd]. rewrite E1, E2. cbn [Z.add]. lra. }
  assert (O2 : on_box (float_of_int 9000, float_of_int 5000) (t_bbox t)).
  { unfold on_box. rewrite HB. cbn [minx dimx miny dimy fst snd]. rewrite E3, E4. cbn [Z.add]. lra. }
  split; [apply C1, O1|]. split; [apply C2, O2|].
  assert (G1 : f_findPatch b t (float_of_int 10, float_of_int 20) = Ok (the_patch legacy_default 3 2 (t_wcs t) 0 0)).
  { apply P1. split; [exists 0, 0; apply getPatchInfo_pair; try assumption; lia|].
    change (p_inner (the_patch legacy_default 3 2 (t_wcs t) 0 0)) with (Box 0 0 4000 4000). unfold on_box. cbn [minx dimx miny dimy fst snd Z.add]. rewrite E1, E2. lra. }
  assert (G2 : f_findPatch b t (float_of_int 9000, float_of_int 5000) = Ok (the_patch legacy_default 3 2 (t_wcs t) 2 1)).
  { apply P2. split; [exists 2, 1; apply getPatchInfo_pair; try assumption; lia|].
    change (p_inner (the_patch legacy_default 3 2 (t_wcs t) 2 1)) with (Box 8000 4000 4000 4000). change (on_box (float_of_int 9000, float_of_int 5000) (Box 8000 4000 4000 4000)) with ((IZR 8000 - / 2 <= f2R (float_of_int 9000) < IZR 12000 - / 2) /\ (IZR 4000 - / 2 <= f2R (float_of_int 5000) < IZR 8000 - / 2))%R. rewrite E3, E4. lra. }
  rewrite G1, G2. intros K. apply (f_equal (fun r => match r with Ok p => p_index p | _ => (7, 7) end)) in K. discriminate.
Qed.
