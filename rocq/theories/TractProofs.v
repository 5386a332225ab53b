(** Lemmas about findPatch, findPatchList and tract construction. *)
From Coq Require Import Reals Lra Sorted.
From Flocq Require Import Raux.
Require Import Verif.Py Verif.Float64 Verif.Float64Proofs Verif.Geom Verif.PatchInfo Verif.TractBuilder
  Verif.TractInfo Verif.Spec Verif.PatchProofs.
Open Scope Z_scope.
Local Arguments Z.mul : simpl never.

Lemma round_pixel_spec x : (IZR (round_pixel x) - / 2 <= x < IZR (round_pixel x) + / 2)%R.
Proof.
  unfold round_pixel. pose proof (Zfloor_lb (x + / 2)). pose proof (Zfloor_ub (x + / 2)).
  cbn in *. lra.
Qed.

Lemma round_pixel_unique x n : (IZR n - / 2 <= x < IZR n + / 2)%R -> round_pixel x = n.
Proof. intros H. unfold round_pixel. apply Zfloor_imp. rewrite plus_IZR. lra. Qed.

Lemma contains_point_in_box b px py :
  box_contains_point b (px, py) = true <-> in_box px py b.
Proof.
  unfold box_contains_point, in_box, maxx, maxy. rewrite !andb_true_iff, !Z.leb_le. lia.
Qed.

Lemma contains_lemma (Sky : Type) (t : tract Sky) coord :
  tract_contains t coord = Ok true <->
  exists px py, pixel_of t coord px py /\ in_box px py (t_bbox t).
Proof.
  unfold tract_contains, pixel_of. split.
  - destruct (skyToPixel (t_wcs t) coord) as [[]| |x y] eqn:E; try discriminate.
    intros [= H]. apply contains_point_in_box in H.
    exists (round_pixel x), (round_pixel y). split; [|exact H].
    exists x, y. split; [reflexivity|]. split; apply round_pixel_spec.
  - intros (px & py & (x & y & E & Hx & Hy) & Hin). rewrite E.
    rewrite (round_pixel_unique x px Hx), (round_pixel_unique y py Hy).
    f_equal. now apply contains_point_in_box.
Qed.

Section S.
Context {Sky : Type}.
Variable offset : Sky -> R -> R -> Sky.

Lemma getPatchInfo_pixel c b t nx ny px py :
  cfg_ok c -> in_use offset c b t -> dimx (t_bbox t) < 2 ^ 31 -> dimy (t_bbox t) < 2 ^ 31 ->
  t_numPatches t = (nx, ny) -> in_box px py (t_bbox t) ->
  py_int_truediv px (fst (b_patchInner b)) = Ok (px / fst (cfg_inner c))
  /\ py_int_truediv py (snd (b_patchInner b)) = Ok (py / snd (cfg_inner c))
  /\ 0 <= px / fst (cfg_inner c) < nx /\ 0 <= py / snd (cfg_inner c) < ny.
Proof.
  intros Hc Hu Hdx Hdy Hn Hin.
  destruct (in_use_spec offset c b t Hc Hu)
    as (nx' & ny' & Hi & Hinit & Hnb & Hnt & Hnx & Hny & Hz & HB).
  rewrite Hn in Hnt. inversion Hnt; subst nx' ny'.
  destruct (cfg_inner_pos c Hc) as [Hw Hh]. rewrite (bi_inner c b Hi).
  rewrite HB in *. unfold in_box in Hin. cbn [minx miny dimx dimy] in *.
  set (w := fst (cfg_inner c)) in *. set (h := snd (cfg_inner c)) in *.
  assert (w < 2 ^ 31) by nia. assert (h < 2 ^ 31) by nia.
  split; [apply py_int_truediv_floor; lia|]. split; [apply py_int_truediv_floor; lia|].
  split; (split; [apply Z.div_pos; lia|apply Z.div_lt_upper_bound; lia]).
Qed.

Lemma findPatch_pixel c b t nx ny coord x y :
  cfg_ok c -> in_use offset c b t -> dimx (t_bbox t) < 2 ^ 31 -> dimy (t_bbox t) < 2 ^ 31 ->
  t_numPatches t = (nx, ny) -> skyToPixel (t_wcs t) coord = Pix x y ->
  in_box (round_pixel x) (round_pixel y) (t_bbox t) ->
  let i := round_pixel x / fst (cfg_inner c) in let j := round_pixel y / snd (cfg_inner c) in
  0 <= i < nx /\ 0 <= j < ny
  /\ findPatch b t coord = Ok (the_patch c nx ny (t_wcs t) i j)
  /\ tract_getPatchInfo b t (IxIndex2D i j) = Ok (the_patch c nx ny (t_wcs t) i j)
  /\ in_box (round_pixel x) (round_pixel y) (p_inner (the_patch c nx ny (t_wcs t) i j)).
Proof.
  intros Hc Hu Hdx Hdy Hn E Hin i j.
  destruct (getPatchInfo_pixel c b t nx ny _ _ Hc Hu Hdx Hdy Hn Hin) as (E1 & E2 & Hi & Hj).
  fold i in E1, Hi. fold j in E2, Hj.
  destruct (in_use_spec offset c b t Hc Hu)
    as (nx' & ny' & Hinv & Hinit & Hnb & Hnt & _).
  rewrite Hn in Hnt. inversion Hnt; subst nx' ny'.
  split; [exact Hi|]. split; [exact Hj|].
  assert (G : tract_getPatchInfo b t (IxIndex2D i j) = Ok (the_patch c nx ny (t_wcs t) i j))
    by (apply getPatchInfo_pair; assumption).
  split; [|split; [exact G|]].
  - unfold findPatch. rewrite E. cbn [point2I_of_pix].
    apply contains_point_in_box in Hin. rewrite Hin. cbn [negb]. rewrite E1. cbn [bind].
    rewrite E2. cbn [bind]. exact G.
  - destruct (cfg_inner_pos c Hc) as [Hw Hh].
    unfold in_box. cbn. unfold i, j. rewrite !(Z.mul_comm (_ / _)).
    pose proof (Z.div_mod (round_pixel x) (fst (cfg_inner c)) ltac:(lia)).
    pose proof (Z.mod_pos_bound (round_pixel x) (fst (cfg_inner c)) Hw).
    pose proof (Z.div_mod (round_pixel y) (snd (cfg_inner c)) ltac:(lia)).
    pose proof (Z.mod_pos_bound (round_pixel y) (snd (cfg_inner c)) Hh). lia.
Qed.
End S.

Lemma findPatch_lemma (Sky : Type) (offset : Sky -> R -> R -> Sky) c b t coord :
  cfg_ok c -> in_use offset c b t -> dimx (t_bbox t) < 2 ^ 31 -> dimy (t_bbox t) < 2 ^ 31 ->
  match tract_contains t coord with
  | Ok true =>
      exists p i j px py, findPatch b t coord = Ok p
        /\ tract_getPatchInfo b t (IxIndex2D i j) = Ok p
        /\ pixel_of t coord px py /\ in_box px py (t_bbox t) /\ in_box px py (p_inner p)
  | Ok false => findPatch b t coord = Raise LookupError
  | Raise e => findPatch b t coord = Raise e
  end.
Proof.
  intros Hc Hu Hdx Hdy.
  destruct (in_use_spec offset c b t Hc Hu)
    as (nx & ny & Hinv & Hinit & Hnb & Hnt & Hnx & Hny & Hz & HB).
  unfold tract_contains, pixel_of.
  destruct (skyToPixel (t_wcs t) coord) as [e| |x y] eqn:E.
  - unfold findPatch. rewrite E. destruct e; reflexivity.
  - unfold findPatch. rewrite E. cbn [point2I_of_pix].
    assert (F : box_contains_point (t_bbox t) (int_min, int_min) = false).
    { rewrite HB. unfold box_contains_point. cbn [minx]. reflexivity. }
    rewrite F. reflexivity.
  - destruct (box_contains_point (t_bbox t) (round_pixel x, round_pixel y)) eqn:F.
    + apply contains_point_in_box in F.
      destruct (findPatch_pixel offset c b t nx ny coord x y Hc Hu Hdx Hdy Hnt E F)
        as (Hi & Hj & H1 & H2 & H3).
      do 5 eexists. split; [exact H1|]. split; [exact H2|].
      split; [|split; [exact F|exact H3]].
      exists x, y. split; [reflexivity|]. split; apply round_pixel_spec.
    + unfold findPatch. rewrite E. cbn [point2I_of_pix]. rewrite F. reflexivity.
Qed.

(** ** findPatchList *)
Section L.
Context {Sky : Type}.
Variable offset : Sky -> R -> R -> Sky.

Definition attained (w : wcs Sky) (l : list Sky) (b : box2d) : Prop :=
  match b with
  | Box2DEmpty => True
  | Box2D x0 y0 x1 y1 =>
      (exists s y, In s l /\ skyToPixel w s = Pix x0 y)
      /\ (exists s x, In s l /\ skyToPixel w s = Pix x y0)
      /\ (exists s x y, In s l /\ skyToPixel w s = Pix x y /\ x1 = tweak_max x)
      /\ (exists s x y, In s l /\ skyToPixel w s = Pix x y /\ y1 = tweak_max y)
  end.

Lemma include_axis_attained lo hi p lo' hi' :
  include_axis lo hi p = (lo', hi') -> (lo' = lo \/ lo' = p) /\ (hi' = hi \/ hi' = tweak_max p).
Proof.
  unfold include_axis. destruct (Rlt_bool p lo); [intros [= <- <-]; auto|].
  destruct (Rle_bool hi p); intros [= <- <-]; auto.
Qed.

Lemma include_attained w l b s x y :
  attained w l b -> In s l -> skyToPixel w s = Pix x y -> attained w l (box2d_include b x y).
Proof.
  intros Ha Hin E. destruct b as [|x0 y0 x1 y1]; cbn.
  - repeat split; eauto 8.
  - destruct (include_axis x0 x1 x) as [x0' x1'] eqn:Ex.
    destruct (include_axis y0 y1 y) as [y0' y1'] eqn:Ey.
    apply include_axis_attained in Ex. apply include_axis_attained in Ey.
    destruct Ha as (A1 & A2 & A3 & A4).
    destruct Ex as [[->| ->] [->| ->]], Ey as [[->| ->] [->| ->]]; repeat split; eauto 8.
Qed.

Lemma fold_raise (w : wcs Sky) l e : fold_left (include_caught w) l (Raise e) = Raise e.
Proof. induction l; cbn; auto. Qed.

Lemma include_caught_spec (w : wcs Sky) L l b0 :
  (forall s, In s l -> skyToPixel w s <> PixRaise WOtherError) ->
  (forall s, In s l -> In s L) ->
  box2d_wf b0 -> attained w L b0 ->
  exists b, fold_left (include_caught w) l (Ok b0) = Ok b
    /\ box2d_wf b /\ attained w L b
    /\ (forall u v, in_box2d u v b0 -> in_box2d u v b)
    /\ (forall c x y, In c l -> skyToPixel w c = Pix x y -> in_box2d x y b).
Proof.
  revert b0. induction l as [|c l IH]; cbn [fold_left]; intros b0 Hno HL H0 Ha.
  - exists b0. repeat split; auto. intros ? ? ? [].
  - assert (K : forall b1, box2d_wf b1 -> attained w L b1 ->
              (forall u v, in_box2d u v b0 -> in_box2d u v b1) ->
              (forall x y, skyToPixel w c = Pix x y -> in_box2d x y b1) ->
              include_caught w (Ok b0) c = Ok b1 ->
       exists b, fold_left (include_caught w) l (include_caught w (Ok b0) c) = Ok b
         /\ box2d_wf b /\ attained w L b
         /\ (forall u v, in_box2d u v b0 -> in_box2d u v b)
         /\ (forall c' x y, In c' (c :: l) -> skyToPixel w c' = Pix x y -> in_box2d x y b)).
    { intros b1 Hw1 Ha1 Hm1 Hc1 ->.
      destruct (IH b1) as (b & E & Hw & Hat & Hm & Hc); auto.
      { intros; apply Hno; now right. } { intros; apply HL; now right. }
      exists b. repeat split; auto. intros c' x y [<-|Hin] Hp; eauto. }
    pose proof (Hno c (or_introl eq_refl)) as Hn.
    destruct (skyToPixel w c) as [[]| |x y] eqn:E.
    + apply (K b0); auto; try (intros; discriminate). cbn. rewrite E. reflexivity.
    + apply (K b0); auto; try (intros; discriminate). cbn. rewrite E. reflexivity.
    + congruence.
    + apply (K b0); auto; try (intros; discriminate). cbn. rewrite E. reflexivity.
    + destruct (box2d_include_spec b0 x y H0) as (Hw1 & Hin1 & Hm1).
      apply (K (box2d_include b0 x y)); auto.
      * eapply include_attained; eauto. apply HL; now left.
      * intros x' y' [= <- <-]. auto.
      * cbn. rewrite E. reflexivity.
Qed.

Lemma tweak_max_le x : (tweak_max x <= x + / IZR (2 ^ 51) * Rmax 1 (Rabs x))%R.
Proof.
  fold box2d_eps. pose proof box2d_eps_pos. unfold tweak_max.
  pose proof (Rmax_l 1 (Rabs x)). pose proof (Rmax_r 1 (Rabs x)).
  destruct (Rlt_bool_spec x 0).
  - rewrite (Rabs_left x) in * by lra. nra.
  - destruct (Rlt_bool_spec 0 x).
    + rewrite (Rabs_right x) in * by lra. nra.
    + nra.
Qed.

Lemma pixel_of_round (t : tract Sky) s x y :
  skyToPixel (t_wcs t) s = Pix x y -> pixel_of t s (round_pixel x) (round_pixel y).
Proof. intros E. exists x, y. split; [exact E|]. split; apply round_pixel_spec. Qed.

Lemma pixel_bbox_intro (t : tract Sky) coords m :
  box2d_wf m -> attained (t_wcs t) coords m ->
  (forall c x y, In c coords -> skyToPixel (t_wcs t) c = Pix x y -> in_box2d x y m) ->
  pixel_bbox t coords (box_of_box2d m).
Proof.
  intros Hw Ha Hc. split; [now apply box_of_box2d_wf|]. split.
  - intros s px py Hin (x & y & E & Hx & Hy).
    rewrite <- (round_pixel_unique x px Hx), <- (round_pixel_unique y py Hy).
    apply box_of_box2d_contains. eauto.
  - destruct m as [|x0 y0 x1 y1]; cbn [box_of_box2d minx miny dimx dimy box_empty]; [lia|]. intros _.
    destruct Ha as ((s1 & v1 & I1 & E1) & (s2 & v2 & I2 & E2) & (s3 & a3 & b3 & I3 & E3 & F3) & (s4 & a4 & b4 & I4 & E4 & F4)).
    split; [|split; [|split]].
    + exists s1, (round_pixel x0), (round_pixel v1). split; [exact I1|].
      split; [now apply pixel_of_round|reflexivity].
    + exists s2, (round_pixel v2), (round_pixel y0). split; [exact I2|].
      split; [now apply pixel_of_round|reflexivity].
    + exists s3, a3, b3. split; [exact I3|]. split; [exact E3|].
      replace (_ + _ - 1) with (Zceil (x1 - / 2)) by lia.
      pose proof (Zceil_lb (x1 - / 2)). pose proof (tweak_max_le a3). lra.
    + exists s4, a4, b4. split; [exact I4|]. split; [exact E4|].
      replace (_ + _ - 1) with (Zceil (y1 - / 2)) by lia.
      pose proof (Zceil_lb (y1 - / 2)). pose proof (tweak_max_le b4). lra.
Qed.

Definition lex (p q : pair2) : Prop := fst p < fst q \/ (fst p = fst q /\ snd p < snd q).

Lemma zrange_cons a b : a < b -> zrange a b = a :: zrange (a + 1) b.
Proof.
  intros H. unfold zrange. replace (Z.to_nat (b - a)) with (S (Z.to_nat (b - (a + 1)))) by lia.
  cbn [seq map]. rewrite Z.add_0_r. f_equal. rewrite <- seq_shift, map_map.
  apply map_ext. intros; lia.
Qed.

Lemma zrange_nil a b : b <= a -> zrange a b = [].
Proof. intros H. unfold zrange. replace (Z.to_nat (b - a)) with 0%nat by lia. reflexivity. Qed.

Lemma col_major_sorted a b c d :
  StronglySorted lex (flat_map (fun x => map (fun y => (x, y)) (zrange c d)) (zrange a b)).
Proof.
  remember (Z.to_nat (b - a)) as n eqn:Hn. revert a Hn.
  induction n as [|n IH]; intros a Hn.
  - rewrite (zrange_nil a b) by lia. constructor.
  - rewrite (zrange_cons a b) by lia. cbn [flat_map].
    specialize (IH (a + 1) ltac:(lia)).
    set (rest := flat_map _ (zrange (a + 1) b)) in *.
    assert (Hr : forall p, In p rest -> a < fst p).
    { intros p Hp. unfold rest in Hp. apply in_flat_map in Hp. destruct Hp as (x & Hx & Hp).
      apply in_map_iff in Hp. destruct Hp as (y & <- & Hy). apply in_zrange in Hx. cbn. lia. }
    clearbody rest.
    remember (Z.to_nat (d - c)) as m eqn:Hm. revert c Hm.
    induction m as [|m IHm]; intros c Hm.
    + rewrite (zrange_nil c d) by lia. exact IH.
    + rewrite (zrange_cons c d) by lia. cbn [map app]. constructor.
      * apply IHm. lia.
      * apply Forall_forall. intros p Hp. apply in_app_or in Hp. destruct Hp as [Hp|Hp].
        -- apply in_map_iff in Hp. destruct Hp as (y & <- & Hy). apply in_zrange in Hy.
           right. cbn. lia.
        -- left. cbn. now apply Hr.
Qed.

Lemma StronglySorted_map {A B} (f : A -> B) (R : B -> B -> Prop) l :
  StronglySorted (fun x y => R (f x) (f y)) l <-> StronglySorted R (map f l).
Proof.
  induction l as [|x l IH]; cbn; split; intros H; constructor; inversion H; subst.
  - now apply IH.
  - rewrite Forall_forall in *. intros y Hy. apply in_map_iff in Hy. destruct Hy as (z & <- & Hz). auto.
  - now apply IH.
  - rewrite Forall_forall in *. intros y Hy. apply H3. now apply in_map.
Qed.

Lemma in_col_major a b c d x y :
  In (x, y) (flat_map (fun x => map (fun y => (x, y)) (zrange c d)) (zrange a b))
  <-> a <= x < b /\ c <= y < d.
Proof.
  rewrite in_flat_map. split.
  - intros (x' & Hx & Hp). apply in_map_iff in Hp. destruct Hp as (y' & E & Hy).
    inversion E; subst. apply in_zrange in Hx. apply in_zrange in Hy. lia.
  - intros [Hx Hy]. exists x. split; [now apply in_zrange|]. apply in_map_iff.
    exists y. split; [reflexivity|now apply in_zrange].
Qed.

(** One axis of the overlap test. *)
Lemma axis_overlap lo n w i border N :
  0 < w -> 0 <= border -> 0 < n -> 0 <= i < N ->
  (Z.max (lo - border) 0 / w <= i < Z.min (lo + n - 1 + border) (N * w - 1) / w + 1) /\
   Z.max (lo - border) 0 <= Z.min (lo + n - 1 + border) (N * w - 1)
  <-> exists p q, lo <= p < lo + n /\ i * w <= q < i * w + w /\ Z.abs (p - q) <= border.
Proof.
  intros Hw Hb Hn Hi.
  set (l := Z.max (lo - border) 0). set (u := Z.min (lo + n - 1 + border) (N * w - 1)).
  pose proof (Z.div_mod l w ltac:(lia)). pose proof (Z.mod_pos_bound l w Hw).
  pose proof (Z.div_mod u w ltac:(lia)). pose proof (Z.mod_pos_bound u w Hw).
  assert (HN : i * w + w <= N * w) by nia. assert (Hi0 : 0 <= i * w) by nia.
  split.
  - intros [[Ha1 Ha2] Ha3].
    assert (l < i * w + w) by nia. assert (i * w <= u) by nia.
    (* a pixel of the inner box inside [l, u] *)
    set (q := Z.max l (i * w)).
    assert (l <= q <= u /\ i * w <= q < i * w + w) by lia.
    exists (Z.max lo (Z.min q (lo + n - 1))), q. lia.
  - intros (p & q & Hp & Hq & Ha).
    assert (l <= q <= u) by lia. split; [|lia]. split; [|].
    + assert (l / w <= q / w) by (apply Z.div_le_mono; lia).
      assert (q / w = i) by (symmetry; apply Z.div_unique with (q - i * w); lia). lia.
    + assert (q / w <= u / w) by (apply Z.div_le_mono; lia).
      assert (q / w = i) by (symmetry; apply Z.div_unique with (q - i * w); lia). lia.
Qed.
End L.

(** tractInfo.py:258-268: what findPatchList does with the box of the positions. *)
Definition box_patches {Sky} (b : builder) (t : tract Sky) (B : box) : res (list (patch (wcs Sky))) :=
  let bbox := box_clip (box_grow B (b_patchBorder b)) (t_bbox t) in
  if box_isEmpty bbox then Ok []
  else
    llx <- py_int_truediv (minx bbox) (fst (b_patchInner b)) ;;
    lly <- py_int_truediv (miny bbox) (snd (b_patchInner b)) ;;
    urx <- py_int_truediv (maxx bbox) (fst (b_patchInner b)) ;;
    ury <- py_int_truediv (maxy bbox) (snd (b_patchInner b)) ;;
    mapM (fun i => tract_getPatchInfo b t (IxSeq [fst i; snd i]))
         (flat_map (fun xInd => map (fun yInd => (xInd, yInd)) (zrange lly (ury + 1)))
                   (zrange llx (urx + 1))).

Lemma box_patches_lemma (Sky : Type) (offset : Sky -> R -> R -> Sky) c b t B :
  cfg_ok c -> in_use offset c b t -> dimx (t_bbox t) < 2 ^ 31 -> dimy (t_bbox t) < 2 ^ 31 -> box_wf B ->
  exists ps, box_patches b t B = Ok ps
    /\ (forall i j p, tract_getPatchInfo b t (IxIndex2D i j) = Ok p ->
          (In p ps <-> exists px py qx qy, in_box px py B /\ in_box qx qy (p_inner p)
                         /\ Z.abs (px - qx) <= cfg_border c /\ Z.abs (py - qy) <= cfg_border c))
    /\ (forall p, In p ps -> exists i j, tract_getPatchInfo b t (IxIndex2D i j) = Ok p)
    /\ StronglySorted (fun p q => fst (p_index p) < fst (p_index q) \/
                        (fst (p_index p) = fst (p_index q) /\ snd (p_index p) < snd (p_index q))) ps.
Proof.
  intros Hc Hu Hdx Hdy HBw.
  destruct (in_use_spec offset c b t Hc Hu)
    as (nx & ny & Hinv & Hinit & Hnb & Hnt & Hnx & Hny & Hz & HB).
  destruct (cfg_inner_pos c Hc) as [Hw Hh]. pose proof (cfg_border_nonneg c Hc) as Hbd.
  unfold box_patches. rewrite (bi_border c b Hinv).
  rewrite HB in *. cbn [dimx dimy] in Hdx, Hdy.
  set (w := fst (cfg_inner c)) in *. set (h := snd (cfg_inner c)) in *. set (bd := cfg_border c) in *.
  assert (A : forall i j p, tract_getPatchInfo b t (IxIndex2D i j) = Ok p ->
        0 <= i < nx /\ 0 <= j < ny /\ p = the_patch c nx ny (t_wcs t) i j).
  { intros i j p H. now apply (getPatchInfo_pair_inv c b nx ny (t_wcs t) i j p Hc Hinv Hinit Hnb). }
  assert (Empty : box_isEmpty (box_clip (box_grow B bd) (Box 0 0 (nx * w) (ny * h))) = true ->
    (forall i j, 0 <= i < nx -> 0 <= j < ny ->
      ~ exists px py qx qy, in_box px py B /\ in_box qx qy (Box (i * w) (j * h) w h)
           /\ Z.abs (px - qx) <= bd /\ Z.abs (py - qy) <= bd)).
  { intros He i j Hi Hj (px & py & qx & qy & Hp & Hq & Hax & Hay).
    assert (HWx : 0 <= i * w /\ i * w + w <= nx * w) by nia.
    assert (HWy : 0 <= j * h /\ j * h + h <= ny * h) by nia.
    destruct B as [bx by_ bw bh]. unfold in_box in Hp, Hq. cbn [minx miny dimx dimy] in Hp, Hq.
    rewrite box_grow_pos in He by lia.
    revert He. unfold box_clip, box_isEmpty, maxx, maxy. cbn [dimx dimy minx miny].
    destruct (Z.eqb_spec (bw + 2 * bd) 0); [lia|]. destruct (Z.eqb_spec (nx * w) 0); [lia|].
    cbn [andb].
    match goal with |- context [?a <? ?b] => destruct (Z.ltb_spec a b); [lia|] end.
    match goal with |- context [?a <? ?b] => destruct (Z.ltb_spec a b); [lia|] end.
    cbn [orb dimx dimy].
    match goal with |- context [?a =? ?b] => destruct (Z.eqb_spec a b); [lia|] end.
    cbn [andb].
    discriminate. }
  destruct (box_isEmpty (box_clip (box_grow B bd) (Box 0 0 (nx * w) (ny * h)))) eqn:He.
  - exists []. split; [reflexivity|]. split; [|split].
    + intros i j p H. destruct (A i j p H) as (Hi & Hj & ->).
      split; [intros []|]. intros Hex. exfalso. apply (Empty eq_refl i j Hi Hj). exact Hex.
    + intros p [].
    + constructor.
  - (* the clipped box is not empty *)
    assert (HBp : 0 < dimx B /\ 0 < dimy B).
    { destruct HBw as [E|?]; [|assumption]. rewrite E in He. discriminate. }
    assert (Hnp : 0 < nx /\ 0 < ny).
    { destruct (Z.eq_dec nx 0) as [E|]; [|lia]. assert (ny = 0) by lia. subst nx ny.
      exfalso. revert He. unfold box_clip. destruct (box_isEmpty (box_grow B bd)) eqn:E0.
      - congruence.
      - cbn. discriminate. }
    assert (Hsz : w <= nx * w /\ h <= ny * h) by nia.
    destruct B as [bx by_ bw bh] eqn:EB. cbn [dimx dimy] in HBp.
    rewrite box_grow_pos in * by lia.
    set (lx := Z.max (bx - bd) 0). set (ux := Z.min (bx + bw - 1 + bd) (nx * w - 1)).
    set (ly := Z.max (by_ - bd) 0). set (uy := Z.min (by_ + bh - 1 + bd) (ny * h - 1)).
    assert (Eclip : lx <= ux /\ ly <= uy /\
        box_clip (Box (bx - bd) (by_ - bd) (bw + 2 * bd) (bh + 2 * bd)) (Box 0 0 (nx * w) (ny * h))
        = Box lx ly (ux - lx + 1) (uy - ly + 1)).
    { revert He. unfold box_clip, box_isEmpty, maxx, maxy. cbn [dimx dimy minx miny].
      destruct (Z.eqb_spec (bw + 2 * bd) 0); [lia|]. destruct (Z.eqb_spec (nx * w) 0); [lia|].
      cbn [andb].
      replace (bx - bd + (bw + 2 * bd) - 1) with (bx + bw - 1 + bd) by lia.
      replace (by_ - bd + (bh + 2 * bd) - 1) with (by_ + bh - 1 + bd) by lia.
      rewrite !Z.add_0_l.
      fold lx ux ly uy.
      destruct (Z.ltb_spec ux lx); [discriminate|]. destruct (Z.ltb_spec uy ly); [discriminate|].
      cbn [orb]. intros _. split; [lia|]. split; [lia|]. reflexivity. }
    destruct Eclip as (Hlx & Hly & Eclip). rewrite Eclip in *. clear Eclip He Empty.
    unfold maxx, maxy. cbn [minx miny dimx dimy]. rewrite (bi_inner c b Hinv).
    replace (lx + (ux - lx + 1) - 1) with ux by lia. replace (ly + (uy - ly + 1) - 1) with uy by lia.
    fold w h.
    rewrite !py_int_truediv_floor by lia. cbn [bind].
    set (ixs := flat_map _ _).
    assert (Hixs : forall i j, In (i, j) ixs <-> lx / w <= i < ux / w + 1 /\ ly / h <= j < uy / h + 1)
      by (intros; apply in_col_major).
    assert (Hrng : forall i j, In (i, j) ixs -> 0 <= i < nx /\ 0 <= j < ny).
    { intros i j Hin. apply Hixs in Hin.
      assert (0 <= lx / w) by (apply Z.div_pos; lia). assert (0 <= ly / h) by (apply Z.div_pos; lia).
      assert (ux / w < nx) by (apply Z.div_lt_upper_bound; lia).
      assert (uy / h < ny) by (apply Z.div_lt_upper_bound; lia). lia. }
    exists (map (fun i : pair2 => the_patch c nx ny (t_wcs t) (fst i) (snd i)) ixs).
    split. { apply mapM_Ok. intros [i j] Hin. apply Hrng in Hin. unfold tract_getPatchInfo.
             rewrite getPatchInfo_seq. cbn [fst snd]. apply getPatchInfo_pair; tauto. }
    split; [|split].
    + intros i j p H. destruct (A i j p H) as (Hi & Hj & ->).
      pose proof (axis_overlap bx bw w i bd nx Hw Hbd ltac:(lia) Hi) as Ax. fold lx ux in Ax.
      pose proof (axis_overlap by_ bh h j bd ny Hh Hbd ltac:(lia) Hj) as Ay. fold ly uy in Ay.
      assert (Hmem : In (the_patch c nx ny (t_wcs t) i j)
                   (map (fun i : pair2 => the_patch c nx ny (t_wcs t) (fst i) (snd i)) ixs)
                <-> In (i, j) ixs).
      { split.
        - intros Hin. apply in_map_iff in Hin. destruct Hin as ([i' j'] & E & Hin).
          assert ((i', j') = (i, j)) as <-; [|exact Hin].
          change (p_index (the_patch c nx ny (t_wcs t) i' j') = p_index (the_patch c nx ny (t_wcs t) i j)).
          now f_equal.
        - intros Hin. apply in_map_iff. exists (i, j). auto. }
      rewrite Hmem, Hixs. cbn [p_inner the_patch]. fold w h. unfold in_box. cbn [minx miny dimx dimy].
      split.
      * intros [H1 H2]. destruct (proj1 Ax (conj H1 Hlx)) as (px & qx & ? & ? & ?).
        destruct (proj1 Ay (conj H2 Hly)) as (py & qy & ? & ? & ?).
        exists px, py, qx, qy. lia.
      * intros (px & py & qx & qy & [? ?] & [? ?] & ? & ?).
        split; [apply Ax; exists px, qx; auto|apply Ay; exists py, qy; auto].
    + intros p Hin. apply in_map_iff in Hin. destruct Hin as ([i j] & <- & Hin). apply Hrng in Hin.
      exists i, j. apply getPatchInfo_pair; tauto.
    + apply (StronglySorted_map p_index lex). rewrite map_map. cbn [p_index the_patch].
      rewrite (map_ext _ (fun i => i)) by (intros []; reflexivity). rewrite map_id.
      apply col_major_sorted.
Qed.

Lemma findPatchList_lemma (Sky : Type) (offset : Sky -> R -> R -> Sky) c b t coords :
  cfg_ok c -> in_use offset c b t -> dimx (t_bbox t) < 2 ^ 31 -> dimy (t_bbox t) < 2 ^ 31 ->
  (forall s, In s coords -> skyToPixel (t_wcs t) s <> PixRaise WOtherError) ->
  exists ps B, findPatchList b t coords = Ok ps
    /\ pixel_bbox t coords B
    /\ (forall i j p, tract_getPatchInfo b t (IxIndex2D i j) = Ok p ->
          (In p ps <-> exists px py qx qy, in_box px py B /\ in_box qx qy (p_inner p)
                         /\ Z.abs (px - qx) <= cfg_border c /\ Z.abs (py - qy) <= cfg_border c))
    /\ (forall p, In p ps -> exists i j, tract_getPatchInfo b t (IxIndex2D i j) = Ok p)
    /\ StronglySorted (fun p q => fst (p_index p) < fst (p_index q) \/
                        (fst (p_index p) = fst (p_index q) /\ snd (p_index p) < snd (p_index q))) ps.
Proof.
  intros Hc Hu Hdx Hdy Hno.
  destruct (include_caught_spec (t_wcs t) coords coords Box2DEmpty Hno (fun _ h => h) I I)
    as (m & Em & Hwf & Hat & _ & Hcov).
  assert (HP : pixel_bbox t coords (box_of_box2d m)) by now apply pixel_bbox_intro.
  destruct (box_patches_lemma Sky offset c b t (box_of_box2d m) Hc Hu Hdx Hdy (proj1 HP)) as (ps & E & H).
  exists ps, (box_of_box2d m). split; [|split; [exact HP|exact H]].
  unfold findPatchList. rewrite Em. exact E.
Qed.

Lemma findPatchList_complete_lemma (Sky : Type) (offset : Sky -> R -> R -> Sky) c b t coords coord p :
  cfg_ok c -> in_use offset c b t -> dimx (t_bbox t) < 2 ^ 31 -> dimy (t_bbox t) < 2 ^ 31 ->
  (forall s, In s coords -> skyToPixel (t_wcs t) s <> PixRaise WOtherError) ->
  In coord coords -> findPatch b t coord = Ok p ->
  exists ps, findPatchList b t coords = Ok ps /\ In p ps.
Proof.
  intros Hc Hu Hdx Hdy Hno Hin Hf.
  destruct (findPatchList_lemma Sky offset c b t coords Hc Hu Hdx Hdy Hno)
    as (ps & B & E & (_ & HB & _) & Hm & _).
  exists ps. split; [exact E|].
  pose proof (findPatch_lemma Sky offset c b t coord Hc Hu Hdx Hdy) as F.
  destruct (tract_contains t coord) as [[]|e]; [|congruence|congruence].
  destruct F as (p' & i & j & px & py & E1 & E2 & Hpix & _ & Hpin).
  rewrite Hf in E1. inversion E1; subst p'.
  apply (Hm i j p E2). exists px, py, px, py.
  pose proof (cfg_border_nonneg c Hc).
  split; [eauto|]. split; [exact Hpin|]. rewrite !Z.sub_diag. cbn. lia.
Qed.

Lemma findPatchList_wcs_error_lemma (Sky : Type) (b : builder) (t : tract Sky) coords s :
  In s coords -> skyToPixel (t_wcs t) s = PixRaise WOtherError ->
  findPatchList b t coords = Raise WcsError.
Proof.
  intros Hin E. unfold findPatchList.
  assert (F : forall l acc, In s l -> (exists b0, acc = Ok b0) \/ acc = Raise WcsError ->
     fold_left (include_caught (t_wcs t)) l acc = Raise WcsError).
  { induction l as [|a l IH]; [intros ? []|]. intros acc Hi Hacc. cbn [fold_left].
    destruct Hacc as [(b0 & ->)| ->]; [|cbn; apply fold_raise].
    destruct Hi as [->|Hi].
    - cbn. rewrite E. cbn. apply fold_raise.
    - apply IH; [exact Hi|]. cbn. destruct (skyToPixel (t_wcs t) a) as [[]| |]; eauto. }
  rewrite F; eauto.
Qed.

(** ** Construction *)
Lemma tract_samples_lemma
  (Sky : Type) (offset : Sky -> R -> R -> Sky) c b oid id ctr verts overlap w corners b' t :
  cfg_ok c -> builder_reachable c b ->
  TractInfo_init offset b oid id ctr verts overlap w corners = Ok (b', t) ->
  (forall v i x y, In v verts -> overlap <> 0%R -> 0 <= i < 24 ->
     skyToPixel w (offset v ((2 * PI) / 24 * IZR i)%R (overlap / 2)%R) = Pix x y ->
     tract_contains t (offset v ((2 * PI) / 24 * IZR i)%R (overlap / 2)%R) = Ok true)
  /\ (forall v x y, In v verts -> overlap = 0%R -> skyToPixel w v = Pix x y ->
     tract_contains t v = Ok true)
  /\ (exists dx dy : Z, forall s, skyToPixel (t_wcs t) s =
        match skyToPixel w s with Pix x y => Pix (x + IZR dx) (y + IZR dy) | r => r end)
  /\ t_id t = id /\ t_ctr t = ctr /\ t_verts t = verts /\ t_overlap t = overlap.
Proof.
  intros Hc Hr H. unfold TractInfo_init in H. eapply tract_build_spec in H; eauto.
  destruct H as (_ & _ & _ & _ & _ & _ & H1 & H2 & H3 & H4 & _ & (dx & dy & H5) & Hs).
  split; [|split; [|split; [|tauto]]].
  - intros v i x y Hv Ho Hi E. eapply Hs; [|exact E].
    unfold min_bbox_samples. apply in_flat_map. exists v. split; [exact Hv|].
    unfold overlap_samples. destruct (Req_bool_spec overlap 0); [contradiction|].
    apply in_map_iff. exists i. split; [reflexivity|]. now apply in_zrange.
  - intros v x y Hv Ho E. eapply Hs; [|exact E].
    unfold min_bbox_samples. apply in_flat_map. exists v. split; [exact Hv|].
    unfold overlap_samples. destruct (Req_bool_spec overlap 0); [now left|contradiction].
  - exists dx, dy. rewrite H5. reflexivity.
Qed.

Lemma explicit_init_inv
  (Sky : Type) (offset : Sky -> R -> R -> Sky) b oid id ctr radius overlap w corners b' t :
  ExplicitTractInfo_init offset b oid id ctr radius overlap w corners = Ok (b', t) ->
  exists t0, tract_build b oid id ctr [] overlap w corners (explicit_samples offset ctr radius overlap) = Ok (b', t0)
    /\ t_wcs t = t_wcs t0 /\ t_bbox t = t_bbox t0 /\ t_numPatches t = t_numPatches t0
    /\ t_oid t = t_oid t0 /\ t_id t = t_id t0 /\ t_ctr t = t_ctr t0
    /\ t_verts t = map (pixelToSky (t_wcs t)) (box2d_corners (box2d_grow (box2d_of_box (t_bbox t)) (- (1 / 1000)))).
Proof.
  unfold ExplicitTractInfo_init. destruct (tract_build _ _ _ _ _ _ _ _ _) as [[b1 t1]|e] eqn:E; [|discriminate].
  cbn [bind]. intros [= <- <-]. exists t1. split; [reflexivity|]. cbn. repeat split.
Qed.

Lemma explicit_samples_lemma
  (Sky : Type) (offset : Sky -> R -> R -> Sky) c b oid id ctr radius overlap w corners b' t i x y :
  cfg_ok c -> builder_reachable c b ->
  ExplicitTractInfo_init offset b oid id ctr radius overlap w corners = Ok (b', t) ->
  0 <= i < 4 ->
  skyToPixel w (offset ctr (IZR i * (PI / 2))%R (radius + overlap)%R) = Pix x y ->
  tract_contains t (offset ctr (IZR i * (PI / 2))%R (radius + overlap)%R) = Ok true.
Proof.
  intros Hc Hr H Hi E. destruct (explicit_init_inv _ _ _ _ _ _ _ _ _ _ _ _ H) as (t0 & H0 & Ew & Eb & _).
  eapply tract_build_spec in H0; eauto. destruct H0 as (_ & _ & _ & _ & _ & _ & _ & _ & _ & _ & _ & _ & Hs).
  unfold tract_contains. rewrite Ew, Eb. eapply Hs; [|exact E].
  unfold explicit_samples. apply in_map_iff. exists i. split; [reflexivity|now apply in_zrange].
Qed.

Lemma explicit_in_use
  (Sky : Type) (offset : Sky -> R -> R -> Sky) c b oid id ctr radius overlap w corners b' t :
  cfg_ok c -> builder_reachable c b ->
  ExplicitTractInfo_init offset b oid id ctr radius overlap w corners = Ok (b', t) ->
  in_use offset c b' t.
Proof.
  intros Hc Hr H. destruct (explicit_init_inv _ _ _ _ _ _ _ _ _ _ _ _ H) as (t0 & H0 & Ew & Eb & En & _).
  eapply tract_build_spec in H0; eauto. destruct H0 as (Hr' & Hinit & Hn & _).
  constructor; auto; [|congruence]. eapply tm_explicit with (b := b); eauto.
Qed.

Lemma plain_in_use
  (Sky : Type) (offset : Sky -> R -> R -> Sky) c b oid id ctr verts overlap w corners b' t :
  cfg_ok c -> builder_reachable c b ->
  TractInfo_init offset b oid id ctr verts overlap w corners = Ok (b', t) ->
  in_use offset c b' t.
Proof.
  intros Hc Hr H. pose proof H as H0. unfold TractInfo_init in H0.
  eapply tract_build_spec in H0; eauto. destruct H0 as (Hr' & Hinit & Hn & _).
  constructor; auto. eapply tm_plain with (b := b); eauto.
Qed.

Lemma explicit_vertices_lemma
  (Sky : Type) (offset : Sky -> R -> R -> Sky) c b oid id ctr radius overlap w corners b' t nx ny :
  cfg_ok c -> builder_reachable c b ->
  ExplicitTractInfo_init offset b oid id ctr radius overlap w corners = Ok (b', t) ->
  (forall x y, skyToPixel w (pixelToSky w (x, y)) = Pix x y) ->
  t_numPatches t = (nx, ny) -> 0 < nx ->
  dimx (t_bbox t) < 2 ^ 31 -> dimy (t_bbox t) < 2 ^ 31 ->
  exists v0 v1 v2 v3, t_verts t = [v0; v1; v2; v3]
    /\ tract_contains t v0 = Ok true /\ tract_contains t v1 = Ok true
    /\ tract_contains t v2 = Ok true /\ tract_contains t v3 = Ok true
    /\ findPatch b' t v0 = tract_getPatchInfo b' t (IxIndex2D 0 0)
    /\ findPatch b' t v1 = tract_getPatchInfo b' t (IxIndex2D (nx - 1) 0)
    /\ findPatch b' t v2 = tract_getPatchInfo b' t (IxIndex2D (nx - 1) (ny - 1))
    /\ findPatch b' t v3 = tract_getPatchInfo b' t (IxIndex2D 0 (ny - 1)).
Proof.
  intros Hc Hr H Hrt Hn Hpos Hdx Hdy.
  pose proof (explicit_in_use _ _ _ _ _ _ _ _ _ _ _ _ _ Hc Hr H) as Hu.
  destruct (explicit_init_inv _ _ _ _ _ _ _ _ _ _ _ _ H) as (t0 & H0 & Ew & Eb & En & _ & _ & _ & Ev).
  eapply tract_build_spec in H0; eauto.
  destruct H0 as (_ & _ & _ & _ & _ & _ & _ & _ & _ & _ & _ & (dx & dy & Hsh) & _).
  destruct (in_use_spec offset c b' t Hc Hu)
    as (nx' & ny' & Hinv & Hinit & Hnb & Hnt & Hnx & Hny & Hz & HB).
  rewrite Hn in Hnt. inversion Hnt; subst nx' ny'.
  destruct (cfg_inner_pos c Hc) as [Hw Hh].
  assert (Hpy : 0 < ny) by lia.
  assert (Hrt' : forall x y, skyToPixel (t_wcs t) (pixelToSky (t_wcs t) (x, y)) = Pix x y).
  { intros x y. rewrite Ew, Hsh. cbn [skyToPixel pixelToSky copyAtShiftedPixelOrigin fst snd].
    rewrite Hrt. f_equal; lra. }
  set (W := nx * fst (cfg_inner c)) in *. set (Hh' := ny * snd (cfg_inner c)) in *.
  assert (HW : 0 < W) by (unfold W; nia). assert (HH : 0 < Hh') by (unfold Hh'; nia).
  assert (HWr : (1 <= IZR W)%R) by (apply IZR_le; lia).
  assert (HHr : (1 <= IZR Hh')%R) by (apply IZR_le; lia).
  rewrite HB in Ev. revert Ev. unfold box2d_of_box, box_isEmpty. cbn [dimx dimy minx miny].
  destruct (Z.eqb_spec W 0); [lia|]. cbn [andb]. unfold maxx, maxy. cbn [dimx dimy minx miny].
  rewrite !Z.add_0_l. unfold box2d_grow. rewrite !minus_IZR.
  match goal with |- context [Rle_bool ?a ?b] => destruct (Rle_bool_spec a b); [lra|] end.
  match goal with |- context [Rle_bool ?a ?b] => destruct (Rle_bool_spec a b); [lra|] end.
  cbn [orb box2d_corners map]. intros Ev.
  assert (K : forall x y px py, (IZR px - / 2 <= x < IZR px + / 2)%R -> (IZR py - / 2 <= y < IZR py + / 2)%R ->
      0 <= px < W -> 0 <= py < Hh' ->
      tract_contains t (pixelToSky (t_wcs t) (x, y)) = Ok true
      /\ findPatch b' t (pixelToSky (t_wcs t) (x, y))
         = tract_getPatchInfo b' t (IxIndex2D (px / fst (cfg_inner c)) (py / snd (cfg_inner c)))).
  { intros x y px py Hx Hy Hpx Hpy'.
    assert (Hin : in_box (round_pixel x) (round_pixel y) (t_bbox t)).
    { rewrite (round_pixel_unique x px Hx), (round_pixel_unique y py Hy), HB.
      unfold in_box. cbn. lia. }
    destruct (findPatch_pixel offset c b' t nx ny _ x y Hc Hu Hdx Hdy Hn (Hrt' x y) Hin)
      as (_ & _ & F & G & _).
    rewrite (round_pixel_unique x px Hx), (round_pixel_unique y py Hy) in *.
    split; [|congruence].
    apply contains_lemma. exists px, py. split; [|exact Hin].
    exists x, y. split; [apply Hrt'|auto]. }
  assert (D1 : (W - 1) / fst (cfg_inner c) = nx - 1).
  { symmetry. apply Z.div_unique with (fst (cfg_inner c) - 1); unfold W; nia. }
  assert (D2 : (Hh' - 1) / snd (cfg_inner c) = ny - 1).
  { symmetry. apply Z.div_unique with (snd (cfg_inner c) - 1); unfold Hh'; nia. }
  do 4 eexists. split; [exact Ev|]. cbn [IZR] in *.
  edestruct (K (0 - / 2 - - (1 / 1000))%R (0 - / 2 - - (1 / 1000))%R 0 0) as [A0 B0]; [cbn; lra|cbn; lra|lia|lia|].
  edestruct (K (IZR W - 1 + / 2 + - (1 / 1000))%R (0 - / 2 - - (1 / 1000))%R (W - 1) 0) as [A1 B1];
    [rewrite minus_IZR; cbn; lra|cbn; lra|lia|lia|].
  edestruct (K (IZR W - 1 + / 2 + - (1 / 1000))%R (IZR Hh' - 1 + / 2 + - (1 / 1000))%R (W - 1) (Hh' - 1)) as [A2 B2];
    [rewrite minus_IZR; cbn; lra|rewrite minus_IZR; cbn; lra|lia|lia|].
  edestruct (K (0 - / 2 - - (1 / 1000))%R (IZR Hh' - 1 + / 2 + - (1 / 1000))%R 0 (Hh' - 1)) as [A3 B3];
    [cbn; lra|rewrite minus_IZR; cbn; lra|lia|lia|].
  rewrite D1 in *. rewrite D2 in *. rewrite !Z.div_0_l in * by lia. auto 10.
Qed.

Lemma sky_polygons_lemma
  (Sky : Type) (offset : Sky -> R -> R -> Sky) c b t nx ny :
  cfg_ok c -> in_use offset c b t -> t_numPatches t = (nx, ny) ->
  let poly i j := match tract_getPatchInfo b t (IxIndex2D i j) with
                  | Ok p => patch_getInnerSkyPolygon p None | Raise _ => [] end in
  (forall i j, 0 <= i < nx - 1 -> 0 <= j < ny ->
     exists a1 a2 b1 b2 c1 c2, poly i j = [a1; b1; b2; a2] /\ poly (i + 1) j = [b1; c1; c2; b2])
  /\ (forall i j, 0 <= i < nx -> 0 <= j < ny - 1 ->
     exists a1 a2 b1 b2 c1 c2, poly i j = [a1; a2; b2; b1] /\ poly i (j + 1) = [b1; b2; c2; c1])
  /\ (0 < nx -> exists v0 v1 v2 v3, tract_getOuterSkyPolygon t = [v0; v1; v2; v3]
     /\ nth_error (poly 0 0) 0 = Some v0 /\ nth_error (poly (nx - 1) 0) 1 = Some v1
     /\ nth_error (poly (nx - 1) (ny - 1)) 2 = Some v2 /\ nth_error (poly 0 (ny - 1)) 3 = Some v3).
Proof.
  intros Hc Hu Hn poly.
  destruct (in_use_spec offset c b t Hc Hu)
    as (nx' & ny' & Hinv & Hinit & Hnb & Hnt & Hnx & Hny & Hz & HB).
  rewrite Hn in Hnt. inversion Hnt; subst nx' ny'.
  destruct (cfg_inner_pos c Hc) as [Hw Hh].
  set (w := fst (cfg_inner c)) in *. set (h := snd (cfg_inner c)) in *.
  set (P := fun x y : Z => pixelToSky (t_wcs t) ((IZR x - / 2)%R, (IZR y - / 2)%R)).
  assert (Hpoly : forall i j, 0 <= i < nx -> 0 <= j < ny ->
    poly i j = [P (i * w) (j * h); P ((i + 1) * w) (j * h);
                P ((i + 1) * w) ((j + 1) * h); P (i * w) ((j + 1) * h)]).
  { intros i j Hi Hj. unfold poly, tract_getPatchInfo.
    rewrite (getPatchInfo_pair c b nx ny) by assumption.
    unfold patch_getInnerSkyPolygon, makeSkyPolygonFromBBox. cbn [p_inner p_wcs the_patch]. fold w h.
    unfold box2d_of_box, box_isEmpty. cbn [dimx dimy]. destruct (Z.eqb_spec w 0); [lia|]. cbn [andb].
    unfold maxx, maxy. cbn [minx miny dimx dimy box2d_corners map]. unfold P.
    assert (Ex : (IZR (i * w + w - 1) + / 2 = IZR ((i + 1) * w) - / 2)%R)
      by (rewrite minus_IZR, plus_IZR, !mult_IZR, plus_IZR; lra).
    assert (Ey : (IZR (j * h + h - 1) + / 2 = IZR ((j + 1) * h) - / 2)%R)
      by (rewrite minus_IZR, plus_IZR, !mult_IZR, plus_IZR; lra).
    rewrite Ex, Ey. reflexivity. }
  split; [|split].
  - intros i j Hi Hj. rewrite !Hpoly by lia. do 6 eexists. split; reflexivity.
  - intros i j Hi Hj. rewrite !Hpoly by lia. do 6 eexists. split; reflexivity.
  - intros Hp. rewrite !Hpoly by lia.
    unfold tract_getOuterSkyPolygon, makeSkyPolygonFromBBox. rewrite HB.
    unfold box2d_of_box, box_isEmpty. cbn [dimx dimy]. destruct (Z.eqb_spec (nx * w) 0); [nia|]. cbn [andb].
    unfold maxx, maxy. cbn [minx miny dimx dimy box2d_corners map].
    assert (Ex : (IZR (0 + nx * w - 1) + / 2 = IZR (nx * w) - / 2)%R)
      by (rewrite Z.add_0_l, minus_IZR; lra).
    assert (Ey : (IZR (0 + ny * h - 1) + / 2 = IZR (ny * h) - / 2)%R)
      by (rewrite Z.add_0_l, minus_IZR; lra).
    rewrite Ex, Ey. do 4 eexists. split; [reflexivity|].
    cbn [nth_error]. unfold P. rewrite !Z.sub_add. rewrite !Z.mul_0_l. auto.
Qed.
