(** The tracts of an EquatSkyMap in binary64 (C99). *)
From Coq Require Import Reals Lra Lia.
From Flocq Require Import Core BinarySingleNaN.
Require Import Verif.Py Verif.Geom Verif.PatchInfo Verif.TractBuilder Verif.TractInfo Verif.SkyMap.
Require Import Verif.Float64 Verif.Float64Proofs Verif.Rings Verif.RingsProofs Verif.RingsSpec Verif.Sphere Verif.Maps Verif.RingsFloat Verif.RingsFloatSpec Verif.FloatOps.
Require Import Verif.RingsFloatProofs Verif.RingsFloatProofs2 Verif.MainRingsFloat Verif.EquatFloat Verif.EquatFloatProofs.
Import ListNotations.
Open Scope Z_scope.
Local Arguments Z.mul : simpl never.

(** The doubles [c] are what a SpherePoint stores for the position [p], up to 2^-48 radians in declination and 2^-46 in right ascension. *)
Definition stored_near (p : sphere) (c : f64 * f64) : Prop := f_coord c /\ near_or_at dec_tol ra_tol p (fval c).

Lemma point_in lon lat r l : finite lat = true -> (Rabs (f2R lat) <= Pf / 2)%R -> (Rabs (f2R lat - l) <= 32 * u64)%R ->
  finite lon = true -> (0 <= f2R lon)%R -> (0 <= r <= 2 * PI)%R -> (Rabs (f2R lon - r) <= 92 * u64)%R ->
  f_makeSpherePoint lon lat = Ok (f_spherePoint lon lat) /\ stored_near (wrap r, l) (f_spherePoint lon lat).
Proof.
  intros FL BL EL FR R0 RB ER. destruct tol_eq as [TD TR]. destruct f_halfpi_ok as [FH EH]. destruct f_pi_ok as [_ EP]. destruct f_twopi_ok as [_ ET].
  destruct (wrap_near lon r FR R0 RB ER) as (F & W & k & K). split.
  - unfold f_makeSpherePoint. rewrite fltb_ok by (try exact FH; rewrite is_finite_Babs; exact FL).
    rewrite EH, B2R_Babs, Rlt_bool_false by exact BL. reflexivity.
  - unfold stored_near, f_coord, f_spherePoint, fval. cbn [fst snd]. rewrite ET, EP. split; [auto|]. split; cbn [fst snd].
    + rewrite TD. exact EL.
    + exists k. rewrite TR. exact K.
Qed.
Lemma point_out lon d : finite d = true -> (90 < Rabs (f2R d))%R -> f_makeSpherePoint lon (f_rad true d) = Raise InvalidParameterError.
Proof. intros F B. unfold f_makeSpherePoint. rewrite (dec_out d F B). reflexivity. Qed.
Lemma exact_in lon d : (Rabs d <= 90)%R -> makeSpherePoint lon (deg d) = Ok (wrap lon, deg d).
Proof.
  intros B. unfold makeSpherePoint. rewrite Rle_bool_true; [reflexivity|]. unfold deg. pose proof PI_RGT_0.
  rewrite Rabs_mult, (Rabs_pos_eq (PI / 180)) by lra. apply Rle_trans with (90 * (PI / 180))%R; [apply Rmult_le_compat_r|]; lra.
Qed.
Lemma exact_out lon d : (90 < Rabs d)%R -> makeSpherePoint lon (deg d) = Raise InvalidParameterError.
Proof.
  intros B. unfold makeSpherePoint. rewrite Rle_bool_false; [reflexivity|]. unfold deg. pose proof PI_RGT_0.
  rewrite Rabs_mult, (Rabs_pos_eq (PI / 180)) by lra. apply Rle_lt_trans with (90 * (PI / 180))%R; [|apply Rmult_lt_compat_r]; lra.
Qed.
Lemma mid_dec d0 d1 : finite d0 = true -> finite d1 = true -> (Rabs (f2R d0) <= 90)%R -> (Rabs (f2R d1) <= 90)%R ->
  let m := fdiv (fadd (f_rad true d0) (f_rad true d1)) (float_of_int 2) in
  finite m = true /\ (Rabs (f2R m) <= Pf / 2)%R /\ (Rabs (f2R m - (deg (f2R d0) + deg (f2R d1)) / 2) <= 32 * u64)%R.
Proof.
  intros F0 F1 B0 B1. cbv zeta. destruct (dec_in d0 F0 B0) as (G0 & C0 & E0). destruct (dec_in d1 F1 B1) as (G1 & C1 & E1).
  set (a := f_rad true d0) in *. set (b := f_rad true d1) in *. apply Rabs_le_inv in C0, C1, E0, E1.
  destruct (fadd_ok a b G0 G1) as [FS ES].
  { apply big_100. apply Rabs_le. nums; lra. }
  destruct f_pi_ok as [_ EP].
  assert (SB : (- Pf <= f2R (fadd a b) <= Pf)%R).
  { rewrite ES, <- EP. rewrite <- (rnd_f f_pi), EP. split.
    - rewrite <- round_NE_opp. apply rnd_le. lra.
    - apply rnd_le. lra. }
  assert (SE : (Rabs (f2R (fadd a b) - (f2R a + f2R b)) <= 4 * u64)%R).
  { rewrite ES. eapply Rle_trans; [apply rnd_abs|]. assert (Rabs (f2R a + f2R b) <= 3.5)%R by (apply Rabs_le; nums; lra).
    apply Rle_trans with (u64 * 3.5 + 2 * tiny)%R; [|nums; lra]. apply Rplus_le_compat_r. apply Rmult_le_compat_l; [nums; lra|exact H]. }
  set (s := fadd a b) in *. apply Rabs_le_inv in SE.
  destruct (float_of_int_ok 2 ltac:(lia)) as [F2 E2].
  destruct (fdiv_ok s (float_of_int 2) FS) as [FM EM].
  { rewrite E2; lra. }
  { rewrite E2. apply big_100. apply Rabs_le. nums; lra. }
  rewrite E2 in EM. split; [exact FM|]. destruct f_halfpi_ok as [_ EH]. split.
  - rewrite EM, <- EH, <- (rnd_f (fmul f_half f_pi)), EH. apply Rabs_le. split.
    + rewrite <- round_NE_opp. apply rnd_le. lra.
    + apply rnd_le. lra.
  - rewrite EM. pose proof (rnd_abs (f2R s / 2)) as A.
    assert (A2 : (u64 * Rabs (f2R s / 2) <= u64 * 2)%R) by (apply Rmult_le_compat_l; [nums; lra|apply Rabs_le; nums; lra]).
    apply Rabs_le_inv in A. apply Rabs_le. set (r := rnd (f2R s / 2)) in *. set (v := (u64 * Rabs (f2R s / 2))%R) in *.
    set (x := deg (f2R d0)) in *. set (y := deg (f2R d1)) in *. clearbody r v x y. clearbody s a b. clear - A A2 SE E0 E1. nums. lra.
Qed.

Section Ras.
Variables n i : Z.
Hypothesis Hn : 1 <= n <= 2 ^ 31.
Hypothesis Hi : 0 <= i < n.
Lemma exact_range k : (0 <= k <= 1)%R -> (0 <= 2 * PI * ((IZR i + k) * / IZR n) <= 2 * PI)%R.
Proof.
  intros K. pose proof (IZR_bounds n Hn) as NB. pose proof PI_RGT_0.
  assert (IB : (0 <= IZR i <= IZR n - 1)%R) by (split; [apply IZR_le; lia|rewrite <- minus_IZR; apply IZR_le; lia]).
  assert (Q : (0 <= (IZR i + k) * / IZR n <= 1)%R).
  { split; [apply Rmult_le_pos; [lra|left; apply Rinv_0_lt_compat; lra]|].
    apply Rmult_le_reg_r with (IZR n); [lra|]. rewrite Rmult_assoc, Rinv_l by lra. lra. }
  split; [apply Rmult_le_pos; lra|]. rewrite <- (Rmult_1_r (2 * PI)) at 2. apply Rmult_le_compat_l; lra.
Qed.
End Ras.

(*@ C99: the centre, the vertices and the reference coordinate of the WCS of tract i of an EquatSkyMap as computed in binary64 are
    valid SpherePoints at most 2^-48 radians from the exact ones in declination and 2^-46 in right ascension (3e-9 arc seconds), for up to 2^31 tracts; and
    the constructor raises in binary64 for exactly those declination ranges for which it does in exact arithmetic. *)
Lemma equat_float_coords_proof : forall makeWcs ov n d0 d1 i, 1 <= n <= 2 ^ 31 -> 0 <= i < n -> finite d0 = true -> finite d1 = true ->
  match equat_args makeWcs ov n (f2R d0, f2R d1) i, fe_coords n (d0, d1) i with
  | Ok (PlainArgs ctr verts _ w _), Ok (c, vs, cr) =>
      stored_near ctr c /\ Forall2 stored_near verts vs /\ exists crval, w = makeWcs crval /\ stored_near crval cr
  | Raise e, Raise e' => e = InvalidParameterError /\ e' = e /\ (90 < Rabs (f2R d0) \/ 90 < Rabs (f2R d1))%R
  | _, _ => False
  end.
Proof.
  intros mk ov n d0 d1 i Hn Hi F0 F1. unfold equat_args, fe_coords. cbn [fst snd].
  pose proof (IZR_bounds n Hn) as NB. pose proof PI_RGT_0 as PP.
  destruct (beg_val n i Hn Hi) as (FB & B0 & EB). destruct (end_val n i Hn Hi) as (FE & E0 & EE). destruct (mid_val n i Hn Hi) as (FM & M0 & EM).
  assert (EB' : (Rabs (f2R (fe_beg n i) - 2 * PI * ((IZR i + 0) * / IZR n)) <= 92 * u64)%R).
  { rewrite Rplus_0_r. eapply Rle_trans; [exact EB|nums; lra]. }
  set (w := deg (360 / IZR n)).
  replace (w * IZR i)%R with (2 * PI * ((IZR i + 0) * / IZR n))%R by (unfold w, deg; field; lra).
  replace (2 * PI * ((IZR i + 0) * / IZR n) + w)%R with (2 * PI * ((IZR i + 1) * / IZR n))%R by (unfold w, deg; field; lra).
  replace (2 * PI * ((IZR i + 0) * / IZR n) + w / 2)%R with (2 * PI * ((IZR i + / 2) * / IZR n))%R by (unfold w, deg; field; lra).
  pose proof (exact_range n i Hn Hi 0 ltac:(lra)) as RB. pose proof (exact_range n i Hn Hi 1 ltac:(lra)) as RE. pose proof (exact_range n i Hn Hi (/ 2) ltac:(lra)) as RM.
  set (b := (2 * PI * ((IZR i + 0) * / IZR n))%R) in *. set (e := (2 * PI * ((IZR i + 1) * / IZR n))%R) in *. set (m := (2 * PI * ((IZR i + / 2) * / IZR n))%R) in *.
  clearbody b e m w.
  destruct (Rle_lt_dec (Rabs (f2R d0)) 90) as [H0|H0].
  2: { rewrite (exact_out _ _ H0), (point_out _ _ F0 H0). cbn [bind]. auto. }
  destruct (dec_in d0 F0 H0) as (G0 & C0 & A0). rewrite !(exact_in _ _ H0).
  assert (A0' : (Rabs (f2R (f_rad true d0) - deg (f2R d0)) <= 32 * u64)%R) by (eapply Rle_trans; [exact A0|nums; lra]).
  destruct (point_in _ _ _ _ G0 C0 A0' FB B0 RB EB') as [-> Q0]. destruct (point_in _ _ _ _ G0 C0 A0' FE E0 RE EE) as [-> Q1]. cbn [bind].
  destruct (Rle_lt_dec (Rabs (f2R d1)) 90) as [H1|H1].
  2: { rewrite (exact_out _ _ H1), (point_out _ _ F1 H1). cbn [bind]. auto. }
  destruct (dec_in d1 F1 H1) as (G1 & C1 & A1). rewrite !(exact_in _ _ H1).
  assert (A1' : (Rabs (f2R (f_rad true d1) - deg (f2R d1)) <= 32 * u64)%R) by (eapply Rle_trans; [exact A1|nums; lra]).
  destruct (point_in _ _ _ _ G1 C1 A1' FB B0 RB EB') as [-> Q3]. destruct (point_in _ _ _ _ G1 C1 A1' FE E0 RE EE) as [-> Q2]. cbn [bind].
  destruct (mid_dec d0 d1 F0 F1 H0 H1) as (GM & CM & AM). destruct (point_in _ _ _ _ GM CM AM FM M0 RM EM) as [-> QM].
  destruct f_zero_ok as [FZ EZ].
  assert (CZ : (Rabs (f2R (float_of_int 0)) <= Pf / 2)%R) by (rewrite EZ, Rabs_R0; nums; lra).
  assert (AZ : (Rabs (f2R (float_of_int 0) - 0) <= 32 * u64)%R) by (rewrite EZ, Rminus_0_r, Rabs_R0; nums; lra).
  destruct (point_in _ _ _ _ FZ CZ AZ FM M0 RM EM) as [-> QZ]. cbn [bind].
  assert (X : makeSpherePoint m ((deg (f2R d0) + deg (f2R d1)) / 2) = Ok (wrap m, (deg (f2R d0) + deg (f2R d1)) / 2)%R).
  { replace ((deg (f2R d0) + deg (f2R d1)) / 2)%R with (deg ((f2R d0 + f2R d1) / 2)) by (unfold deg; field). apply exact_in.
    apply Rabs_le_inv in H0, H1. apply Rabs_le. lra. }
  rewrite X. cbn [bind].
  assert (Z0 : makeSpherePoint m 0 = Ok (wrap m, 0%R)).
  { unfold makeSpherePoint. rewrite Rle_bool_true; [reflexivity|]. rewrite Rabs_R0. lra. }
  rewrite Z0. cbn [bind].
  split; [exact QM|]. split; [|exists (wrap m, 0%R); split; [reflexivity|exact QZ]].
  constructor; [exact Q0|]. constructor; [exact Q1|]. constructor; [exact Q2|]. constructor; [exact Q3|]. constructor.
Qed.

Lemma coords_shape n d0 d1 i c vs cr : fe_coords n (d0, d1) i = Ok (c, vs, cr) ->
  let lo := f_rad true d0 in let hi := f_rad true d1 in
  let b := f_wrap (fe_beg n i) in let e := f_wrap (fe_end n i) in
  vs = [(b, lo); (e, lo); (e, hi); (b, hi)] /\ fst c = f_wrap (fe_mid n i) /\ cr = (fst c, float_of_int 0).
Proof.
  unfold fe_coords, f_makeSpherePoint, f_spherePoint. cbn [fst snd]. cbv zeta. destruct (fltb _ (Babs (f_rad true d0))); [discriminate|]. cbn [bind].
  destruct (fltb _ (Babs (f_rad true d1))); [discriminate|]. cbn [bind].
  destruct (fltb _ (Babs (fdiv _ _))); [discriminate|]. cbn [bind].
  destruct (fltb _ (Babs (float_of_int 0))); [discriminate|]. cbn [bind]. intros H. injection H as <- <- <-. auto.
Qed.
Lemma inv_lo n : 1 <= n <= 2 ^ 31 -> (6 * / 2147483648 <= 2 * PI * / IZR n)%R.
Proof.
  intros Hn. pose proof (N_inv n Hn). pose proof PI_bounds. apply Rmult_le_compat; nums; lra.
Qed.
Lemma stored_id x r : finite x = true -> (0 <= f2R x)%R -> (Rabs (f2R x - r) <= 92 * u64)%R -> (r <= 2 * PI - 3 * / 2147483648)%R -> f2R (f_wrap x) = f2R x.
Proof.
  intros F X0 E R. destruct (f_wrap_val x F) as [_ ->]. apply wrapR_id. pose proof PI_bounds. apply Rabs_le_inv in E. split; [exact X0|]. nums. lra.
Qed.

(*@ C99: in binary64 too the tracts of an EquatSkyMap are in the order of their numbers: tract i has vertices at the longitudes b, e, e, b; its
    centre and its WCS's reference coordinate are east of b and, unless it is the last tract, west of e. *)
Lemma equat_float_order_proof : forall n d0 d1 i c vs cr, 1 <= n <= 2 ^ 31 -> 0 <= i < n -> fe_coords n (d0, d1) i = Ok (c, vs, cr) ->
  exists b e lo hi, vs = [(b, lo); (e, lo); (e, hi); (b, hi)] /\ fst cr = fst c
    /\ (f2R b < f2R (fst c))%R /\ (i + 1 < n -> (f2R (fst c) < f2R e)%R)
    /\ forall j c' vs' cr', i < j < n -> fe_coords n (d0, d1) j = Ok (c', vs', cr') ->
         forall v, In v vs' -> j + 1 < n -> (f2R (fst c) < f2R (fst v))%R /\ (f2R b < f2R (fst v))%R.
Proof.
  intros n d0 d1 i c vs cr Hn Hi E. destruct (coords_shape _ _ _ _ _ _ _ E) as (-> & Ec & ->). cbv zeta in *.
  destruct (beg_val n i Hn Hi) as (FB & B0 & EB). destruct (end_val n i Hn Hi) as (FE & E0 & EE). destruct (mid_val n i Hn Hi) as (FM & M0 & EM).
  pose proof (inv_lo n Hn) as IL. pose proof (IZR_bounds n Hn) as NB. pose proof PI_bounds as P.
  assert (step : forall k, (2 * PI * (k * / IZR n) = k * (2 * PI * / IZR n))%R) by (intros; ring).
  assert (tot : (IZR n * (2 * PI * / IZR n) = 2 * PI)%R) by (field; lra).
  assert (IB : (0 <= IZR i <= IZR n - 1)%R) by (split; [apply IZR_le; lia|rewrite <- minus_IZR; apply IZR_le; lia]).
  rewrite step in EB, EE, EM. set (s := (2 * PI * / IZR n)%R) in *.
  assert (near_last : forall k, (k <= IZR n - / 2)%R -> (k * s <= 2 * PI - 3 * / 2147483648)%R).
  { intros k K. apply Rle_trans with ((IZR n - / 2) * s)%R; [apply Rmult_le_compat_r; lra|]. rewrite Rmult_minus_distr_r, tot. lra. }
  assert (WB : f2R (f_wrap (fe_beg n i)) = f2R (fe_beg n i)).
  { eapply stored_id; [exact FB|exact B0|eapply Rle_trans; [exact EB|nums; lra]|apply near_last; lra]. }
  assert (WM : f2R (f_wrap (fe_mid n i)) = f2R (fe_mid n i)).
  { eapply stored_id; [exact FM|exact M0|exact EM|apply near_last; lra]. }
  rewrite !Rmult_plus_distr_r, ?Rmult_1_l in EE, EM. apply Rabs_le_inv in EB, EE, EM.
  eexists _, _, _, _. split; [reflexivity|]. split; [reflexivity|]. rewrite Ec, WM, WB.
  set (x := (IZR i * s)%R) in *. split; [clearbody x s; nums; lra|]. split.
  - intros Hl. assert (IZR i + 1 <= IZR n - 1)%R by (rewrite <- plus_IZR, <- minus_IZR; apply IZR_le; lia).
    assert (WE : f2R (f_wrap (fe_end n i)) = f2R (fe_end n i)).
    { eapply stored_id; [exact FE|exact E0|apply Rabs_le; exact EE|]. unfold x. replace (IZR i * s + 1 * s)%R with ((IZR i + 1) * s)%R by ring. apply near_last; lra. }
    rewrite WE. clearbody x s. nums. lra.
  - intros j c' vs' cr' Hj E' v Hv Hl. destruct (coords_shape _ _ _ _ _ _ _ E') as (-> & _ & _). cbv zeta in *.
    assert (Hj' : 0 <= j < n) by lia.
    destruct (beg_val n j Hn Hj') as (FB' & B0' & EB'). destruct (end_val n j Hn Hj') as (FE' & E0' & EE'). rewrite step in EB', EE'. fold s in EB', EE'.
    assert (J : (IZR i + 1 <= IZR j)%R) by (rewrite <- plus_IZR; apply IZR_le; lia).
    assert (J2 : (IZR j + 1 <= IZR n - 1)%R) by (rewrite <- plus_IZR, <- minus_IZR; apply IZR_le; lia).
    assert (J3 : (x + s <= IZR j * s)%R).
    { unfold x. replace (IZR i * s + s)%R with ((IZR i + 1) * s)%R by ring. apply Rmult_le_compat_r; lra. }
    assert (WB' : f2R (f_wrap (fe_beg n j)) = f2R (fe_beg n j)).
    { eapply stored_id; [exact FB'|exact B0'|eapply Rle_trans; [exact EB'|nums; lra]|apply near_last; lra]. }
    assert (WE' : f2R (f_wrap (fe_end n j)) = f2R (fe_end n j)).
    { eapply stored_id; [exact FE'|exact E0'|exact EE'|apply near_last; lra]. }
    rewrite Rmult_plus_distr_r, Rmult_1_l in EE'. apply Rabs_le_inv in EB', EE'.
    assert (L : (f2R (fst v) = f2R (fe_beg n j) \/ f2R (fst v) = f2R (fe_end n j))%R).
    { destruct Hv as [<-|[<-|[<-|[<-|[]]]]]; cbn [fst]; auto. }
    set (y := (IZR j * s)%R) in *. clearbody x y s. destruct L as [-> | ->]; nums; lra.
Qed.

(*@ C99: the east edge of a tract and the west edge of the next (of the first, for the last tract) are at most 2^-45 radians apart in binary64. *)
Lemma equat_float_neighbours_proof : forall n d0 d1 i c vs cr c' vs' cr', 1 <= n <= 2 ^ 31 -> 0 <= i < n ->
  fe_coords n (d0, d1) i = Ok (c, vs, cr) -> fe_coords n (d0, d1) ((i + 1) mod n) = Ok (c', vs', cr') ->
  exists b e lo hi b' e', vs = [(b, lo); (e, lo); (e, hi); (b, hi)] /\ vs' = [(b', lo); (e', lo); (e', hi); (b', hi)]
    /\ exists k : Z, (Rabs (f2R e - f2R b' + IZR k * (2 * PI)) <= / 35184372088832)%R.
Proof.
  intros n d0 d1 i c vs cr c' vs' cr' Hn Hi E E'.
  destruct (coords_shape _ _ _ _ _ _ _ E) as (-> & _ & _). destruct (coords_shape _ _ _ _ _ _ _ E') as (-> & _ & _). cbv zeta in *.
  eexists _, _, _, _, _, _. split; [reflexivity|]. split; [reflexivity|].
  assert (Hj : 0 <= (i + 1) mod n < n) by (apply Z.mod_pos_bound; lia).
  destruct (end_val n i Hn Hi) as (FE & E0 & EE). destruct (beg_val n _ Hn Hj) as (FB & B0 & EB).
  pose proof (exact_range n i Hn Hi 1 ltac:(lra)) as RE. pose proof (exact_range n _ Hn Hj 0 ltac:(lra)) as RB. rewrite Rplus_0_r in RB.
  destruct (wrap_near _ _ FE E0 RE EE) as (_ & _ & k1 & K1).
  destruct (wrap_near _ _ FB B0 RB) as (_ & _ & k2 & K2); [eapply Rle_trans; [exact EB|nums; lra]|].
  pose proof (IZR_bounds n Hn) as NB.
  assert (W : wrap (2 * PI * ((IZR i + 1) * / IZR n)) = wrap (2 * PI * (IZR ((i + 1) mod n) * / IZR n))).
  { apply (wrap_shift _ _ ((i + 1) / n)). rewrite <- plus_IZR. pose proof (Z.div_mod (i + 1) n ltac:(lia)) as D.
    rewrite D at 1. rewrite plus_IZR, mult_IZR. field. lra. }
  exists (k1 - k2). rewrite minus_IZR. rewrite W in K1. set (z := wrap _) in *.
  apply Rabs_le_inv in K1, K2. apply Rabs_le. set (p := (2 * PI)%R) in *. set (x := f2R (f_wrap (fe_end n i))) in *. set (y := f2R (f_wrap (fe_beg n ((i + 1) mod n)))) in *.
  replace (x - y + (IZR k1 - IZR k2) * p)%R with ((x - z + IZR k1 * p) - (y - z + IZR k2 * p))%R by ring.
  set (u := (x - z + IZR k1 * p)%R) in *. set (v := (y - z + IZR k2 * p)%R) in *. clearbody u v. nums. lra.
Qed.

Lemma stored_beg n i : 1 <= n <= 2 ^ 31 -> 0 <= i < n -> f2R (f_wrap (fe_beg n i)) = f2R (fe_beg n i).
Proof.
  intros Hn Hi. destruct (beg_val n i Hn Hi) as (FB & B0 & EB). pose proof (inv_lo n Hn) as IL. pose proof (IZR_bounds n Hn) as NB.
  assert (IB : (0 <= IZR i <= IZR n - 1)%R) by (split; [apply IZR_le; lia|rewrite <- minus_IZR; apply IZR_le; lia]).
  eapply stored_id; [exact FB|exact B0|eapply Rle_trans; [exact EB|nums; lra]|].
  replace (2 * PI * (IZR i * / IZR n))%R with (IZR i * (2 * PI * / IZR n))%R by ring.
  assert (tot : (IZR n * (2 * PI * / IZR n) = 2 * PI)%R) by (field; lra). set (s := (2 * PI * / IZR n)%R) in *.
  apply Rle_trans with ((IZR n - 1) * s)%R; [apply Rmult_le_compat_r; lra|]. rewrite Rmult_minus_distr_r, tot. lra.
Qed.
Lemma stored_end n i : 1 <= n <= 2 ^ 31 -> 0 <= i -> i + 1 < n -> f2R (f_wrap (fe_end n i)) = f2R (fe_end n i).
Proof.
  intros Hn Hi Hl. destruct (end_val n i Hn ltac:(lia)) as (FB & B0 & EB). pose proof (inv_lo n Hn) as IL. pose proof (IZR_bounds n Hn) as NB.
  assert (IB : (0 <= IZR i + 1 <= IZR n - 1)%R) by (rewrite <- plus_IZR; split; [apply IZR_le; lia|rewrite <- minus_IZR; apply IZR_le; lia]).
  eapply stored_id; [exact FB|exact B0|exact EB|].
  replace (2 * PI * ((IZR i + 1) * / IZR n))%R with ((IZR i + 1) * (2 * PI * / IZR n))%R by ring.
  assert (tot : (IZR n * (2 * PI * / IZR n) = 2 * PI)%R) by (field; lra). set (s := (2 * PI * / IZR n)%R) in *.
  apply Rle_trans with ((IZR n - 1) * s)%R; [apply Rmult_le_compat_r; lra|]. rewrite Rmult_minus_distr_r, tot. lra.
Qed.

(*@ C99: no double lies strictly between the east edge of a tract and the west edge of the next, so no SpherePoint falls into a gap: every
    longitude is in the closed slice of a tract, or not west of the last. *)
Lemma equat_float_no_gap_proof : forall n d0 d1 x, 1 <= n <= 2 ^ 31 -> finite x = true -> (0 <= f2R x < f2R f_twopi)%R ->
  (forall i, 0 <= i < n -> exists c vs cr, fe_coords n (d0, d1) i = Ok (c, vs, cr)) ->
  exists i b e lo hi c cr, 0 <= i < n /\ fe_coords n (d0, d1) i = Ok (c, [(b, lo); (e, lo); (e, hi); (b, hi)], cr)
    /\ (f2R b <= f2R x)%R /\ (i + 1 < n -> (f2R x <= f2R e)%R).
Proof.
  intros n d0 d1 x Hn F X All.
  assert (K : forall m : nat, (Z.of_nat m < n)%Z -> exists i, 0 <= i <= Z.of_nat m /\ (f2R (fe_beg n i) <= f2R x)%R /\ (i < Z.of_nat m -> (f2R x <= f2R (fe_end n i))%R)).
  { induction m as [|m IH]; intros Hm.
    - exists 0. split; [lia|]. split; [|lia].
      destruct (width_val n Hn) as (FW & _). destruct (w_bounds n Hn) as [_ WB]. destruct f_zero_ok as [FZ EZ].
      assert (Q : f2R (fe_beg n 0) = rnd (f2R (fe_width n) * 0)).
      { rewrite <- EZ. apply fmul_ok; [exact FW|exact FZ|]. rewrite EZ, Rmult_0_r, Rabs_R0. apply bpow_ge_0. }
      rewrite Q, Rmult_0_r, rnd_0. lra.
    - destruct (IH ltac:(lia)) as (i & Hi & Hb & He). destruct (Z.eq_dec i (Z.of_nat m)) as [->|Ne].
      + destruct (Rle_lt_dec (f2R (fe_beg n (Z.of_nat m + 1))) (f2R x)) as [L|L].
        * exists (Z.of_nat m + 1). split; [lia|]. split; [exact L|lia].
        * exists (Z.of_nat m). split; [lia|]. split; [exact Hb|]. intros _.
          destruct (edges_close n (Z.of_nat m) (f2R x) Hn ltac:(lia) ltac:(lia) (f_format x)) as [N1 _].
          destruct (Rle_lt_dec (f2R x) (f2R (fe_end n (Z.of_nat m)))) as [H|H]; [exact H|]. exfalso. apply N1. auto.
      + exists i. split; [lia|]. split; [exact Hb|]. intros _. apply He. lia. }
  destruct (K (Z.to_nat (n - 1)) ltac:(lia)) as (i & Hi & Hb & He). rewrite Z2Nat.id in Hi, He by lia.
  destruct (All i ltac:(lia)) as (c & vs & cr & E). destruct (coords_shape _ _ _ _ _ _ _ E) as (-> & _ & _). cbv zeta in *.
  exists i. do 6 eexists. split; [lia|]. split; [exact E|]. split; [rewrite stored_beg by lia; exact Hb|].
  intros Hl. rewrite stored_end by lia. apply He. lia.
Qed.

(*@ C99, refuted: the edges are not the same double: with 12 tracts, tract 5 ends west of the beginning of tract 6, at 180 degrees, and with 11 tract 5 ends east
    of it; with 1206 tracts a longitude just below 360 degrees is east of the last tract.  With the default of four, edges are equal. *)
Lemma equat_float_same_edge_refuted_proof :
  (f2R (fe_end 12 5) < f2R (fe_beg 12 6))%R /\ (f2R (fe_beg 11 6) < f2R (fe_end 11 5))%R
  /\ (exists x, finite x = true /\ (f2R (f_wrap (fe_end 1206 1205)) < f2R x < f2R f_twopi)%R /\ (6 < f2R (f_wrap (fe_end 1206 1205)))%R)
  /\ (forall i, 0 <= i < 3 -> fe_end 4 i = fe_beg 4 (i + 1)).
Proof.
  assert (K : forall a b, finite a = true -> finite b = true -> fltb a b = true -> (f2R a < f2R b)%R).
  { intros a b Fa Fb H. rewrite (fltb_ok a b Fa Fb) in H. revert H. case Rlt_bool_spec; [trivial|discriminate]. }
  split; [|split; [|split]].
  - apply K; [apply end_val; lia|apply beg_val; lia|vm_compute; reflexivity].
  - apply K; [apply beg_val; lia|apply end_val; lia|vm_compute; reflexivity].
  - destruct f_twopi_ok as [FT _]. destruct (float_of_int_ok 6 ltac:(lia)) as [F6 E6].
    destruct (f64_make_ok 7074237752028439 (-50) ltac:(lia) ltac:(lia)) as [FX _]. exists (f64_make 7074237752028439 (-50)).
    assert (FE : finite (f_wrap (fe_end 1206 1205)) = true) by (vm_compute; reflexivity).
    split; [exact FX|]. split; [split|].
    + apply K; [exact FE|exact FX|vm_compute; reflexivity].
    + apply K; [exact FX|exact FT|vm_compute; reflexivity].
    + rewrite <- E6. apply K; [exact F6|exact FE|vm_compute; reflexivity].
  - intros i Hi. assert (i = 0 \/ i = 1 \/ i = 2) as [-> | [-> | ->]] by lia; apply B2SF_inj; vm_compute; reflexivity.
Qed.

(*@ C99: the hypotheses can be met: the default configuration (four tracts, declinations from -1.25 to 1.25 degrees). *)
Example equat_float_default_proof : forall i, 0 <= i < 4 -> exists c vs cr, fe_coords 4 (f64_make (-5) (-2), f64_make 5 (-2)) i = Ok (c, vs, cr).
Proof.
  intros i Hi. destruct (f64_make_ok (-5) (-2) ltac:(lia) ltac:(lia)) as [F0 E0]. destruct (f64_make_ok 5 (-2) ltac:(lia) ltac:(lia)) as [F1 E1].
  change (bpow radix2 (-2)) with (/ 4)%R in *.
  pose proof (equat_float_coords_proof (fun _ => mkWcs (fun c => Pix 0 0) (fun p => p)) 0 4 _ _ i ltac:(lia) Hi F0 F1) as K.
  destruct (fe_coords _ _ i) as [[[c vs] cr]|e]; [eauto|]. exfalso.
  destruct (equat_args _ _ _ _ _) as [[ctr verts o w corners|ctr r o w corners]|e0]; try contradiction.
  destruct K as (_ & _ & [K|K]); rewrite ?E0, ?E1 in K; rewrite ?Rabs_pos_eq, ?Rabs_left in K by lra; lra.
Qed.
