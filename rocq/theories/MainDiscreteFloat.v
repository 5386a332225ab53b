(** The tracts of a DiscreteSkyMap in binary64 (C102). *)
From Coq Require Import Reals Lra Lia.
From Flocq Require Import Core BinarySingleNaN.
Require Import Verif.Py Verif.Geom Verif.PatchInfo Verif.TractBuilder Verif.TractInfo Verif.SkyMap.
Require Import Verif.Float64 Verif.Float64Proofs Verif.Rings Verif.RingsProofs Verif.RingsSpec Verif.Sphere Verif.Maps Verif.RingsFloat Verif.RingsFloatSpec Verif.FloatOps.
Require Import Verif.RingsFloatProofs Verif.RingsFloatProofs2 Verif.MainRingsFloat Verif.EquatFloat Verif.EquatFloatProofs Verif.MainEquatFloat Verif.DiscreteFloat.
Import ListNotations.
Open Scope Z_scope.
Local Arguments Z.mul : simpl never.

(** The double [x] is the angle [a] up to a relative error of 2^-50 (and 2^-98 radians). *)
Definition angle_near (a : R) (x : f64) : Prop :=
  finite x = true /\ (Rabs (f2R x - a) <= / 1125899906842624 * Rabs a + / 316912650057057350374175801344)%R.

Lemma deg_rel x : finite x = true -> (Rabs (f2R x) <= 1000000)%R ->
  finite (f_rad true x) = true /\ (Rabs (f2R (f_rad true x) - deg (f2R x)) <= 5 * u64 * Rabs (deg (f2R x)) + 2 * tiny)%R.
Proof.
  intros F B. cbn [f_rad]. fold f_deg. destruct f_deg_ok as (FD & BD & e & He & ED).
  destruct (fmul_ok x f_deg F FD) as [F1 E1].
  { apply big_100. rewrite Rabs_mult, (Rabs_pos_eq (f2R f_deg)) by lra.
    apply Rle_trans with (1000000 * / 50)%R; [|lra]. apply Rmult_le_compat; try apply Rabs_pos; lra. }
  split; [exact F1|]. rewrite E1. pose proof (rnd_abs (f2R x * f2R f_deg)) as A.
  assert (K : (f2R x * f2R f_deg = deg (f2R x) * (1 + e))%R) by (rewrite ED; unfold deg; ring).
  rewrite K in *. set (D := deg (f2R x)) in *. clearbody D. rewrite Rabs_mult in A.
  assert (E2 : (Rabs (1 + e) <= 1 + 3 * u64)%R) by (apply Rabs_le_inv in He; apply Rabs_le; nums; lra).
  assert (A2 : (u64 * (Rabs D * Rabs (1 + e)) <= u64 * (Rabs D * (1 + 3 * u64)))%R).
  { apply Rmult_le_compat_l; [nums; lra|]. apply Rmult_le_compat_l; [apply Rabs_pos|exact E2]. }
  assert (A3 : (Rabs (D * (1 + e) - D) <= 3 * u64 * Rabs D)%R).
  { replace (D * (1 + e) - D)%R with (e * D)%R by ring. rewrite Rabs_mult. apply Rmult_le_compat_r; [apply Rabs_pos|exact He]. }
  pose proof (Rabs_pos D) as P. set (d := Rabs D) in *. clearbody d.
  set (r := rnd _) in *. clearbody r. set (y := (D * (1 + e))%R) in *. clearbody y. set (v := (u64 * (d * Rabs (1 + e)))%R) in *. clearbody v.
  apply Rabs_le_inv in A, A3. apply Rabs_le. clear - A A2 A3 P. nums. lra.
Qed.

(** The stored longitude, for angles up to 1000 degrees either way. *)
Lemma wrap_any x r : finite x = true -> (Rabs r <= 17.5)%R -> (Rabs (f2R x - r) <= 92 * u64)%R ->
  finite (f_wrap x) = true /\ (0 <= f2R (f_wrap x) < Tf)%R /\ exists k : Z, (Rabs (f2R (f_wrap x) - wrap r + IZR k * (2 * PI)) <= 128 * u64)%R.
Proof.
  intros F R E. destruct (f_wrap_val x F) as [F1 E1]. split; [exact F1|]. rewrite E1. pose proof PI_bounds as P. apply Rabs_le_inv in E, R.
  destruct (wrapR_spec (f2R x)) as (W & K & KB & EW).
  { apply Rabs_lt. nums. lra. }
  split; [exact W|]. destruct (wrap_decomp r) as (j & J). exists (K - j)%Z. rewrite minus_IZR. apply Rabs_le_inv in EW.
  assert (KR : (-3 <= IZR K <= 3)%R) by (split; apply IZR_le; lia).
  assert (PT : (- (3 * (4 * u64)) <= IZR K * (2 * PI - Tf) <= 3 * (4 * u64))%R).
  { assert (0 <= 2 * PI - Tf <= 4 * u64)%R by (unfold Tf; nums; lra).
    assert (Rabs (IZR K * (2 * PI - Tf)) <= 3 * (4 * u64))%R.
    { rewrite Rabs_mult. apply Rmult_le_compat; try apply Rabs_pos; apply Rabs_le; lra. }
    apply Rabs_le_inv in H0. exact H0. }
  replace (wrap r) with (r - IZR j * (2 * PI))%R by lra. apply Rabs_le. set (m := wrapR (f2R x)) in *. clearbody m. set (a := f2R x) in *. clearbody a.
  set (kk := IZR K) in *. set (jj := IZR j) in *. clearbody kk jj.
  replace (m - (r - jj * (2 * PI)) + (kk - jj) * (2 * PI))%R with ((m - (a - kk * Tf)) + (a - r) + kk * (2 * PI - Tf))%R by ring.
  set (z := (kk * (2 * PI - Tf))%R) in *. set (y := (m - (a - kk * Tf))%R) in *. clearbody z y. clear - E PT EW. nums. lra.
Qed.

Lemma nth_map {A B} (f : A -> B) l i : py_nth (map f l) i = match py_nth l i with Ok a => Ok (f a) | Raise e => Raise e end.
Proof.
  unfold py_nth. rewrite map_length. destruct (_ && _); [|reflexivity]. rewrite nth_error_map. now destruct (nth_error l _).
Qed.
Lemma nth_in {A} (l : list A) i a : py_nth l i = Ok a -> In a l.
Proof.
  unfold py_nth. destruct (_ && _); [|discriminate]. destruct (nth_error l _) eqn:E; [|discriminate]. intros [= ->]. eapply nth_error_In, E.
Qed.

Lemma centre_near ra dec : finite ra = true -> (Rabs (f2R ra) <= 1000)%R -> finite dec = true -> (Rabs (f2R dec) <= 90)%R ->
  f_makeSpherePoint (f_rad true ra) (f_rad true dec) = Ok (f_spherePoint (f_rad true ra) (f_rad true dec))
  /\ stored_near (wrap (deg (f2R ra)), deg (f2R dec)) (f_spherePoint (f_rad true ra) (f_rad true dec)).
Proof.
  intros FR BR FD BD. destruct tol_eq as [TD TR]. destruct f_halfpi_ok as [FH EH]. destruct f_pi_ok as [_ EP]. destruct f_twopi_ok as [_ ET].
  destruct (dec_in dec FD BD) as (G & C & A). destruct (deg_rel ra FR ltac:(lra)) as [G2 A2].
  assert (D : (Rabs (deg (f2R ra)) <= 17.46)%R).
  { unfold deg. pose proof PI_bounds as P. rewrite Rabs_mult, (Rabs_pos_eq (PI / 180)) by (nums; lra).
    apply Rle_trans with (1000 * (PI / 180))%R; [|nums; lra]. apply Rmult_le_compat_r; [nums; lra|exact BR]. }
  assert (A3 : (Rabs (f2R (f_rad true ra) - deg (f2R ra)) <= 92 * u64)%R).
  { eapply Rle_trans; [exact A2|]. apply Rle_trans with (5 * u64 * 17.46 + 2 * tiny)%R; [|nums; lra].
    apply Rplus_le_compat_r. apply Rmult_le_compat_l; [nums; lra|exact D]. }
  destruct (wrap_any (f_rad true ra) (deg (f2R ra)) G2 ltac:(lra) A3) as (F & W & k & K). split.
  - unfold f_makeSpherePoint. rewrite fltb_ok by (try exact FH; rewrite is_finite_Babs; exact G).
    rewrite EH, B2R_Babs, Rlt_bool_false by exact C. reflexivity.
  - unfold stored_near, f_coord, f_spherePoint, fval. cbn [fst snd]. rewrite ET, EP. split; [auto|]. split; cbn [fst snd].
    + rewrite TD. eapply Rle_trans; [exact A|nums; lra].
    + exists k. rewrite TR. exact K.
Qed.

Lemma near_deg x : finite x = true -> (Rabs (f2R x) <= 1000000)%R -> angle_near (deg (f2R x)) (f_rad true x).
Proof.
  intros F B. destruct (deg_rel x F B) as [G A]. split; [exact G|]. eapply Rle_trans; [exact A|].
  pose proof (Rabs_pos (deg (f2R x))) as P. set (d := Rabs (deg (f2R x))) in *. clearbody d. nums. lra.
Qed.

(*@ C102: for configured right ascensions up to 1000 degrees and any configured declinations, generating a tract of a DiscreteSkyMap raises in binary64 exactly when it does in exact
    arithmetic (no such index, or a declination beyond 90 degrees), with the same exception; otherwise its centre, which is also the reference coordinate of its WCS, is a valid
    SpherePoint at most 2^-48 radians from the exact one in declination and 2^-46 in right ascension (3e-9 arc seconds), and radius and overlap are the configured ones up to a relative 2^-50. *)
Lemma discrete_float_coords_proof : forall makeWcs raL decL radL ov index,
  (forall x, In x raL -> finite x = true /\ Rabs (f2R x) <= 1000)%R ->
  (forall x, In x decL -> finite x = true) ->
  (forall x, In x radL -> finite x = true /\ Rabs (f2R x) <= 1000000)%R ->
  finite ov = true -> (Rabs (f2R ov) <= 1000000)%R ->
  match discrete_args makeWcs (f2R ov) (mkDiscrete (map f2R raL) (map f2R decL) (map f2R radL)) index, fd_args raL decL radL ov index with
  | Ok (ExplicitArgs ctr r o w _), Ok (c, fr, fo) => stored_near ctr c /\ angle_near r fr /\ angle_near o fo /\ w = makeWcs ctr
  | Raise e, Raise e' => e = e'
  | _, _ => False
  end.
Proof.
  intros mk raL decL radL ov index HR HD HL FO BO. unfold discrete_args, fd_args. cbn [dc_ra dc_dec dc_radius]. rewrite !nth_map.
  destruct (py_nth raL index) as [ra|e] eqn:E1; cbn [bind]; [|reflexivity].
  destruct (py_nth decL index) as [dec|e] eqn:E2; cbn [bind]; [|reflexivity].
  destruct (HR _ (nth_in _ _ _ E1)) as [FR BR]. pose proof (HD _ (nth_in _ _ _ E2)) as FD.
  destruct (Rle_lt_dec (Rabs (f2R dec)) 90) as [B|B].
  2: { rewrite (exact_out _ _ B), (point_out _ _ FD B). reflexivity. }
  destruct (centre_near ra dec FR BR FD B) as [-> N]. rewrite (exact_in _ _ B). cbn [bind].
  destruct (py_nth radL index) as [rad|e] eqn:E3; cbn [bind]; [|reflexivity].
  destruct (HL _ (nth_in _ _ _ E3)) as [FL BL].
  split; [exact N|]. split; [now apply near_deg|]. split; [now apply near_deg|reflexivity].
Qed.

(*@ C102: the declination limit is sharp: the poles themselves (declination exactly +90 or -90 degrees) are accepted in binary64, and stored as exactly the double of pi/2 that
    SpherePoint compares with; the next double is not. *)
Lemma discrete_poles_proof : forall ra, finite ra = true -> (Rabs (f2R ra) <= 1000)%R ->
  (forall dec, finite dec = true -> f2R dec = 90%R ->
     exists c, f_makeSpherePoint (f_rad true ra) (f_rad true dec) = Ok c /\ f2R (snd c) = (f2R f_pi / 2)%R)
  /\ (forall dec, finite dec = true -> f2R dec = (-90)%R ->
     exists c, f_makeSpherePoint (f_rad true ra) (f_rad true dec) = Ok c /\ f2R (snd c) = (- (f2R f_pi / 2))%R)
  /\ (forall dec, finite dec = true -> (90 < Rabs (f2R dec))%R ->
     f_makeSpherePoint (f_rad true ra) (f_rad true dec) = Raise InvalidParameterError).
Proof.
  intros ra FR BR. destruct deg_90 as [F90 E90]. destruct (float_of_int_ok 90 ltac:(lia)) as [F9 E9]. destruct f_deg_ok as (FDg & BDg & _).
  destruct (fmul_ok (float_of_int 90) f_deg F9 FDg) as [_ V9].
  { apply big_100. rewrite E9, Rabs_mult, !Rabs_pos_eq by lra. apply Rle_trans with (90 * / 50)%R; [apply Rmult_le_compat|]; lra. }
  rewrite E90, E9 in V9. destruct f_pi_ok as [_ EP].
  assert (M : forall dec, finite dec = true -> (Rabs (f2R dec) <= 90)%R -> f2R (f_rad true dec) = rnd (f2R dec * f2R f_deg)).
  { intros dec FD BD. cbn [f_rad]. fold f_deg. apply fmul_ok; [exact FD|exact FDg|]. apply big_100.
    rewrite Rabs_mult, (Rabs_pos_eq (f2R f_deg)) by lra. apply Rle_trans with (90 * / 50)%R; [|lra]. apply Rmult_le_compat; try apply Rabs_pos; lra. }
  split; [|split].
  - intros dec FD E. assert (BD : (Rabs (f2R dec) <= 90)%R) by (rewrite E, Rabs_pos_eq; lra).
    destruct (centre_near ra dec FR BR FD BD) as [-> _]. eexists; split; [reflexivity|]. cbn [f_spherePoint snd].
    rewrite (M dec FD BD), E, EP, V9. reflexivity.
  - intros dec FD E. assert (BD : (Rabs (f2R dec) <= 90)%R) by (rewrite E, Rabs_left1; lra).
    destruct (centre_near ra dec FR BR FD BD) as [-> _]. eexists; split; [reflexivity|]. cbn [f_spherePoint snd].
    rewrite (M dec FD BD), E, EP, V9. cbn [round_mode]. rewrite <- round_NE_opp. f_equal. ring.
  - intros dec FD B. now apply point_out.
Qed.

(*@ C102, non-vacuity: a configuration with two tracts, one of them at the south pole and with a negative right ascension. *)
Example discrete_float_met_proof : exists raL decL radL ov,
  (forall x, In x raL -> finite x = true /\ Rabs (f2R x) <= 1000)%R /\ (forall x, In x decL -> finite x = true)
  /\ (forall x, In x radL -> finite x = true /\ Rabs (f2R x) <= 1000000)%R
  /\ finite ov = true /\ (Rabs (f2R ov) <= 1000000)%R
  /\ (exists c r o, fd_args raL decL radL ov 1 = Ok (c, r, o)) /\ fd_args raL decL radL ov 2 = Raise IndexError.
Proof.
  assert (I : forall n, (Z.abs n <= 1000)%Z -> finite (float_of_int n) = true /\ f2R (float_of_int n) = IZR n /\ (Rabs (f2R (float_of_int n)) <= 1000)%R).
  { intros n Hn. destruct (float_of_int_ok n ltac:(lia)) as [F E]. split; [exact F|]. split; [exact E|]. rewrite E, <- abs_IZR. apply IZR_le. exact Hn. }
  destruct (I 10 ltac:(lia)) as (F1 & E1 & B1). destruct (I (-75) ltac:(lia)) as (F2 & E2 & B2). destruct (I (-90) ltac:(lia)) as (F3 & E3 & B3).
  destruct (I 1 ltac:(lia)) as (F4 & E4 & B4).
  exists [float_of_int 10; float_of_int (-75)], [float_of_int 10; float_of_int (-90)], [float_of_int 1; float_of_int 10], (float_of_int 1).
  split. { intros x [<-|[<-|[]]]; auto. }
  split. { intros x [<-|[<-|[]]]; auto. }
  split. { intros x [<-|[<-|[]]]; split; auto; lra. }
  split; [exact F4|]. split; [lra|]. split; [|reflexivity].
  unfold fd_args. change (py_nth [float_of_int 10; float_of_int (-75)] 1) with (Ok (float_of_int (-75))).
  change (py_nth [float_of_int 10; float_of_int (-90)] 1) with (Ok (float_of_int (-90))).
  change (py_nth [float_of_int 1; float_of_int 10] 1) with (Ok (float_of_int 10)). cbn [bind].
  destruct (centre_near (float_of_int (-75)) (float_of_int (-90)) F2 B2 F3) as [-> _]; [rewrite E3, Rabs_left1; lra|]. cbn [bind]. eauto.
Qed.
