(** Point location in binary64 arithmetic (C76, C77, C78). *)
From Coq Require Import Reals Lra Lia.
From Flocq Require Import Core BinarySingleNaN.
Require Import Verif.Py Verif.Geom Verif.Float64 Verif.Float64Proofs.
Require Import Verif.Rings Verif.RingsSpec Verif.RingsProofs Verif.RingsProofs2 Verif.MainRings.
Require Import Verif.RingsFloat Verif.RingsFloatSpec Verif.FloatOps Verif.RingsFloatProofs Verif.RingsFloatProofs2.
Open Scope Z_scope.

Lemma exact_wf g : frings_wf g -> rings_wf (exact_rings g).
Proof.
  intros W. constructor; cbn.
  - pose proof (fw_rings g W); lia.
  - apply (fw_len g W).
  - intros n H. apply (fw_nums g W) in H. lia.
  - reflexivity.
  - apply (fw_version g W).
Qed.

Lemma find_range g c i : rings_wf g -> rings_findIndex g c = Ok i -> 0 <= i < rings_numTracts g.
Proof.
  intros WE E2. pose proof (len_pos g WE).
  destruct (find_cases g WE c) as [[_ E]|[[_ E]|(r & n & t & H' & Ht & _ & _ & _ & _ & E)]];
    rewrite E in E2; injection E2 as <-; try lia.
  pose proof (RingsProofs3.idx_range g WE r n t H' Ht). unfold RingsProofs3.idx in *. lia.
Qed.

Lemma tol_eq : dec_tol = (32 * u64)%R /\ ra_tol = (128 * u64)%R.
Proof. unfold dec_tol, ra_tol, u64. split; lra. Qed.

Lemma nth_counts g r : frings_wf g -> 0 <= r < fr_numRings g ->
  exists n, py_nth (fr_nums g) r = Ok n /\ ring_has (exact_rings g) r n /\ 1 <= n <= 2 ^ 31.
Proof.
  intros W H. destruct (ring_has_ex (exact_rings g) (exact_wf g W) r H) as (n & Hn).
  exists n. split; [exact (ring_has_nth _ _ _ Hn)|]. split; [exact Hn|].
  destruct Hn as [_ Hn]. apply nth_error_In in Hn. apply (fw_nums g W n Hn).
Qed.

Lemma sub_start g ra : frings_wf g -> finite ra = true -> (Rabs (f2R ra) <= 10)%R ->
  finite (fsub ra (fr_raStart g)) = true /\ f2R (fsub ra (fr_raStart g)) = rnd (f2R ra - f2R (fr_raStart g))
  /\ (Rabs (rnd (f2R ra - f2R (fr_raStart g))) < 3 * Tf)%R.
Proof.
  intros W F R. destruct (fw_start g W) as [FS BS]. apply Rabs_le_inv in BS, R.
  assert (A1 : (Rabs (f2R ra - f2R (fr_raStart g)) <= 18)%R) by (apply Rabs_le; nums; lra).
  destruct (fsub_ok ra (fr_raStart g) F FS) as [F1 E1]; [apply big_100; lra|].
  split; [exact F1|]. split; [exact E1|].
  pose proof (rnd_abs (f2R ra - f2R (fr_raStart g))) as A0.
  assert (A2 : (u64 * Rabs (f2R ra - f2R (fr_raStart g)) <= u64 * (18))%R)
    by (apply Rmult_le_compat_l; [unfold u64; lra|exact A1]).
  apply Rabs_le_inv in A0. apply Rabs_le_inv in A1. apply Rabs_lt. set (z := rnd _) in *. clearbody z. nums. lra.
Qed.

(** The tract number in a ring. *)
Lemma raToTract_val g ra r n : frings_wf g -> finite ra = true -> (Rabs (f2R ra) <= 10)%R -> 0 <= r < fr_numRings g ->
  py_nth (fr_nums g) r = Ok n -> 1 <= n <= 2 ^ 31 ->
  fr_raToTractNum g ra r = Ok (tractNumR (wrapR (rnd (f2R ra - f2R (fr_raStart g)))) n).
Proof.
  intros W F R H En Hn. destruct (sub_start g ra W F R) as (F1 & E1 & B1).
  destruct (f_wrap_val _ F1) as [F2 E2]. rewrite E1 in E2.
  destruct (wrapR_spec _ B1) as [[W1 W2] _].
  unfold fr_raToTractNum. destruct (Z.eqb_spec r (-1)); [lia|]. destruct (Z.eqb_spec r (fr_numRings g)); [lia|].
  cbn [orb]. destruct (Z.leb_spec 0 r); [|lia]. destruct (Z.ltb_spec r (fr_numRings g)); [|lia]. cbn [andb negb].
  rewrite En. cbn [bind]. rewrite fr_tractNum_ok; [rewrite E2; reflexivity|exact F2|exact Hn|rewrite E2; lra].
Qed.

(*@ C76: findTract in binary64: for every coordinate (two doubles) the index computed is the one that the method gives in
    exact arithmetic for a position at most 2^-48 radians away in declination and 2^-46 in right ascension; in particular
    it is an index of the map and the method never raises. *)
Lemma rings_float_lookup_proof : forall g coord, frings_wf g -> f_coord coord ->
  exists i exact, fr_findIndex g coord = Ok i /\ 0 <= i < fr_numTracts g
    /\ on_sphere exact /\ near_or_at dec_tol ra_tol (fval coord) exact
    /\ rings_findIndex (exact_rings g) exact = Ok i.
Proof.
  intros g [ra dec] W (Fr & Fd & Rr & Rd). cbn [fst snd] in *.
  destruct f_twopi_ok as [_ ET]. rewrite ET in Rr. destruct f_pi_ok as [_ EP]. rewrite EP in Rd.
  pose proof (exact_wf g W) as WE. pose proof PI_RGT_0 as PP. destruct tol_eq as [TD TR].
  destruct (dec_ring g W dec Fd Rd) as (dec' & Hd & Bd & Er & Rg).
  pose proof PI_bounds as PB.
  assert (R10 : (Rabs (f2R ra) <= 10)%R) by (rewrite Rabs_pos_eq; nums; lra).
  assert (main : exists i ra', fr_findIndex g (ra, dec) = Ok i /\ (0 <= ra' < 2 * PI)%R
     /\ (exists k : Z, Rabs (ra' - f2R ra + IZR k * (2 * PI)) <= ra_tol)%R
     /\ rings_findIndex (exact_rings g) (ra', dec') = Ok i).
  { unfold fr_findIndex, rings_findIndex. cbn [fst snd]. rewrite Er. cbn [bind].
    change (rg_numRings (exact_rings g)) with (fr_numRings g).
    change (rg_version (exact_rings g)) with (fr_version g).
    change (rings_numTracts (exact_rings g)) with (fr_numTracts g).
    set (r := decToRingNum (exact_rings g) dec') in *.
    assert (id : (0 <= f2R ra < 2 * PI)%R /\ exists k : Z, (Rabs (f2R ra - f2R ra + IZR k * (2 * PI)) <= ra_tol)%R).
    { split; [unfold Tf in *; lra|]. exists 0. rewrite Rmult_0_l, Rplus_0_r, Rminus_diag_eq, Rabs_R0 by reflexivity.
      unfold ra_tol; lra. }
    destruct (Z.eqb_spec r (-1)) as [_|N1]; [|destruct (Z.eqb_spec r (fr_numRings g)) as [_|N2]].
    - exists 0, (f2R ra). destruct id. auto.
    - exists (fr_numTracts g - 1), (f2R ra). destruct id. auto.
    - destruct (nth_counts g r W ltac:(lia)) as (n & En & Hn & Bn).
      destruct (ra_ring n (f2R ra) (f2R (fr_raStart g)) Bn R10 (proj2 (fw_start g W))) as (ra' & K & R1 & R2 & R3).
      rewrite (raToTract_val g ra r n W Fr R10 ltac:(lia) En Bn). cbn [bind].
      unfold raToTractNum. change (rg_numRings (exact_rings g)) with (fr_numRings g).
      change (rg_nums (exact_rings g)) with (fr_nums g). change (rg_raStart (exact_rings g)) with (f2R (fr_raStart g)).
      destruct (Z.eqb_spec r (-1)); [lia|]. destruct (Z.eqb_spec r (fr_numRings g)); [lia|]. cbn [orb].
      destruct (Z.leb_spec 0 r); [|lia]. destruct (Z.ltb_spec r (fr_numRings g)); [|lia]. cbn [andb negb].
      eexists. exists ra'. split; [reflexivity|]. split; [exact R1|]. split.
      + exists (- K). rewrite opp_IZR. rewrite TR. replace (ra' - f2R ra + - IZR K * (2 * PI))%R
          with (ra' - f2R ra - IZR K * (2 * PI))%R by ring. exact R2.
      + rewrite En. cbn [bind]. cbv zeta in R3. rewrite R3. reflexivity. }
  destruct main as (i & ra' & E1 & B1 & N1 & E2). exists i, (ra', dec').
  split; [exact E1|]. split; [|split; [|split; [|exact E2]]].
  - exact (find_range _ _ _ WE E2).
  - split; cbn [fst snd]; lra.
  - split; cbn [fst snd fval]; [rewrite TD; exact Hd|exact N1].
Qed.

(*@ C76: so a coordinate is given the tract it gets in exact arithmetic unless an exact boundary passes within these
    distances of it; and with version 1 the tract returned has the coordinate in its RA/Dec range, or within these
    distances of it. *)
Lemma rings_float_inside_proof : forall g coord, frings_wf g -> f_coord coord ->
  (forall i, (forall p, on_sphere p -> near_or_at dec_tol ra_tol (fval coord) p -> rings_findIndex (exact_rings g) p = Ok i) ->
     fr_findIndex g coord = Ok i)
  /\ (fr_version g = 1 -> (forall n, In n (fr_nums g) -> 2 <= n) ->
      exists i range p, fr_findIndex g coord = Ok i /\ getRaDecRange (exact_rings g) i = Ok range
        /\ on_sphere p /\ in_range range p /\ near_or_at dec_tol ra_tol (fval coord) p)
  /\ (fr_version g = 1 -> (forall n, In n (fr_nums g) -> 2 <= n) ->
      forall i range, 0 <= i < fr_numTracts g -> getRaDecRange (exact_rings g) i = Ok range ->
        (forall p, on_sphere p -> near_or_at dec_tol ra_tol (fval coord) p -> inside_range range p) ->
        fr_findIndex g coord = Ok i).
Proof.
  intros g coord W C. destruct (rings_float_lookup_proof g coord W C) as (i & e & E1 & B & S & N & E2).
  pose proof (exact_wf g W) as WE.
  assert (A : forall j, (forall p, on_sphere p -> near_or_at dec_tol ra_tol (fval coord) p -> rings_findIndex (exact_rings g) p = Ok j) ->
     fr_findIndex g coord = Ok j).
  { intros j H. rewrite (H e S N) in E2. injection E2 as ->. exact E1. }
  split; [exact A|]. split.
  - intros V A2. destruct (rings_ranges_proof (exact_rings g) e WE A2 V S) as [(i' & range & F1 & F2 & F3) _].
    rewrite F1 in E2. injection E2 as ->. exists i, range, e. auto.
  - intros V A2 j range Hj Er H. apply A. intros p Sp Np.
    destruct (rings_ranges_proof (exact_rings g) p WE A2 V Sp) as [_ Q]. apply (Q j range Hj Er). apply H; assumption.
Qed.

(*@ C76: coordinates in degrees: the conversion to radians is off by at most 2^-47 radians for up to two turns. *)
Lemma rings_float_degrees_proof : forall x, finite x = true -> (Rabs (f2R x) <= 720)%R ->
  finite (f_rad true x) = true /\ (Rabs (f2R (f_rad true x) - deg (f2R x)) <= / 140737488355328)%R.
Proof.
  intros x F B. cbn [f_rad]. destruct f_pi_ok as [FP EP]. destruct (float_of_int_ok 180 ltac:(lia)) as [F1 E1].
  destruct (fdiv_ok f_pi (float_of_int 180) FP) as [F2 E2].
  { rewrite E1. lra. }
  { rewrite EP, E1. apply big_100. rewrite Rabs_pos_eq; nums; lra. }
  rewrite EP, E1 in E2. set (c := fdiv f_pi (float_of_int 180)) in *.
  pose proof (rnd_abs (Pf / 180)) as A1. rewrite (Rabs_pos_eq (Pf / 180)), <- E2 in A1 by (nums; lra).
  pose proof PI_bounds as P.
  assert (A2 : (Rabs (f2R c - PI / 180) <= / 20 * u64)%R).
  { apply Rabs_le_inv in A1. apply Rabs_le. clearbody c. nums. lra. }
  assert (C0 : (0 <= f2R c <= / 50)%R).
  { apply Rabs_le_inv in A1. clearbody c. nums. lra. }
  assert (A3 : (Rabs (f2R x * f2R c) <= 720 * / 50)%R).
  { rewrite Rabs_mult. apply Rmult_le_compat; try apply Rabs_pos; [exact B|]. rewrite Rabs_pos_eq; lra. }
  destruct (fmul_ok x c F F2) as [F3 E3]; [apply big_100; lra|].
  split; [exact F3|]. rewrite E3. pose proof (rnd_abs (f2R x * f2R c)) as A4.
  assert (A5 : (u64 * Rabs (f2R x * f2R c) <= u64 * (720 * / 50))%R) by (apply Rmult_le_compat_l; [unfold u64; lra|exact A3]).
  assert (A6 : (Rabs (f2R x * f2R c - deg (f2R x)) <= 720 * (/ 20 * u64))%R).
  { unfold deg. rewrite <- Rmult_minus_distr_l, Rabs_mult. apply Rmult_le_compat; try apply Rabs_pos; assumption. }
  apply Rabs_le_inv in A4, A6. apply Rabs_le.
  set (a := rnd (f2R x * f2R c)) in *. set (b := (f2R x * f2R c)%R) in *. set (d := deg (f2R x)) in *.
  set (v := (u64 * Rabs b)%R) in *. clearbody v. clearbody a b d. clear - A4 A5 A6. nums. lra.
Qed.

(** ** findTractIdArray *)
(** One element of findTractIdArray. *)
Lemma array_one g degrees ra dec : frings_wf g ->
  finite (f_rad degrees ra) = true -> (Rabs (f2R (f_rad degrees ra)) <= 10)%R ->
  finite (f_rad degrees dec) = true -> (Rabs (f2R (f_rad degrees dec)) <= Pf / 2)%R ->
  fr_findId1 g degrees (ra, dec) =
    (ringNum <- fr_decToRingNum g (f_rad degrees dec) ;;
     if ringNum =? -1 then Ok 0
     else if ringNum =? fr_numRings g then Ok (fr_numTracts g - 1)
     else
       n <- py_nth (fr_nums g) ringNum ;;
       let tractNum := tractNumR (wrapR (rnd (f2R (f_rad degrees ra) - f2R (fr_raStart g)))) n in
       let ringNum := if (fr_version g =? 0) && (tractNum =? 0) && negb (ringNum =? 0) then ringNum + 1 else ringNum in
       Ok (zsum (py_prefix (fr_nums g) ringNum) + (tractNum + 1))).
Proof.
  intros W. unfold fr_findId1. cbn [fst snd].
  change (if degrees then np_deg2rad ra else ra) with (f_rad degrees ra).
  change (if degrees then np_deg2rad dec else dec) with (f_rad degrees dec).
  generalize (f_rad degrees ra), (f_rad degrees dec). clear ra dec. intros ra dec Fr Rr Fd Rd.
  pose proof (dec_ring_array g W dec Fd) as DR. cbv zeta in DR |- *. rewrite DR. clear DR.
  destruct (dec_ring g W dec Fd Rd) as (dec' & _ & _ & Er & Rg). rewrite Er. cbn [bind].
  set (r := decToRingNum (exact_rings g) dec') in *. clearbody r.
  pose proof (len_pos _ (exact_wf g W)) as HL. change (rings_numTracts (exact_rings g)) with (fr_numTracts g) in HL.
  pose proof (fw_rings g W) as HN.
  destruct (Z.eqb_spec r (-1)) as [->|N1].
  { destruct (Z.eqb_spec (-1) (fr_numRings g)); [lia|]. reflexivity. }
  destruct (Z.eqb_spec r (fr_numRings g)) as [->|N2].
  { destruct (Z.ltb_spec (fr_numTracts g - 1) 0); [lia|]. reflexivity. }
  change (negb (-1 <? 0)) with false. cbn iota.
  destruct (nth_counts g r W ltac:(lia)) as (n & En & Hn & Bn). rewrite En. cbn [bind].
  destruct (sub_start g ra W Fr Rr) as (F1 & E1 & B1).
  destruct (np_mod_val _ F1) as [F2 E2]. rewrite E1 in E2. destruct (npR_spec _ B1) as [[W1 W2] _].
  rewrite (fr_tractNum_ok _ n F2 Bn) by (rewrite E2; lra). rewrite E2.
  rewrite (tractNumR_wrap _ n Bn B1). cbn [bind].
  set (t := tractNumR _ n). rewrite andb_assoc.
  set (r' := if (fr_version g =? 0) && (t =? 0) && negb (r =? 0) then r + 1 else r).
  assert (Hr' : 0 <= r' <= fr_numRings g) by (unfold r'; destruct (_ && _); lia).
  rewrite (py_nth_in _ r' (before (exact_rings g) r')); [|lia|].
  - cbn [bind]. f_equal. unfold before, py_prefix. cbn [exact_rings rg_nums]. lia.
  - rewrite nth_error_map. pose proof (fw_len g W).
    rewrite (nth_error_nth' _ 0%nat) by (rewrite seq_length; lia).
    rewrite seq_nth by lia. reflexivity.
Qed.

(*@ C77: findTractIdArray gives bit for bit the index that findTract gives for SpherePoint(ra, dec), in radians or degrees,
    element by element, for every right ascension in [0, 2 pi) (after the conversion to radians) and every declination
    that SpherePoint accepts. *)
Lemma rings_float_array_proof : forall g degrees radecs, frings_wf g ->
  (forall ra dec, In (ra, dec) radecs -> f_coord (f_rad degrees ra, f_rad degrees dec)) ->
  exists ids, fr_findTractIdArray g degrees radecs = Ok ids
    /\ Forall2 (fun rd i => fr_findIndex g (f_spherePoint (f_rad degrees (fst rd)) (f_rad degrees (snd rd))) = Ok i) radecs ids.
Proof.
  intros g degrees radecs W. unfold fr_findTractIdArray.
  assert (one : forall ra dec, f_coord (f_rad degrees ra, f_rad degrees dec) ->
    exists i, fr_findId1 g degrees (ra, dec) = Ok i /\ fr_findIndex g (f_spherePoint (f_rad degrees ra) (f_rad degrees dec)) = Ok i).
  { intros ra dec (Fr & Fd & Rr & Rd). cbn [fst snd] in *.
    destruct f_twopi_ok as [_ ET]. rewrite ET in Rr. destruct f_pi_ok as [_ EP]. rewrite EP in Rd.
    assert (R10 : (Rabs (f2R (f_rad degrees ra)) <= 10)%R) by (rewrite Rabs_pos_eq; nums; lra).
    rewrite (array_one g degrees ra dec W Fr R10 Fd Rd). unfold f_spherePoint.
    revert Fr Fd Rr Rd R10. generalize (f_rad degrees ra), (f_rad degrees dec). clear ra dec. intros ra dec Fr Fd Rr Rd R10.
    destruct (f_wrap_val ra Fr) as [Fw Ew]. rewrite (proj1 (wrapR_id _ Rr)) in Ew.
    unfold fr_findIndex. cbn [fst snd].
    destruct (dec_ring g W dec Fd Rd) as (dec' & _ & _ & Er & Rg). rewrite Er. cbn [bind].
    set (r := decToRingNum (exact_rings g) dec') in *. clearbody r.
    destruct (Z.eqb_spec r (-1)) as [->|N1]; [exists 0; split; reflexivity|].
    destruct (Z.eqb_spec r (fr_numRings g)) as [->|N2]; [exists (fr_numTracts g - 1); split; reflexivity|].
    destruct (nth_counts g r W ltac:(lia)) as (n & En & Hn & Bn).
    rewrite (raToTract_val g (f_wrap ra) r n W Fw ltac:(rewrite Ew; exact R10) ltac:(lia) En Bn). rewrite Ew, En. cbn [bind].
    eexists. split; reflexivity. }
  induction radecs as [|[ra dec] l IH]; intros H.
  - exists []. split; [reflexivity|constructor].
  - destruct IH as (ids & E & F); [intros; apply H; now right|].
    destruct (one ra dec (H ra dec (or_introl eq_refl))) as (i & E1 & E2).
    exists (i :: ids). cbn [mapM]. rewrite E1, E. cbn [bind]. split; [reflexivity|]. constructor; assumption.
Qed.

(*@ C77: for right ascensions from -10 to 10 radians, wrapped or not, each index is the one that findTract gives in exact
    arithmetic for a position at most 2^-48 radians away in declination and 2^-46 in right ascension. *)
Lemma rings_float_array_near_proof : forall g degrees radecs, frings_wf g ->
  (forall ra dec, In (ra, dec) radecs ->
     finite (f_rad degrees ra) = true /\ (Rabs (f2R (f_rad degrees ra)) <= 10)%R
     /\ finite (f_rad degrees dec) = true /\ (Rabs (f2R (f_rad degrees dec)) <= f2R f_pi / 2)%R) ->
  exists ids, fr_findTractIdArray g degrees radecs = Ok ids
    /\ Forall2 (fun rd i => 0 <= i < fr_numTracts g /\ exists exact, on_sphere exact
         /\ near_or_at dec_tol ra_tol (fval (f_rad degrees (fst rd), f_rad degrees (snd rd))) exact
         /\ rings_findIndex (exact_rings g) exact = Ok i) radecs ids.
Proof.
  intros g degrees radecs W. unfold fr_findTractIdArray. pose proof (exact_wf g W) as WE.
  assert (one : forall ra dec, finite (f_rad degrees ra) = true /\ (Rabs (f2R (f_rad degrees ra)) <= 10)%R
     /\ finite (f_rad degrees dec) = true /\ (Rabs (f2R (f_rad degrees dec)) <= f2R f_pi / 2)%R ->
    exists i, fr_findId1 g degrees (ra, dec) = Ok i /\ 0 <= i < fr_numTracts g /\ exists exact, on_sphere exact
         /\ near_or_at dec_tol ra_tol (fval (f_rad degrees ra, f_rad degrees dec)) exact
         /\ rings_findIndex (exact_rings g) exact = Ok i).
  { intros ra dec (Fr & Rr & Fd & Rd). destruct f_pi_ok as [_ EP]. rewrite EP in Rd.
    rewrite (array_one g degrees ra dec W Fr Rr Fd Rd).
    revert Fr Fd Rr Rd. generalize (f_rad degrees ra), (f_rad degrees dec). clear ra dec. intros ra dec Fr Fd Rr Rd.
    destruct (dec_ring g W dec Fd Rd) as (dec' & Hd & Bd & Er & Rg). rewrite Er. cbn [bind].
    pose proof PI_RGT_0 as PP. destruct tol_eq as [TD TR].
    assert (main : forall i ra', (0 <= ra' < 2 * PI)%R ->
       (exists k : Z, Rabs (ra' - f2R ra + IZR k * (2 * PI)) <= ra_tol)%R ->
       rings_findIndex (exact_rings g) (ra', dec') = Ok i ->
       0 <= i < fr_numTracts g /\ exists exact, on_sphere exact
         /\ near_or_at dec_tol ra_tol (fval (ra, dec)) exact /\ rings_findIndex (exact_rings g) exact = Ok i).
    { intros i ra' B N E. split; [exact (find_range _ _ _ WE E)|]. exists (ra', dec').
      split; [split; cbn [fst snd]; lra|]. split; [|exact E]. split; cbn [fst snd fval]; [rewrite TD; exact Hd|exact N]. }
    assert (id : (0 <= wrap (f2R ra) < 2 * PI)%R /\
       exists k : Z, (Rabs (wrap (f2R ra) - f2R ra + IZR k * (2 * PI)) <= ra_tol)%R).
    { split; [apply wrap_range|]. destruct (wrap_decomp (f2R ra)) as (k & E). exists k.
      replace (wrap (f2R ra) - f2R ra + IZR k * (2 * PI))%R with 0%R by lra. rewrite Rabs_R0. unfold ra_tol; lra. }
    destruct id as [id1 id2].
    unfold rings_findIndex in main. cbn [fst snd] in main.
    change (rg_numRings (exact_rings g)) with (fr_numRings g) in main.
    change (rg_version (exact_rings g)) with (fr_version g) in main.
    change (rings_numTracts (exact_rings g)) with (fr_numTracts g) in main.
    fold (rings_findIndex (exact_rings g)) in main.
    set (r := decToRingNum (exact_rings g) dec') in *.
    destruct (Z.eqb_spec r (-1)) as [_|N1]; [|destruct (Z.eqb_spec r (fr_numRings g)) as [_|N2]].
    - exists 0. split; [reflexivity|]. apply (main 0 (wrap (f2R ra))); auto.
    - exists (fr_numTracts g - 1). split; [reflexivity|]. apply (main _ (wrap (f2R ra))); auto.
    - destruct (nth_counts g r W ltac:(lia)) as (n & En & Hn & Bn). rewrite En. cbn [bind].
      destruct (ra_ring n (f2R ra) (f2R (fr_raStart g)) Bn Rr (proj2 (fw_start g W))) as (ra' & K & R1 & R2 & R3).
      eexists. split; [reflexivity|]. apply (main _ ra'); [exact R1| |].
      + exists (- K). rewrite opp_IZR. rewrite TR. replace (ra' - f2R ra + - IZR K * (2 * PI))%R
          with (ra' - f2R ra - IZR K * (2 * PI))%R by ring. exact R2.
      + unfold raToTractNum. change (rg_numRings (exact_rings g)) with (fr_numRings g).
        change (rg_nums (exact_rings g)) with (fr_nums g). change (rg_raStart (exact_rings g)) with (f2R (fr_raStart g)).
        destruct (Z.eqb_spec r (-1)); [lia|]. destruct (Z.eqb_spec r (fr_numRings g)); [lia|]. cbn [orb].
        destruct (Z.leb_spec 0 r); [|lia]. destruct (Z.ltb_spec r (fr_numRings g)); [|lia]. cbn [andb negb].
        rewrite En. cbn [bind]. cbv zeta in R3. rewrite R3. reflexivity. }
  induction radecs as [|[ra dec] l IH]; intros H.
  - exists []. split; [reflexivity|constructor].
  - destruct IH as (ids & E & F); [intros; apply H; now right|].
    destruct (one ra dec (H ra dec (or_introl eq_refl))) as (i & E1 & E2).
    exists (i :: ids). cbn [mapM]. rewrite E1, E. cbn [bind]. split; [reflexivity|]. constructor; assumption.
Qed.

Definition dis_rings : frings := mkFRings 3 [8; 8; 8] (float_of_int 1) 1.
Definition dis_ra : f64 := f64_make (-8678395125330107) (-53).
(*@ C77: not bit for bit outside [0, 2 pi): numpy's remainder is taken of the unwrapped right ascension, so near a tract
    boundary the two methods can round differently. raStart 1 rad, ra -0.9634954084936206: findTract gives tract 15,
    findTractIdArray tract 14. *)
Lemma rings_float_array_negative_ra_refuted_proof :
  exists g ra dec, frings_wf g /\ finite ra = true /\ finite dec = true /\ (- f2R f_twopi < f2R ra < 0)%R
    /\ fr_findTractIdArray g false [(ra, dec)] = Ok [14] /\ fr_findIndex g (f_spherePoint ra dec) = Ok 15.
Proof.
  exists dis_rings, dis_ra, (float_of_int 0).
  assert (F : finite dis_ra = true /\ f2R dis_ra = (IZR (-8678395125330107) * bpow radix2 (-53))%R)
    by (apply f64_make_ok; lia). destruct F as [F E].
  split; [|split; [exact F|split; [apply f_zero_ok|split]]].
  - destruct (float_of_int_ok 1 ltac:(lia)) as [F1 E1].
    unfold dis_rings. constructor; cbn [fr_numRings fr_nums fr_raStart fr_version].
    + lia.
    + reflexivity.
    + intros n [<-|[<-|[<-|[]]]]; lia.
    + rewrite E1. split; [exact F1|]. rewrite Rabs_pos_eq; lra.
    + right; reflexivity.
  - rewrite E. destruct f_twopi_ok as [_ ET]. rewrite ET. change (bpow radix2 (-53)) with (/ 9007199254740992)%R.
    unfold Tf, Pf. lra.
  - split; vm_compute; reflexivity.
Qed.

(** ** Centres of tracts *)
Lemma near_trans d1 a1 d2 a2 p q c : near_or_at d1 a1 p q -> near_or_at d2 a2 q c -> near_or_at (d1 + d2) (a1 + a2) p c.
Proof.
  intros [D1 (k1 & A1)] [D2 (k2 & A2)]. split.
  - replace (snd c - snd p)%R with ((snd c - snd q) + (snd q - snd p))%R by ring.
    eapply Rle_trans; [apply Rabs_triang|lra].
  - exists (k1 + k2). rewrite plus_IZR.
    replace (fst c - fst p + (IZR k1 + IZR k2) * (2 * PI))%R
      with ((fst c - fst q + IZR k2 * (2 * PI)) + (fst q - fst p + IZR k1 * (2 * PI)))%R by ring.
    eapply Rle_trans; [apply Rabs_triang|lra].
Qed.

Lemma south_dec : finite (fmul (f64_make (-1) (-1)) f_pi) = true /\ f2R (fmul (f64_make (-1) (-1)) f_pi) = (- (Pf / 2))%R.
Proof.
  destruct (f64_make_ok (-7074237752028440) (-52) ltac:(lia) ltac:(lia)) as [F E].
  assert (Q : fmul (f64_make (-1) (-1)) f_pi = f64_make (-7074237752028440) (-52)) by (apply B2SF_inj; vm_compute; reflexivity).
  rewrite Q. split; [exact F|]. rewrite E. change (bpow radix2 (-52)) with (/ 4503599627370496)%R. unfold Pf. lra.
Qed.

Lemma wrap_zero : finite (f_wrap (float_of_int 0)) = true /\ f2R (f_wrap (float_of_int 0)) = 0%R.
Proof.
  destruct f_zero_ok as [F E]. destruct (f_wrap_val _ F) as [F1 E1]. split; [exact F1|].
  rewrite E1, E. apply wrapR_id. pose proof Tf_pos. lra.
Qed.

(*@ C78: the centre of each tract as computed in binary64 is at most 2^-48 radians away in declination and 2^-46 in right
    ascension from the exact centre, and findTract in binary64 of it is the tract (for the duplicate tract of version 0,
    number ringNums[0]+1: tract 1). *)
Lemma rings_float_centre_proof : forall g i, frings_wf g -> 0 <= i < fr_numTracts g ->
  exists c exact, fr_center g i = Ok c /\ f_coord c
    /\ rings_center (exact_rings g) i = Ok exact /\ near_or_at dec_tol ra_tol exact (fval c)
    /\ (fr_version g = 1 -> fr_findIndex g c = Ok i)
    /\ (fr_version g = 0 -> forall n0, ring_has (exact_rings g) 0 n0 ->
        (2 <= fr_numRings g /\ i = n0 + 1 -> fr_findIndex g c = Ok 1)
        /\ (fr_numRings g = 1 \/ i <> n0 + 1 -> fr_findIndex g c = Ok i)).
Proof.
  intros g i W Hi. pose proof (exact_wf g W) as WE. destruct tol_eq as [TD TR].
  pose proof PI_bounds as P. pose proof PI_RGT_0 as PP. pose proof Tf_pos as TP.
  destruct f_twopi_ok as [_ ET]. destruct f_pi_ok as [_ EP]. destruct f_halfpi_ok as [FH EH].
  destruct south_dec as [FS ES]. destruct wrap_zero as [FZ EZ].
  assert (main : exists c exact, fr_center g i = Ok c /\ f_coord c
    /\ rings_center (exact_rings g) i = Ok exact /\ near_or_at dec_tol ra_tol exact (fval c)
    /\ forall p, near_or_at (dec_tol + dec_tol) (ra_tol + ra_tol) exact p ->
         rings_findIndex (exact_rings g) p = rings_findIndex (exact_rings g) exact).
  { unfold fr_center.
    change (getRingIndices (mkRings (fr_numRings g) (fr_nums g) 0 0 (fr_version g)) i) with (getRingIndices (exact_rings g) i).
    destruct (szE_bounds g W) as [SE _].
    destruct (Z.eq_dec i 0) as [->|N0]; [|destruct (Z.eq_dec i (fr_numTracts g - 1)) as [->|N1]].
    - rewrite indices_south. cbn [bind]. change (-1 =? -1) with true. cbn iota.
      eexists. exists (0, - (1 / 2) * PI)%R. split; [reflexivity|]. unfold f_spherePoint, f_coord, fval. cbn [fst snd].
      rewrite EZ, ES, ET, EP. split; [|split; [apply center_south|split]].
      + split; [exact FZ|]. split; [exact FS|]. split; [lra|]. apply Rabs_le. nums; lra.
      + split; cbn [fst snd].
        * rewrite TD. apply Rabs_le. nums; lra.
        * exists 0. rewrite TR. rewrite Rmult_0_l, Rminus_0_r, Rplus_0_r, Rabs_R0. nums; lra.
      + intros p [Hd _]. cbn [snd] in Hd. rewrite (find_cap_south _ WE). unfold rings_findIndex.
        rewrite decToRing_south; [reflexivity|]. rewrite (fE_eq g). apply Rabs_le_inv in Hd. rewrite TD in Hd. nums. lra.
    - change (fr_numTracts g) with (rings_numTracts (exact_rings g)).
      pose proof (fw_rings g W) as NB.
      rewrite (indices_north _ WE). cbn [bind]. change (rg_numRings (exact_rings g)) with (fr_numRings g).
      destruct (Z.eqb_spec (fr_numRings g) (-1)); [lia|]. rewrite Z.eqb_refl.
      eexists. exists (0, (1 / 2) * PI)%R. split; [reflexivity|]. unfold f_spherePoint, f_coord, fval. cbn [fst snd].
      rewrite EZ, EH, ET, EP. split; [|split; [apply (center_north _ WE)|split]].
      + split; [exact FZ|]. split; [exact FH|]. split; [lra|]. apply Rabs_le. nums; lra.
      + split; cbn [fst snd].
        * rewrite TD. apply Rabs_le. nums; lra.
        * exists 0. rewrite TR. rewrite Rmult_0_l, Rminus_0_r, Rplus_0_r, Rabs_R0. nums; lra.
      + intros p [Hd _]. cbn [snd] in Hd. rewrite (find_cap_north _ WE). unfold rings_findIndex.
        rewrite (decToRing_north _ WE).
        * destruct (Z.eqb_spec (rg_numRings (exact_rings g)) (-1)); [cbn in *; lia|]. rewrite Z.eqb_refl. reflexivity.
        * rewrite (fE_eq g). apply Rabs_le_inv in Hd. rewrite TD in Hd. nums. lra.
    - destruct (inner_pair (exact_rings g) i WE) as (r & n & t & Hn & Ht & Ei).
      { change (rings_numTracts (exact_rings g)) with (fr_numTracts g). lia. }
      rewrite Ei. cbn [bind]. destruct (ring_has_lt _ WE r n Hn) as [Hr Hn1].
      change (rg_numRings (exact_rings g)) with (fr_numRings g) in Hr.
      destruct (Z.eqb_spec r (-1)); [lia|]. destruct (Z.eqb_spec r (fr_numRings g)); [lia|].
      pose proof (ring_has_nth _ _ _ Hn) as En. change (rg_nums (exact_rings g)) with (fr_nums g) in En. rewrite En. cbn [bind].
      assert (Bn : 1 <= n <= 2 ^ 31).
      { destruct Hn as [_ Hn]. apply nth_error_In in Hn. apply (fw_nums g W n Hn). }
      pose proof (centre_dec g r W Hr) as (F1 & B1 & E1).
      destruct (fw_start g W) as [Fst Bst].
      pose proof (centre_ra n t (fr_raStart g) Bn Ht Fst Bst) as (F2 & B2 & K & E2).
      set (dec := fsub _ _) in *. set (ra := f_wrap (fadd _ _)) in *. clearbody dec ra.
      destruct (f_wrap_val ra F2) as [F3 E3]. rewrite (proj1 (wrapR_id _ B2)) in E3.
      eexists. exists (position (exact_rings g) r t n). split; [reflexivity|].
      unfold f_spherePoint, f_coord, fval. cbn [fst snd]. rewrite E3, ET, EP.
      split; [|split; [exact (center_of _ WE i r t n Ei Hn)|split]].
      + split; [exact F3|]. split; [exact F1|]. split; [exact B2|exact B1].
      + split; cbn [fst snd position].
        * rewrite TD. exact E1.
        * rewrite TR. change (rg_raStart (exact_rings g)) with (f2R (fr_raStart g)).
          destruct (wrap_decomp (2 * PI * IZR t / IZR n + f2R (fr_raStart g))) as (j & J).
          exists (K - j). rewrite minus_IZR.
          set (p := wrap (2 * PI * IZR t / IZR n + f2R (fr_raStart g))) in *. clearbody p.
          replace (f2R ra - p + (IZR K - IZR j) * (2 * PI))%R
            with (f2R ra - (2 * PI * IZR t / IZR n + f2R (fr_raStart g)) + IZR K * (2 * PI))%R by lra. exact E2.
      + intros p [Hd (k & Hk)]. apply (find_near _ r n t p WE Hn Ht). rewrite TD in Hd. rewrite TR in Hk. split.
        * eapply Rle_lt_trans; [exact Hd|]. change (rg_size (exact_rings g)) with (ring_size (fr_numRings g)). nums. lra.
        * exists k. eapply Rle_lt_trans; [exact Hk|]. pose proof (IZR_bounds n Bn) as NB.
          apply Rmult_lt_reg_r with (IZR n); [lra|]. unfold Rdiv. rewrite Rmult_assoc, Rinv_l, Rmult_1_r by lra.
          nums; lra. }
  destruct main as (c & exact & E1 & C & E2 & N & L).
  destruct (rings_float_lookup_proof g c W C) as (j & e & F1 & _ & _ & F2 & F3).
  rewrite (L e (near_trans _ _ _ _ _ _ _ N F2)) in F3.
  exists c, exact. split; [exact E1|]. split; [exact C|]. split; [exact E2|]. split; [exact N|].
  destruct (rings_centre_found_proof (exact_rings g) i exact WE Hi E2) as [V1 V0].
  rewrite F1. rewrite F3 in V1, V0. split; [exact V1|exact V0].
Qed.

(** ** The hypotheses are met: the counts that [RingsSkyMap] computes for numRings 3, raStart 10 degrees, and a coordinate. *)
Example ex_frings : frings := mkFRings 3 [8; 8; 8] (f_rad true (float_of_int 10)) 1.
Example ex_frings_wf : frings_wf ex_frings.
Proof.
  destruct (f64_make_ok 6288211335136391 (-55) ltac:(lia) ltac:(lia)) as [F E].
  assert (Q : f_rad true (float_of_int 10) = f64_make 6288211335136391 (-55)) by (apply B2SF_inj; vm_compute; reflexivity).
  unfold ex_frings. constructor; cbn [fr_numRings fr_nums fr_raStart fr_version].
  - lia.
  - reflexivity.
  - intros n [<-|[<-|[<-|[]]]]; lia.
  - rewrite Q, E. split; [exact F|]. change (bpow radix2 (-55)) with (/ 36028797018963968)%R.
    rewrite Rabs_pos_eq; lra.
  - right; reflexivity.
Qed.
Example ex_fcoord : f_coord (float_of_int 6, float_of_int (-1)) /\
  fr_findIndex ex_frings (float_of_int 6, float_of_int (-1)) = Ok 8 /\
  fr_findTractIdArray ex_frings false [(float_of_int 6, float_of_int (-1)); (float_of_int 1, float_of_int 0)] = Ok [8; 10].
Proof.
  split; [|split; vm_compute; reflexivity].
  destruct (float_of_int_ok 6 ltac:(lia)) as [F E]. destruct (float_of_int_ok (-1) ltac:(lia)) as [F1 E1].
  destruct f_twopi_ok as [_ ET]. destruct f_pi_ok as [_ EP].
  unfold f_coord. cbn [fst snd]. rewrite E, E1, ET, EP. split; [exact F|]. split; [exact F1|].
  split; [nums; lra|]. rewrite Rabs_left; nums; lra.
Qed.
